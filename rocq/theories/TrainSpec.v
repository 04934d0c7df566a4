(** Specification vocabulary for training: leave-one-out predictions and losses written from the data. *)
From Verif Require Import Base NdModel RSum LinAlgSpec GPSpec ScaleSpec NoiseModel MuyGPSModel HyperModel NamedModel
  NamedSpec TensorSpec KernelModel KernelSpec FlowSpec LibSpec LossModel LossSpec ChassisModel ChassisSpec TrainModel WorkSpec.
Local Open Scope R_scope.

(** The library kernel (RBF or Matern, with its length scale parameters) a model object holds. *)
Definition full_lib (s : store) (F : full) : option libkernel :=
  match full_deformation F with
  | None => None
  | Some d => match m_kernel (f_attr F) with
              | KRbf _ => Some (LRbf d)
              | KMatern _ sm _ => Some (LMatern d sm (st_cell s (nm_loc sm)))
              end
  end.

(** Its noise, with the value stored in the object. *)
Definition full_noise (s : store) (F : full) : noise_model := noise_of s F (m_noise (f_attr F)).

(** Leave-one-out predictions of [b] training rows [c 0], ..., [c (b-1)] from their neighbours [q x 0], ..., [q x (n-1)]:
    kriging mean and unscaled kriging variance. *)
Definition loo_predictions (k : (nat -> R) -> R) (m : noise_model) (train targets : nd R) (b n : nat)
  (c : nat -> nat) (q : nat -> nat -> nat) (mean var : nat -> R) : Prop :=
  forall x, (x < b)%nat ->
    kriging n (nbr_matrix k m train q x) (fun j => kcov k train train (c x) (q x j))
      (fun j => at_ targets [q x j]) (mean x) /\
    exists w, solves n (nbr_matrix k m train q x) w (fun j => kcov k train train (c x) (q x j)) /\
      var x = 1 - dot n w (fun j => kcov k train train (c x) (q x j)).

(** The scale a model would use: its stored one, or the analytic maximum-likelihood scale of the neighbourhoods. *)
Definition scale_used (F : full) (k : (nat -> R) -> R) (m : noise_model) (train targets : nd R) (b n : nat)
  (q : nat -> nat -> nat) (scale : R) : Prop :=
  match f_kind F with
  | FixedScale => scale = f_scale F
  | AnalyticScale _ => ml_scale b n (nbr_matrix k m train q) (fun x i => at_ targets [q x i]) scale
  | DownSampleScale _ _ => False
  end.

(** The documented losses of [b] univariate predictions. *)
Definition batch_loss (l : loss) (kw : dict R) (b : nat) (y mean var : nat -> R) (scale : R) : option R :=
  match l with
  | Mse => Some (rsum b (fun x => (mean x - y x) ^ 2) / INR b)
  | PseudoHuber => Some (rsum b (fun x => huber_entry (kw_or kw "boundary_scale" (3/2)) (y x - mean x)))
  | Lool => Some (rsum b (fun x => lool_entry (mean x - y x) (scale * var x)))
  | Looph => Some (rsum b (fun x => looph_entry (kw_or kw "boundary_scale" 3) (mean x - y x) (scale * var x)))
  | _ => None
  end.

(** [v] is minus the leave-one-out loss of the model [F] on the batch: what training should maximize. *)
Definition loo_value (gamma : R -> R) (kv : R -> R -> R) (s : store) (F : full) (l : loss) (kw : dict R)
  (train targets : nd R) (b n : nat) (c : nat -> nat) (q : nat -> nat -> nat) (v : R) : Prop :=
  exists K mean var scale L, full_lib s F = Some K /\
    loo_predictions (lk_cov gamma kv K (feature_count train) (reals s) []) (full_noise s F) train targets b n c q mean var /\
    (forall x, (x < b)%nat -> 0 < var x <= 1) /\
    scale_used F (lk_cov gamma kv K (feature_count train) (reals s) []) (full_noise s F) train targets b n q scale /\
    batch_loss l kw b (fun x => at_ targets [c x]) mean var scale = Some L /\ v = - L.

(** Every row [c x] is a different point from its neighbours (or there is noise), and so are the neighbours. *)
Definition loo_well_posed (m : noise_model) (X : nd R) (b n : nat) (c : nat -> nat) (q : nat -> nat -> nat) : Prop :=
  forall x, (x < b)%nat ->
    (forall i, (i < n)%nat -> 0 < noise_at m None x i) \/
    ((forall i, (i < n)%nat -> 0 <= noise_at m None x i) /\ distinct_rows X n (q x) /\
     forall i, (i < n)%nat -> exists f, (f < feature_count X)%nat /\ feature X (c x) f <> feature X (q x i) f).

(** A documented univariate model in store [s]: its kernel function was set up for its current parameters, positive length
    scales, closed-form smoothness, one-pass scale optimization. *)
Definition trainable (s : store) (F : full) (train : nd R) (b n : nat) : Prop :=
  f_bound F = model_make s (f_attr F) /\
  (exists K, full_lib s F = Some K /\ lk_ok K (feature_count train) (reals s) []) /\
  noise_fits (full_noise s F) b n /\
  match f_kind F with FixedScale => True | AnalyticScale it => (it <= 1)%nat | DownSampleScale _ _ => False end.

(** Lower bounds of the optimizable parameters are positive. *)
Definition positive_bounds (s : store) (F : full) : Prop :=
  forall n, In n (declared (f_attr F)) -> p_fixed (st_cell s (nm_loc n)) = false ->
    exists l, fst (p_bounds (st_cell s (nm_loc n))) = Fin l /\ 0 < l.

(** Keyword arguments of a loss: only [boundary_scale]. *)
Definition loss_kw_ok (kw : dict R) : Prop := forall p, In p kw -> fst p = "boundary_scale"%string.

(** A training batch: rows [c 0], ..., [c (b-1)] of [N] and a neighbour matrix [q]. *)
Definition batch_ok (train targets : nd R) (ix nn : nd Z) (N b n : nat) (c : nat -> nat) (q : nat -> nat -> nat) : Prop :=
  dataset train N /\ shape targets = [N] /\ (0 < b)%nat /\ (0 < n)%nat /\
  shape ix = [b] /\ (forall x, (x < b)%nat -> at_ ix [x] = Z.of_nat (c x) /\ (c x < N)%nat) /\ index_matrix nn b n N q.

(** The losses that evaluate on univariate predictions (C32: lool_fn_unscaled does not; cross entropy needs classes). *)
Definition scores_vectors (l : loss) : Prop := l <> CrossEntropy /\ l <> LoolUnscaled.

(** [q 0], ..., [q (n-1)] are the [n] rows of [train] other than [c] nearest to row [c], nearest first. *)
Definition nearest_others (train : nd R) (N c n : nat) (q : nat -> nat) : Prop :=
  (forall j, (j < n)%nat -> (q j < N)%nat /\ q j <> c) /\
  (forall i j, (i < n)%nat -> (j < n)%nat -> q i = q j -> i = j) /\
  (forall i j, (i <= j)%nat -> (j < n)%nat -> row_dist train train c (q i) <= row_dist train train c (q j)) /\
  (forall a, (a < N)%nat -> a <> c -> (forall j, (j < n)%nat -> q j <> a) ->
     forall j, (j < n)%nat -> row_dist train train c (q j) <= row_dist train train c a).

(** The model with another scale; its prediction closures use it. *)
Definition with_scale (F : full) (sc : R) : full :=
  mkFull (f_attr F) (f_bound F) (f_metric F) (f_hetero F) (f_kind F) sc sc.

(** An optimizer that, on any objective defined on the whole box, builds the model of a point of the box that is at least as
    good as every point it tried. *)
Definition returns_best (opt : store -> full -> (dict R -> result R) -> result (store * full)) (s : store) (F : full)
  (names : list string) (bounds : list (num * num)) (tried : (dict R -> result R) -> list R -> Prop) : Prop :=
  forall f, (forall y, in_box y bounds -> exists v, f (combine names y) = Ok v) ->
    exists x, in_box x bounds /\ opt s F f = new_muygps s F names bounds (combine names (map Fin x)) /\
      forall y vx vy, tried f y -> in_box y bounds ->
        f (combine names x) = Ok vx -> f (combine names y) = Ok vy -> vy <= vx.

(** Predictions of [M] test rows, each from its [n] nearest training rows: kriging mean and kriging variance times [scale]. *)
Definition kriging_predictions (k : (nat -> R) -> R) (m : noise_model) (scale : R) (test train targets : nd R) (N M n : nat)
  (mean var : nd R) : Prop :=
  shape mean = [M] /\ shape var = [M] /\
  exists q, forall x, (x < M)%nat ->
    nearest_rows test train N x n (q x) /\
    kriging n (nbr_matrix k m train q x) (fun j => kcov k test train x (q x j)) (fun j => at_ targets [q x j]) (at_ mean [x]) /\
    (exists w, solves n (nbr_matrix k m train q x) w (fun j => kcov k test train x (q x j)) /\
       at_ var [x] = scale * (1 - dot n w (fun j => kcov k test train x (q x j)))) /\
    0 <= at_ var [x] <= scale.
