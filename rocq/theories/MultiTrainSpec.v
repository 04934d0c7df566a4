(** Specification vocabulary for training one model per response. *)
From Verif Require Import Base NdModel RSum LinAlgSpec GPSpec ScaleSpec NoiseModel MuyGPSModel HyperModel NamedModel
  NamedSpec TensorModel TensorSpec KernelModel KernelSpec FlowSpec LibSpec LossModel LossSpec ChassisModel ChassisSpec TrainModel WorkSpec TrainSpec.
Local Open Scope R_scope.

(** targets[:, i]: the vector of the [i]-th responses of [N] rows. *)
Definition response (targets : nd R) (N i : nat) : nd R :=
  mkNd [N] (fun idx => match idx with [a] => at_ targets [a; i] | _ => 0 end).

(** The objects of [s] are still there, unchanged, in [s']. *)
Definition extends (s s' : store) : Prop :=
  (st_next s <= st_next s')%nat /\ forall l, (l < st_next s)%nat -> st_cell s' l = st_cell s l.

(** A documented model that can be trained on [b] rows with [n] neighbours. *)
Definition documented (s : store) (F : full) (train : nd R) (b n : nat) : Prop :=
  model_ok s F /\ bounds_ok s F /\ positive_bounds s F /\ leading_free s (k_ls (m_kernel (f_attr F))) /\
  (forall names x0 bounds, get_opt_params s (f_attr F) = Ok (names, x0, bounds) ->
     f_kind F = FixedScale \/ ~ In "noise"%string names) /\
  trainable s F train b n /\ (forall x i, 0 <= noise_at (full_noise s F) None x i).

(** Models whose difference tensors are the same: both isotropic with the same metric, or both anisotropic. *)
Definition same_tensors (F F' : full) : Prop :=
  match full_deformation F, full_deformation F' with
  | Some (Iso m _), Some (Iso m' _) => m = m'
  | Some (Aniso _ _), Some (Aniso _ _) => True
  | _, _ => False
  end.

(** The losses of the mean alone (C79: lool and looph on a column response are not the documented ones). *)
Definition mean_loss (l : loss) : Prop := l = Mse \/ l = PseudoHuber.

(** The model [F'] in store [s'] is what training [F] of store [s] on the single response [y] should give: [F] itself if nothing
    is to be optimized; otherwise the model of a point of the box whose leave-one-out loss is at most that of every point tried. *)
Definition trained_on (gamma : R -> R) (kv : R -> R -> R) (tried : (dict R -> result R) -> list R -> Prop)
  (s : store) (F : full) (s' : store) (F' : full) (l : loss) (train y : nd R) (b n : nat) (c : nat -> nat) (q : nat -> nat -> nat) : Prop :=
  (model_fixed s (f_attr F) = Ok true /\ F' = F) \/
  (model_fixed s (f_attr F) = Ok false /\ exists names x0 bounds x v,
     get_opt_params s (f_attr F) = Ok (names, x0, bounds) /\ in_box x bounds /\
     optimized_model s F (combine names (map Fin x)) s' F' /\
     loo_value gamma kv s' F' l [] train y b n c q v /\
     exists f,
       (forall z, in_box z bounds -> exists s'' F'' vz, optimized_model s F (combine names (map Fin z)) s'' F'' /\
          loo_value gamma kv s'' F'' l [] train y b n c q vz /\ f (combine names z) = Ok vz) /\
       (forall z, tried f z -> in_box z bounds -> exists vz, f (combine names z) = Ok vz /\ vz <= v)).

(** The optimizer, given any model of the list in any later store, returns the best point it tried. *)
Definition trains (opt : store -> full -> (dict R -> result R) -> result (store * full))
  (tried : (dict R -> result R) -> list R -> Prop) (s : store) (Fs : list full) : Prop :=
  forall F s1 names x0 bounds, In F Fs -> extends s s1 -> get_opt_params s (f_attr F) = Ok (names, x0, bounds) ->
    returns_best opt s1 F names bounds tried.

(** The scale of [F] replaced by [sc]; the prediction closures keep the scale of the last construction. *)
Definition rescaled (F : full) (sc : R) : full :=
  mkFull (f_attr F) (f_bound F) (f_metric F) (f_hetero F) (f_kind F) sc (f_var_scale F).

(** Predictions of [M] test rows with one model per response, each from its [n] nearest training rows: kriging mean of the response and
    kriging variance times that response's factor. *)
Definition multi_predictions (gamma : R -> R) (kv : R -> R -> R) (s : store) (Fs : list full) (factor : nat -> R)
  (test train targets : nd R) (N M n : nat) (mean var : nd R) : Prop :=
  shape mean = [M; List.length Fs] /\ shape var = [M; List.length Fs] /\
  exists q, (forall x, (x < M)%nat -> nearest_rows test train N x n (q x)) /\
    forall i F K x, nth_error Fs i = Some F -> full_lib s F = Some K -> (x < M)%nat ->
      let k := lk_cov gamma kv K (feature_count train) (reals s) [] in
      kriging n (nbr_matrix k (full_noise s F) train q x) (fun j => kcov k test train x (q x j))
        (fun j => at_ targets [q x j; i]) (at_ mean [x; i]) /\
      exists w, solves n (nbr_matrix k (full_noise s F) train q x) w (fun j => kcov k test train x (q x j)) /\
        at_ var [x; i] = factor i * (1 - dot n w (fun j => kcov k test train x (q x j))).

(** Class predictions of [M] test rows with one model per class, each from its [n] nearest training rows: if all of them or none of them
    are of class 0, the label row of the nearest one; otherwise column c is the kriging mean of label column c under model c. *)
Definition multi_class_predictions (gamma : R -> R) (kv : R -> R -> R) (s : store) (Fs : list full)
  (test train : nd R) (N M n : nat) (lo hi : R) (cl : nat -> nat) (out : nd R) : Prop :=
  shape out = [M; List.length Fs] /\
  exists q, (forall x, (x < M)%nat -> nearest_rows test train N x n (q x)) /\
    forall c F K x, nth_error Fs c = Some F -> full_lib s F = Some K -> (x < M)%nat ->
      let k := lk_cov gamma kv K (feature_count train) (reals s) [] in
      ((forall j, (j < n)%nat -> (cl (q x j) = O <-> cl (q x O) = O)) -> at_ out [x; c] = if (c =? cl (q x O))%nat then hi else lo) /\
      (~ (forall j, (j < n)%nat -> (cl (q x j) = O <-> cl (q x O) = O)) ->
         kriging n (nbr_matrix k (full_noise s F) train q x) (fun j => kcov k test train x (q x j))
           (fun j => if (c =? cl (q x j))%nat then hi else lo) (at_ out [x; c])).
