(** Specification vocabulary for C114: a richer model whose extra freedom is not used. *)
From Verif Require Import Base NdModel HyperModel NamedModel NamedSpec TensorModel TensorSpec KernelModel KernelSpec
  LinAlgSpec NoiseModel MuyGPSModel GPSpec FlowSpec PointwiseSpec LibSpec MultiModel NeighborsModel NeighborsProofs WorkModel WorkSpec ChassisModel.
Local Open Scope R_scope.

(** Both predictions succeed, with the same means and the same variances. *)
Definition same_prediction (a b : result (nd R * nd R)) : Prop :=
  exists mean var mean' var', a = Ok (mean, var) /\ b = Ok (mean', var') /\ nd_eq mean mean' /\ nd_eq var var'.

(** A regression problem: [N] training rows with responses, [M] test rows, an exact lookup [w] of the [n] nearest rows. *)
Definition regression (en : bool) (method : string) (kw : dict nnval) (w : nn_wrapper) (test train targets : nd R) (N M n : nat) (ex : list nat) : Prop :=
  lower method = "exact"%string /\ euclidean_kw kw /\ nn_init en (rows_of train) n method kw = Ok w /\ (0 < n <= N /\ 0 < M)%nat /\
  dataset test M /\ dataset train N /\ ndim test = ndim train /\ feature_count test = feature_count train /\
  shape targets = N :: ex /\ no_coincidence ex [n].

(** A model as the constructors make it, called with the keywords [kkw], for training data [train]. *)
Definition documented (g : gp) (K : libkernel) (cur : nat -> R) (kkw : dict R) (train : nd R) (N M n : nat) : Prop :=
  lk_ok K (feature_count train) cur kkw /\ shape (gp_Kout g) = [] /\ at_ (gp_Kout g) [] = 1 /\ 0 <= gp_var_scale g /\
  noise_fits (gp_noise g) M n /\ sound_noise (gp_noise g) train N M n.

(** The same noise model, variance scale and prior variance. *)
Definition same_but_noise (g g' : gp) : Prop :=
  gp_var_scale g' = gp_var_scale g /\ gp_Kout g' = gp_Kout g.

(** The kernel with another deformation. *)
Definition redeform (K : libkernel) (d : deformation) : libkernel :=
  match K with LRbf _ => LRbf d | LMatern _ sm p => LMatern d sm p end.

(** [t] is column [i] of the responses [targets] of [N] rows. *)
Definition is_column (targets : nd R) (N i : nat) (t : nd R) : Prop :=
  shape t = [N] /\ forall a, (a < N)%nat -> at_ t [a] = at_ targets [a; i].

(** ** Training: two models (s, F) and (s', F') whose optimizable parameters are [names] and [names'] *)

(** The value of parameter [nm] at the point [x] of the box. *)
Definition value_at (s : store) (names : list string) (x : list R) (nm : named) (r : R) : Prop :=
  if p_fixed (st_cell s (nm_loc nm)) then p_val (st_cell s (nm_loc nm)) = Fin r else dget (combine names x) (nm_name nm) = Some r.

(** The length scale of feature [f]: the only one of an isotropic model, the [f]-th of an anisotropic one. *)
Definition scale_at (s : store) (F : full) (names : list string) (x : list R) (f : nat) (r : R) : Prop :=
  exists nm, match k_ls (m_kernel (f_attr F)) with
             | LSScalar n => Some n
             | LSVector v => nth_error (v_elems v) f
             | LSHier _ => None
             end = Some nm /\ value_at s names x nm r.

(** The noise variance of neighbour [i] of batch row [y]. *)
Definition noise_value (s : store) (F : full) (names : list string) (x : list R) (y i : nat) (r : R) : Prop :=
  match m_noise (f_attr F) with
  | NHomo z => value_at s names x z r
  | NHetero => r = at_ (f_hetero F) [y; i]
  | NNull => r = 0
  end.

(** The correlation function: RBF is the Matern kernel of infinite smoothness. *)
Definition family (s : store) (F : full) : formula :=
  match m_kernel (f_attr F) with KRbf _ => Infinite | KMatern _ sm _ => formula_for (st_cell s (nm_loc sm)) end.

(** The points [x] and [x'] describe the same Gaussian process on [nf] features and a batch of [b] rows with [n] neighbours. *)
Definition corresponding (s : store) (F : full) (names : list string) (x : list R) (s' : store) (F' : full) (names' : list string) (x' : list R)
  (nf b n : nat) : Prop :=
  family s F = family s' F' /\ f_kind F' = f_kind F /\ f_scale F' = f_scale F /\
  (forall f, (f < nf)%nat -> exists l, scale_at s F names x f l /\ scale_at s' F' names' x' f l) /\
  (forall y i, (y < b)%nat -> (i < n)%nat -> exists r, noise_value s F names x y i r /\ noise_value s' F' names' x' y i r).
