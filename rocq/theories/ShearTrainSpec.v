(** Vocabulary for training shear models: parameters of a model object, co-kriging predictions and losses written from the data. *)
From Verif Require Import Base NdModel RSum LinAlgSpec GPSpec NoiseModel MuyGPSModel HyperModel NamedModel NamedSpec KernelModel TensorSpec
  KernelSpec FlowSpec LossModel LossSpec ChassisModel WorkSpec ShearModel ShearSpec ShearFlowSpec.
Local Open Scope R_scope.

(** The (squared) length scale [l] and noise variance [v] stored in a shear model object. *)
Definition shear_values (s : store) (F : full) (l v : R) : Prop :=
  exists nl nv, m_kernel (f_attr F) = KRbf (LSScalar nl) /\ m_noise (f_attr F) = NHomo nv /\
    l = reals s (nm_loc nl) /\ v = reals s (nm_loc nv).

(** Noise variance of stacked observation [p]. *)
Definition obs_noise (sn : bool) (v : R) (k : nat) : nat -> R := if sn then shear_noise v k else flat_noise v.

(** [mean] is the co-kriging prediction of observable [o] at [point] from [k] neighbours [rows]. *)
Definition cokriging (km : shear_model) (sn : bool) (l v : R) (train targets : nd R) (k : nat) (rows : nat -> nat)
  (point : nat -> R) (o : nat) (mean : R) : Prop :=
  let pt := fun i => feature train (rows i) in
  kriging (observed km * k) (plus_diag (stacked_cov l (unobserved km) k pt) (obs_noise sn v k))
    (stacked_cross l (unobserved km) k pt point o)
    (fun p => at_ targets [rows (p mod k)%nat; (unobserved km + p / k)%nat]) mean.

(** Row [o] of the scaled co-kriging covariance at [point]: prior covariance minus the explained part, times [scale]; the variance lies
    between zero and the scaled prior variance (for a nonnegative scale). *)
Definition cokriging_covariance (km : shear_model) (sn : bool) (l v scale : R) (train : nd R) (k : nat) (rows : nat -> nat)
  (point : nat -> R) (o : nat) (cov : nat -> R) : Prop :=
  let pt := fun i => feature train (rows i) in
  (exists w, solves (observed km * k) (plus_diag (stacked_cov l (unobserved km) k pt) (obs_noise sn v k)) w
      (stacked_cross l (unobserved km) k pt point o) /\
    forall o', (o' < 3)%nat -> cov o' = scale *
      (shear_cov l (obs o) (obs o') point point - dot (observed km * k) w (stacked_cross l (unobserved km) k pt point o'))) /\
  (0 <= scale -> 0 <= cov o <= scale * shear_cov l (obs o) (obs o) point point).

(** A training batch of [b] rows [c x] of [n] two-dimensional points with three observables, [k] neighbours [q x i] each.
    The size conditions are those under which the library tells the tensors apart (C54). *)
Definition shear_batch (train targets : nd R) (ix nn : nd Z) (n b k : nat) (c : nat -> nat) (q : nat -> nat -> nat) : Prop :=
  shape train = [n; 2]%nat /\ shape targets = [n; 3]%nat /\ (1 < b)%nat /\ (2 <= k)%nat /\ b <> k /\
  shape ix = [b] /\ (forall x, (x < b)%nat -> at_ ix [x] = Z.of_nat (c x) /\ (c x < n)%nat) /\ index_matrix nn b k n q.

(** The observables [outs] that a loss scores: all three, or the columns of a target mask. *)
Definition scored (mask : option (list nat)) (outs : list nat) : Prop :=
  match mask with
  | None => outs = [0; 1; 2]%nat
  | Some m => outs = m /\ m <> [] /\ forall o, In o m -> (o < 3)%nat
  end.

(** Mean squared error and pseudo-Huber loss of [b] predictions of the observables [outs]. *)
Definition shear_loss (l : loss) (kw : dict R) (b : nat) (outs : list nat) (y mean : nat -> nat -> R) : option R :=
  let r := List.length outs in
  match l with
  | Mse => Some (rsum b (fun x => rsum r (fun i => (mean x (nth i outs O) - y x (nth i outs O)) ^ 2)) / (INR b * INR r))
  | PseudoHuber => Some (rsum b (fun x => rsum r (fun i =>
      huber_entry (kw_or kw "boundary_scale" (3/2)) (y x (nth i outs O) - mean x (nth i outs O)))))
  | _ => None
  end.

(** [w] is minus the leave-one-out loss, with the parameters stored in the model [F]. *)
Definition shear_loo_value (km : shear_model) (sn : bool) (s : store) (F : full) (l : loss) (kw : dict R) (outs : list nat)
  (train targets : nd R) (b k : nat) (c : nat -> nat) (q : nat -> nat -> nat) (w : R) : Prop :=
  exists len v mean L, shear_values s F len v /\ 0 < len /\ 0 < v /\
    (forall x o, (x < b)%nat -> (o < 3)%nat -> cokriging km sn len v train targets k (q x) (feature train (c x)) o (mean x o)) /\
    shear_loss l kw b outs (fun x o => at_ targets [c x; o]) mean = Some L /\ w = - L.

(** A shear model object whose closures were set up for its current positive parameters; ShearNoise33 needs all three observables. *)
Definition shear_trainable (km : shear_model) (sn : bool) (s : store) (F : full) : Prop :=
  f_bound F = f_attr F /\ (exists l v, shear_values s F l v /\ 0 < l /\ 0 < v) /\ (sn = true -> km = Full33).
