(** Property theorems C41, C42 and C43. *)
From Coq Require Import Lia Lra.
From Verif Require Import Base NdModel NdFacts RSum LinAlgModel LinAlgSpec GPModel NoiseModel MuyGPSModel
  GPSpec Gauss GPTheorems GPExamples TensorModel TensorSpec TensorProofs TensorLemmas LossModel LossSpec
  MpiModel MpiSem MpiSpec ChunkProofs MpiLemmas MpiReduce.
Local Open Scope R_scope.

(** * C41: the rows are split evenly and completely *)
Theorem C41_sizes : forall count size, (1 <= size)%nat -> (Z.of_nat count < 2 ^ 53)%Z ->
  exists sizes, get_chunk_sizes count size = map Z.of_nat sizes /\ balanced count size sizes.
Proof. intros count size Hs Hc. exists (nat_sizes count size). split; [exact (sizes_nat count size Hs Hc)|exact (nat_sizes_balanced count size Hs)]. Qed.
Print Assumptions C41_sizes.

Theorem C41_chunks : forall size t b rest, (1 <= size)%nat -> (Z.of_nat b < 2 ^ 53)%Z -> shape t = b :: rest ->
  let chunks := prepare size (get_chunk_sizes b size) t in
  (exists sizes, balanced b size sizes /\ split_into t sizes chunks) /\ nd_eq (gather chunks) t.
Proof.
  intros size t b rest Hs Hb E chunks. unfold chunks. rewrite (sizes_nat b size Hs Hb).
  destruct (nat_sizes_spec b size Hs) as [H1 [H2 _]]. rewrite (prepare_nat size _ t H1).
  split; [exists (nat_sizes b size); split; [exact (nat_sizes_balanced b size Hs)|exact (chunks_split t b rest _ E H2)]|].
  apply (gather_chunks t b rest); [assumption|assumption|]. intros C. rewrite C in H1. cbn in H1. lia.
Qed.
Print Assumptions C41_chunks.

(** Any list of row blocks in order concatenates to the original. *)
Theorem C41_concatenation : forall t sizes chunks, sizes <> [] -> split_into t sizes chunks ->
  nd_eq (gather chunks) t.
Proof. exact split_gather. Qed.
Print Assumptions C41_concatenation.

(** The floating point division breaks the split for astronomically many rows. *)
Theorem C41_float_division_refuted : forall count, Z.of_nat count = (2 ^ 54 + 3)%Z ->
  zsum (get_chunk_sizes count 1) <> Z.of_nat count.
Proof. exact chunk_sizes_large. Qed.
Print Assumptions C41_float_division_refuted.

Example C41_sat : nat_sizes 7 3 = [2; 2; 3]%nat /\ nat_sizes 2 4 = [0; 0; 1; 1]%nat /\
  (exists count, Z.of_nat count = (2 ^ 54 + 3)%Z).
Proof. split; [reflexivity|]. split; [reflexivity|]. exists (Z.to_nat (2 ^ 54 + 3)). apply Z2Nat.id. lia. Qed.

(** * C42: the point-to-point scatter, for every schedule and buffering behaviour *)
Theorem C42_scatter : forall (V : Type) (d0 : V) size chunks, (1 <= size)%nat -> List.length chunks = size ->
  always_delivers size (fun r => big_scatter r (if (r =? 0)%nat then chunks else []))
                  (fun r => Ok (nth r chunks d0)).
Proof. exact @big_scatter_delivers. Qed.
Print Assumptions C42_scatter.

Theorem C42_chunk_tensors : forall size b ts, (1 <= size)%nat -> (Z.of_nat b < 2 ^ 53)%Z -> ts <> [] ->
  (forall t, In t ts -> exists rest, shape t = b :: rest) ->
  delivers_split size (fun r => chunk_tensor size r (if (r =? 0)%nat then ts else []) (List.length ts)) ts.
Proof.
  intros size b ts Hs Hb HN HT. apply (delivers_split_intro size b); auto.
  exact (chunk_tensor_delivers size b ts Hs Hb HN HT).
Qed.
Print Assumptions C42_chunk_tensors.

(** Every schedule that is followed as long as possible completes. *)
Theorem C42_terminates : forall (V A : Type) size (ps : nat -> proc V A) res, always_delivers size ps res ->
  exists n w, steps size n (start ps) w /\ finished size w.
Proof. exact @delivers_terminates. Qed.
Print Assumptions C42_terminates.

Example C42_sat : exists n w, steps 3 n (start (fun r => big_scatter r (if (r =? 0)%nat then [10; 20; 30]%nat else []))) w /\
  finished 3 w /\ outcome (w_proc w 2) = Some (Ok 30%nat).
Proof.
  pose proof (C42_scatter nat 0%nat 3 [10; 20; 30]%nat ltac:(lia) eq_refl) as HD.
  destruct (C42_terminates _ _ _ _ _ HD) as [n [w [Hs HF]]]. exists n, w. split; [assumption|]. split; [assumption|].
  destruct HD as [bd H]. destruct (H n w Hs) as [_ [_ H3]]. apply (H3 HF). lia.
Qed.

(** * C43: distributed results equal serial results *)

(** ** Tensors *)
Theorem C43_difference_tensors : forall size b rest t, (1 <= size)%nat -> (Z.of_nat b < 2 ^ 53)%Z -> shape t = b :: rest ->
  (forall data nn_data ix nn, crosswise_tensor data nn_data ix nn = Ok t ->
     delivers_split size (fun r => crosswise_mpi size r data nn_data ix nn) [t]) /\
  (forall data nn, pairwise_tensor data nn = Ok t ->
     delivers_split size (fun r => pairwise_mpi size r data nn) [t]) /\
  (forall features ix, batch_features_tensor features ix = Ok t ->
     delivers_split size (fun r => batch_features_mpi size r features ix) [t]) /\
  (forall noise nn, make_heteroscedastic_tensor noise nn = Ok t ->
     delivers_split size (fun r => heteroscedastic_mpi size r noise nn) [t]).
Proof.
  intros size b rest t Hs Hb E. repeat split; intros; apply (single_split size b rest); assumption.
Qed.
Print Assumptions C43_difference_tensors.

(** The deformation's own crosswise and pairwise tensors, called on every rank: whatever a serial call returns is split
    over the ranks, when the metric's differences are the serial ones. *)
Theorem C43_deformation_tensors : forall post size b rest u, (1 <= size)%nat -> (Z.of_nat b < 2 ^ 53)%Z -> shape u = b :: rest ->
  (forall data nn_data ix nn, (let! d := crosswise_tensor data nn_data ix nn in post d) = Ok u ->
     delivers_split size (fun r => def_crosswise post NumpyDiffs size r data nn_data ix nn false) [u]) /\
  (forall data nn, (let! d := pairwise_tensor data nn in post d) = Ok u ->
     delivers_split size (fun r => def_pairwise post NumpyDiffs size r data nn false) [u]).
Proof. exact deformation_split. Qed.
Print Assumptions C43_deformation_tensors.

(** With the library's metrics, whose differences are themselves distributed, and the decorator switched off by
    [disable_mpi = true]: isotropic or anisotropic, the ranks together hold the serial tensor. *)
Theorem C43_deformation_disabled : forall post size b rest u, (1 <= size)%nat -> (Z.of_nat b < 2 ^ 53)%Z ->
  (post = aniso_post \/ exists m, post = iso_post m) ->
  (forall data nn_data ix nn d F, crosswise_tensor data nn_data ix nn = Ok d -> shape d = b :: rest ++ [F] -> post d = Ok u ->
     delivers_split size (fun r => def_crosswise post BackendDiffs size r data nn_data ix nn true) [u]) /\
  (forall data nn d F, pairwise_tensor data nn = Ok d -> shape d = b :: rest ++ [F] -> post d = Ok u ->
     delivers_split size (fun r => def_pairwise post BackendDiffs size r data nn true) [u]).
Proof. exact deformation_disabled_split. Qed.
Print Assumptions C43_deformation_disabled.

(** With metrics built from the serial difference functions. *)
Theorem C43_predict_tensors : forall post size b ix nn tf rf tt ts, (1 <= size)%nat -> (Z.of_nat b < 2 ^ 53)%Z ->
  make_predict_tensors post ix nn tf rf tt = Ok ts ->
  (forall t, In t ts -> exists rest, shape t = b :: rest) ->
  delivers_split size (fun r => make_predict_tensors_mpi post NumpyDiffs size r ix nn tf rf tt) ts.
Proof. exact predict_split. Qed.
Print Assumptions C43_predict_tensors.

Theorem C43_train_tensors : forall post size b ix nn rf tt ts, (1 <= size)%nat -> (Z.of_nat b < 2 ^ 53)%Z ->
  make_train_tensors post ix nn rf tt = Ok ts ->
  (forall t, In t ts -> exists rest, shape t = b :: rest) ->
  delivers_split size (fun r => make_train_tensors_mpi post NumpyDiffs size r ix nn rf tt) ts.
Proof. exact train_split. Qed.
Print Assumptions C43_train_tensors.

(** With an anisotropic deformation the ranks receive the rows of the signed difference tensors themselves. *)
Theorem C43_anisotropic_tensors : forall size b ix nn tf rf tt cd pd t, (1 <= size)%nat -> (Z.of_nat b < 2 ^ 53)%Z ->
  crosswise_tensor tf rf ix nn = Ok cd -> pairwise_tensor rf nn = Ok pd -> take tt nn = Ok t ->
  (forall u, In u [cd; pd; t] -> exists rest, shape u = b :: rest) ->
  delivers_split size (fun r => make_predict_tensors_mpi aniso_post NumpyDiffs size r ix nn tf rf tt) [cd; pd; t] /\
  (forall cx, crosswise_tensor rf rf ix nn = Ok cx -> forall bt, take tt ix = Ok bt ->
     (forall u, In u [cx; bt] -> exists rest, shape u = b :: rest) ->
     delivers_split size (fun r => make_train_tensors_mpi aniso_post NumpyDiffs size r ix nn rf tt) [cx; pd; bt; t]).
Proof.
  intros size b ix nn tf rf tt cd pd t Hs Hb Ec Ep Et HS. split.
  - apply (C43_predict_tensors aniso_post size b); auto. unfold make_predict_tensors, aniso_post. rewrite Ec. cbn [bind]. rewrite Ep. cbn [bind]. rewrite Et. reflexivity.
  - intros cx Ex bt Eb HS2. apply (C43_train_tensors aniso_post size b); auto.
    + unfold make_train_tensors, aniso_post. rewrite Ex. cbn [bind]. rewrite Ep. cbn [bind]. rewrite Et. cbn [bind]. rewrite Eb. reflexivity.
    + intros u [<-|[<-|[<-|[<-|[]]]]]; [apply HS2|apply HS|apply HS2|apply HS]; cbn; auto.
Qed.
Print Assumptions C43_anisotropic_tensors.

(** The library's own l2 and F2 metrics use the distributed difference functions: their tensors
    are scattered twice, and every rank but 0 ends up with difference tensors (three axes)
    where the crosswise distances (two axes) should be. *)
Theorem C43_library_metrics_refuted : forall m size b k F ix nn tf rf tt cd pd t brest r,
  (2 <= size)%nat -> (1 <= r < size)%nat -> (Z.of_nat b < 2 ^ 53)%Z ->
  crosswise_tensor tf rf ix nn = Ok cd -> shape cd = [b; k; F] ->
  pairwise_tensor rf nn = Ok pd -> shape pd = [b; k; k; F] ->
  take tt nn = Ok t -> shape t = b :: brest ->
  let ps := fun r => make_predict_tensors_mpi (iso_post m) BackendDiffs size r ix nn tf rf tt in
  (exists n w, steps size n (start ps) w /\ finished size w) /\
  forall n w, steps size n (start ps) w -> finished size w ->
    exists c rest, outcome (w_proc w r) = Some (Ok (c :: rest)) /\ ndim c = 3%nat.
Proof. exact library_predict. Qed.
Print Assumptions C43_library_metrics_refuted.

(** ** Predictions *)
Theorem C43_posterior_mean : forall ls, exact_solver ls ->
  forall m kw Kin Kcross T t b n ex off c Kc Cc Tc, mpi_noise m ->
  shape Kin = [b; n; n] -> shape Kcross = [b; n] -> shape T = b :: n :: ex -> no_coincidence ex [n] ->
  (off + c <= b)%nat ->
  rows_of Kin off c Kc -> rows_of Kcross off c Cc -> rows_of T off c Tc ->
  (let! K := perturb m Kin kw in posterior_mean ls K Kcross T) = Ok t ->
  exists tc, (let! K := perturb m Kc kw in posterior_mean ls K Cc Tc) = Ok tc /\ rows_of t off c tc.
Proof. exact mean_rows. Qed.
Print Assumptions C43_posterior_mean.

Theorem C43_posterior_variance : forall ls, exact_solver ls ->
  forall m kw Kin Kcross Kout t b n off c Kc Cc, mpi_noise m ->
  shape Kin = [b; n; n] -> shape Kcross = [b; n] -> shape Kout = [] ->
  (off + c <= b)%nat ->
  rows_of Kin off c Kc -> rows_of Kcross off c Cc ->
  (let! K := perturb m Kin kw in diagonal_variance ls K Kcross Kout 1) = Ok t ->
  exists tc, (let! K := perturb m Kc kw in diagonal_variance ls K Cc Kout 1) = Ok tc /\ rows_of t off c tc.
Proof. exact var_rows. Qed.
Print Assumptions C43_posterior_variance.

(** ** Losses: [ranks] lists the arguments held by each rank *)
Theorem C43_mse : forall p t sizes ps ts, split_into p sizes ps -> split_into t sizes ts -> shape p = shape t ->
  mse_mpi (combine ps ts) = mse_fn p t.
Proof. exact mse_reduce. Qed.
Print Assumptions C43_mse.

Theorem C43_pseudo_huber : forall p t sizes ps ts, split_into p sizes ps -> split_into t sizes ts ->
  forall d, shape p = shape t -> pseudo_huber_mpi d (combine ps ts) = pseudo_huber_fn p t d.
Proof. exact huber_reduce. Qed.
Print Assumptions C43_pseudo_huber.

Theorem C43_lool : forall p t sizes ps ts, split_into p sizes ps -> split_into t sizes ts ->
  forall ls sld s v vs, split_into v sizes vs -> vec3 p t v (sum_nat sizes) ->
  lool_mpi ls sld s (combine (combine ps ts) vs) = lool_fn ls sld p t v s.
Proof. exact lool_reduce. Qed.
Print Assumptions C43_lool.

Theorem C43_looph : forall p t sizes ps ts, split_into p sizes ps -> split_into t sizes ts ->
  forall s d v vs, split_into v sizes vs -> vec3 p t v (sum_nat sizes) ->
  looph_mpi s d (combine (combine ps ts) vs) = looph_fn p t v s d.
Proof. exact looph_reduce. Qed.
Print Assumptions C43_looph.

(** Cross entropy agrees when every rank has at least one row... *)
Theorem C43_cross_entropy : forall p t sizes ps ts, split_into p sizes ps -> split_into t sizes ts ->
  forall eps k, shape p = [sum_nat sizes; k] -> shape t = [sum_nat sizes; k] -> (2 <= k)%nat ->
  sizes <> [] -> (forall n, In n sizes -> (0 < n)%nat) ->
  cross_entropy_mpi eps (combine ps ts) = cross_entropy_fn eps p t.
Proof. exact cross_entropy_reduce. Qed.
Print Assumptions C43_cross_entropy.

(** ... and fails when some rank has none (more ranks than rows). *)
Theorem C43_cross_entropy_empty_rank_refuted : forall eps ranks p t k, In (p, t) ranks -> shape p = [O; k] ->
  forall v, cross_entropy_mpi eps ranks <> Ok v.
Proof. exact cross_entropy_empty_rank. Qed.
Print Assumptions C43_cross_entropy_empty_rank_refuted.

(** The unscaled lool never returns. *)
Theorem C43_lool_unscaled_refuted : forall a ranks, lool_unscaled_mpi (a :: ranks) = Err RecursionError.
Proof. reflexivity. Qed.
Print Assumptions C43_lool_unscaled_refuted.

(** ** Analytic scale *)
Theorem C43_analytic_scale : forall ls, exact_solver ls -> forall Kin T b n sizes Ks Ts s,
  shape Kin = [b; n; n] -> univariate_shape T b n -> sizes <> [] ->
  split_into Kin sizes Ks -> split_into T sizes Ts ->
  analytic_scale ls Kin T = Ok s -> analytic_scale_mpi ls (combine Ks Ts) = Ok s.
Proof. exact analytic_reduce. Qed.
Print Assumptions C43_analytic_scale.

(** The down-sampled scale uses each rank's rows only: the ranks disagree. *)
Theorem C43_downsample_scale_refuted : exists g draws K T sizes K0 K1 T0 T1 s0 s1,
  split_into K sizes [K0; K1] /\ split_into T sizes [T0; T1] /\
  downsample_scale_opt gauss g 1 1 draws K0 T0 = Ok (Some s0) /\
  downsample_scale_opt gauss g 1 1 draws K1 T1 = Ok (Some s1) /\ s0 <> s1.
Proof. exact downsample_ranks. Qed.
Print Assumptions C43_downsample_scale_refuted.

Example C43_sat : 
  split_into exKall [1; 1]%nat [exKrank; exKrank] /\ split_into exTall [1; 1]%nat [exTrank 0; exTrank 1] /\
  (exists s, analytic_scale gauss exKall exTall = Ok s) /\
  (exists ts, make_train_tensors (iso_post L2) (mkNd [2]%nat (fun idx => Z.of_nat (hd O idx))) ex_nix ex_data ex_data = Ok ts /\
     forall t, In t ts -> exists rest, shape t = 2%nat :: rest) /\
  (exists cd pd, crosswise_tensor ex_data ex_data (mkNd [2]%nat (fun idx => Z.of_nat (hd O idx))) ex_nix = Ok cd /\ shape cd = [2; 2; 2]%nat /\
     pairwise_tensor ex_data ex_nix = Ok pd /\ shape pd = [2; 2; 2; 2]%nat).
Proof. exact mpi_examples. Qed.

Example C43_deformation_sat : exists u, shape u = [2; 2; 2]%nat /\
  delivers_split 2 (fun r => def_pairwise (iso_post L2) BackendDiffs 2 r ex_data ex_nix true) [u] /\
  delivers_split 2 (fun r => def_pairwise (iso_post L2) NumpyDiffs 2 r ex_data ex_nix false) [u].
Proof.
  destruct (proj2 (proj2 (proj2 (proj2 C43_sat)))) as (cd & pd & _ & _ & Ep & Sp).
  destruct (metric_spec L2 pd [2; 2; 2]%nat 2 Sp) as [u [Eu [Su _]]]. exists u. split; [assumption|]. split.
  - apply (proj2 (C43_deformation_disabled (iso_post L2) 2 2 [2; 2]%nat u ltac:(lia) ltac:(reflexivity) (or_intror (ex_intro _ L2 eq_refl))) ex_data ex_nix pd 2%nat); assumption.
  - apply (proj2 (C43_deformation_tensors (iso_post L2) 2 2 [2; 2]%nat u ltac:(lia) ltac:(reflexivity) Su)).
    rewrite Ep. cbn [bind]. exact Eu.
Qed.
