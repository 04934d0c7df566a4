(** The library kernels are functions of the difference of the two points. *)
From Coq Require Import Lia Lra.
From Verif Require Import Base BaseFacts NdModel NdFacts RSum HyperModel NamedModel NamedSpec NamedProofs
  TensorModel TensorSpec TensorProofs KernelModel KernelSpec KernelProofs KernelLemmas LinAlgModel LinAlgSpec
  LinAlgFacts GPSpec GPModel NoiseModel MuyGPSModel FlowModel FlowSpec PointwiseSpec.
Local Open Scope R_scope.

Lemma pairwise_over d call data nn :
  (let! D := deform_pairwise d data nn in call D) = (let! t := pairwise_tensor data nn in over_diffs d call t).
Proof.
  destruct d; cbn [deform_pairwise over_diffs]; auto. unfold pairwise_distances.
  destruct (pairwise_tensor data nn); cbn [bind]; auto.
Qed.
Lemma crosswise_over d call data nn_data ix nn :
  (let! D := deform_crosswise d data nn_data ix nn in call D) =
  (let! t := crosswise_tensor data nn_data ix nn in over_diffs d call t).
Proof.
  destruct d; cbn [deform_crosswise over_diffs]; auto. unfold crosswise_distances.
  destruct (crosswise_tensor data nn_data ix nn); cbn [bind]; auto.
Qed.

Lemma embed_over d F cur kw diffs sh :
  deformation_ok d F kw -> (0 < F)%nat -> positive_scales d F cur kw -> shape diffs = (sh ++ [F])%list ->
  exists t rest, (forall fn, over_diffs d (fun D => embed d fn cur D kw) diffs = fn t rest) /\ shape t = sh /\
    (forall idx, inb sh idx -> at_ t idx =
       deformed (metric_of d) F (scale_of d cur kw) (fun f => at_ diffs (idx ++ [f])%list) (fun _ => 0)) /\
    dget rest "smoothness" = dget kw "smoothness".
Proof.
  intros OK HF POS S.
  destruct d as [m n|m n|m v].
  - destruct (metric_spec m diffs sh F S) as [D [ED [SD AD]]].
    destruct (embed_spec (Iso m n) F cur kw D sh (fun idx f => at_ diffs (idx ++ [f])%list) (fun _ _ => 0) OK HF POS) as (t & rest & A & B & C & E).
    { split; auto. intros idx Hi. rewrite AD. unfold mdist, euclid, sqdist.
      assert (E : rsum F (fun k => at_ diffs (idx ++ [k])%list ^ 2) = rsum F (fun f => (at_ diffs (idx ++ [f])%list - 0) ^ 2)).
      { apply rsum_ext. intros f Hf. f_equal. ring. }
      rewrite E. destruct m; reflexivity. }
    exists t, rest. split; [|split; [exact B|split; [exact C|exact E]]].
    intros fn. cbn [over_diffs]. rewrite ED. cbn [bind]. apply A.
  - apply (embed_spec (DiffIso m n) F cur kw diffs sh (fun idx f => at_ diffs (idx ++ [f])%list) (fun _ _ => 0) OK HF POS).
    split; auto. intros. ring.
  - apply (embed_spec (Aniso m v) F cur kw diffs sh (fun idx f => at_ diffs (idx ++ [f])%list) (fun _ _ => 0) OK HF POS).
    split; auto. intros. ring.
Qed.

Lemma scaled_ext F l v v' : (forall f, (f < F)%nat -> v f = v' f) ->
  scaled_sqdist F l v (fun _ => 0) = scaled_sqdist F l v' (fun _ => 0).
Proof. intros H. unfold scaled_sqdist. apply rsum_ext. intros f Hf. rewrite H; auto. Qed.

Lemma rbf_pointwise d F cur kw : deformation_ok d F kw -> (0 < F)%nat -> positive_scales d F cur kw -> metric_of d = F2 ->
  pointwise_kernel F (over_diffs d (fun D => rbf_call d cur D kw)) (rbf_cov d F cur kw).
Proof.
  intros OK HF POS M. split.
  - intros v v' H. unfold rbf_cov. rewrite (scaled_ext F _ v v' H). reflexivity.
  - intros t sh S. destruct (embed_over d F cur kw t sh OK HF POS S) as (x & rest & A & B & C & _).
    eexists. unfold rbf_call. rewrite A. split; [reflexivity|]. split; [exact B|].
    intros idx Hi. cbn [ndmap at_]. rewrite C by auto. rewrite M. unfold deformed, rbf_entry, rbf_cov. reflexivity.
Qed.

Lemma matern_pointwise gamma kv sm p d F cur kw : deformation_ok d F kw -> (0 < F)%nat -> positive_scales d F cur kw ->
  metric_of d = L2 -> nm_name sm = "smoothness"%string ->
  pointwise_kernel F (over_diffs d (fun D => matern_call gamma kv d sm (set_matern_fn p) cur D kw))
    (matern_cov gamma kv p (kw_or kw "smoothness" (cur (nm_loc sm))) d F cur kw).
Proof.
  intros OK HF POS M N. split.
  - intros v v' H. unfold matern_cov. rewrite (scaled_ext F _ v v' H). reflexivity.
  - intros t sh S. destruct (embed_over d F cur kw t sh OK HF POS S) as (x & rest & A & B & C & E).
    destruct (matern_apply gamma kv p sm cur rest kw x N E) as (y & Y1 & Y2 & Y3).
    exists y. unfold matern_call. rewrite A. split; [exact Y1|]. split; [congruence|].
    intros idx Hi. rewrite Y3, C by auto. rewrite M. reflexivity.
Qed.

(** Symmetry and positive semidefiniteness. *)
Lemma kcov_scaled F l X i j :
  scaled_sqdist F l (fun f => feature X i f - feature X j f) (fun _ => 0) = sqdist F (fun f => feature X i f / l f) (fun f => feature X j f / l f).
Proof.
  unfold scaled_sqdist, sqdist. apply rsum_ext. intros f Hf. f_equal. unfold Rdiv. ring.
Qed.
Lemma rbf_kcov_sym d F cur kw X i j : kcov (rbf_cov d F cur kw) X X i j = kcov (rbf_cov d F cur kw) X X j i.
Proof. unfold kcov, rbf_cov. rewrite !kcov_scaled, sqdist_sym. reflexivity. Qed.
Lemma matern_kcov_sym gamma kv p nu d F cur kw X i j :
  kcov (matern_cov gamma kv p nu d F cur kw) X X i j = kcov (matern_cov gamma kv p nu d F cur kw) X X j i.
Proof. unfold kcov, matern_cov. rewrite !kcov_scaled, sqdist_sym. reflexivity. Qed.
Lemma rbf_kcov_psd d F cur kw X n (q : nat -> nat) : psd n (fun i j => kcov (rbf_cov d F cur kw) X X (q i) (q j)).
Proof.
  eapply psd_ext; [|apply (gauss_gram_psd F (fun i f => feature X (q i) f / scale_of d cur kw f) n)].
  intros i j _ _. unfold kcov, rbf_cov. rewrite kcov_scaled. unfold sqdist. reflexivity.
Qed.
