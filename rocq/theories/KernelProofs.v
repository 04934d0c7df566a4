From Coq Require Import Lia Lra.
From Verif Require Import Base BaseFacts NdModel NdFacts RSum HyperModel NamedModel NamedSpec NamedProofs
  TensorModel TensorSpec TensorProofs KernelModel KernelSpec LinAlgSpec.
Local Open Scope R_scope.

(** ** Scalar kernel functions (C25) *)

Lemma exp_gt_1p t : 0 < t -> 1 + t < exp t.
Proof. intros; apply exp_ineq1; lra. Qed.

Lemma exp_gt_quad t : 0 < t -> 1 + t + t ^ 2 / 3 < exp t.
Proof.
  intros H. pose proof (exp_gt_1p (t / 3) ltac:(lra)) as E.
  replace (exp t) with (exp (t / 3) * (exp (t / 3) * exp (t / 3)))
    by (rewrite <- !exp_plus; f_equal; lra).
  assert (A : (1 + t / 3) * (1 + t / 3) < exp (t/3) * exp (t/3)) by (apply Rmult_gt_0_lt_compat; lra).
  assert (B : (1 + t / 3) * ((1 + t / 3) * (1 + t / 3)) < exp (t/3) * (exp (t/3) * exp (t/3))).
  { apply Rmult_gt_0_lt_compat; try lra. nra. }
  eapply Rle_lt_trans; [|exact B]. nra.
Qed.

Lemma exp_neg_dec x y : x < y -> exp (- y) < exp (- x).
Proof. intros; apply exp_increasing; lra. Qed.

Lemma exp_neg_le1 x : 0 <= x -> exp (- x) <= 1.
Proof.
  intros [H|H].
  - left. rewrite <- exp_0. apply exp_increasing. lra.
  - subst. right. rewrite Ropp_0. apply exp_0.
Qed.

Lemma dec_correlation k : k 0 = 1 -> (forall d, 0 <= d -> 0 < k d) ->
  (forall d d', 0 <= d -> d < d' -> k d' < k d) -> correlation k.
Proof.
  intros H0 Hp Hd. unfold correlation. split; [auto|]. split; [|split].
  - intros d H. split; auto. destruct H as [H|<-]; [|lra].
    pose proof (Hd 0 d ltac:(lra) H). lra.
  - intros d H E. destruct H as [H|H]; auto. pose proof (Hd 0 d ltac:(lra) H). lra.
  - auto.
Qed.

Lemma matern_half_corr : correlation matern_half.
Proof.
  apply dec_correlation; unfold matern_half; intros.
  - rewrite Ropp_0; apply exp_0.
  - apply exp_pos.
  - apply exp_neg_dec; auto.
Qed.

Lemma lin_exp_dec x y : 0 <= x -> x < y -> (1 + y) * exp (- y) < (1 + x) * exp (- x).
Proof.
  intros Hx Hy. set (t := y - x). assert (Ht : 0 < t) by (unfold t; lra).
  replace (exp (- x)) with (exp (- y) * exp t) by (rewrite <- exp_plus; f_equal; unfold t; ring).
  rewrite <- Rmult_assoc, (Rmult_comm (1 + x)), Rmult_assoc, (Rmult_comm (1 + y)).
  apply Rmult_lt_compat_l; [apply exp_pos|].
  pose proof (exp_gt_1p t Ht). replace y with (x + t) by (unfold t; ring). nra.
Qed.

Lemma quad_exp_dec x y : 0 <= x -> x < y ->
  (1 + y + y ^ 2 / 3) * exp (- y) < (1 + x + x ^ 2 / 3) * exp (- x).
Proof.
  intros Hx Hy. set (t := y - x). assert (Ht : 0 < t) by (unfold t; lra).
  replace (exp (- x)) with (exp (- y) * exp t) by (rewrite <- exp_plus; f_equal; unfold t; ring).
  rewrite <- Rmult_assoc, (Rmult_comm (1 + x + x ^ 2 / 3)), Rmult_assoc, (Rmult_comm (1 + y + y ^ 2 / 3)).
  apply Rmult_lt_compat_l; [apply exp_pos|].
  pose proof (exp_gt_quad t Ht) as E. replace y with (x + t) by (unfold t; ring).
  assert (P : 0 < 1 + x + x ^ 2 / 3) by nra.
  eapply Rle_lt_trans; [|apply Rmult_lt_compat_l; [exact P|exact E]].
  assert (0 <= x * t) by nra. assert (0 <= x * t * t) by nra. assert (0 <= x * x * t) by nra.
  assert (0 <= x * x * t * t) by nra. nra.
Qed.

Lemma matern_three_halves_corr : correlation matern_three_halves.
Proof.
  assert (S3 : 0 < sqrt 3) by (apply sqrt_lt_R0; lra).
  apply dec_correlation; unfold matern_three_halves; intros.
  - rewrite Rmult_0_r, Ropp_0, exp_0. ring.
  - apply Rmult_lt_0_compat; [nra|apply exp_pos].
  - apply lin_exp_dec; nra.
Qed.

Lemma matern_five_halves_corr : correlation matern_five_halves.
Proof.
  assert (S5 : 0 < sqrt 5) by (apply sqrt_lt_R0; lra).
  assert (Q : forall d, 1 + sqrt 5 * d + 5 * d ^ 2 / 3 = 1 + sqrt 5 * d + (sqrt 5 * d) ^ 2 / 3).
  { intros d. rewrite Rpow_mult_distr. replace (sqrt 5 ^ 2) with 5; [reflexivity|].
    simpl. rewrite Rmult_1_r, sqrt_sqrt; lra. }
  apply dec_correlation; unfold matern_five_halves; intros.
  - rewrite Rmult_0_r, Ropp_0, exp_0. field.
  - apply Rmult_lt_0_compat; [|apply exp_pos]. pose proof (pow2_ge_0 d). nra.
  - rewrite !Q. apply quad_exp_dec; nra.
Qed.

Lemma gaussian_corr : correlation gaussian.
Proof.
  apply dec_correlation; unfold gaussian; intros.
  - replace (- 0 ^ 2 / 2) with 0 by field. apply exp_0.
  - apply exp_pos.
  - apply exp_increasing. nra.
Qed.

Lemma rbf_entry_corr : correlation rbf_entry.
Proof.
  apply dec_correlation; unfold rbf_entry; intros.
  - replace (- 0 / 2) with 0 by field. apply exp_0.
  - apply exp_pos.
  - apply exp_increasing. lra.
Qed.

Lemma m05_closed x : m05_entry x = matern_half x.
Proof. reflexivity. Qed.
Lemma m15_closed x : m15_entry x = matern_three_halves x.
Proof. unfold m15_entry, matern_three_halves. rewrite (Rmult_comm x). reflexivity. Qed.
Lemma m25_closed x : m25_entry x = matern_five_halves x.
Proof.
  unfold m25_entry, matern_five_halves. rewrite (Rmult_comm x).
  replace ((sqrt 5 * x) ^ 2) with (5 * x ^ 2); [reflexivity|].
  rewrite Rpow_mult_distr. f_equal. simpl. rewrite Rmult_1_r, sqrt_sqrt; lra.
Qed.
Lemma minf_closed x : minf_entry x = gaussian x.
Proof. reflexivity. Qed.
Lemma rbf_closed d : rbf_entry (d ^ 2) = gaussian d.
Proof. reflexivity. Qed.

(** ** Positive semidefiniteness of the Gaussian Gram matrix (C26) *)

(** Powers of inner products. *)
Lemma dot_pow_psd F (x : nat -> nat -> R) n k :
  psd n (fun i j => rsum F (fun f => x i f * x j f) ^ k).
Proof.
  unfold psd, quad. induction k as [|k IH]; intros c.
  - simpl. assert (E : rsum n (fun i => rsum n (fun j => c i * 1 * c j)) = rsum n c * rsum n c).
    { rewrite <- rsum_scal_r. apply rsum_ext; intros i Hi. rewrite <- rsum_scal. apply rsum_ext; intros; ring. }
    rewrite E. nra.
  - assert (E : rsum n (fun i => rsum n (fun j => c i * rsum F (fun f => x i f * x j f) ^ S k * c j)) =
                rsum F (fun f => rsum n (fun i => rsum n (fun j =>
                  (c i * x i f) * rsum F (fun f => x i f * x j f) ^ k * (c j * x j f))))).
    { rewrite (rsum_swap F n). apply rsum_ext; intros i Hi.
      rewrite (rsum_swap F n). apply rsum_ext; intros j Hj. cbn [pow].
      replace (c i * (rsum F (fun f => x i f * x j f) * rsum F (fun f => x i f * x j f) ^ k) * c j)
        with ((c i * rsum F (fun f => x i f * x j f) ^ k * c j) * rsum F (fun f => x i f * x j f)) by ring.
      rewrite <- rsum_scal. apply rsum_ext; intros; ring. }
    rewrite E. apply rsum_nonneg. intros f Hf. apply (IH (fun i => c i * x i f)).
Qed.

Lemma cv_rsum n (f : nat -> nat -> R) (l : nat -> R) :
  (forall i, (i < n)%nat -> Un_cv (f i) (l i)) -> Un_cv (fun N => rsum n (fun i => f i N)) (rsum n l).
Proof.
  induction n as [|n IH]; intros H; simpl.
  - intros e He. exists 0%nat. intros. unfold R_dist. rewrite Rminus_diag_eq, Rabs_R0; auto.
  - apply (CV_plus (fun N => rsum n (fun i => f i N)) (f n)); [apply IH; auto|apply H; lia].
Qed.

Lemma cv_scal c (u : nat -> R) l : Un_cv u l -> Un_cv (fun N => c * u N) (c * l).
Proof.
  intros H. apply (CV_mult (fun _ => c) u); auto.
  intros e He. exists 0%nat. intros. unfold R_dist. rewrite Rminus_diag_eq, Rabs_R0; auto.
Qed.

Lemma cv_nonneg (u : nat -> R) l : (forall N, 0 <= u N) -> Un_cv u l -> 0 <= l.
Proof.
  intros H C. destruct (Rle_dec 0 l); auto. exfalso.
  destruct (C (- l) ltac:(lra)) as [N HN]. specialize (HN N (Nat.le_refl _)). specialize (H N).
  unfold R_dist in HN. rewrite Rabs_right in HN; lra.
Qed.

Definition exp_part (N : nat) (x : R) : R := sum_f_R0 (fun i => / INR (fact i) * x ^ i) N.

Lemma exp_part_cv x : Un_cv (fun N => exp_part N x) (exp x).
Proof.
  unfold exp. destruct (exist_exp x) as [l Hl]. simpl.
  intros e He. destruct (Hl e He) as [N HN]. exists N. intros n Hn. apply HN; auto.
Qed.

Lemma rsum2_plus n (f g : nat -> nat -> R) :
  rsum n (fun i => rsum n (fun j => f i j + g i j)) =
  rsum n (fun i => rsum n (fun j => f i j)) + rsum n (fun i => rsum n (fun j => g i j)).
Proof. rewrite <- rsum_plus. apply rsum_ext; intros. apply rsum_plus. Qed.

Lemma rsum2_scal n c (f : nat -> nat -> R) :
  rsum n (fun i => rsum n (fun j => c * f i j)) = c * rsum n (fun i => rsum n (fun j => f i j)).
Proof. rewrite <- rsum_scal. apply rsum_ext; intros. apply rsum_scal. Qed.

Lemma exp_part_psd F (x : nat -> nat -> R) n N :
  psd n (fun i j => exp_part N (rsum F (fun f => x i f * x j f))).
Proof.
  unfold psd, quad, exp_part. intros c. induction N as [|N IH].
  - simpl. pose proof (dot_pow_psd F x n 0 c) as P. unfold quad in P. simpl in P.
    assert (E : rsum n (fun i => rsum n (fun j => c i * (/ 1 * 1) * c j)) =
                rsum n (fun i => rsum n (fun j => c i * 1 * c j)))
      by (apply rsum_ext; intros; apply rsum_ext; intros; field).
    rewrite E. exact P.
  - cbn [sum_f_R0].
    rewrite (rsum_ext n _ (fun i => rsum n (fun j =>
       c i * sum_f_R0 (fun i0 => / INR (fact i0) * rsum F (fun f => x i f * x j f) ^ i0) N * c j +
       / INR (fact (S N)) * (c i * rsum F (fun f => x i f * x j f) ^ S N * c j)))).
    2:{ intros i Hi. apply rsum_ext. intros j Hj. ring. }
    rewrite rsum2_plus, rsum2_scal.
    pose proof (dot_pow_psd F x n (S N) c) as P. unfold quad in P.
    assert (0 < / INR (fact (S N))) by (apply Rinv_0_lt_compat, lt_0_INR, lt_O_fact).
    apply Rplus_le_le_0_compat; auto. apply Rmult_le_pos; auto. lra.
Qed.

Lemma exp_dot_psd F (x : nat -> nat -> R) n :
  psd n (fun i j => exp (rsum F (fun f => x i f * x j f))).
Proof.
  unfold psd. intros c.
  apply (cv_nonneg (fun N => quad n (fun i j => exp_part N (rsum F (fun f => x i f * x j f))) c)).
  - intros N. apply exp_part_psd.
  - unfold quad. apply (cv_rsum n (fun i N => rsum n (fun j => c i * exp_part N (rsum F (fun f => x i f * x j f)) * c j))).
    intros i Hi. apply (cv_rsum n (fun j N => c i * exp_part N (rsum F (fun f => x i f * x j f)) * c j)).
    intros j Hj.
    assert (E : forall u, c i * u * c j = (c i * c j) * u) by (intros; ring).
    rewrite E.
    intros e He. destruct (cv_scal (c i * c j) _ _ (exp_part_cv (rsum F (fun f => x i f * x j f))) e He) as [N HN].
    exists N. intros m Hm. rewrite E. apply HN; auto.
Qed.

(** Gaussian Gram matrices of arbitrary point sets. *)
Lemma gauss_gram_psd F (x : nat -> nat -> R) n :
  psd n (fun i j => exp (- sqdist F (x i) (x j) / 2)).
Proof.
  unfold psd. intros c.
  set (w := fun i => exp (- rsum F (fun f => x i f ^ 2) / 2)).
  pose proof (exp_dot_psd F x n (fun i => c i * w i)) as P. unfold quad in *.
  rewrite (rsum_ext n _ (fun i => rsum n (fun j =>
     c i * w i * exp (rsum F (fun f => x i f * x j f)) * (c j * w j)))); auto.
  intros i Hi. apply rsum_ext. intros j Hj.
  assert (E : exp (- sqdist F (x i) (x j) / 2) =
              w i * exp (rsum F (fun f => x i f * x j f)) * w j).
  { unfold w. rewrite <- !exp_plus. f_equal. unfold sqdist.
    assert (Q : rsum F (fun f => (x i f - x j f) ^ 2) =
       rsum F (fun f => x i f ^ 2) + rsum F (fun f => x j f ^ 2) - 2 * rsum F (fun f => x i f * x j f)).
    { rewrite <- rsum_scal, <- rsum_plus, <- rsum_minus. apply rsum_ext; intros; ring. }
    rewrite Q. field. }
  rewrite E. ring.
Qed.

(** ** Deformations *)

Lemma F2_scale F (d : nat -> R) l : l <> 0 ->
  rsum F (fun f => (d f / l) ^ 2) = rsum F (fun f => d f ^ 2) / l ^ 2.
Proof.
  intros H. unfold Rdiv at 2. rewrite <- rsum_scal_r. apply rsum_ext; intros. field; auto.
Qed.

Lemma l2_scale F (d : nat -> R) l : 0 < l ->
  sqrt (rsum F (fun f => (d f / l) ^ 2)) = sqrt (rsum F (fun f => d f ^ 2)) / l.
Proof.
  intros H. rewrite F2_scale by lra.
  rewrite sqrt_div_alt by nra.
  replace (sqrt (l ^ 2)) with l; auto. rewrite sqrt_pow2; lra.
Qed.

Lemma metric_scale m F (d : nat -> R) l : 0 < l ->
  match m with L2 => sqrt (rsum F (fun f => (d f / l) ^ 2)) | F2 => rsum F (fun f => (d f / l) ^ 2) end =
  scale_entry m l (match m with L2 => sqrt (rsum F (fun f => d f ^ 2)) | F2 => rsum F (fun f => d f ^ 2) end).
Proof. destruct m; simpl; intros; [apply l2_scale; auto|apply F2_scale; lra]. Qed.

Lemma bshape_vec sh f : bshape (sh ++ [f]) [f] = Some (sh ++ [f])%list.
Proof. apply bshape_suffix. Qed.

(** Division of a difference tensor by a length-scale vector. *)
Lemma anisotropy_spec m v cur kw diffs sh :
  shape diffs = (sh ++ [List.length (v_elems v)])%list ->
  List.length (vec_call v cur kw) = List.length (v_elems v) ->
  exists t, anisotropy_call m v cur diffs kw = Ok t /\ shape t = sh /\
    forall idx, inb sh idx ->
      at_ t idx = match m with
        | L2 => sqrt (rsum (List.length (v_elems v)) (fun f => (at_ diffs (idx ++ [f]) / nth f (vec_call v cur kw) 0) ^ 2))
        | F2 => rsum (List.length (v_elems v)) (fun f => (at_ diffs (idx ++ [f]) / nth f (vec_call v cur kw) 0) ^ 2) end.
Proof.
  intros S L. unfold anisotropy_call. rewrite S, rev_app_distr. cbn [rev app].
  rewrite Nat.eqb_refl. cbn [negb].
  destruct (bop_spec Rdiv diffs (vec 0 (vec_call v cur kw)) (sh ++ [List.length (v_elems v)])%list) as [q [Eq [Sq Aq]]].
  { cbn [shape vec]. rewrite S, L. apply bshape_vec. }
  rewrite Eq. cbn [bind].
  destruct (metric_spec m q sh _ Sq) as [t [Et [St At]]]. exists t. split; auto. split; auto.
  intros idx Hidx. rewrite At.
  assert (E : rsum (List.length (v_elems v)) (fun k => at_ q (idx ++ [k]) ^ 2) =
     rsum (List.length (v_elems v)) (fun f => (at_ diffs (idx ++ [f]) / nth f (vec_call v cur kw) 0) ^ 2)).
  { apply rsum_ext. intros f Hf. rewrite Aq. cbn [shape vec at_].
    assert (I : inb (sh ++ [List.length (v_elems v)])%list (idx ++ [f])%list)
      by (apply inb_app; auto; apply inb1; auto).
    rewrite S, (bidx_id _ _ I). rewrite (bidx_suffix [List.length (vec_call v cur kw)] [f] idx) by (apply inb1; lia).
    reflexivity. }
  rewrite E. reflexivity.
Qed.

Lemma anisotropy_shape_error m v cur kw diffs sh f :
  shape diffs = (sh ++ [f])%list -> f <> List.length (v_elems v) ->
  anisotropy_call m v cur diffs kw = Err ValueError.
Proof.
  intros S N. unfold anisotropy_call. rewrite S, rev_app_distr. cbn [rev app].
  destruct (Nat.eqb_spec f (List.length (v_elems v))); [contradiction|reflexivity].
Qed.

Lemma nth_const (l : list R) c i : (forall x, In x l -> x = c) -> (i < List.length l)%nat -> nth i l 0 = c.
Proof. intros H Hi. apply H, nth_In; auto. Qed.

(** Equal length scales: the anisotropic deformation of differences is the isotropic one of distances. *)
Lemma aniso_equal_iso m v n cur diffs sh l :
  shape diffs = (sh ++ [List.length (v_elems v)])%list -> 0 < l ->
  List.length (vec_call v cur []) = List.length (v_elems v) ->
  (forall x, In x (vec_call v cur []) -> x = l) ->
  exists dists t t', metric_call m diffs = Ok dists /\
    anisotropy_call m v cur diffs [] = Ok t /\
    isotropy_call m n cur dists [("length_scale"%string, l)] = Ok t' /\ nd_eq t t'.
Proof.
  intros S Hl L C.
  destruct (metric_spec m diffs sh _ S) as [d [Ed [Sd Ad]]].
  destruct (anisotropy_spec m v cur [] diffs sh S L) as [t [Et [St At]]].
  exists d, t, (apply_length_scale m d l). repeat split; auto; [simpl; congruence|].
  intros idx Hidx. rewrite St in Hidx. rewrite At by auto. cbn [apply_length_scale ndmap at_]. rewrite Ad.
  assert (E : rsum (List.length (v_elems v)) (fun f => (at_ diffs (idx ++ [f]) / nth f (vec_call v cur []) 0) ^ 2) =
              rsum (List.length (v_elems v)) (fun f => (at_ diffs (idx ++ [f]) / l) ^ 2)).
  { apply rsum_ext. intros f Hf. rewrite (nth_const _ l) by (auto; lia). reflexivity. }
  rewrite E. apply (metric_scale m _ (fun k => at_ diffs (idx ++ [k])) l Hl).
Qed.

(** DifferenceIsotropy agrees with Isotropy. *)
Lemma diff_iso_eq_iso m n cur diffs sh f kw l :
  shape diffs = (sh ++ [f])%list -> 0 < l ->
  l = match dget kw "length_scale" with Some v => v | None => cur (nm_loc n) end ->
  exists dists t t', metric_call m diffs = Ok dists /\
    diff_isotropy_call m n cur diffs kw = Ok t /\
    isotropy_call m n cur dists kw = Ok t' /\ nd_eq t t'.
Proof.
  intros S Hl El. unfold diff_isotropy_call, isotropy_call. rewrite <- El.
  destruct (metric_spec m diffs sh _ S) as [d [Ed [Sd Ad]]].
  destruct (metric_spec m (ndmap (fun x => x / l) diffs) sh f S) as [t [Et [St At]]].
  exists d, t, (apply_length_scale m d l). repeat split; auto; [simpl; congruence|].
  intros idx Hidx. rewrite At. cbn [apply_length_scale ndmap at_]. rewrite Ad. apply (metric_scale m f (fun k => at_ diffs (idx ++ [k])) l Hl).
Qed.

(** Scaling features and length scales together. *)
Lemma iso_joint_scaling m F (x y : nat -> R) l c : 0 < l -> 0 < c ->
  scale_entry m (c * l) (mdist m F (fun f => c * x f) (fun f => c * y f)) =
  scale_entry m l (mdist m F x y).
Proof.
  intros Hl Hc.
  assert (E : sqdist F (fun f => c * x f) (fun f => c * y f) = c ^ 2 * sqdist F x y).
  { unfold sqdist. rewrite <- rsum_scal. apply rsum_ext; intros; ring. }
  destruct m; simpl; unfold euclid; rewrite E.
  - rewrite sqrt_mult_alt by nra. rewrite sqrt_pow2 by lra. field; lra.
  - field; lra.
Qed.

Lemma aniso_joint_scaling F (x y l : nat -> R) c : (forall f, (f < F)%nat -> 0 < l f) -> 0 < c ->
  scaled_sqdist F (fun f => c * l f) (fun f => c * x f) (fun f => c * y f) = scaled_sqdist F l x y.
Proof.
  intros Hl Hc. unfold scaled_sqdist. apply rsum_ext. intros f Hf. specialize (Hl f Hf). field; lra.
Qed.
