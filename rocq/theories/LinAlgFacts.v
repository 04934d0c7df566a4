(** Characterising lemmas for [LinAlgModel] and basic facts about [LinAlgSpec]. *)
From Coq Require Import Lia Lra.
From Verif Require Import Base BaseFacts NdModel NdFacts RSum LinAlgModel LinAlgSpec.
Local Open Scope R_scope.

Lemma list_eqb_refl l : list_eqb l l = true.
Proof. induction l; simpl; auto. rewrite Nat.eqb_refl; auto. Qed.

Lemma list_eqb_true l1 l2 : list_eqb l1 l2 = true -> l1 = l2.
Proof.
  revert l2; induction l1 as [|a l1 IH]; destruct l2; simpl; intros H; auto; try discriminate.
  apply andb_prop in H as [H1 H2]. apply Nat.eqb_eq in H1. f_equal; auto.
Qed.

Lemma rev_app2 {A} (l : list A) a b : rev (l ++ [a; b]) = b :: a :: rev l.
Proof. rewrite rev_app_distr; reflexivity. Qed.

Section Solve.
Variable ls : lsolver.

Definition all_solved n k bs (K B : nd R) : Prop :=
  forall x, inb bs x -> exists Y, ls n k (slice2 K x) (slice2 B x) = Some Y.

Lemma np_solve_inv K B X bs n k :
  shape K = bs ++ [n; n] -> shape B = bs ++ [n; k] -> np_solve ls K B = Ok X ->
  shape X = bs ++ [n; k] /\
  forall x, inb bs x -> exists Y, ls n k (slice2 K x) (slice2 B x) = Some Y /\
     forall i j, at_ X (x ++ [i; j]) = Y i j.
Proof.
  intros HK HB. unfold np_solve. rewrite HK, HB, !rev_app2.
  rewrite !Nat.eqb_refl, list_eqb_refl; simpl. rewrite rev_involutive.
  destruct (forallb _ _) eqn:E; [|discriminate]. intros H; inversion H; subst X; clear H; simpl.
  split; [auto|]. intros x Hx.
  rewrite forallb_forall in E.
  specialize (E (ravel bs x)). rewrite unravel_ravel in E by auto.
  assert (In (ravel bs x) (seq 0 (nprod bs))) as Hin.
  { apply in_seq. pose proof (ravel_lt _ _ Hx); lia. }
  apply E in Hin. destruct (ls n k (slice2 K x) (slice2 B x)) as [Y|] eqn:EY; [|discriminate].
  exists Y; split; auto. intros i j. rewrite rev_app2, rev_involutive, EY; auto.
Qed.

Lemma np_solve_ok K B bs n k :
  shape K = bs ++ [n; n] -> shape B = bs ++ [n; k] -> all_solved n k bs K B ->
  exists X, np_solve ls K B = Ok X.
Proof.
  intros HK HB Hall. unfold np_solve. rewrite HK, HB, !rev_app2.
  rewrite !Nat.eqb_refl, list_eqb_refl; simpl. rewrite rev_involutive.
  destruct (forallb _ _) eqn:E; [eauto|]. exfalso.
  assert (forallb (fun q => is_some (ls n k (slice2 K (unravel bs q)) (slice2 B (unravel bs q))))
                 (seq 0 (nprod bs)) = true) as E'; [|congruence].
  apply forallb_forall. intros q Hq. apply in_seq in Hq.
  destruct (Hall (unravel bs q)) as [Y EY]; [apply unravel_inb; lia|]. rewrite EY; auto.
Qed.

Lemma np_solve_singular K B bs n k x :
  shape K = bs ++ [n; n] -> shape B = bs ++ [n; k] -> inb bs x ->
  ls n k (slice2 K x) (slice2 B x) = None -> np_solve ls K B = Err LinAlgError.
Proof.
  intros HK HB Hx Hn. unfold np_solve. rewrite HK, HB, !rev_app2.
  rewrite !Nat.eqb_refl, list_eqb_refl; simpl. rewrite rev_involutive.
  destruct (forallb _ _) eqn:E; [|auto]. exfalso.
  rewrite forallb_forall in E. specialize (E (ravel bs x)). rewrite unravel_ravel, Hn in E by auto.
  simpl in E. assert (false = true); [|discriminate]. apply E, in_seq.
  pose proof (ravel_lt _ _ Hx); lia.
Qed.
End Solve.

Lemma swap_last_app2 {A} (l : list A) a b : swap_last (l ++ [a; b]) = l ++ [b; a].
Proof. unfold swap_last. rewrite rev_app2; simpl. rewrite rev_involutive, <- app_assoc; auto. Qed.

Lemma np_matmul_inv A B bs p m q :
  shape A = bs ++ [p; m] -> shape B = bs ++ [m; q] ->
  exists C, np_matmul A B = Ok C /\ shape C = bs ++ [p; q] /\
    forall x i j, at_ C (x ++ [i; j]) =
      rsum m (fun l => at_ A (x ++ [i; l]) * at_ B (x ++ [l; j])).
Proof.
  intros HA HB. unfold np_matmul. rewrite HA, HB, !rev_app2.
  rewrite Nat.eqb_refl, list_eqb_refl; simpl. eexists; split; [reflexivity|]; simpl.
  rewrite rev_involutive. split; auto. intros x i j. rewrite rev_app2, rev_involutive; auto.
Qed.

(** Row-major positions of concatenated indices. *)
Lemma ravel_app s1 s2 i1 i2 : List.length i1 = List.length s1 ->
  ravel (s1 ++ s2) (i1 ++ i2) = (ravel s1 i1 * nprod s2 + ravel s2 i2)%nat.
Proof.
  revert i1; induction s1 as [|d s1 IH]; destruct i1 as [|i i1]; simpl; intros H; try discriminate.
  - lia.
  - rewrite IH by lia. rewrite nprod_app. lia.
Qed.

Lemma unravel_length sh k : List.length (unravel sh k) = List.length sh.
Proof. revert k; induction sh; simpl; intros; auto. Qed.

Lemma nprod2 a b : nprod [a; b] = (a * b)%nat.
Proof. unfold nprod; simpl; lia. Qed.
Lemma nprod1 a : nprod [a] = a.
Proof. unfold nprod; simpl; lia. Qed.
Lemma nprod0 : nprod [] = 1%nat.
Proof. reflexivity. Qed.

(** Flattening the middle and trailing groups of axes into one axis each. *)
Lemma reshape_flat2 {A} (t t' : nd A) bs s1 s2 x a b :
  shape t = bs ++ s1 ++ s2 ->
  reshape t (bs ++ [nprod s1; nprod s2]) = Ok t' ->
  inb bs x -> (a < nprod s1)%nat -> (b < nprod s2)%nat ->
  at_ t' (x ++ [a; b]) = at_ t (x ++ unravel s1 a ++ unravel s2 b).
Proof.
  intros Hs Hr Hx Ha Hb.
  apply (reshape_at _ _ _ _ _ Hr).
  - rewrite Hs. repeat apply inb_app; auto; apply unravel_inb; auto.
  - rewrite Hs. pose proof (inb_length _ _ Hx) as Hl.
    rewrite !ravel_app by (auto; apply unravel_length).
    rewrite !nprod_app, nprod2. rewrite !ravel_unravel by auto.
    simpl ravel. rewrite nprod1, nprod0. lia.
Qed.

(** Splitting two flat axes into groups of axes. *)
Lemma reshape_unflat2 {A} (t t' : nd A) bs s1 s2 x i j :
  shape t = bs ++ [nprod s1; nprod s2] ->
  reshape t (bs ++ s1 ++ s2) = Ok t' ->
  inb bs x -> inb s1 i -> inb s2 j ->
  at_ t' (x ++ i ++ j) = at_ t (x ++ [ravel s1 i; ravel s2 j]).
Proof.
  intros Hs Hr Hx Hi Hj.
  apply (reshape_at _ _ _ _ _ Hr).
  - rewrite Hs. apply inb_app; auto. apply inb2; apply ravel_lt; auto.
  - rewrite Hs. pose proof (inb_length _ _ Hx) as Hl. pose proof (inb_length _ _ Hi) as Hli.
    rewrite !ravel_app by auto. rewrite !nprod_app, nprod2.
    simpl ravel. rewrite nprod1, nprod0. lia.
Qed.


(** ** Facts about the specification *)

Lemma solves_ext n A A' x b : (forall i j, (i < n)%nat -> (j < n)%nat -> A i j = A' i j) ->
  solves n A x b -> solves n A' x b.
Proof.
  intros HA H i Hi. rewrite <- (H i Hi). apply rsum_ext; intros j Hj. rewrite HA; auto.
Qed.

Lemma solves_linear n A x y b c s t :
  solves n A x b -> solves n A y c ->
  solves n A (fun i => s * x i + t * y i) (fun i => s * b i + t * c i).
Proof.
  intros Hx Hy i Hi. rewrite <- (Hx i Hi), <- (Hy i Hi).
  rewrite <- !rsum_scal, <- rsum_plus. apply rsum_ext; intros; ring.
Qed.

Lemma solves_unique n A x y b : nonsingular n A -> solves n A x b -> solves n A y b ->
  forall j, (j < n)%nat -> x j = y j.
Proof.
  intros Hns Hx Hy j Hj.
  assert (solves n A (fun i => 1 * x i + (-1) * y i) (fun _ => 0)) as H.
  { intros i Hi. rewrite (solves_linear n A x y b b 1 (-1) Hx Hy i Hi). ring. }
  specialize (Hns _ H j Hj). simpl in Hns. lra.
Qed.

Lemma dot_comm n x y : dot n x y = dot n y x.
Proof. unfold dot; apply rsum_ext; intros; ring. Qed.

(** x.(A y) = (A x).y for symmetric A. *)
Lemma symmetric_adjoint n A x y b c : symmetric n A -> solves n A x b -> solves n A y c ->
  dot n x c = dot n b y.
Proof.
  intros Hs Hx Hy. unfold dot.
  rewrite (rsum_ext n (fun i => x i * c i) (fun i => rsum n (fun j => x i * (A i j * y j)))).
  2:{ intros i Hi. rewrite rsum_scal, (Hy i Hi); auto. }
  rewrite (rsum_ext n (fun i => b i * y i) (fun i => rsum n (fun j => A i j * x j * y i))).
  2:{ intros i Hi. rewrite rsum_scal_r, (Hx i Hi); auto. }
  rewrite rsum_swap. apply rsum_ext; intros i Hi. apply rsum_ext; intros j Hj.
  rewrite (Hs i j) by auto. ring.
Qed.

Lemma quad_solves n A x b : solves n A x b -> quad n A x = dot n x b.
Proof.
  intros H. unfold quad, dot. apply rsum_ext; intros i Hi.
  rewrite <- (H i Hi), <- rsum_scal. apply rsum_ext; intros; ring.
Qed.

Lemma pd_nonsingular n A : pd n A -> nonsingular n A.
Proof.
  intros Hpd x Hx j Hj.
  destruct (Req_EM_T (x j) 0) as [E|Hne]; auto. exfalso.
  assert (0 < quad n A x) by (apply Hpd; eauto).
  rewrite (quad_solves n A x _ Hx) in H. unfold dot in H.
  rewrite (rsum_ext n _ (fun _ => 0)) in H by (intros; ring). rewrite rsum_0 in H. lra.
Qed.

Lemma quad_ext n A A' x x' : (forall i j, (i < n)%nat -> (j < n)%nat -> A i j = A' i j) ->
  (forall i, (i < n)%nat -> x i = x' i) -> quad n A x = quad n A' x'.
Proof.
  intros HA Hx. unfold quad. apply rsum_ext; intros i Hi; apply rsum_ext; intros j Hj.
  rewrite HA, !Hx; auto.
Qed.

Lemma quad_plus n A B x : quad n (fun i j => A i j + B i j) x = quad n A x + quad n B x.
Proof.
  unfold quad. rewrite <- rsum_plus. apply rsum_ext; intros i Hi. rewrite <- rsum_plus.
  apply rsum_ext; intros; ring.
Qed.

Lemma quad_diag n d x : quad n (fun i j => delta i j * d i) x = rsum n (fun i => d i * (x i * x i)).
Proof.
  unfold quad. apply rsum_ext; intros i Hi.
  rewrite (rsum_ext n _ (fun j => delta i j * (x i * d i * x j))) by (intros; ring).
  rewrite rsum_delta_l by auto. ring.
Qed.

(** Adding a positive diagonal to a PSD matrix gives a PD matrix. *)
Lemma psd_plus_diag_pd n A d : psd n A -> (forall i, (i < n)%nat -> 0 < d i) ->
  pd n (fun i j => A i j + delta i j * d i).
Proof.
  intros Hp Hd x (i & Hi & Hxi). rewrite quad_plus, quad_diag.
  pose proof (Hp x) as H0.
  assert (0 < d i * (x i * x i)) as H1.
  { apply Rmult_lt_0_compat; [auto|]. destruct (Rtotal_order (x i) 0) as [H|[H|H]]; [nra|contradiction|nra]. }
  assert (d i * (x i * x i) <= rsum n (fun i => d i * (x i * x i))) as H2.
  { apply (rsum_term_le n (fun i => d i * (x i * x i))); auto. intros k Hk.
    specialize (Hd k Hk). nra. }
  lra.
Qed.
