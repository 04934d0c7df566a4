(** The numpy operations depend on the in-range entries of their operands only. *)
From Coq Require Import Lia Lra.
From Verif Require Import Base BaseFacts NdModel NdFacts RSum LinAlgModel LinAlgSpec LinAlgFacts
  GPModel NoiseModel MuyGPSModel.
Local Open Scope R_scope.

(** Same outcome: equal arrays, or the same exception. *)
Definition same_outcome {A} (r r' : result (nd A)) : Prop :=
  match r, r' with
  | Ok t, Ok t' => nd_eq t t'
  | Err e, Err e' => e = e'
  | _, _ => False
  end.

Lemma so_refl {A} (r : result (nd A)) : same_outcome r r.
Proof. destruct r; simpl; auto. apply nd_eq_refl. Qed.

Lemma so_bind {A B} (r r' : result (nd A)) (k k' : nd A -> result (nd B)) :
  same_outcome r r' -> (forall t t', nd_eq t t' -> same_outcome (k t) (k' t')) ->
  same_outcome (bind r k) (bind r' k').
Proof. destruct r, r'; simpl; intros H Hk; try contradiction; auto. Qed.

Lemma reshape_cong {A} (t t' : nd A) sh : nd_eq t t' -> same_outcome (reshape t sh) (reshape t' sh).
Proof.
  intros [Hs Ha]. unfold reshape. rewrite <- Hs.
  destruct (Nat.eqb_spec (nprod sh) (nprod (shape t))) as [E|E]; simpl; auto.
  split; simpl; auto. intros idx Hi. apply Ha. apply unravel_inb. rewrite <- E. apply ravel_lt; auto.
Qed.

Lemma ndmap_cong {A B} (f : A -> B) t t' : nd_eq t t' -> nd_eq (ndmap f t) (ndmap f t').
Proof. intros [Hs Ha]; split; simpl; auto. intros idx Hi. f_equal; auto. Qed.

Lemma rev2_inv {A} (l : list A) a b r : rev l = a :: b :: r -> l = rev r ++ [b; a].
Proof.
  intros H. rewrite <- (rev_involutive l), H. simpl. rewrite <- app_assoc. reflexivity.
Qed.

Lemma inb_app_inv s1 s2 idx : inb (s1 ++ s2) idx -> exists i1 i2, idx = i1 ++ i2 /\ inb s1 i1 /\ inb s2 i2.
Proof.
  intros H. apply Forall2_app_inv_r in H as (l1 & l2 & H1 & H2 & ->). eauto.
Qed.

Lemma matmul_cong A A' B B' : nd_eq A A' -> nd_eq B B' ->
  same_outcome (np_matmul A B) (np_matmul A' B').
Proof.
  intros [SA HA] [SB HB]. unfold np_matmul. rewrite <- SA, <- SB.
  destruct (rev (shape A)) as [|m [|p rA]] eqn:EA; simpl; auto.
  destruct (rev (shape B)) as [|q [|m' rB]] eqn:EB; simpl; auto.
  destruct ((m =? m')%nat && list_eqb rA rB) eqn:E; simpl; auto.
  apply andb_prop in E as [E1 E2]. apply Nat.eqb_eq in E1 as <-. apply list_eqb_true in E2 as <-.
  apply rev2_inv in EA, EB.
  split; [reflexivity|]. intros idx Hi. cbn [shape] in Hi. cbn [at_].
  apply inb_app_inv in Hi as (x & ij & -> & Hx & Hij).
  apply inb_inv2 in Hij as (i & j & -> & Hi & Hj). rewrite rev_app2, rev_involutive.
  apply rsum_ext; intros l Hl. f_equal.
  - apply HA. rewrite EA. apply inb_app; auto. apply inb2; auto.
  - apply HB. rewrite EB. apply inb_app; auto. apply inb2; auto.
Qed.

Lemma nonsingular_cong n (A A' : nat -> nat -> R) :
  (forall i j, (i < n)%nat -> (j < n)%nat -> A i j = A' i j) -> nonsingular n A <-> nonsingular n A'.
Proof.
  intros H; split; intros Hn x Hx; apply Hn.
  - apply (solves_ext n A'); auto. intros; symmetry; auto.
  - apply (solves_ext n A); auto.
Qed.

Lemma solve_cong ls K K' B B' : exact_solver ls -> nd_eq K K' -> nd_eq B B' ->
  same_outcome (np_solve ls K B) (np_solve ls K' B').
Proof.
  intros [Hs1 Hs2] [SK HK] [SB HB]. unfold np_solve. rewrite <- SK, <- SB.
  destruct (rev (shape K)) as [|n [|n' rK]] eqn:EK; try reflexivity.
  destruct (rev (shape B)) as [|k [|m rB]] eqn:EB; try reflexivity.
  destruct (((n =? n') && (m =? n))%nat && list_eqb rK rB) eqn:E; [|reflexivity].
  apply andb_prop in E as [E E2]. apply andb_prop in E as [E1 E3].
  apply Nat.eqb_eq in E1 as <-. apply Nat.eqb_eq in E3 as ->. apply list_eqb_true in E2 as <-.
  apply rev2_inv in EK, EB. cbn zeta.
  assert (HKx : forall x, inb (rev rK) x -> forall i j, (i < n)%nat -> (j < n)%nat ->
     slice2 K x i j = slice2 K' x i j).
  { intros x Hx i j Hi Hj. apply HK. rewrite EK. apply inb_app; auto. apply inb2; auto. }
  assert (HBx : forall x, inb (rev rK) x -> forall i j, (i < n)%nat -> (j < k)%nat ->
     slice2 B x i j = slice2 B' x i j).
  { intros x Hx i j Hi Hj. apply HB. rewrite EB. apply inb_app; auto. apply inb2; auto. }
  assert (Hsome : forall x, inb (rev rK) x ->
     is_some (ls n k (slice2 K x) (slice2 B x)) = is_some (ls n k (slice2 K' x) (slice2 B' x))).
  { intros x Hx. pose proof (nonsingular_cong n _ _ (HKx x Hx)) as Hn.
    destruct (ls n k (slice2 K x) (slice2 B x)) as [X|] eqn:L;
    destruct (ls n k (slice2 K' x) (slice2 B' x)) as [X'|] eqn:L'; auto; simpl; exfalso.
    - assert (nonsingular n (slice2 K x)) as H by (apply (Hs2 n k _ (slice2 B x)); eauto).
      apply Hn in H. apply (Hs2 n k _ (slice2 B' x)) in H as [Y HY]. congruence.
    - assert (nonsingular n (slice2 K' x)) as H by (apply (Hs2 n k _ (slice2 B' x)); eauto).
      apply Hn in H. apply (Hs2 n k _ (slice2 B x)) in H as [Y HY]. congruence. }
  assert (Hall : forallb (fun q => is_some (ls n k (slice2 K (unravel (rev rK) q)) (slice2 B (unravel (rev rK) q))))
                  (seq 0 (nprod (rev rK))) =
                 forallb (fun q => is_some (ls n k (slice2 K' (unravel (rev rK) q)) (slice2 B' (unravel (rev rK) q))))
                  (seq 0 (nprod (rev rK)))).
  { assert (HH : forall l, (forall q, In q l -> (q < nprod (rev rK))%nat) ->
      forallb (fun q => is_some (ls n k (slice2 K (unravel (rev rK) q)) (slice2 B (unravel (rev rK) q)))) l =
      forallb (fun q => is_some (ls n k (slice2 K' (unravel (rev rK) q)) (slice2 B' (unravel (rev rK) q)))) l).
    { induction l as [|q l IH]; intros Hl; [reflexivity|]. cbn [forallb].
      rewrite Hsome, IH; auto; [intros; apply Hl; right; auto|].
      apply unravel_inb. apply Hl; left; auto. }
    apply HH. intros q Hq. apply in_seq in Hq. lia. }
  match goal with |- same_outcome (if ?a then _ else _) (if ?b then _ else _) =>
    assert (Hab : a = b) by exact Hall; rewrite <- Hab; destruct a eqn:F end; [|reflexivity].
  split; [reflexivity|]. intros idx Hi. cbn [shape] in Hi. rewrite EB in Hi. cbn [at_].
  apply inb_app_inv in Hi as (x & ij & -> & Hx & Hij).
  apply inb_inv2 in Hij as (i & j & -> & Hi & Hj). rewrite rev_app2, rev_involutive.
  pose proof (Hsome x Hx) as Hso.
  destruct (ls n k (slice2 K x) (slice2 B x)) as [X|] eqn:L;
    destruct (ls n k (slice2 K' x) (slice2 B' x)) as [X'|] eqn:L'; auto; try discriminate.
  apply (solves_unique n (slice2 K x) (fun i => X i j) (fun i => X' i j) (fun i => slice2 B x i j)); auto.
  - apply (Hs2 n k _ (slice2 B x)); eauto.
  - apply (Hs1 n k _ _ X L j Hj).
  - apply (solves_ext n (slice2 K' x)).
    + intros; symmetry; apply HKx; auto.
    + intros r Hr. rewrite HBx by auto. apply (Hs1 n k _ _ X' L' j Hj r Hr).
Qed.

Lemma einsum3_cong A A' B B' : nd_eq A A' -> nd_eq B B' ->
  same_outcome (einsum_ijk_ijk A B) (einsum_ijk_ijk A' B').
Proof.
  intros [SA HA] [SB HB]. unfold einsum_ijk_ijk. rewrite <- SA, <- SB.
  destruct (shape A) as [|i [|j [|k [|]]]] eqn:EA; simpl; auto.
  destruct (shape B) as [|i' [|j' [|k' [|]]]] eqn:EB; simpl; auto.
  destruct (edim i i') as [di|] eqn:Ei; simpl; auto.
  destruct (edim j j') as [dj|] eqn:Ej; simpl; auto.
  destruct (edim k k') as [dk|] eqn:Ek; simpl; auto.
  assert (Hd : forall a b d q, edim a b = Some d -> (q < d)%nat -> (eix a q < a)%nat /\ (eix b q < b)%nat).
  { intros a b d q. unfold edim, eix.
    destruct (Nat.eqb_spec a b) as [->|]; [intros H; inversion H; subst; intros|].
    { destruct (Nat.eqb_spec d 1); lia. }
    destruct (Nat.eqb_spec a 1) as [->|]; [intros H; inversion H; subst; intros|].
    { simpl. destruct (Nat.eqb_spec d 1); lia. }
    destruct (Nat.eqb_spec b 1) as [->|]; [intros H; inversion H; subst; intros; simpl; lia|discriminate]. }
  split; [reflexivity|]. intros idx Hi. cbn [shape] in Hi. cbn [at_].
  apply inb_inv2 in Hi as (a & c & -> & Ha & Hc).
  apply rsum_ext; intros l Hl.
  destruct (Hd _ _ _ _ Ei Ha), (Hd _ _ _ _ Ej Hl), (Hd _ _ _ _ Ek Hc).
  f_equal; [apply HA|apply HB]; apply inb3; auto.
Qed.

Lemma atleast_3d_cong {A} (t t' : nd A) : nd_eq t t' -> nd_eq (atleast_3d t) (atleast_3d t').
Proof.
  intros [Hs Ha]. unfold atleast_3d. rewrite <- Hs.
  destruct (shape t) as [|a [|b [|c r]]] eqn:E.
  - split; simpl; auto. intros idx Hi. apply Ha. constructor.
  - split; simpl; auto. intros idx Hi. apply inb_inv3 in Hi as (x & y & z & -> & _ & Hy & _).
    apply Ha. apply inb1; auto.
  - split; simpl; auto. intros idx Hi. apply inb_inv3 in Hi as (x & y & z & -> & Hx & Hy & _).
    apply Ha. apply inb2; auto.
  - split; [congruence|]. rewrite E; auto.
Qed.

(** Numbers: same value or the same exception. *)
Lemma bind_so {A B} (r r' : result (nd A)) (k k' : nd A -> result B) :
  same_outcome r r' -> (forall t t', nd_eq t t' -> k t = k' t') -> bind r k = bind r' k'.
Proof. destruct r, r'; simpl; intros H Hk; try contradiction; auto. congruence. Qed.

Lemma analytic_unnorm_cong ls K K' T T' : exact_solver ls -> nd_eq K K' -> nd_eq T T' ->
  analytic_scale_unnormalized ls K T = analytic_scale_unnormalized ls K' T'.
Proof.
  intros Hls HK HT. unfold analytic_scale_unnormalized.
  pose proof (atleast_3d_cong _ _ HT) as HT3.
  apply bind_so; [apply solve_cong; auto|]. intros s s' Hs.
  apply bind_so; [apply einsum3_cong; auto|]. intros e e' [Se He]. f_equal.
  rewrite <- Se. apply rsum_ext. intros q Hq. apply He. apply unravel_inb; auto.
Qed.

Lemma analytic_scale_cong ls K K' T T' : exact_solver ls -> nd_eq K K' -> nd_eq T T' ->
  analytic_scale ls K T = analytic_scale ls K' T'.
Proof.
  intros Hls HK HT. unfold analytic_scale, ndim. destruct HK as [SK HK]. rewrite <- SK.
  apply bind_so; [apply reshape_cong; split; auto|]. intros a a' Ha.
  apply bind_so; [apply reshape_cong; auto|]. intros c c' Hc.
  rewrite (analytic_unnorm_cong ls a a' c c'); auto.
Qed.

Lemma posterior_mean_cong ls K C T T' : nd_eq T T' ->
  same_outcome (posterior_mean ls K C T) (posterior_mean ls K C T').
Proof.
  intros HT. unfold posterior_mean. destruct HT as [ST HT]. rewrite <- ST.
  destruct (find_matching_ndim (shape T) (shape K)) as [m|e]; cbn [bind]; [|apply so_refl].
  apply so_bind; [apply reshape_cong; split; auto|]. intros t t' Ht.
  match goal with |- context [bind ?r _] => destruct r; cbn [bind]; [|reflexivity] end.
  match goal with |- context [bind ?r _] => destruct r; cbn [bind]; [|reflexivity] end.
  match goal with |- context [bind ?r _] => destruct r; cbn [bind]; [|reflexivity] end.
  apply so_bind; [apply matmul_cong; auto; apply nd_eq_refl|]. intros. apply reshape_cong; auto.
Qed.

Lemma gp_posterior_mean_cong ls g K C T T' kw : nd_eq T T' ->
  same_outcome (gp_posterior_mean ls g K C T kw) (gp_posterior_mean ls g K C T' kw).
Proof.
  intros HT. unfold gp_posterior_mean. destruct (perturb _ _ _); cbn [bind]; [|reflexivity].
  apply posterior_mean_cong; auto.
Qed.

Lemma analytic_scale_opt_cong ls g it K T T' kw : exact_solver ls -> nd_eq T T' ->
  analytic_scale_opt ls g it K T kw = analytic_scale_opt ls g it K T' kw.
Proof.
  intros Hls HT. unfold analytic_scale_opt.
  destruct (perturb (gp_noise g) K None) as [pK|e] eqn:E; cbn [bind]; [|reflexivity].
  rewrite (analytic_scale_cong ls pK pK T T'); auto using nd_eq_refl.
  destruct (analytic_scale ls pK T') as [s|]; cbn [bind]; [|reflexivity].
  generalize (it - 1)%nat. intros f. revert s. induction f as [|f IH]; intros s; simpl; auto.
  unfold analytic_step. rewrite E; cbn [bind].
  rewrite (analytic_scale_cong ls (ndmap (Rmult s) pK) (ndmap (Rmult s) pK) T T'); auto using nd_eq_refl.
  destruct (analytic_scale ls (ndmap (Rmult s) pK) T') as [s'|]; cbn [bind]; auto.
Qed.

Lemma insert_nat_in c a l : In c (insert_nat a l) -> c = a \/ In c l.
Proof.
  induction l as [|b l IH]; simpl; [intuition congruence|].
  destruct (a <=? b)%nat; simpl; intuition congruence.
Qed.
Lemma sort_nat_in c l : In c (sort_nat l) -> In c l.
Proof.
  induction l as [|a l IH]; simpl; [tauto|]. intros H. apply insert_nat_in in H as [->|H]; auto.
Qed.

Lemma take_axis1_cong {A} (t t' : nd A) sel b n r : shape t = b :: n :: r ->
  (forall a, In a sel -> (a < n)%nat) -> nd_eq t t' -> nd_eq (take_axis1 t sel) (take_axis1 t' sel).
Proof.
  intros Hs Hsel [SS Ha]. unfold take_axis1. rewrite <- SS, Hs. split; simpl; auto.
  intros idx Hi. apply inb_inv_cons in Hi as (x & idx' & -> & Hx & Hi).
  apply inb_inv_cons in Hi as (i & l & -> & Hi & Hl). apply Ha. rewrite Hs.
  constructor; auto. constructor; auto. apply Hsel. apply nth_In; auto.
Qed.

Lemma downsample_cong ls g d it draws K T T' b n r : exact_solver ls ->
  shape T = b :: n :: r -> (forall k a, In a (draws k) -> (a < n)%nat) -> nd_eq T T' ->
  downsample_scale_opt ls g d it draws K T = downsample_scale_opt ls g d it draws K T'.
Proof.
  intros Hls HT Hd HE. unfold downsample_scale_opt.
  destruct (shape K) as [|bc [|nc [|n3 [|]]]]; auto.
  destruct (nc <=? d)%nat; auto.
  destruct (perturb (gp_noise g) K None) as [pK|e] eqn:E; cbn [bind]; [|reflexivity].
  f_equal. f_equal. apply map_ext. intros k.
  apply analytic_unnorm_cong; auto using nd_eq_refl.
  apply (take_axis1_cong _ _ _ b n r); auto.
  intros a Ha. apply (Hd k). apply sort_nat_in; auto.
Qed.

Lemma scale_opt_cong ls g draws K T T' b n r : exact_solver ls ->
  shape T = b :: n :: r -> (forall k a, In a (draws k) -> (a < n)%nat) -> nd_eq T T' ->
  scale_opt ls g draws K T = scale_opt ls g draws K T'.
Proof.
  intros Hls HT Hd HE. unfold scale_opt. destruct (gp_kind g); auto.
  - rewrite (analytic_scale_opt_cong ls g _ K T T'); auto.
  - apply (downsample_cong ls g _ _ draws K T T' b n r); auto.
Qed.
