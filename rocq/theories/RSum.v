(** Finite sums over R, used for matrix products and losses. *)
From Coq Require Import Lia Lra Permutation.

From Verif Require Import Base.
Local Open Scope R_scope.

(** [rsum n f] is f 0 + ... + f (n-1). *)
Fixpoint rsum (n : nat) (f : nat -> R) : R :=
  match n with O => 0 | S m => rsum m f + f m end.

Lemma rsum_ext n f g : (forall i, (i < n)%nat -> f i = g i) -> rsum n f = rsum n g.
Proof. induction n as [|n IH]; simpl; intros H; auto. rewrite IH, H; auto; intros; apply H; lia. Qed.

Lemma rsum_0 n : rsum n (fun _ => 0) = 0.
Proof. induction n; simpl; lra. Qed.

Lemma rsum_plus n f g : rsum n (fun i => f i + g i) = rsum n f + rsum n g.
Proof. induction n; simpl; lra. Qed.

Lemma rsum_minus n f g : rsum n (fun i => f i - g i) = rsum n f - rsum n g.
Proof. induction n; simpl; lra. Qed.

Lemma rsum_opp n f : rsum n (fun i => - f i) = - rsum n f.
Proof. induction n; simpl; lra. Qed.

Lemma rsum_scal n c f : rsum n (fun i => c * f i) = c * rsum n f.
Proof. induction n; simpl; lra. Qed.

Lemma rsum_scal_r n c f : rsum n (fun i => f i * c) = rsum n f * c.
Proof. induction n; simpl; lra. Qed.

Lemma rsum_const n c : rsum n (fun _ => c) = INR n * c.
Proof. induction n; [simpl; lra|]. rewrite S_INR; simpl rsum; lra. Qed.

Lemma rsum_swap n m f :
  rsum n (fun i => rsum m (fun j => f i j)) = rsum m (fun j => rsum n (fun i => f i j)).
Proof.
  induction n as [|n IH]; simpl; [rewrite rsum_0; auto|].
  rewrite rsum_plus, IH; auto.
Qed.

Lemma rsum_nonneg n f : (forall i, (i < n)%nat -> 0 <= f i) -> 0 <= rsum n f.
Proof.
  induction n as [|n IH]; simpl; intros H; [lra|].
  assert (0 <= f n) by (apply H; lia). assert (0 <= rsum n f) by (apply IH; intros; apply H; lia). lra.
Qed.

Lemma rsum_le n f g : (forall i, (i < n)%nat -> f i <= g i) -> rsum n f <= rsum n g.
Proof.
  induction n as [|n IH]; simpl; intros H; [lra|].
  assert (f n <= g n) by (apply H; lia). assert (rsum n f <= rsum n g) by (apply IH; intros; apply H; lia). lra.
Qed.

Lemma rsum_zero_inv n f : (forall i, (i < n)%nat -> 0 <= f i) -> rsum n f = 0 ->
  forall i, (i < n)%nat -> f i = 0.
Proof.
  induction n as [|n IH]; simpl; intros H E i Hi; [lia|].
  assert (H0 : 0 <= f n) by (apply H; lia).
  assert (H1 : 0 <= rsum n f) by (apply rsum_nonneg; intros; apply H; lia).
  destruct (Nat.eq_dec i n) as [->|Hne]; [lra|].
  apply IH; [intros; apply H; lia|lra|lia].
Qed.

Lemma rsum_term_le n f j : (forall i, (i < n)%nat -> 0 <= f i) -> (j < n)%nat -> f j <= rsum n f.
Proof.
  induction n as [|n IH]; simpl; intros H Hj; [lia|].
  assert (H0 : 0 <= f n) by (apply H; lia).
  assert (H1 : 0 <= rsum n f) by (apply rsum_nonneg; intros; apply H; lia).
  destruct (Nat.eq_dec j n) as [->|Hne]; [lra|].
  assert (f j <= rsum n f) by (apply IH; [intros; apply H; lia|lia]). lra.
Qed.

Definition delta (i j : nat) : R := if Nat.eqb i j then 1 else 0.

Lemma delta_refl i : delta i i = 1.
Proof. unfold delta; rewrite Nat.eqb_refl; auto. Qed.
Lemma delta_neq i j : i <> j -> delta i j = 0.
Proof. intros H; unfold delta; apply Nat.eqb_neq in H; rewrite H; auto. Qed.
Lemma delta_sym i j : delta i j = delta j i.
Proof. unfold delta; rewrite Nat.eqb_sym; auto. Qed.

Lemma rsum_delta n j f : (j < n)%nat -> rsum n (fun i => delta i j * f i) = f j.
Proof.
  induction n as [|n IH]; simpl; intros Hj; [lia|].
  destruct (Nat.eq_dec j n) as [->|Hne].
  - rewrite delta_refl.
    rewrite (rsum_ext n _ (fun _ => 0)) by (intros i Hi; rewrite delta_neq by lia; lra).
    rewrite rsum_0; lra.
  - rewrite IH by lia. rewrite delta_neq by auto. lra.
Qed.

Lemma rsum_delta_l n j f : (j < n)%nat -> rsum n (fun i => delta j i * f i) = f j.
Proof.
  intros H; rewrite <- (rsum_delta n j f H); apply rsum_ext; intros; rewrite delta_sym; auto.
Qed.

Lemma rsum_app n m f : rsum (n + m) f = rsum n f + rsum m (fun i => f (n + i)%nat).
Proof.
  induction m as [|m IH]; simpl; [rewrite Nat.add_0_r; lra|].
  rewrite Nat.add_succ_r; simpl. rewrite IH; lra.
Qed.

Lemma rsum_S_l n f : rsum (S n) f = f O + rsum n (fun i => f (S i)).
Proof. change (S n) with (1 + n)%nat. rewrite (rsum_app 1 n f); simpl; lra. Qed.

(** Sums over a product range. *)
Lemma rsum_mul n m f : rsum (n * m) f = rsum n (fun i => rsum m (fun j => f (i * m + j)%nat)).
Proof.
  induction n as [|n IH]; simpl; auto.
  rewrite Nat.add_comm, rsum_app, IH. reflexivity.
Qed.

(** List sums and their relation to [rsum]. *)
Fixpoint lsum (l : list R) : R := match l with [] => 0 | x :: l' => x + lsum l' end.

Lemma lsum_app l1 l2 : lsum (l1 ++ l2) = lsum l1 + lsum l2.
Proof. induction l1; simpl; lra. Qed.

Lemma lsum_map_seq s n f : lsum (map f (seq s n)) = rsum n (fun i => f (s + i)%nat).
Proof.
  revert s; induction n as [|n IH]; intros s; [reflexivity|].
  cbn [seq map lsum]. rewrite IH, rsum_S_l. rewrite Nat.add_0_r.
  f_equal. apply rsum_ext; intros; f_equal; lia.
Qed.

Lemma lsum_perm l1 l2 : Permutation l1 l2 -> lsum l1 = lsum l2.
Proof. induction 1; simpl; lra. Qed.

(** [p] restricts to a bijection of [0, n). *)
Definition perm_on (n : nat) (p : nat -> nat) : Prop :=
  (forall i, (i < n)%nat -> (p i < n)%nat) /\
  (forall i j, (i < n)%nat -> (j < n)%nat -> p i = p j -> i = j).

Lemma perm_on_Permutation n p : perm_on n p ->
  Permutation (map p (seq 0 n)) (seq 0 n).
Proof.
  intros [Hb Hi]. apply NoDup_Permutation_bis.
  - assert (Hs : NoDup (seq 0 n)) by apply seq_NoDup.
    assert (Hin : forall x, In x (seq 0 n) -> (x < n)%nat) by (intros x Hx; apply in_seq in Hx; lia).
    revert Hs Hin; generalize (seq 0 n); induction l as [|x l IH]; simpl; intros Hs Hin; constructor.
    + intros Hc; apply in_map_iff in Hc as (y & E & Hy). inversion Hs; subst.
      apply Hi in E; subst; auto.
    + inversion Hs; subst; apply IH; auto.
  - rewrite map_length; auto.
  - intros x Hx; apply in_map_iff in Hx as (y & <- & Hy). apply in_seq in Hy.
    apply in_seq. split; [lia|]. simpl. apply Hb; lia.
Qed.

Lemma rsum_perm n p f : perm_on n p -> rsum n (fun i => f (p i)) = rsum n f.
Proof.
  intros Hp. transitivity (lsum (map (fun i => f (p i)) (seq 0 n)));
    [rewrite lsum_map_seq; apply rsum_ext; auto|].
  assert (E : rsum n f = lsum (map f (seq 0 n))) by (rewrite lsum_map_seq; apply rsum_ext; auto).
  rewrite E. rewrite <- (map_map p f). apply lsum_perm.
  apply Permutation_map. apply perm_on_Permutation; auto.
Qed.

Lemma perm_on_surj n p : perm_on n p -> forall j, (j < n)%nat -> exists i, (i < n)%nat /\ p i = j.
Proof.
  intros Hp j Hj. pose proof (perm_on_Permutation n p Hp) as HP.
  assert (In j (map p (seq 0 n))) as Hin.
  { apply (Permutation_in j (Permutation_sym HP)). apply in_seq; lia. }
  apply in_map_iff in Hin as (i & E & Hi). apply in_seq in Hi. exists i; split; [lia|auto].
Qed.
