(** Gaussian elimination over R: an instance of [exact_solver], showing that the
    hypothesis on np.linalg.solve used by the theorems is satisfiable. *)
From Coq Require Import Lia Lra.
From Verif Require Import Base BaseFacts RSum LinAlgSpec LinAlgFacts LinAlgModel.
Local Open Scope R_scope.

Fixpoint find_pivot (n : nat) (v : nat -> R) : option nat :=
  match n with
  | O => None
  | S m => if Req_EM_T (v m) 0 then find_pivot m v else Some m
  end.

Definition swp (p q i : nat) : nat := if Nat.eqb i p then q else if Nat.eqb i q then p else i.

Fixpoint ginv (n : nat) (A : mat) : option ((nat -> R) -> (nat -> R)) :=
  match n with
  | O => Some (fun b => b)
  | S m =>
    match find_pivot (S m) (fun i => A i m) with
    | None => None
    | Some p =>
      let A1 := fun i j => A (swp p m i) j in
      let piv := A1 m m in
      let A2 := fun i j => A1 i j - A1 i m / piv * A1 m j in
      match ginv m A2 with
      | None => None
      | Some f => Some (fun b =>
          let b1 := fun i => b (swp p m i) in
          let x' := f (fun i => b1 i - A1 i m / piv * b1 m) in
          fun j => if Nat.eqb j m then (b1 m - rsum m (fun l => A1 m l * x' l)) / piv else x' j)
      end
    end
  end.

Definition gauss : lsolver := fun n k A B =>
  match ginv n A with
  | None => None
  | Some f => Some (fun i c => f (fun r => B r c) i)
  end.

Lemma find_pivot_some n v p : find_pivot n v = Some p -> (p < n)%nat /\ v p <> 0.
Proof.
  induction n as [|n IH]; simpl; [discriminate|].
  destruct (Req_EM_T (v n) 0) as [E|E].
  - intros H. apply IH in H as [H1 H2]; split; auto; lia.
  - intros H; inversion H; subst; split; auto.
Qed.

Lemma find_pivot_none n v : find_pivot n v = None -> forall i, (i < n)%nat -> v i = 0.
Proof.
  induction n as [|n IH]; simpl; intros H i Hi; [lia|].
  destruct (Req_EM_T (v n) 0) as [E|E]; [|discriminate].
  destruct (Nat.eq_dec i n) as [->|Hne]; auto. apply IH; auto; lia.
Qed.

Lemma swp_lt p q i n : (p < n)%nat -> (q < n)%nat -> (i < n)%nat -> (swp p q i < n)%nat.
Proof. unfold swp. intros. destruct (Nat.eqb i p); auto. destruct (Nat.eqb i q); auto. Qed.

Lemma swp_invol p q i : swp p q (swp p q i) = i.
Proof.
  unfold swp. destruct (Nat.eqb_spec i p) as [->|H1].
  - destruct (Nat.eqb_spec q p) as [->|H2]; auto. rewrite Nat.eqb_refl; auto.
  - destruct (Nat.eqb_spec i q) as [->|H2].
    + rewrite Nat.eqb_refl; auto.
    + destruct (Nat.eqb_spec i p); [lia|]. destruct (Nat.eqb_spec i q); [lia|auto].
Qed.

Lemma solves_swap n A x b p q : (p < n)%nat -> (q < n)%nat ->
  solves n (fun i j => A (swp p q i) j) x (fun i => b (swp p q i)) <-> solves n A x b.
Proof.
  intros Hp Hq; split; intros H i Hi.
  - specialize (H (swp p q i) (swp_lt p q i n Hp Hq Hi)). cbv beta in H.
    rewrite swp_invol in H. exact H.
  - apply (H (swp p q i)). apply swp_lt; auto.
Qed.

(** Elimination of the last unknown. *)
Lemma eliminate m A x b : A m m <> 0 ->
  let A2 := fun i j => A i j - A i m / A m m * A m j in
  let b2 := fun i => b i - A i m / A m m * b m in
  solves (S m) A x b <->
  (solves m A2 x b2 /\ x m = (b m - rsum m (fun l => A m l * x l)) / A m m).
Proof.
  intros Hp A2 b2; split.
  - intros H. split.
    + intros i Hi. pose proof (H i ltac:(lia)) as H1. pose proof (H m ltac:(lia)) as H2.
      simpl in H1, H2. unfold A2, b2. rewrite <- H1, <- H2.
      rewrite (rsum_ext m (fun j => (A i j - A i m / A m m * A m j) * x j)
                          (fun j => A i j * x j - A i m / A m m * (A m j * x j))) by (intros; ring).
      rewrite rsum_minus, rsum_scal. field; auto.
    + pose proof (H m ltac:(lia)) as H2. simpl in H2. rewrite <- H2. field; auto.
  - intros [H Hx] i Hi. simpl.
    assert (Hm : rsum m (fun j => A m j * x j) + A m m * x m = b m) by (rewrite Hx; field; auto).
    destruct (Nat.eq_dec i m) as [->|Hne]; auto.
    pose proof (H i ltac:(lia)) as H1. unfold A2, b2 in H1. rewrite <- Hm in H1.
    rewrite (rsum_ext m (fun j => (A i j - A i m / A m m * A m j) * x j)
                        (fun j => A i j * x j - A i m / A m m * (A m j * x j))) in H1 by (intros; ring).
    rewrite rsum_minus, rsum_scal in H1.
    assert (E : A i m / A m m * (rsum m (fun j => A m j * x j) + A m m * x m) =
                A i m / A m m * rsum m (fun j => A m j * x j) + A i m * x m) by (field; auto).
    rewrite E in H1. lra.
Qed.

Lemma solves_x_ext n A x y b : (forall j, (j < n)%nat -> x j = y j) -> solves n A x b -> solves n A y b.
Proof. intros H Hx i Hi. rewrite <- (Hx i Hi). apply rsum_ext; intros; rewrite H; auto. Qed.
Lemma solves_b_ext n A x b c : (forall j, (j < n)%nat -> b j = c j) -> solves n A x b -> solves n A x c.
Proof. intros H Hx i Hi. rewrite (Hx i Hi); auto. Qed.

Lemma ginv_sound n : forall A f, ginv n A = Some f ->
  (forall b, solves n A (f b) b) /\ nonsingular n A.
Proof.
  induction n as [|m IH]; intros A f H.
  - split; [intros b i Hi; lia|intros x Hx j Hj; lia].
  - simpl in H. change (if Req_EM_T (A m m) 0 then find_pivot m (fun i => A i m) else Some m)
      with (find_pivot (S m) (fun i => A i m)) in H.
    destruct (find_pivot (S m) (fun i => A i m)) as [p|] eqn:Ep; [|discriminate].
    apply find_pivot_some in Ep as [Hp Hv].
    set (A1 := fun i j => A (swp p m i) j) in *.
    assert (Hpiv : A1 m m <> 0).
    { unfold A1, swp. destruct (Nat.eqb_spec m p) as [<-|]; [auto|]. rewrite Nat.eqb_refl; auto. }
    change (A (swp p m m) m) with (A1 m m) in H.
    match type of H with match ginv m ?M with _ => _ end = _ => set (A2 := M) in * end.
    destruct (ginv m A2) as [g|] eqn:Eg; [|discriminate].
    inversion H; subst f; clear H. destruct (IH _ _ Eg) as [Hs Hn].
    split.
    + intros b. rewrite <- (solves_swap (S m) A _ b p m) by lia. apply (eliminate m A1); auto.
      split.
      * apply (solves_x_ext m _ (g (fun i => b (swp p m i) - A1 i m / A1 m m * b (swp p m m)))).
        { intros j Hj. destruct (Nat.eqb_spec j m); [lia|auto]. }
        apply Hs.
      * rewrite Nat.eqb_refl. f_equal. f_equal. apply rsum_ext; intros l Hl.
        destruct (Nat.eqb_spec l m); [lia|auto].
    + intros x Hx. rewrite <- (solves_swap (S m) A x _ p m) in Hx by lia.
      apply (eliminate m A1 x (fun _ => 0)) in Hx as [H1 H2]; auto.
      assert (Hz : forall j, (j < m)%nat -> x j = 0).
      { apply (Hn x). apply (solves_b_ext _ _ _ (fun i => 0 - A1 i m / A1 m m * 0)); auto. intros; ring. }
      intros j Hj. destruct (Nat.eq_dec j m) as [->|]; [|apply Hz; lia].
      rewrite H2. rewrite (rsum_ext m _ (fun _ => 0)) by (intros; rewrite Hz by auto; ring).
      rewrite rsum_0. field; auto.
Qed.

Lemma ginv_complete n : forall A, nonsingular n A -> exists f, ginv n A = Some f.
Proof.
  induction n as [|m IH]; intros A HA; [simpl; eauto|].
  simpl. change (if Req_EM_T (A m m) 0 then find_pivot m (fun i => A i m) else Some m)
      with (find_pivot (S m) (fun i => A i m)).
  destruct (find_pivot (S m) (fun i => A i m)) as [p|] eqn:Ep.
  - apply find_pivot_some in Ep as [Hp Hv].
    set (A1 := fun i j => A (swp p m i) j).
    assert (Hpiv : A1 m m <> 0).
    { unfold A1, swp. destruct (Nat.eqb_spec m p) as [<-|]; [auto|]. rewrite Nat.eqb_refl; auto. }
    match goal with |- exists f, match ginv m ?M with _ => _ end = _ => destruct (IH M) as [g Eg] end.
    + intros x Hx j Hj.
      pose (y := fun l => if Nat.eqb l m then (0 - rsum m (fun l => A1 m l * x l)) / A1 m m else x l).
      assert (Hy : solves (S m) A y (fun _ => 0)).
      { rewrite <- (solves_swap (S m) A y _ p m) by lia. apply (eliminate m A1 y (fun _ => 0)); auto. split.
        - apply (solves_x_ext m _ x).
          { intros l Hl. unfold y. destruct (Nat.eqb_spec l m); [lia|auto]. }
          apply (solves_b_ext _ _ _ (fun _ => 0)); [intros; ring|]. exact Hx.
        - unfold y at 1. rewrite Nat.eqb_refl. f_equal. f_equal. apply rsum_ext; intros l Hl.
          unfold y. destruct (Nat.eqb_spec l m); [lia|auto]. }
      specialize (HA y Hy j ltac:(lia)). unfold y in HA. destruct (Nat.eqb_spec j m); [lia|auto].
    + rewrite Eg. eauto.
  - exfalso. pose proof (find_pivot_none _ _ Ep) as Hz.
    assert (He : solves (S m) A (fun j => delta j m) (fun _ => 0)).
    { intros i Hi.
      rewrite (rsum_ext (S m) _ (fun j => delta j m * A i j)) by (intros; ring).
      rewrite rsum_delta by lia. apply Hz; auto. }
    specialize (HA _ He m ltac:(lia)). cbv beta in HA. rewrite delta_refl in HA. lra.
Qed.

Theorem gauss_exact : exact_solver gauss.
Proof.
  split.
  - intros n k A B X H c Hc. unfold gauss in H. destruct (ginv n A) as [f|] eqn:E; [|discriminate].
    inversion H; subst X. apply (proj1 (ginv_sound _ _ _ E)).
  - intros n k A B. unfold gauss; split.
    + intros H. destruct (ginv_complete n A H) as [f E]. rewrite E; eauto.
    + intros [X H]. destruct (ginv n A) as [f|] eqn:E; [|discriminate]. apply (proj2 (ginv_sound _ _ _ E)).
Qed.
