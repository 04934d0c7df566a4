(** An executable Cholesky factorisation and its correctness. *)
From Coq Require Import Lia Lra.
From Verif Require Import Base BaseFacts RSum LinAlgModel LinAlgSpec LinAlgFacts BestGram BenchModel BenchSpec.
Local Open Scope R_scope.

Definition schur (A : nat -> nat -> R) (i j : nat) : R := A (S i) (S j) - A (S i) O / sqrt (A O O) * (A (S j) O / sqrt (A O O)).
Fixpoint chol (n : nat) (A : nat -> nat -> R) : option (nat -> nat -> R) :=
  match n with
  | O => Some (fun _ _ => 0)
  | S n =>
    if Rlt_dec 0 (A O O) then
      match chol n (schur A) with
      | Some L => Some (fun i j => match i, j with
          | O, O => sqrt (A O O) | O, S _ => 0 | S i, O => A (S i) O / sqrt (A O O) | S i, S j => L i j end)
      | None => None
      end
    else None
  end.

Lemma schur_quad n A x : symmetric (S n) A -> 0 < A O O ->
  quad (S n) A x = (sqrt (A O O) * x O + rsum n (fun i => A (S i) O / sqrt (A O O) * x (S i))) ^ 2 + quad n (schur A) (fun i => x (S i)).
Proof.
  intros SY P. rewrite quad_S by auto.
  assert (SP : 0 < sqrt (A O O)) by (apply sqrt_lt_R0; auto).
  assert (SS : sqrt (A O O) * sqrt (A O O) = A O O) by (apply sqrt_sqrt; lra).
  set (m := rsum n (fun i => A (S i) O / sqrt (A O O) * x (S i))).
  assert (EB : rsum n (fun i => A O (S i) * x (S i)) = sqrt (A O O) * m).
  { unfold m. rewrite <- rsum_scal. apply rsum_ext. intros i Hi. rewrite (SY O (S i)) by lia. field. lra. }
  assert (E : quad n (schur A) (fun i => x (S i)) = quad n (fun i j => A (S i) (S j)) (fun i => x (S i)) - m * m).
  { unfold quad. rewrite (rsum_ext n _ (fun i => rsum n (fun j => x (S i) * A (S i) (S j) * x (S j)) - (A (S i) O / sqrt (A O O) * x (S i)) * m)).
    2:{ intros i Hi. unfold m. rewrite <- rsum_scal, <- rsum_minus. apply rsum_ext. intros; unfold schur; ring. }
    rewrite rsum_minus, rsum_scal_r. unfold m. ring. }
  rewrite EB, E. replace (A O O * (x O * x O)) with (sqrt (A O O) * sqrt (A O O) * (x O * x O)) by (rewrite SS; ring). ring.
Qed.
Lemma schur_sym n A : symmetric (S n) A -> symmetric n (schur A).
Proof. intros SY i j Hi Hj. unfold schur. rewrite (SY (S i) (S j)) by lia. ring. Qed.
Lemma quad_vanish n A x : (forall i, (i < n)%nat -> x i = 0) -> quad n A x = 0.
Proof.
  intros H. unfold quad. rewrite (rsum_ext n _ (fun _ => 0)); [apply rsum_0|]. intros i Hi.
  rewrite (rsum_ext n _ (fun _ => 0)); [apply rsum_0|]. intros j Hj. rewrite (H i Hi). ring.
Qed.
Lemma pd_corner n A : symmetric (S n) A -> pd (S n) A -> 0 < A O O.
Proof.
  intros SY P. pose proof (P (fun i => match i with O => 1 | S _ => 0 end)) as H. rewrite quad_S in H by auto.
  rewrite quad_vanish in H by auto. rewrite (rsum_ext n _ (fun _ => 0)) in H by (intros; ring). rewrite rsum_0 in H.
  assert (0 < A O O * (1 * 1) + 2 * (1 * 0) + 0); [|lra]. apply H. exists O. split; [lia|lra].
Qed.
Lemma pd_schur n A : symmetric (S n) A -> 0 < A O O -> (pd (S n) A <-> pd n (schur A)).
Proof.
  intros SY P. assert (SP : 0 < sqrt (A O O)) by (apply sqrt_lt_R0; auto). split; intros D.
  - intros y NZ. set (m := rsum n (fun i => A (S i) O / sqrt (A O O) * y i)).
    pose proof (D (fun i => match i with O => - m / sqrt (A O O) | S i => y i end)) as H.
    rewrite schur_quad in H by auto. fold m in H.
    replace (sqrt (A O O) * (- m / sqrt (A O O)) + m) with 0 in H by (field; lra).
    assert (0 < 0 ^ 2 + quad n (schur A) y); [|lra]. apply H. destruct NZ as (i & Hi & N). exists (S i). split; [lia|exact N].
  - intros x NZ. rewrite schur_quad by auto.
    set (u := sqrt (A O O) * x O + rsum n (fun i => A (S i) O / sqrt (A O O) * x (S i))).
    destruct (Classical_Prop.classic (exists i, (i < n)%nat /\ x (S i) <> 0)) as [Y|N].
    + pose proof (D (fun i => x (S i)) Y). nra.
    + assert (Z : forall i, (i < n)%nat -> x (S i) = 0).
      { intros i Hi. destruct (Req_dec (x (S i)) 0); auto. exfalso. apply N. eauto. }
      rewrite (quad_vanish n (schur A)) by auto.
      assert (U : u = sqrt (A O O) * x O). { unfold u. rewrite (rsum_ext n _ (fun _ => 0)). rewrite rsum_0. ring. intros i Hi. rewrite (Z i Hi). ring. }
      destruct NZ as ([|i] & Hi & NZ); [|exfalso; apply NZ, Z; lia].
      rewrite U. assert (0 < (sqrt (A O O) * x O) ^ 2); [|lra]. rewrite <- Rsqr_pow2. apply Rsqr_pos_lt, Rmult_integral_contrapositive_currified; lra.
Qed.

Lemma chol_exact : exact_cholesky chol.
Proof.
  intros n. induction n as [|n IH]; intros A SY.
  - split; [split; [intros _; cbn; eauto|intros _ x (i & Hi & _); lia]|]. intros L E. split; [|split]; intros; lia.
  - cbn [chol]. destruct (Rlt_dec 0 (A O O)) as [P|NP].
    2:{ split; [|discriminate]. split; [intros D; exfalso; apply NP, (pd_corner n); auto|intros [L E]; discriminate]. }
    destruct (IH (schur A) (schur_sym n A SY)) as [I1 I2]. rewrite <- (pd_schur n A SY P) in I1.
    assert (SP : 0 < sqrt (A O O)) by (apply sqrt_lt_R0; auto).
    assert (SS : sqrt (A O O) * sqrt (A O O) = A O O) by (apply sqrt_sqrt; lra).
    destruct (chol n (schur A)) as [L|].
    + split; [split; [intros _; eauto|intros _; apply I1; eauto]|]. intros L' E.
      assert (EL : L' = fun i j => match i, j with
          | O, O => sqrt (A O O) | O, S _ => 0 | S i, O => A (S i) O / sqrt (A O O) | S i, S j => L i j end) by congruence.
      destruct (I2 L eq_refl) as (T & DG & G). subst L'. split; [|split].
      * intros [|i] [|j] Hi Hj HL; try lia; [reflexivity|]. apply T; lia.
      * intros [|i] Hi; [auto|apply DG; lia].
      * intros i j Hi Hj. rewrite rsum_S_l. destruct i as [|i], j as [|j].
        -- rewrite (rsum_ext n _ (fun _ => 0)) by (intros; ring). rewrite rsum_0. lra.
        -- rewrite (rsum_ext n _ (fun _ => 0)) by (intros; ring). rewrite rsum_0, (SY O (S j)) by lia. field. lra.
        -- rewrite (rsum_ext n _ (fun _ => 0)) by (intros; ring). rewrite rsum_0. field. lra.
        -- rewrite G by lia. unfold schur. ring.
    + split; [|discriminate]. split; [intros D; apply I1 in D; destruct D; discriminate|intros [L E]; discriminate].
Qed.
