(** Lemmas for C110, part 1: the dense covariance matrix. *)
From Coq Require Import Lia Lra Arith.
From Verif Require Import Base BaseFacts NdModel NdFacts RSum LinAlgModel LinAlgSpec LinAlgFacts NoiseModel GPModel MuyGPSModel GPSpec
  TensorModel TensorSpec TensorProofs ShearModel ShearSpec ShearFlowSpec ShearProofs ShearLemmas BenchModel DenseShearModel.
Local Open Scope R_scope.

Lemma set_at_at m p q v p' q' : at_ (set_at m p q v) [p'; q'] = if (p' =? p)%nat && (q' =? q)%nat then v else at_ m [p'; q'].
Proof. reflexivity. Qed.

Lemma kernel_entry x1 y1 x2 y2 l a c : l <> 0 -> (a < 3)%nat -> (c < 3)%nat ->
  at_ (shear_kernel x1 y1 x2 y2 1 l) [a; c] = cform l a c (x1 - x2) (y1 - y2).
Proof.
  intros Hl Ha Hc. unfold shear_kernel. cbv zeta. rewrite !set_at_at.
  destruct a as [|[|[|a]]]; [| | |lia]; (destruct c as [|[|[|c]]]; [| | |lia]); cbn [Nat.eqb andb];
    unfold cform; cbn [obs]; cbv zeta;
    unfold kk_f, kg1_f, kg2_f, g1g1_f, g1g2_f, g2g2_f, kk_fn, kg1_fn, kg2_fn, g1g1_fn, g1g2_fn, g2g2_fn;
    try replace 0.25 with (1 / 4) by lra; try replace 0.5 with (1 / 2) by lra; field; auto.
Qed.

Lemma for_range_S {A} n body (s : A) : for_range (S n) body s = body (for_range n body s) n.
Proof. unfold for_range. rewrite seq_S, fold_left_app. reflexivity. Qed.

Lemma block_eqb n p a i : (i < n)%nat -> (p =? a * n + i)%nat = (p mod n =? i)%nat && (p / n =? a)%nat.
Proof.
  intros Hi. assert (n <> 0)%nat as N by lia. destruct (Nat.eqb_spec p (a * n + i)) as [->|NE].
  - rewrite Nat.add_comm, Nat.mod_add, Nat.div_add, Nat.mod_small, Nat.div_small by lia. rewrite !Nat.eqb_refl. reflexivity.
  - destruct (Nat.eqb_spec (p mod n) i) as [E|]; [|reflexivity]. destruct (Nat.eqb_spec (p / n) a) as [E'|]; [|reflexivity].
    exfalso. apply NE. rewrite (Nat.div_mod p n N) at 1. rewrite E, E'. lia.
Qed.

Section Loops.
Variables (n1 n2 : nat) (F : nat -> nat -> nat -> nat -> R).

(** The nine assignments for one pair of points. *)
Definition nine (i j : nat) (vals : nd R) : nd R :=
  for_range 3 (fun vals a => for_range 3 (fun vals b => set_at vals (a * n1 + i) (b * n2 + j) (F i j a b)) vals) vals.
Lemma nine_shape i j vals : shape (nine i j vals) = shape vals.
Proof. reflexivity. Qed.
Lemma nine_at i j vals p q : (i < n1)%nat -> (j < n2)%nat -> (p < 3 * n1)%nat -> (q < 3 * n2)%nat ->
  at_ (nine i j vals) [p; q] = if (p mod n1 =? i)%nat && (q mod n2 =? j)%nat then F i j (p / n1) (q / n2) else at_ vals [p; q].
Proof.
  intros Hi Hj Hp Hq. unfold nine. unfold for_range. cbn [seq fold_left]. rewrite !set_at_at, !block_eqb by auto.
  assert (p / n1 < 3)%nat as Ha by (apply Nat.div_lt_upper_bound; lia).
  assert (q / n2 < 3)%nat as Hc by (apply Nat.div_lt_upper_bound; lia).
  destruct (p mod n1 =? i)%nat; destruct (q mod n2 =? j)%nat; cbn [andb]; try reflexivity.
  - destruct (p / n1)%nat as [|[|[|a]]]; [| | |lia]; (destruct (q / n2)%nat as [|[|[|c]]]; [| | |lia]); cbn [Nat.eqb andb]; reflexivity.
  - destruct (p / n1 =? 2)%nat, (p / n1 =? 1)%nat, (p / n1 =? 0)%nat; cbn [andb]; reflexivity.
Qed.

Lemma row_at i N vals : (i < n1)%nat -> (N <= n2)%nat ->
  shape (for_range N (fun vals j => nine i j vals) vals) = shape vals /\
  forall p q, (p < 3 * n1)%nat -> (q < 3 * n2)%nat ->
  at_ (for_range N (fun vals j => nine i j vals) vals) [p; q] =
    if (p mod n1 =? i)%nat && (q mod n2 <? N)%nat then F i (q mod n2) (p / n1) (q / n2) else at_ vals [p; q].
Proof.
  intros Hi. induction N as [|N IH]; intros HN.
  - split; [reflexivity|]. intros p q Hp Hq. cbn. rewrite andb_false_r. reflexivity.
  - destruct (IH ltac:(lia)) as [IS IV]. rewrite for_range_S. split; [exact IS|]. intros p q Hp Hq.
    rewrite nine_at by (auto; lia). rewrite IV by auto.
    destruct (Nat.eqb_spec (p mod n1) i) as [Ep|Ep]; cbn [andb]; [|reflexivity].
    destruct (Nat.eqb_spec (q mod n2) N) as [Eq|Eq]; destruct (Nat.ltb_spec (q mod n2) N) as [L|L];
      destruct (Nat.ltb_spec (q mod n2) (S N)) as [L'|L']; cbn [andb]; try lia; try reflexivity.
    rewrite Eq. reflexivity.
Qed.

Lemma all_at N vals : (N <= n1)%nat ->
  shape (for_range N (fun vals i => for_range n2 (fun vals j => nine i j vals) vals) vals) = shape vals /\
  forall p q, (p < 3 * n1)%nat -> (q < 3 * n2)%nat ->
  at_ (for_range N (fun vals i => for_range n2 (fun vals j => nine i j vals) vals) vals) [p; q] =
    if (p mod n1 <? N)%nat then F (p mod n1) (q mod n2) (p / n1) (q / n2) else at_ vals [p; q].
Proof.
  induction N as [|N IH]; intros HN.
  - split; reflexivity.
  - destruct (IH ltac:(lia)) as [IS IV]. rewrite for_range_S.
    destruct (row_at N n2 (for_range N (fun vals i => for_range n2 (fun vals j => nine i j vals) vals) vals) ltac:(lia) (le_n _)) as [RS RV].
    split; [rewrite RS; exact IS|]. intros p q Hp Hq. rewrite RV, IV by auto.
    assert (q mod n2 < n2)%nat as Hm by (apply Nat.mod_upper_bound; lia).
    rewrite (proj2 (Nat.ltb_lt (q mod n2) n2) Hm), andb_true_r.
    destruct (Nat.eqb_spec (p mod n1) N) as [E|E]; destruct (Nat.ltb_spec (p mod n1) N) as [L|L];
      destruct (Nat.ltb_spec (p mod n1) (S N)) as [L'|L']; try lia; try reflexivity.
    rewrite E. reflexivity.
Qed.
End Loops.

(** The matrix of covariances of all observables of the rows of [X1] with those of the rows of [X2]. *)
Lemma conventional_shear_ok nan X1 X2 l n1 n2 : l <> 0 -> shape X1 = [n1; 2]%nat -> shape X2 = [n2; 2]%nat ->
  exists V, conventional_shear nan X1 (Some X2) l = Ok V /\ shape V = [3 * n1; 3 * n2]%nat /\
    forall p q, (p < 3 * n1)%nat -> (q < 3 * n2)%nat ->
      at_ V [p; q] = shear_cov l (obs (p / n1)) (obs (q / n2)) (feature X1 (p mod n1)) (feature X2 (q mod n2)).
Proof.
  intros Hl S1 S2. unfold conventional_shear. rewrite S1, S2. cbn [Nat.eqb negb orb andb].
  rewrite andb_false_r. cbn [orb]. rewrite andb_false_r.
  eexists. split; [reflexivity|].
  pose proof (all_at n1 n2 (fun i j a b => at_ (shear_kernel (at_ X1 [i; 0]%nat) (at_ X1 [i; 1]%nat) (at_ X2 [j; 0]%nat) (at_ X2 [j; 1]%nat) 1 l) [a; b])
    n1 (mkNd [3 * n1; 3 * n2]%nat (fun _ => nan)) (le_n _)) as [AS AV].
  split; [exact AS|]. intros p q Hp Hq.
  etransitivity; [exact (AV p q Hp Hq)|].
  assert (p mod n1 < n1)%nat as Hm by (apply Nat.mod_upper_bound; lia).
  rewrite (proj2 (Nat.ltb_lt (p mod n1) n1) Hm).
  rewrite kernel_entry by (auto; apply Nat.div_lt_upper_bound; lia).
  rewrite cov_closed by auto. unfold feature. rewrite S1, S2. reflexivity.
Qed.
