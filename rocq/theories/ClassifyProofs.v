(** Proofs about the classification workflows. *)
From Coq Require Import Lia Lra.
From Verif Require Import Base BaseFacts NdModel NdFacts LinAlgModel LinAlgFacts TensorModel TensorSpec TensorProofs
  FlowSpec FlowProofs ClassifyModel ClassifySpec.
Local Open Scope R_scope.

Lemma np_max_le n f i : (i <= n)%nat -> f i <= np_max n f.
Proof.
  induction n as [|n IH]; intros H; cbn.
  - replace i with O by lia. lra.
  - destruct (Nat.eq_dec i (S n)) as [->|]; [apply Rmax_r|].
    eapply Rle_trans; [apply IH; lia|apply Rmax_l].
Qed.
Lemma np_min_le n f i : (i <= n)%nat -> np_min n f <= f i.
Proof.
  induction n as [|n IH]; intros H; cbn.
  - replace i with O by lia. lra.
  - destruct (Nat.eq_dec i (S n)) as [->|]; [apply Rmin_r|].
    eapply Rle_trans; [apply Rmin_l|apply IH; lia].
Qed.
Lemma np_max_const n f : (forall i, (i <= n)%nat -> f i = f O) -> np_max n f = f O.
Proof.
  intros H. induction n as [|n IH]; cbn; auto. rewrite IH by (intros; apply H; lia).
  rewrite (H (S n)) by lia. apply Rmax_left. lra.
Qed.
Lemma np_min_const n f : (forall i, (i <= n)%nat -> f i = f O) -> np_min n f = f O.
Proof.
  intros H. induction n as [|n IH]; cbn; auto. rewrite IH by (intros; apply H; lia).
  rewrite (H (S n)) by lia. apply Rmin_left. lra.
Qed.

Lemma nonconstant_false w L x : (0 < w)%nat ->
  (nonconstant w L x = false <-> forall j, (j < w)%nat -> at_ L [x; j; O] = at_ L [x; O; O]).
Proof.
  intros Hw. unfold nonconstant, Reqb. destruct (Req_EM_T _ _) as [E|E]; cbn [negb]; split; intros H; try discriminate; auto.
  - intros j Hj. pose proof (np_max_le (w - 1) (fun j => at_ L [x; j; O]) j ltac:(lia)).
    pose proof (np_max_le (w - 1) (fun j => at_ L [x; j; O]) O ltac:(lia)).
    pose proof (np_min_le (w - 1) (fun j => at_ L [x; j; O]) j ltac:(lia)).
    pose proof (np_min_le (w - 1) (fun j => at_ L [x; j; O]) O ltac:(lia)). cbn in *. lra.
  - exfalso. apply E. rewrite np_max_const, np_min_const; auto; intros i Hi; apply H; lia.
Qed.

(** Positions among selected rows. *)
Lemma where_S t mask : where_ (S t) mask = where_ t mask ++ (if mask t then [t] else []).
Proof. unfold where_. rewrite seq_S, filter_app. cbn. destruct (mask t); reflexivity. Qed.

Lemma where_rank t mask x : (x < t)%nat -> mask x = true ->
  (rank mask x < List.length (where_ t mask))%nat /\ nth (rank mask x) (where_ t mask) O = x.
Proof.
  intros Hx Hm. induction t as [|t IH]; [lia|]. rewrite where_S, app_length.
  destruct (Nat.eq_dec x t) as [->|].
  - rewrite Hm. cbn. unfold rank. split; [lia|]. rewrite app_nth2, Nat.sub_diag by lia. reflexivity.
  - destruct IH as [H1 H2]; [lia|]. split; [lia|]. rewrite app_nth1; auto.
Qed.

Lemma where_nth t mask i : (i < List.length (where_ t mask))%nat ->
  (nth i (where_ t mask) O < t)%nat /\ mask (nth i (where_ t mask) O) = true.
Proof.
  intros Hi. pose proof (nth_In (where_ t mask) O Hi) as H. unfold where_ in H at 2.
  apply filter_In in H as [H1 H2]. apply in_seq in H1. split; [lia|auto].
Qed.

Lemma bidx_same2 {A} (P : nd A) k C i c : shape P = [k; C] -> (i < k)%nat -> (c < C)%nat ->
  at_ P (bidx (shape P) [i; c]) = at_ P [i; c].
Proof.
  intros HP Hi Hc. rewrite HP. f_equal. unfold bidx. cbn.
  destruct (Nat.eqb_spec C 1) as [->|]; destruct (Nat.eqb_spec k 1) as [->|]; cbn; repeat f_equal; lia.
Qed.
Lemma bidx_same1 {A} (P : nd A) k i : shape P = [k] -> (i < k)%nat ->
  at_ P (bidx (shape P) [i]) = at_ P [i].
Proof.
  intros HP Hi. rewrite HP. f_equal. unfold bidx. cbn.
  destruct (Nat.eqb_spec k 1) as [->|]; cbn; repeat f_equal; lia.
Qed.

Lemma fits_rows_same {A} (P : nd A) k sh : shape P = k :: sh -> fits_rows P k sh = true.
Proof. intros H. unfold fits_rows. rewrite H, bshape_refl. apply list_eqb_refl. Qed.

Lemma label_tensor (labels : nd R) test_nn N C t w q : shape labels = [N; C] -> index_matrix test_nn t w N q ->
  exists L, take labels test_nn = Ok L /\ shape L = [t; w; C] /\
    forall x j c, (x < t)%nat -> (j < w)%nat -> at_ L [x; j; c] = at_ labels [q x j; c].
Proof. intros H1 H2. exact (target_tensor labels test_nn N t w q C H1 H2). Qed.

Lemma query_where test_nn t w mask n : shape test_nn = [n; w] ->
  query test_nn (index_vector (where_ t mask)) (select_rows test_nn (where_ t mask))
    (List.length (where_ t mask)) w (fun i => nth i (where_ t mask) O).
Proof.
  intros H. split; [reflexivity|]. split; [unfold select_rows; cbn [shape]; rewrite H; reflexivity|].
  intros i Hi. split; reflexivity.
Qed.

Lemma classify_value surrogate labels test_nn N C t w q f :
  shape labels = [N; S C] -> index_matrix test_nn t (S w) N q -> (0 < N)%nat ->
  answers surrogate test_nn t (S w) (S C) (fun x => ~ agree_first labels (S w) q x) f ->
  exists out, classify_any surrogate labels test_nn = Ok out /\ shape out = [t; S C] /\
    forall x c, (x < t)%nat -> (c < S C)%nat ->
      (agree_first labels (S w) q x -> at_ out [x; c] = at_ labels [q x O; c]) /\
      (~ agree_first labels (S w) q x -> f x c (at_ out [x; c])).
Proof.
  intros Hl Hn HN Hans. destruct (label_tensor labels test_nn N (S C) t (S w) q Hl Hn) as (L & EL & SL & HL).
  assert (Hc : forall x, (x < t)%nat -> (nonconstant (S w) L x = false <-> agree_first labels (S w) q x)).
  { intros x Hx. rewrite nonconstant_false by lia. unfold agree_first. split; intros H j Hj; specialize (H j Hj).
    - rewrite !HL in H by (auto; lia). exact H.
    - rewrite !HL by (auto; lia). exact H. }
  unfold classify_any. rewrite Hl. destruct (Nat.eqb_spec N 0); [lia|]. cbn [Nat.eqb].
  rewrite EL; cbn [bind]. rewrite SL. cbn [Nat.eqb andb].
  destruct (Nat.eqb_spec (List.length (where_ t (nonconstant (S w) L))) 0) as [E|E].
  - eexists. split; [reflexivity|]. split; [reflexivity|]. intros x c Hx Hcc. cbn [at_].
    rewrite HL by (auto; lia). split; [auto|]. intros H. exfalso.
    destruct (nonconstant (S w) L x) eqn:Em; [|apply H, Hc; auto].
    destruct (where_rank t (nonconstant (S w) L) x Hx Em) as [H1 _]. lia.
  - destruct (Hans _ _ _ _ ltac:(apply Nat.neq_0_lt_0; exact E) (query_where test_nn t (S w) (nonconstant (S w) L) t (proj1 Hn))) as (P & EP & SP & HP).
    { intros i Hi. destruct (where_nth t (nonconstant (S w) L) i Hi) as [H1 H2]. split; auto.
      intros H. apply Hc in H; auto. congruence. }
    rewrite EP; cbn [bind]. rewrite (fits_rows_same P _ _ SP). eexists. split; [reflexivity|]. split; [reflexivity|].
    intros x c Hx Hcc. cbn [at_]. destruct (nonconstant (S w) L x) eqn:Em.
    + split; intros H; [apply Hc in H; auto; congruence|].
      destruct (where_rank t (nonconstant (S w) L) x Hx Em) as [H1 H2].
      rewrite (bidx_same2 P _ _ _ _ SP) by auto. rewrite <- H2 at 1. apply HP; auto.
    + rewrite HL by (auto; lia). split; [auto|]. intros H. exfalso. apply H, Hc; auto.
Qed.

Lemma uq_value surrogate labels test_nn N t w q f g :
  shape labels = [N; 2%nat] -> index_matrix test_nn t (S w) N q ->
  answers_uq surrogate test_nn t (S w) 2 (fun x => ~ agree_first labels (S w) q x) f g ->
  exists M V, classify_two_class_uq surrogate labels test_nn = Ok (M, V) /\ shape M = [t; 2%nat] /\ shape V = [t] /\
    forall x, (x < t)%nat ->
      (agree_first labels (S w) q x -> at_ V [x] = 0 /\ forall c, (c < 2)%nat -> at_ M [x; c] = at_ labels [q x O; c]) /\
      (~ agree_first labels (S w) q x -> g x (at_ V [x]) /\ forall c, (c < 2)%nat -> f x c (at_ M [x; c])).
Proof.
  intros Hl Hn Hans. destruct (label_tensor labels test_nn N 2 t (S w) q Hl Hn) as (L & EL & SL & HL).
  assert (Hc : forall x, (x < t)%nat -> (nonconstant (S w) L x = false <-> agree_first labels (S w) q x)).
  { intros x Hx. rewrite nonconstant_false by lia. unfold agree_first. split; intros H j Hj; specialize (H j Hj).
    - rewrite !HL in H by (auto; lia). exact H.
    - rewrite !HL by (auto; lia). exact H. }
  unfold classify_two_class_uq. rewrite EL; cbn [bind]. rewrite SL. cbn [Nat.eqb andb orb negb].
  destruct (Nat.eqb_spec (List.length (where_ t (nonconstant (S w) L))) 0) as [E|E].
  - eexists _, _. split; [reflexivity|]. split; [reflexivity|]. split; [reflexivity|]. intros x Hx. cbn [at_].
    split; [intros _; split; auto; intros c _; apply HL; auto; lia|]. intros H. exfalso.
    destruct (nonconstant (S w) L x) eqn:Em; [|apply H, Hc; auto].
    destruct (where_rank t (nonconstant (S w) L) x Hx Em) as [H1 _]. lia.
  - destruct (Hans _ _ _ _ ltac:(apply Nat.neq_0_lt_0; exact E) (query_where test_nn t (S w) (nonconstant (S w) L) t (proj1 Hn))) as (P & V & EP & SP & SV & HP & HV).
    { intros i Hi. destruct (where_nth t (nonconstant (S w) L) i Hi) as [H1 H2]. split; auto.
      intros H. apply Hc in H; auto. congruence. }
    rewrite EP; cbn [bind]. rewrite (fits_rows_same P _ _ SP), (fits_rows_same V _ _ SV).
    eexists _, _. split; [reflexivity|]. split; [reflexivity|]. split; [reflexivity|].
    intros x Hx. cbn [at_]. destruct (nonconstant (S w) L x) eqn:Em.
    + split; intros H; [apply Hc in H; auto; congruence|].
      destruct (where_rank t (nonconstant (S w) L) x Hx Em) as [H1 H2].
      rewrite (bidx_same1 V _ _ SV) by auto. split; [rewrite <- H2 at 1; apply HV; auto|].
      intros c Hcc. rewrite (bidx_same2 P _ _ _ _ SP) by auto. rewrite <- H2 at 1. apply HP; auto.
    + split; [intros _; split; auto; intros c _; apply HL; auto; lia|]. intros H. exfalso. apply H, Hc; auto.
Qed.

(** Two classes: the first column decides. *)
Lemma two_class_agree labels N lo hi cl q x w : one_hot labels N 2 lo hi cl ->
  (forall j, (j < w)%nat -> (q x j < N)%nat) -> (0 < w)%nat ->
  (agree_first labels w q x <-> forall j, (j < w)%nat -> cl (q x j) = cl (q x O)) /\
  (agree labels 2 w q x <-> forall j, (j < w)%nat -> cl (q x j) = cl (q x O)).
Proof.
  intros (Hne & _ & H) Hq Hw.
  assert (A : agree_first labels w q x -> forall j, (j < w)%nat -> cl (q x j) = cl (q x O)).
  { intros Ha j Hj. specialize (Ha j Hj). destruct (H _ (Hq j Hj)) as [L1 E1]. destruct (H _ (Hq O Hw)) as [L2 E2].
    rewrite (E1 O), (E2 O) in Ha by lia.
    destruct (cl (q x j)) as [|[|a]], (cl (q x O)) as [|[|b]]; try lia; cbn in Ha; congruence. }
  assert (B : (forall j, (j < w)%nat -> cl (q x j) = cl (q x O)) -> agree labels 2 w q x).
  { intros Ha j c Hj Hc. destruct (H _ (Hq j Hj)) as [L1 E1]. destruct (H _ (Hq O Hw)) as [L2 E2].
    rewrite (E1 c), (E2 c), (Ha j Hj) by lia. reflexivity. }
  assert (D : agree labels 2 w q x -> agree_first labels w q x).
  { intros Ha j Hj. apply Ha; auto. }
  tauto.
Qed.

Lemma agree_agree_first labels C w q x : agree labels (S C) w q x -> agree_first labels w q x.
Proof. intros H j Hj. apply H; auto; lia. Qed.

Lemma classify_two surrogate labels test_nn N t w q lo hi cl f :
  one_hot labels N 2 lo hi cl -> index_matrix test_nn t (S w) N q -> (0 < N)%nat ->
  answers surrogate test_nn t (S w) 2 (fun x => exists j, (j < S w)%nat /\ cl (q x j) <> cl (q x O)) f ->
  exists out, classify_any surrogate labels test_nn = Ok out /\ shape out = [t; 2%nat] /\
    forall x c, (x < t)%nat -> (c < 2)%nat ->
      ((forall j, (j < S w)%nat -> cl (q x j) = cl (q x O)) -> at_ out [x; c] = if (c =? cl (q x O))%nat then hi else lo) /\
      ((exists j, (j < S w)%nat /\ cl (q x j) <> cl (q x O)) -> f x c (at_ out [x; c])).
Proof.
  intros Ho Hn HN Hans.
  assert (Hq : forall x j, (x < t)%nat -> (j < S w)%nat -> (q x j < N)%nat) by (intros; apply Hn; auto).
  assert (Hex : forall x, (x < t)%nat -> ~ agree_first labels (S w) q x ->
     exists j, (j < S w)%nat /\ cl (q x j) <> cl (q x O)).
  { intros x Hx H. assert (Hd : forall n, (n <= S w)%nat -> (forall j, (j < n)%nat -> cl (q x j) = cl (q x O)) \/
        exists j, (j < n)%nat /\ cl (q x j) <> cl (q x O)).
    { induction n as [|n IH]; intros Hn'; [left; lia|]. destruct IH as [A|(j & Hj & A)]; [lia| |].
      - destruct (Nat.eq_dec (cl (q x n)) (cl (q x O))) as [E|E].
        + left. intros j Hj. destruct (Nat.eq_dec j n) as [->|]; auto. apply A; lia.
        + right. exists n. split; [lia|auto].
      - right. exists j. split; [lia|auto]. }
    destruct (Hd (S w) ltac:(lia)) as [A|A]; auto. exfalso. apply H.
    apply (proj1 (two_class_agree labels N lo hi cl q x (S w) Ho (fun j Hj => Hq x j Hx Hj) (Nat.lt_0_succ w))); auto. }
  destruct (classify_value surrogate labels test_nn N 1 t w q f) as (out & E & So & H); auto.
  { apply Ho. }
  { intros ix nn k r Hk Hqr Hr. apply (Hans ix nn k r Hk Hqr). intros i Hi. destruct (Hr i Hi) as [A B]. split; auto. }
  exists out. split; auto. split; auto. intros x c Hx Hc. destruct (H x c Hx Hc) as [A B]. split.
  - intros Hcl. rewrite A.
    + destruct Ho as (_ & _ & Ho). destruct (Ho (q x O) ltac:(apply Hq; auto; lia)) as [_ Ho']. apply Ho'; auto.
    + apply (proj1 (two_class_agree labels N lo hi cl q x (S w) Ho (fun j Hj => Hq x j Hx Hj) (Nat.lt_0_succ w))); auto.
  - intros (j & Hj & Hne). apply B. intros Ha. apply Hne.
    apply (proj1 (two_class_agree labels N lo hi cl q x (S w) Ho (fun j Hj => Hq x j Hx Hj) (Nat.lt_0_succ w))); auto.
Qed.

(** More classes: whenever no neighbour is of class 0 the first column is constant. *)
Lemma classify_skips surrogate labels test_nn N C t w q lo hi cl f :
  one_hot labels N (S C) lo hi cl -> index_matrix test_nn t (S w) N q -> (0 < N)%nat ->
  answers surrogate test_nn t (S w) (S C) (fun x => ~ agree_first labels (S w) q x) f ->
  exists out, classify_any surrogate labels test_nn = Ok out /\
    forall x c, (x < t)%nat -> (c < S C)%nat -> (forall j, (j < S w)%nat -> cl (q x j) <> O) ->
      at_ out [x; c] = if (c =? cl (q x O))%nat then hi else lo.
Proof.
  intros Ho Hn HN Hans.
  destruct (classify_value surrogate labels test_nn N C t w q f) as (out & E & So & H); auto; [apply Ho|].
  exists out. split; auto. intros x c Hx Hc Hnz. destruct (H x c Hx Hc) as [A _].
  destruct Ho as (_ & _ & Ho).
  assert (Hq : forall j, (j < S w)%nat -> (q x j < N)%nat) by (intros; apply Hn; auto).
  rewrite A.
  - destruct (Ho (q x O) ltac:(apply Hq; lia)) as [_ Ho']. apply Ho'; auto.
  - intros j Hj. destruct (Ho (q x j) (Hq j Hj)) as [_ H1]. destruct (Ho (q x O) ltac:(apply Hq; lia)) as [_ H2].
    rewrite (H1 O), (H2 O) by lia. pose proof (Hnz j Hj). pose proof (Hnz O ltac:(lia)).
    destruct (cl (q x j)); [lia|]. destruct (cl (q x O)); [lia|]. reflexivity.
Qed.
