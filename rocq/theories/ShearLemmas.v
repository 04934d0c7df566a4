(** Entries and layout of the shear kernels, and the calls of the functors. *)
From Coq Require Import Lia Lra.
From Coquelicot Require Import Coquelicot.
From Verif Require Import Base BaseFacts NdModel NdFacts RSum LinAlgSpec FastProofs ShearModel ShearSpec ShearProofs.
Local Open Scope R_scope.

Lemma set_block_at f a c v p a' i c' j :
  at_ (set_block f a c v) (p ++ [a'; i; c'; j]) =
  if (a' =? a)%nat && (c' =? c)%nat then v (p ++ [i; j]) else at_ f (p ++ [a'; i; c'; j]).
Proof.
  unfold set_block. cbn [at_]. rewrite app_length. cbn [List.length].
  replace (List.length p + 4 - 4)%nat with (List.length p) by lia.
  rewrite skipn_app, skipn_all, Nat.sub_diag. cbn [skipn app].
  rewrite firstn_app, firstn_all, Nat.sub_diag. cbn [firstn]. rewrite app_nil_r. reflexivity.
Qed.

Section entry.
  Variables (t : nd R) (l u v : R) (idx : list nat).
  Hypothesis Hu : at_ t (idx ++ [0%nat]) = u.
  Hypothesis Hv : at_ t (idx ++ [1%nat]) = v.
  Ltac go := unfold kk, kg1, kg2, g1g1, g1g2, g2g2, exp_diffs, sum_sq_diffs, prod_sq_diffs, sum_quad_diffs, prod_diffs,
    diff_xy_quad_diffs, diff_yx_sq_diffs, diff_xy_sq_diffs, quad_diffs, sq_diffs; cbn [rsum rprod]; rewrite Hu, Hv;
    unfold cform; cbn [obs]; f_equal; try ring; try (f_equal; f_equal; ring).
  Lemma kk_eq : kk t 2 l idx = cform l 0 0 u v. Proof. go. Qed.
  Lemma kg1_eq : kg1 t 2 l idx = cform l 0 1 u v. Proof. go. Qed.
  Lemma kg2_eq : kg2 t 2 l idx = cform l 0 2 u v. Proof. go. Qed.
  Lemma g1g1_eq : g1g1 t 2 l idx = cform l 1 1 u v. Proof. go. Qed.
  Lemma g1g2_eq : g1g2 t 2 l idx = cform l 1 2 u v. Proof. go. Qed.
  Lemma g2g2_eq : g2g2 t 2 l idx = cform l 2 2 u v. Proof. go. Qed.
End entry.

Lemma cform_swap l a c u v : cform l a c u v = cform l c a u v.
Proof. unfold cform. destruct (obs a), (obs c); reflexivity. Qed.

Lemma cform_neg l a c u v : cform l a c (- u) (- v) = cform l a c u v.
Proof.
  unfold cform. replace ((- u) ^ 2) with (u ^ 2) by ring. replace ((- v) ^ 2) with (v ^ 2) by ring.
  replace ((- u) ^ 4) with (u ^ 4) by ring. replace ((- v) ^ 4) with (v ^ 4) by ring.
  replace (- u * - v) with (u * v) by ring. reflexivity.
Qed.

(** Entries before the final squeeze. *)
Definition entries (l : R) (ia ic : nat -> nat) (p q : nat) (diffs full : nd R) (pre : list nat) (n m : nat) : Prop :=
  shape full = (pre ++ [p; n; q; m])%list /\
  forall z a i c j, (a < p)%nat -> (c < q)%nat ->
    at_ full (z ++ [a; i; c; j]) = cform l (ia a) (ic c) (at_ diffs (z ++ [i; j; 0%nat])) (at_ diffs (z ++ [i; j; 1%nat])).

Ltac frame H := unfold shear_33_fn, shear_Kin23_fn, shear_Kcross23_fn, shear_frame; rewrite H, rev_app_distr;
  cbn [rev app Nat.ltb Nat.leb]; eexists; split; [reflexivity|]; split;
  [cbn [shape set_block]; rewrite rev_involutive; reflexivity|].
Ltac blocks := intros z a i c j Ha Hc; cbv zeta; rewrite !set_block_at;
  assert (E0 : forall k, at_ _ ((z ++ [i; j]) ++ [k]) = _) by (intros; rewrite <- app_assoc; reflexivity).

Lemma entries33 l diffs pre n m : shape diffs = (pre ++ [n; m; 2%nat])%list ->
  exists full, shear_33_fn l diffs = Ok (squeeze full) /\ entries l (fun a => a) (fun c => c) 3 3 diffs full pre n m.
Proof.
  intros H. frame H. intros z a i c j Ha Hc. cbv zeta. rewrite !set_block_at.
  assert (E0 : at_ diffs ((z ++ [i; j]) ++ [0%nat]) = at_ diffs (z ++ [i; j; 0%nat])) by (rewrite <- app_assoc; reflexivity).
  assert (E1 : at_ diffs ((z ++ [i; j]) ++ [1%nat]) = at_ diffs (z ++ [i; j; 1%nat])) by (rewrite <- app_assoc; reflexivity).
  rewrite (kk_eq diffs l _ _ _ E0 E1), (kg1_eq diffs l _ _ _ E0 E1), (kg2_eq diffs l _ _ _ E0 E1),
    (g1g1_eq diffs l _ _ _ E0 E1), (g1g2_eq diffs l _ _ _ E0 E1), (g2g2_eq diffs l _ _ _ E0 E1).
  destruct a as [|[|[|a]]]; [| | |lia]; (destruct c as [|[|[|c]]]; [| | |lia]);
    cbn [Nat.eqb andb]; try reflexivity; apply cform_swap.
Qed.

Lemma entriesKin23 l diffs pre n m : shape diffs = (pre ++ [n; m; 2%nat])%list ->
  exists full, shear_Kin23_fn l diffs = Ok (squeeze full) /\ entries l S S 2 2 diffs full pre n m.
Proof.
  intros H. frame H. intros z a i c j Ha Hc. cbv zeta. rewrite !set_block_at.
  assert (E0 : at_ diffs ((z ++ [i; j]) ++ [0%nat]) = at_ diffs (z ++ [i; j; 0%nat])) by (rewrite <- app_assoc; reflexivity).
  assert (E1 : at_ diffs ((z ++ [i; j]) ++ [1%nat]) = at_ diffs (z ++ [i; j; 1%nat])) by (rewrite <- app_assoc; reflexivity).
  rewrite (g1g1_eq diffs l _ _ _ E0 E1), (g1g2_eq diffs l _ _ _ E0 E1), (g2g2_eq diffs l _ _ _ E0 E1).
  destruct a as [|[|a]]; [| |lia]; (destruct c as [|[|c]]; [| |lia]);
    cbn [Nat.eqb andb]; try reflexivity; apply cform_swap.
Qed.

Lemma entriesKcross23 l diffs pre n m : shape diffs = (pre ++ [n; m; 2%nat])%list ->
  exists full, shear_Kcross23_fn l diffs = Ok (squeeze full) /\ entries l S (fun c => c) 2 3 diffs full pre n m.
Proof.
  intros H. frame H. intros z a i c j Ha Hc. cbv zeta. rewrite !set_block_at.
  assert (E0 : at_ diffs ((z ++ [i; j]) ++ [0%nat]) = at_ diffs (z ++ [i; j; 0%nat])) by (rewrite <- app_assoc; reflexivity).
  assert (E1 : at_ diffs ((z ++ [i; j]) ++ [1%nat]) = at_ diffs (z ++ [i; j; 1%nat])) by (rewrite <- app_assoc; reflexivity).
  rewrite (kg1_eq diffs l _ _ _ E0 E1), (kg2_eq diffs l _ _ _ E0 E1),
    (g1g1_eq diffs l _ _ _ E0 E1), (g1g2_eq diffs l _ _ _ E0 E1), (g2g2_eq diffs l _ _ _ E0 E1).
  destruct a as [|[|a]]; [| |lia]; (destruct c as [|[|[|c]]]; [| | |lia]);
    cbn [Nat.eqb andb]; try reflexivity; apply cform_swap.
Qed.

(** ** Entries as covariances *)
Lemma cform_cov l a c x y : l <> 0 ->
  cform l a c (x 0%nat - y 0%nat) (x 1%nat - y 1%nat) = shear_cov l (obs a) (obs c) x y.
Proof. intros. symmetry. apply cov_closed; auto. Qed.

Lemma cov_sym l a c x y : l <> 0 -> shear_cov l (obs a) (obs c) x y = shear_cov l (obs c) (obs a) y x.
Proof.
  intros Hl. rewrite !cov_closed by auto. rewrite cform_swap, <- cform_neg. f_equal; ring.
Qed.

(** ** Calls *)
Lemma call33_pairwise cur kw adj diffs b n : shape diffs = [b; n; n; 2]%nat -> b <> 1%nat -> n <> 1%nat ->
  exists K, shear33_call cur diffs adj kw = Ok K /\ shape K = [b; 3; n; 3; n]%nat /\
    forall x a i c j, (x < b)%nat -> (a < 3)%nat -> (i < n)%nat -> (c < 3)%nat -> (j < n)%nat ->
      at_ K [x; a; i; c; j] = cform (pick cur kw) a c (at_ diffs [x; i; j; 0%nat]) (at_ diffs [x; i; j; 1%nat]).
Proof.
  intros H Hb Hn.
  assert (E : shear33_call cur diffs adj kw = shear_33_fn (pick cur kw) diffs).
  { unfold shear33_call, looks_crosswise. rewrite H. cbn [rev app]. rewrite Nat.eqb_refl. destruct adj; reflexivity. }
  rewrite E. destruct (entries33 (pick cur kw) diffs [b] n n H) as (full & EF & SF & HF).
  cbn [app] in SF. destruct (squeeze_none full) as [S1 S2].
  { rewrite SF. cbn. intros d. intuition lia. }
  exists (squeeze full). split; auto. split; [congruence|].
  intros x a i c j Hx Ha Hi Hc Hj. rewrite S2 by (rewrite SF; apply inb5; auto).
  apply (HF [x] a i c j); auto.
Qed.

Lemma call23_pairwise cur kw adj diffs b n : shape diffs = [b; n; n; 2]%nat -> b <> 1%nat -> n <> 1%nat ->
  exists K, shear23_call cur diffs adj false kw = Ok K /\ shape K = [b; 2; n; 2; n]%nat /\
    forall x a i c j, (x < b)%nat -> (a < 2)%nat -> (i < n)%nat -> (c < 2)%nat -> (j < n)%nat ->
      at_ K [x; a; i; c; j] = cform (pick cur kw) (S a) (S c) (at_ diffs [x; i; j; 0%nat]) (at_ diffs [x; i; j; 1%nat]).
Proof.
  intros H Hb Hn.
  assert (E : shear23_call cur diffs adj false kw = shear_Kin23_fn (pick cur kw) diffs).
  { unfold shear23_call, looks_crosswise. rewrite H. cbn [rev app]. rewrite Nat.eqb_refl. destruct adj; reflexivity. }
  rewrite E. destruct (entriesKin23 (pick cur kw) diffs [b] n n H) as (full & EF & SF & HF).
  cbn [app] in SF. destruct (squeeze_none full) as [S1 S2].
  { rewrite SF. cbn. intros d. intuition lia. }
  exists (squeeze full). split; auto. split; [congruence|].
  intros x a i c j Hx Ha Hi Hc Hj. rewrite S2 by (rewrite SF; apply inb5; auto).
  apply (HF [x] a i c j); auto.
Qed.

Lemma insert_axis_ok t b n d : shape t = [b; n; d]%nat ->
  shape (insert_axis t) = ([b] ++ [n; 1; d])%nat%list /\ forall x i j f, at_ (insert_axis t) [x; i; j; f] = at_ t [x; i; f].
Proof. intros H. unfold insert_axis. rewrite H. cbn [rev app]. split; reflexivity. Qed.

Lemma squeeze_last t b p n q : shape t = [b; p; n; q; 1]%nat -> b <> 1%nat -> p <> 1%nat -> n <> 1%nat -> q <> 1%nat ->
  shape (squeeze t) = [b; p; n; q]%nat /\ forall x a i c, at_ (squeeze (A:=R) t) [x; a; i; c] = at_ t [x; a; i; c; 0%nat].
Proof.
  intros H Hb Hp Hn Hq. apply Nat.eqb_neq in Hb, Hp, Hn, Hq.
  unfold squeeze, squeeze_shape. rewrite H. cbn [shape at_ filter unsqueeze_idx].
  rewrite Hb, Hp, Hn, Hq. cbn. split; reflexivity.
Qed.

Lemma call33_crosswise cur kw diffs b n : shape diffs = [b; n; 2]%nat -> b <> 1%nat -> n <> 1%nat -> b <> n ->
  exists K, shear33_call cur diffs true kw = Ok K /\ shape K = [b; 3; n; 3]%nat /\
    forall x a i c, (x < b)%nat -> (a < 3)%nat -> (i < n)%nat -> (c < 3)%nat ->
      at_ K [x; a; i; c] = cform (pick cur kw) a c (at_ diffs [x; i; 0%nat]) (at_ diffs [x; i; 1%nat]).
Proof.
  intros H Hb Hn Hbn.
  assert (E : shear33_call cur diffs true kw = shear_33_fn (pick cur kw) (insert_axis diffs)).
  { unfold shear33_call, looks_crosswise. rewrite H. cbn [rev app bind].
    destruct (Nat.eqb_spec n b); [congruence|reflexivity]. }
  rewrite E. destruct (insert_axis_ok diffs b n 2 H) as [SI AI].
  destruct (entries33 (pick cur kw) (insert_axis diffs) [b] n 1 SI) as (full & EF & SF & HF).
  cbn [app] in SF. destruct (squeeze_last full b 3 n 3 SF) as [S1 S2]; auto.
  exists (squeeze full). split; auto. split; auto.
  intros x a i c Hx Ha Hi Hc. pose proof (HF [x] a i c 0%nat Ha Hc) as Q. cbn [app] in Q. rewrite S2, Q, !AI. reflexivity.
Qed.

Lemma call23_crosswise cur kw diffs b n : shape diffs = [b; n; 2]%nat -> b <> 1%nat -> n <> 1%nat -> b <> n ->
  exists K, shear23_call cur diffs true false kw = Ok K /\ shape K = [b; 2; n; 3]%nat /\
    forall x a i c, (x < b)%nat -> (a < 2)%nat -> (i < n)%nat -> (c < 3)%nat ->
      at_ K [x; a; i; c] = cform (pick cur kw) (S a) c (at_ diffs [x; i; 0%nat]) (at_ diffs [x; i; 1%nat]).
Proof.
  intros H Hb Hn Hbn.
  assert (E : shear23_call cur diffs true false kw = shear_Kcross23_fn (pick cur kw) (insert_axis diffs)).
  { unfold shear23_call, looks_crosswise. rewrite H. cbn [rev app bind].
    destruct (Nat.eqb_spec n b); [congruence|reflexivity]. }
  rewrite E. destruct (insert_axis_ok diffs b n 2 H) as [SI AI].
  destruct (entriesKcross23 (pick cur kw) (insert_axis diffs) [b] n 1 SI) as (full & EF & SF & HF).
  cbn [app] in SF. destruct (squeeze_last full b 2 n 3 SF) as [S1 S2]; auto.
  exists (squeeze full). split; auto. split; auto.
  intros x a i c Hx Ha Hi Hc. pose proof (HF [x] a i c 0%nat Ha Hc) as Q. cbn [app] in Q. rewrite S2, Q, !AI. reflexivity.
Qed.

(** As many points as neighbours: the guess takes a crosswise tensor for a pairwise one. *)
Lemma call33_confused cur kw diffs n : shape diffs = [n; n; 2]%nat -> n <> 1%nat ->
  exists K, shear33_call cur diffs true kw = Ok K /\ shape K = [3; n; 3; n]%nat.
Proof.
  intros H Hn.
  assert (E : shear33_call cur diffs true kw = shear_33_fn (pick cur kw) diffs).
  { unfold shear33_call, looks_crosswise. rewrite H. cbn [rev app bind]. rewrite Nat.eqb_refl. reflexivity. }
  rewrite E. destruct (entries33 (pick cur kw) diffs [] n n H) as (full & EF & SF & HF).
  cbn [app] in SF. exists (squeeze full). split; auto.
  destruct (squeeze_none full) as [S1 S2]; [|congruence].
  rewrite SF. cbn. intros d. intuition lia.
Qed.

Lemma call23_confused cur kw diffs n : shape diffs = [n; n; 2]%nat -> n <> 1%nat ->
  exists K, shear23_call cur diffs true false kw = Ok K /\ shape K = [2; n; 2; n]%nat.
Proof.
  intros H Hn.
  assert (E : shear23_call cur diffs true false kw = shear_Kin23_fn (pick cur kw) diffs).
  { unfold shear23_call, looks_crosswise. rewrite H. cbn [rev app bind]. rewrite Nat.eqb_refl. reflexivity. }
  rewrite E. destruct (entriesKin23 (pick cur kw) diffs [] n n H) as (full & EF & SF & HF).
  cbn [app] in SF. exists (squeeze full). split; auto.
  destruct (squeeze_none full) as [S1 S2]; [|congruence].
  rewrite SF. cbn. intros d. intuition lia.
Qed.

(** Kout. *)
Lemma fn33_zero l : exists K, shear_33_fn l (mkNd [1; 1; 2]%nat (fun _ => 0)) = Ok K /\ shape K = [3; 3]%nat /\
  forall a c, (a < 3)%nat -> (c < 3)%nat -> at_ K [a; c] = cform l a c 0 0.
Proof.
  destruct (entries33 l (mkNd [1; 1; 2]%nat (fun _ => 0)) [] 1 1 eq_refl) as (full & EF & SF & HF).
  cbn [app] in SF. exists (squeeze full). split; auto. unfold squeeze, squeeze_shape. rewrite SF. cbn [shape at_ filter Nat.eqb negb unsqueeze_idx].
  split; auto. intros a c Ha Hc. apply (HF [] a 0%nat c 0%nat Ha Hc).
Qed.
