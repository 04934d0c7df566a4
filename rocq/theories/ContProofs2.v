(** The training objective is continuous on the box of bounds and attains its best value there. *)
From Coq Require Import Lia Lra.
From Verif Require Import Base BaseFacts NdModel NdFacts RSum LinAlgModel LinAlgSpec LinAlgFacts Gauss
  GPModel NoiseModel MuyGPSModel GPSpec GPTheorems ScaleSpec TensorModel TensorSpec TensorProofs
  HyperModel HyperSpec NamedModel NamedSpec NamedProofs KernelModel KernelSpec KernelProofs FlowSpec LibSpec LibProofs
  LossModel LossSpec ChassisModel ChassisSpec ChassisProofs ObjectiveProofs WorkSpec BestProofs FarSpec FarProofs SmoothProofs
  TrainModel TrainSpec TrainProofs TrainProofs2 ContSpec ContProofs.
Local Open Scope R_scope.

(** ** Compactness of boxes *)
Lemma interval_good (P : R -> R -> Prop) lo hi : lo <= hi ->
  (forall a b c, a <= b -> b <= c -> P a b -> P b c -> P a c) -> (forall a b a' b', a <= a' -> b' <= b -> P a b -> P a' b') ->
  (forall x, lo <= x <= hi -> exists d, 0 < d /\ P (x - d) (x + d)) -> P lo hi.
Proof.
  intros LH CAT SUB LOC.
  set (E := fun y => lo <= y <= hi /\ P lo y).
  assert (E0 : E lo). { split; [lra|]. destruct (LOC lo ltac:(lra)) as (d & D & H). apply (SUB (lo - d) (lo + d)); auto; lra. }
  destruct (completeness E) as (m & UB & LUB).
  { exists hi. intros y [Hy _]. lra. } { exists lo. exact E0. }
  assert (M1 : lo <= m) by (apply UB; exact E0). assert (M2 : m <= hi) by (apply LUB; intros y [Hy _]; lra).
  destruct (LOC m ltac:(lra)) as (d & D & H).
  assert (Y : exists y, E y /\ m - d < y).
  { apply Classical_Prop.NNPP. intros N. assert (m <= m - d); [|lra]. apply LUB. intros y Ey. destruct (Rle_lt_dec y (m - d)); auto. exfalso. apply N. exists y. auto. }
  destruct Y as (y & [Hy Py] & YM). assert (y <= m) by (apply UB; split; auto).
  set (z := Rmin hi (m + d / 2)). assert (Z1 : z <= hi) by apply Rmin_l. assert (Z2 : z <= m + d / 2) by apply Rmin_r.
  assert (Z3 : m <= z) by (apply Rmin_glb; lra).
  assert (PZ : P lo z). { apply (CAT lo y z); [lra|lra|exact Py|]. apply (SUB (m - d) (m + d)); auto; lra. }
  assert (EZ : E z) by (split; [lra|exact PZ]). pose proof (UB z EZ) as ZM.
  assert (z = hi); [|subst z; congruence]. unfold z in *. destruct (Rle_dec hi (m + d / 2)) as [L|L]; [apply Rmin_left; exact L|].
  rewrite Rmin_right in ZM by lra. lra.
Qed.

Lemma box_good (bounds : list (num * num)) : finite_bounds bounds -> forall Q : (list R -> Prop) -> Prop,
  (forall A B : list R -> Prop, (forall y, B y -> A y) -> Q A -> Q B) -> (forall A B : list R -> Prop, Q A -> Q B -> Q (fun y => A y \/ B y)) ->
  (forall x, in_box x bounds -> exists d, 0 < d /\ Q (fun y => in_box y bounds /\ point_close x y d)) ->
  (exists x, in_box x bounds) -> Q (fun y => in_box y bounds).
Proof.
  induction 1 as [|b bounds (lo & hi & ->) FB IH]; intros Q SUB UN LOC NE.
  - destruct (LOC [] (Forall2_nil _)) as (d & D & H). apply (SUB _ _) with (2 := H). intros y Hy. split; [exact Hy|]. inversion Hy. constructor.
  - assert (BX : forall a l, in_box (a :: l) ((Fin lo, Fin hi) :: bounds) <-> lo <= a <= hi /\ in_box l bounds).
    { intros a l. split.
      - intros H. inversion H as [|? ? ? ? [H1 H2] H3]; subst. cbn [fst snd] in *. split; [|exact H3]. split.
        + destruct (Rle_lt_dec lo a) as [L|L]; [exact L|]. exfalso. apply H1. constructor. exact L.
        + destruct (Rle_lt_dec a hi) as [L|L]; [exact L|]. exfalso. apply H2. constructor. exact L.
      - intros [[H1 H2] H3]. constructor; [|exact H3]. cbn [fst snd]. split; intros X; inversion X; lra. }
    destruct NE as (x0 & HX0). assert (NE' : exists l, in_box l bounds).
    { inversion HX0; subst. eexists; eassumption. }
    assert (LH : lo <= hi). { destruct x0 as [|a l]; [inversion HX0|]. apply BX in HX0. lra. }
    set (slab := fun a b (y : list R) => exists y1 ys, y = y1 :: ys /\ lo <= y1 <= hi /\ a <= y1 <= b /\ in_box ys bounds).
    assert (G : Q (slab lo hi)).
    { apply (interval_good (fun a b => Q (slab a b)) lo hi LH).
      - intros a b c AB BC PA PB. apply (SUB (fun y => slab a b y \/ slab b c y)); [|apply UN; auto].
        intros y (y1 & ys & -> & B1 & B2 & B3). destruct (Rle_lt_dec y1 b); [left|right]; exists y1, ys; repeat split; auto; lra.
      - intros a b a' b' A B. apply SUB. intros y (y1 & ys & -> & B1 & B2 & B3). exists y1, ys. repeat split; auto; lra.
      - intros x1 Hx1.
        destruct (IH (fun A => exists d, 0 < d /\ Q (fun y => exists y1 ys, y = y1 :: ys /\ lo <= y1 <= hi /\ Rabs (y1 - x1) < d /\ A ys))) as (d & D & H).
        + intros A B AB (d & D & H). exists d. split; [exact D|]. apply (SUB _ _) with (2 := H). intros y (y1 & ys & -> & B1 & B2 & B3). exists y1, ys. auto 6.
        + intros A B (d & D & H) (d' & D' & H'). exists (Rmin d d'). split; [apply Rmin_glb_lt; auto|].
          apply (SUB _ _) with (2 := UN _ _ H H'). intros y (y1 & ys & -> & B1 & B2 & [B3|B3]); [left|right]; exists y1, ys; repeat split; auto; try lra;
            (eapply Rlt_le_trans; [exact B2|]); [apply Rmin_l|apply Rmin_r].
        + intros xs Hxs. destruct (LOC (x1 :: xs)) as (d & D & H); [apply BX; auto|]. exists d. split; [exact D|]. exists d. split; [exact D|].
          apply (SUB _ _) with (2 := H). intros y (y1 & ys & -> & B1 & B2 & B3 & B4). split; [apply BX; auto|]. constructor; auto.
        + exact NE'.
        + exists (d / 2). split; [lra|]. apply (SUB _ _) with (2 := H). intros y (y1 & ys & -> & B1 & B2 & B3). exists y1, ys. repeat split; auto; try lra.
          apply Rabs_def1; lra. }
    apply (SUB _ _) with (2 := G). intros y Hy. destruct y as [|a l]; [inversion Hy|]. apply BX in Hy. exists a, l. split; [reflexivity|]. tauto.
Qed.

Lemma box_max (bounds : list (num * num)) (val : list R -> R) : finite_bounds bounds -> (exists x, in_box x bounds) ->
  (forall x, in_box x bounds -> forall eps, 0 < eps -> exists d, 0 < d /\ forall y, in_box y bounds -> point_close x y d -> Rabs (val y - val x) < eps) ->
  exists x, in_box x bounds /\ forall y, in_box y bounds -> val y <= val x.
Proof.
  intros FB NE CONT.
  assert (BD : exists m, forall y, in_box y bounds -> val y <= m).
  { apply (box_good bounds FB (fun A => exists m, forall y, A y -> val y <= m)); auto.
    - intros A B AB (m & H). exists m. auto.
    - intros A B (m & H) (m' & H'). exists (Rmax m m'). intros y [Hy|Hy]; [apply Rle_trans with m; [auto|apply Rmax_l]|apply Rle_trans with m'; [auto|apply Rmax_r]].
    - intros x Hx. destruct (CONT x Hx 1 ltac:(lra)) as (d & D & H). exists d. split; [exact D|]. exists (val x + 1). intros y [Hy Cy].
      specialize (H y Hy Cy). apply Rabs_def2 in H. lra. }
  destruct BD as (m0 & BD). destruct NE as (x0 & X0).
  destruct (completeness (fun v => exists y, in_box y bounds /\ v = val y)) as (M & UB & LUB).
  { exists m0. intros v (y & Hy & ->). auto. } { exists (val x0), x0. auto. }
  apply Classical_Prop.NNPP. intros NA.
  assert (LT : forall x, in_box x bounds -> val x < M).
  { intros x Hx. assert (L : val x <= M) by (apply UB; exists x; auto). destruct L as [L|L]; [exact L|]. exfalso. apply NA. exists x. split; [exact Hx|].
    intros y Hy. rewrite L. apply UB. exists y. auto. }
  assert (G : exists m, m < M /\ forall y, in_box y bounds -> val y <= m).
  { apply (box_good bounds FB (fun A => exists m, m < M /\ forall y, A y -> val y <= m)); [| | |exists x0; exact X0].
    - intros A B AB (m & L & H). exists m. auto.
    - intros A B (m & L & H) (m' & L' & H'). exists (Rmax m m'). split; [apply Rmax_lub_lt; auto|].
      intros y [Hy|Hy]; [apply Rle_trans with m; [auto|apply Rmax_l]|apply Rle_trans with m'; [auto|apply Rmax_r]].
    - intros x Hx. specialize (LT x Hx). destruct (CONT x Hx ((M - val x) / 2) ltac:(lra)) as (d & D & H). exists d. split; [exact D|].
      exists ((M + val x) / 2). split; [lra|]. intros y [Hy Cy]. specialize (H y Hy Cy). apply Rabs_def2 in H. lra. }
  destruct G as (m & L & H). assert (M <= m); [|lra]. apply LUB. intros v (y & Hy & ->). auto.
Qed.

(** ** The leave-one-out value as a formula *)
Definition gsol (n : nat) (A : nat -> nat -> R) (k : nat -> R) (i : nat) : R :=
  match gauss n 1%nat A (fun j _ => k j) with Some X => X i O | None => 0 end.
Lemma gsol_solves n A k : nonsingular n A -> solves n A (gsol n A k) k.
Proof.
  intros NS. destruct (proj1 (proj2 gauss_exact n 1%nat A (fun j _ => k j)) NS) as (X & E). unfold gsol. rewrite E.
  exact (proj1 gauss_exact n 1%nat _ _ X E O Nat.lt_0_1).
Qed.
Lemma gsol_unique n A k u y : nonsingular n A -> solves n A u k -> dot n u y = dot n (gsol n A k) y.
Proof.
  intros NS S. unfold dot. apply rsum_ext. intros i Hi. rewrite (solves_unique n A u (gsol n A k) k NS S (gsol_solves n A k NS) i Hi). reflexivity.
Qed.

Section Formula.
Variables (train targets : nd R) (b n : nat) (c : nat -> nat) (q : nat -> nat -> nat).
Variables (k : (nat -> R) -> R) (m : noise_model).
Definition loo_A (x : nat) := nbr_matrix k m train q x.
Definition loo_k (x : nat) := fun j => kcov k train train (c x) (q x j).
Definition loo_y (x : nat) := fun j => at_ targets [q x j].
Definition loo_mean (x : nat) : R := dot n (gsol n (loo_A x) (loo_k x)) (loo_y x).
Definition loo_var (x : nat) : R := 1 - dot n (gsol n (loo_A x) (loo_k x)) (loo_k x).
Definition loo_scale (kind : scale_kind) (sc : R) : R :=
  match kind with
  | FixedScale => sc
  | _ => rsum b (fun x => dot n (loo_y x) (gsol n (loo_A x) (loo_y x))) / (INR b * INR n)
  end.
End Formula.

Definition loss_value (l : loss) (kw : dict R) (b : nat) (y mean var : nat -> R) (scale : R) : R :=
  match batch_loss l kw b y mean var scale with Some L => L | None => 0 end.
Lemma loss_value_ext l kw b y mean mean' var var' sc : (forall x, (x < b)%nat -> mean x = mean' x) -> (forall x, (x < b)%nat -> var x = var' x) ->
  loss_value l kw b y mean var sc = loss_value l kw b y mean' var' sc.
Proof.
  intros M V. unfold loss_value. destruct l; cbn [batch_loss]; try reflexivity; try (f_equal; apply rsum_ext; intros x Hx; rewrite (M x Hx); reflexivity);
    apply rsum_ext; intros x Hx; rewrite (M x Hx); try rewrite (V x Hx); reflexivity.
Qed.

Lemma loo_value_formula gamma kv s F l kw train targets b n c q v K : loo_value gamma kv s F l kw train targets b n c q v -> full_lib s F = Some K ->
  let k := lk_cov gamma kv K (feature_count train) (reals s) [] in
  (forall x, (x < b)%nat -> nonsingular n (loo_A train q k (full_noise s F) x)) ->
  v = - loss_value l kw b (fun x => at_ targets [c x]) (loo_mean train targets n c q k (full_noise s F)) (loo_var train n c q k (full_noise s F))
        (loo_scale train targets b n q k (full_noise s F) (f_kind F) (f_scale F)).
Proof.
  intros (K' & mean & var & scale & L & EK & LP & _ & SU & BL & ->) EK' k NS. rewrite EK' in EK. injection EK as <-. fold k in LP, SU.
  assert (SE : scale = loo_scale train targets b n q k (full_noise s F) (f_kind F) (f_scale F)).
  { unfold scale_used in SU. unfold loo_scale. destruct (f_kind F); [exact SU| |contradiction].
    destruct SU as (qq & (cc & SC & ->) & ->). f_equal. apply rsum_ext. intros x Hx.
    assert (DC : forall u, dot n (fun i => at_ targets [q x i]) u = dot n u (fun i => at_ targets [q x i])) by (intros u; unfold dot; apply rsum_ext; intros; ring).
    unfold loo_y. rewrite !DC. apply gsol_unique; [apply NS; exact Hx|apply SC; exact Hx]. }
  rewrite <- SE. f_equal. transitivity (loss_value l kw b (fun x => at_ targets [c x]) mean var scale); [unfold loss_value; rewrite BL; reflexivity|].
  apply loss_value_ext; intros x Hx; destruct (LP x Hx) as ((u & U & EM) & (u' & U' & EV)).
  - rewrite EM. apply gsol_unique; [apply NS; exact Hx|exact U].
  - rewrite EV. unfold loo_var. f_equal. apply gsol_unique; [apply NS; exact Hx|exact U'].
Qed.

(** ** Continuity of the formula *)
Section Limit.
Context {T : Type}.
Variable near : R -> T -> Prop.
Hypothesis MON : forall d d' t, near d t -> d <= d' -> near d' t.
Variables (train targets : nd R) (b n : nat) (c : nat -> nat) (q : nat -> nat -> nat).
Variables (k : T -> (nat -> R) -> R) (m : T -> noise_model) (k0 : (nat -> R) -> R) (m0 : noise_model).
Hypothesis TK : forall v, tends near (fun t => k t v) (k0 v).
Hypothesis TN : forall x i, (x < b)%nat -> (i < n)%nat -> tends near (fun t => noise_at (m t) None x i) (noise_at m0 None x i).
Hypothesis PD : forall x, (x < b)%nat -> pd n (loo_A train q k0 m0 x).
Hypothesis SY : forall x, (x < b)%nat -> symmetric n (loo_A train q k0 m0 x).
Hypothesis NS : forall x, (x < b)%nat -> eventually near (fun t => nonsingular n (loo_A train q (k t) (m t) x)).

Lemma tends_A x i j : (x < b)%nat -> (i < n)%nat -> tends near (fun t => loo_A train q (k t) (m t) x i j) (loo_A train q k0 m0 x i j).
Proof.
  intros Hx Hi. unfold loo_A, nbr_matrix, plus_diag. apply (tends_plus near MON); [apply TK|]. destruct (Nat.eqb i j); [apply TN; auto|apply tends_const].
Qed.
Lemma tends_gsol x (r : T -> nat -> R) r0 : (x < b)%nat -> (forall i, (i < n)%nat -> tends near (fun t => r t i) (r0 i)) ->
  forall l, (l < n)%nat -> tends near (fun t => gsol n (loo_A train q (k t) (m t) x) (r t) l) (gsol n (loo_A train q k0 m0 x) r0 l).
Proof.
  intros Hx TR l Hl. destruct (pd_coercive n (loo_A train q k0 m0 x) (SY x Hx) (PD x Hx)) as (c0 & C0 & CO).
  apply (tends_solve near MON n (fun t => loo_A train q (k t) (m t) x) r (fun t => gsol n (loo_A train q (k t) (m t) x) (r t))
    (loo_A train q k0 m0 x) r0 (gsol n (loo_A train q k0 m0 x) r0) c0 C0 CO); auto.
  - apply gsol_solves. apply pd_nonsingular. apply PD. exact Hx.
  - intros i j Hi Hj. apply tends_A; auto.
  - apply (ev_imp near _ _ (NS x Hx)). intros t H. apply gsol_solves. exact H.
Qed.
Lemma tends_loo_mean x : (x < b)%nat -> tends near (fun t => loo_mean train targets n c q (k t) (m t) x) (loo_mean train targets n c q k0 m0 x).
Proof.
  intros Hx. unfold loo_mean, dot. apply (tends_rsum near MON n (fun i t => gsol n (loo_A train q (k t) (m t) x) (loo_k train c q (k t) x) i * loo_y targets q x i)).
  intros i Hi. apply (tends_mult near MON); [|apply tends_const]. apply (tends_gsol x (fun t => loo_k train c q (k t) x)); auto.
  intros j Hj. apply TK.
Qed.
Lemma tends_loo_var x : (x < b)%nat -> tends near (fun t => loo_var train n c q (k t) (m t) x) (loo_var train n c q k0 m0 x).
Proof.
  intros Hx. unfold loo_var, dot. apply (tends_minus near MON); [apply tends_const|].
  apply (tends_rsum near MON n (fun i t => gsol n (loo_A train q (k t) (m t) x) (loo_k train c q (k t) x) i * loo_k train c q (k t) x i)).
  intros i Hi. apply (tends_mult near MON); [|apply TK]. apply (tends_gsol x (fun t => loo_k train c q (k t) x)); auto. intros j Hj. apply TK.
Qed.
Lemma tends_loo_scale kind sc : tends near (fun t => loo_scale train targets b n q (k t) (m t) kind sc) (loo_scale train targets b n q k0 m0 kind sc).
Proof.
  assert (H : tends near (fun t => rsum b (fun x => dot n (loo_y targets q x) (gsol n (loo_A train q (k t) (m t) x) (loo_y targets q x))) / (INR b * INR n))
     (rsum b (fun x => dot n (loo_y targets q x) (gsol n (loo_A train q k0 m0 x) (loo_y targets q x))) / (INR b * INR n))).
  { unfold Rdiv. apply (tends_mult near MON); [|apply tends_const].
    apply (tends_rsum near MON b (fun x t => dot n (loo_y targets q x) (gsol n (loo_A train q (k t) (m t) x) (loo_y targets q x)))).
    intros x Hx. unfold dot. apply (tends_rsum near MON n (fun i t => loo_y targets q x i * gsol n (loo_A train q (k t) (m t) x) (loo_y targets q x) i)).
    intros i Hi. apply (tends_mult near MON); [apply tends_const|]. apply (tends_gsol x (fun _ => loo_y targets q x)); auto. intros j Hj. apply tends_const. }
  unfold loo_scale. destruct kind; [apply tends_const|exact H|exact H].
Qed.
Lemma tends_loss l kw y (mean var : T -> nat -> R) (sc : T -> R) mean0 var0 sc0 :
  (forall x, (x < b)%nat -> tends near (fun t => mean t x) (mean0 x)) -> (forall x, (x < b)%nat -> tends near (fun t => var t x) (var0 x)) ->
  tends near sc sc0 -> (forall x, (x < b)%nat -> 0 < var0 x) -> (l = Lool \/ l = Looph -> 0 < sc0) ->
  tends near (fun t => loss_value l kw b y (mean t) (var t) (sc t)) (loss_value l kw b y mean0 var0 sc0).
Proof.
  intros TM TV TS V0 S0.
  assert (TSV : forall x, (x < b)%nat -> tends near (fun t => sc t * var t x) (sc0 * var0 x)) by (intros x Hx; apply (tends_mult near MON); auto).
  assert (SV0 : l = Lool \/ l = Looph -> forall x, (x < b)%nat -> 0 < sc0 * var0 x) by (intros HL x Hx; apply Rmult_lt_0_compat; auto).
  destruct l; cbn [loss_value batch_loss]; try apply tends_const.
  - unfold loss_value. cbn [batch_loss]. unfold Rdiv. apply (tends_mult near MON); [|apply tends_const].
    apply (tends_rsum near MON b (fun x t => (mean t x - y x) ^ 2)). intros x Hx. apply (tends_sq near), (tends_minus near MON); [auto|apply tends_const].
  - unfold loss_value. cbn [batch_loss]. apply (tends_rsum near MON b (fun x t => lool_entry (mean t x - y x) (sc t * var t x))). intros x Hx. unfold lool_entry.
    specialize (SV0 (or_introl eq_refl) x Hx). apply (tends_plus near MON).
    + apply (tends_div near MON); [lra| |auto]. apply (tends_sq near), (tends_minus near MON); [auto|apply tends_const].
    + apply (tends_ln near); auto.
  - unfold loss_value. cbn [batch_loss]. set (delta := kw_or kw "boundary_scale" (3/2)).
    apply (tends_rsum near MON b (fun x t => huber_entry delta (y x - mean t x))). intros x Hx. unfold huber_entry.
    apply (tends_scal near), (tends_minus near MON); [|apply tends_const]. apply (tends_sqrt near); [pose proof (pow2_ge_0 ((y x - mean0 x) / delta)); lra|].
    apply (tends_plus near MON); [apply tends_const|]. apply (tends_sq near). unfold Rdiv. apply (tends_mult near MON); [|apply tends_const].
    apply (tends_minus near MON); [apply tends_const|auto].
  - unfold loss_value. cbn [batch_loss]. set (delta := kw_or kw "boundary_scale" 3).
    apply (tends_rsum near MON b (fun x t => looph_entry delta (mean t x - y x) (sc t * var t x))). intros x Hx. unfold looph_entry.
    specialize (SV0 (or_intror eq_refl) x Hx). apply (tends_plus near MON); [|apply (tends_ln near); auto].
    destruct (Req_dec delta 0) as [Z|NZ].
    + rewrite Z. replace (2 * 0 ^ 2 * (sqrt (1 + (mean0 x - y x) ^ 2 / (0 ^ 2 * (sc0 * var0 x))) - 1)) with 0 by (cbn [pow]; ring).
      apply (tends_ext near MON (fun _ => 0)); [|apply tends_const]. exists 1. split; [lra|]. intros t _. cbn [pow]. ring.
    + assert (D2 : 0 < delta ^ 2) by (rewrite <- Rsqr_pow2; apply Rsqr_pos_lt; exact NZ).
      assert (DV : 0 < delta ^ 2 * (sc0 * var0 x)) by (apply Rmult_lt_0_compat; auto).
      apply (tends_scal near), (tends_minus near MON); [|apply tends_const].
      apply (tends_sqrt near).
      { assert (0 <= (mean0 x - y x) ^ 2 / (delta ^ 2 * (sc0 * var0 x))); [|lra]. apply Rmult_le_pos; [apply pow2_ge_0|left; apply Rinv_0_lt_compat; exact DV]. }
      apply (tends_plus near MON); [apply tends_const|]. apply (tends_div near MON); [lra| |apply (tends_scal near); auto].
      apply (tends_sq near), (tends_minus near MON); [auto|apply tends_const].
Qed.
End Limit.

(** ** Nearby points of the box give nearby models *)
Lemma dget_combine_close (names : list string) : forall x y d k a b, point_close x y d ->
  dget (combine names x) k = Some a -> dget (combine names y) k = Some b -> Rabs (b - a) < d.
Proof.
  induction names as [|nm names IH]; intros x y d k a b PC; [discriminate|]. destruct PC as [|xa yb x y Hab PC]; [discriminate|]. cbn [combine dget].
  destruct (String.eqb nm k); [intros H1 H2; injection H1 as <-; injection H2 as <-; exact Hab|]. apply IH. exact PC.
Qed.
Lemma dget_combine_same (names : list string) : forall (x y : list R) d k, point_close x y d ->
  dget (combine names x) k = None <-> dget (combine names y) k = None.
Proof.
  induction names as [|nm names IH]; intros x y d k PC; [tauto|]. destruct PC as [|xa yb x y Hab PC]; [tauto|]. cbn [combine dget].
  destruct (String.eqb nm k); [split; discriminate|]. apply (IH x y d). exact PC.
Qed.
Lemma kw_or_close names x y d k r : point_close x y d -> 0 < d -> Rabs (kw_or (combine names y) k r - kw_or (combine names x) k r) < d.
Proof.
  intros PC D. unfold kw_or. destruct (dget (combine names x) k) as [a|] eqn:E1, (dget (combine names y) k) as [b|] eqn:E2.
  - apply (dget_combine_close names x y d k a b); auto.
  - apply (dget_combine_same names x y d k PC) in E2. congruence.
  - apply (dget_combine_same names x y d k PC) in E1. congruence.
  - replace (r - r) with 0 by ring. rewrite Rabs_R0. exact D.
Qed.

Definition def_elems (d : deformation) : list named := match d with Iso _ n | DiffIso _ n => [n] | Aniso _ v => v_elems v end.
Lemma scale_of_close_on d cur cur' e f : (forall nm, In nm (def_elems d) -> Rabs (cur' (nm_loc nm) - cur (nm_loc nm)) < e) -> 0 < e ->
  Rabs (scale_of d cur' [] f - scale_of d cur [] f) < e.
Proof.
  intros VC E. destruct d as [m nm|m nm|m v]; cbn [scale_of def_elems] in *; unfold kw_or; cbn [dget]; try (apply VC; left; reflexivity).
  destruct (Nat.lt_ge_cases f (List.length (v_elems v))) as [L|L].
  - set (dflt := mkNamed EmptyString O).
    rewrite (nth_indep (map (fun e => cur' (nm_loc e)) (v_elems v)) 0 (cur' (nm_loc dflt))) by (rewrite map_length; exact L).
    rewrite (nth_indep (map (fun e => cur (nm_loc e)) (v_elems v)) 0 (cur (nm_loc dflt))) by (rewrite map_length; exact L).
    rewrite (map_nth (fun e => cur' (nm_loc e))), (map_nth (fun e => cur (nm_loc e))). apply VC. apply nth_In. exact L.
  - rewrite !nth_overflow by (rewrite map_length; exact L). rewrite Rminus_0_r, Rabs_R0. exact E.
Qed.

Section Cand2.
Variables (gamma : R -> R) (kv : R -> R -> R).
Variables (s : store) (F : full) (names : list string) (x0 : list num) (bounds : list (num * num)).
Hypothesis MO : model_ok s F.
Hypothesis EO : get_opt_params s (f_attr F) = Ok (names, x0, bounds).
Definition moved_def : option deformation :=
  match full_deformation F with
  | Some (Iso m nm) => Some (Iso m (move_named (st_next s) nm))
  | Some (Aniso m v) => Some (Aniso m (move_vec (st_next s) v))
  | _ => None
  end.
Definition candidate (x : list R) (s' : store) (F' : full) : Prop :=
  in_box x bounds /\ new_muygps s F names bounds (combine names (map Fin x)) = Ok (s', F') /\ optimized_model s F (combine names (map Fin x)) s' F'.

Lemma cand_attr x s' F' : candidate x s' F' -> f_attr F' = model_make s' (move_model (st_next s) (f_attr F)) /\
  f_metric F' = f_metric F /\ f_hetero F' = f_hetero F /\ f_kind F' = f_kind F /\ f_scale F' = f_scale F.
Proof.
  intros (_ & E & O). pose proof (new_muygps_form _ _ _ _ _ _ _ E) as EF. split; [subst F'; reflexivity|]. destruct O as (_ & _ & _ & O). exact O.
Qed.
Lemma cand_opt x s' F' nm : candidate x s' F' -> In nm (declared (f_attr F)) ->
  optimized s s' (combine names (map Fin x)) nm (move_named (st_next s) nm) /\
  reals s' (nm_loc (move_named (st_next s) nm)) = kw_or (combine names x) (nm_name nm) (reals s (nm_loc nm)).
Proof.
  intros C Hin. destruct (cand_attr x s' F' C) as (AT & _). destruct C as (BX & E & (_ & HO & _)).
  rewrite AT, declared_make, declared_move in HO. pose proof (Forall2_map_in _ _ _ HO nm Hin) as O. split; [exact O|].
  destruct MO as (Hb & Hn & _). symmetry. exact (proj2 (optimized_agrees s s' F names x0 bounds x nm _ Hb Hn EO BX Hin O)).
Qed.

Lemma cand_lib x s' F' K K' : candidate x s' F' -> full_lib s F = Some K -> full_lib s' F' = Some K' ->
  moved_def = Some (lk_def K') /\
  match K' with LRbf _ => Infinite | LMatern _ _ p => formula_for p end = match K with LRbf _ => Infinite | LMatern _ _ p => formula_for p end \/
  match K with LRbf _ => Infinite | LMatern _ _ p => formula_for p end = General.
Proof.
  intros C EK EK'. destruct (cand_attr x s' F' C) as (AT & MT & _).
  assert (KL : k_ls (m_kernel (f_attr F')) = move_ls (st_next s) (k_ls (m_kernel (f_attr F)))) by (rewrite AT; cbn [model_make move_model m_kernel]; destruct (m_kernel (f_attr F)); reflexivity).
  assert (DF : full_deformation F' = moved_def).
  { unfold moved_def, full_deformation. rewrite KL, MT. destruct (k_ls (m_kernel (f_attr F))); reflexivity. }
  unfold full_lib in EK, EK'. rewrite DF in EK'. destruct (full_deformation F) as [d|] eqn:Ed; [|discriminate].
  destruct moved_def as [d'|]; [|discriminate]. rewrite AT in EK'. cbn [model_make move_model m_kernel] in EK'.
  destruct (m_kernel (f_attr F)) as [lsc|lsc sm cc] eqn:EKM; cbn [move_kernel kernel_make] in EK'; injection EK as <-; injection EK' as <-; cbn [lk_def].
  - left. split; reflexivity.
  - assert (IS : In sm (declared (f_attr F))).
    { unfold declared. rewrite EKM. apply in_app_iff. left. cbn [kernel_params]. apply in_app_iff. right. left. reflexivity. }
    destruct (proj1 (cand_opt x s' F' sm C IS)) as (_ & _ & PF & _ & V). unfold formula_for. cbn [lk_def move_kernel nm_loc move_named] in *. rewrite PF.
    destruct (p_fixed (st_cell s (nm_loc sm))) eqn:Ef; [left; split; [reflexivity|rewrite V; reflexivity]|right; reflexivity].
Qed.
End Cand2.

Section Objective.
Variable ls : lsolver.
Hypothesis EX : exact_solver ls.
Variable slogdet : nat -> mat -> R * R.
Variable eps0 : R.
Variables (gamma : R -> R) (kv : R -> R -> R).
Variables (s : store) (F : full) (l : loss) (kw : dict R) (draws : nat -> list nat) (train targets : nd R) (ix nn : nd Z)
  (N b n : nat) (c : nat -> nat) (q : nat -> nat -> nat) (names : list string) (x0 : list num) (bounds : list (num * num)).
Hypothesis MO : model_ok s F.
Hypothesis BO : bounds_ok s F.
Hypothesis PB : positive_bounds s F.
Hypothesis LF : leading_free s (k_ls (m_kernel (f_attr F))).
Hypothesis EO : get_opt_params s (f_attr F) = Ok (names, x0, bounds).
Hypothesis SK : f_kind F = FixedScale \/ ~ In "noise"%string names.
Hypothesis TR : trainable s F train b n.
Hypothesis WP : loo_well_posed (full_noise s F) train b n c q.
Hypothesis BK : batch_ok train targets ix nn N b n c q.
Hypothesis KW : loss_kw_ok kw.
Hypothesis LS : scores_vectors l.
Hypothesis PS : l = Lool \/ l = Looph -> positive_scale F targets b n q.
Variable t : train_tensors.
Hypothesis ET : full_train_tensors F ix nn train targets = Ok t.
Let obj := obj_fn ls slogdet eps0 gamma kv s F l kw None draws (tr_pair t) (tr_cross t) (tr_nn_targets t) (tr_targets t).
Let Fc := feature_count train.

Lemma loo_pd K cur m : lk_ok K Fc cur [] -> loo_well_posed m train b n c q -> forall x, (x < b)%nat -> pd n (loo_A train q (lk_cov gamma kv K Fc cur []) m x).
Proof.
  intros OK W x Hx. apply (nbr_pd gamma kv K cur [] m train b n q x OK); [|exact Hx]. intros y Hy. destruct (W y Hy) as [P|(P & D & _)]; auto.
Qed.

Lemma moved_elems d nm : moved_def s F = Some d -> In nm (def_elems d) -> exists nm0, nm = move_named (st_next s) nm0 /\ In nm0 (declared (f_attr F)).
Proof.
  unfold moved_def, full_deformation.
  assert (LI : forall nm, In nm (ls_elems (k_ls (m_kernel (f_attr F)))) -> In nm (declared (f_attr F))).
  { intros a Ha. unfold declared. apply in_app_iff. left. destruct (m_kernel (f_attr F)); cbn [kernel_params k_ls] in *; [exact Ha|apply in_app_iff; auto]. }
  destruct (k_ls (m_kernel (f_attr F))) as [a|v|v]; try discriminate; intros H; injection H as <-; cbn [def_elems move_vec v_elems].
  - intros [<-|[]]. exists a. split; [reflexivity|]. apply LI. left. reflexivity.
  - intros H. apply in_map_iff in H as (a & <- & Ha). exists a. split; [reflexivity|]. apply LI. exact Ha.
Qed.

Lemma scale_pos k m : (forall x, (x < b)%nat -> pd n (loo_A train q k m x)) -> l = Lool \/ l = Looph -> 0 < loo_scale train targets b n q k m (f_kind F) (f_scale F).
Proof.
  intros PD HL. specialize (PS HL). destruct BK as (_ & _ & Hb & Hn & _).
  unfold positive_scale, loo_scale in *. destruct (f_kind F); [exact PS| |].
  all: destruct PS as (x & i & Hx & Hi & NZ); apply Rmult_lt_0_compat;
    [|apply Rinv_0_lt_compat, Rmult_lt_0_compat; apply lt_0_INR; assumption].
  all: assert (QE : forall y, (y < b)%nat -> dot n (loo_y targets q y) (gsol n (loo_A train q k m y) (loo_y targets q y)) =
                      quad n (loo_A train q k m y) (gsol n (loo_A train q k m y) (loo_y targets q y)));
    [intros y Hy; pose proof (gsol_solves n (loo_A train q k m y) (loo_y targets q y) (pd_nonsingular _ _ (PD y Hy))) as SO;
     rewrite (quad_solves n _ _ _ SO); unfold dot; apply rsum_ext; intros; ring|].
  all: assert (NN : forall y, (y < b)%nat -> 0 <= dot n (loo_y targets q y) (gsol n (loo_A train q k m y) (loo_y targets q y)));
    [intros y Hy; rewrite QE by exact Hy; destruct (classic_zero n (gsol n (loo_A train q k m y) (loo_y targets q y))) as [Z|NZ'];
      [right; symmetry; unfold quad; rewrite (rsum_ext n _ (fun _ => 0)); [apply rsum_0|]; intros a Ha; rewrite (rsum_ext n _ (fun _ => 0)); [apply rsum_0|];
       intros a' Ha'; rewrite (Z a Ha); ring|left; apply (PD y Hy); exact NZ']|].
  all: eapply Rlt_le_trans; [|apply (rsum_term_le b _ x NN Hx)]; rewrite QE by exact Hx; apply (PD x Hx).
  all: destruct (classic_zero n (gsol n (loo_A train q k m x) (loo_y targets q x))) as [Z|NZ']; [exfalso|exact NZ'].
  all: apply NZ; pose proof (gsol_solves n (loo_A train q k m x) (loo_y targets q x) (pd_nonsingular _ _ (PD x Hx)) i Hi) as SO;
    unfold loo_y in SO at 2; rewrite <- SO; rewrite (rsum_ext n _ (fun _ => 0)); [apply rsum_0|]; intros j Hj; rewrite (Z j Hj); ring.
Qed.

Lemma obj_cont x : in_box x bounds -> forall eps, 0 < eps -> exists d, 0 < d /\ forall y, in_box y bounds -> point_close x y d ->
  exists vx vy, obj (combine names x) = Ok vx /\ obj (combine names y) = Ok vy /\ Rabs (vy - vx) < eps.
Proof.
  intros BX eps EPS. pose proof TR as (_ & (K & EK & OK) & _).
  pose proof (candidate_value ls EX slogdet eps0 gamma kv s F l kw draws train targets ix nn N b n c q names x0 bounds t MO BO PB LF EO SK TR WP BK KW LS ET) as CV.
  destruct (CV x BX) as (s1 & F1 & v1 & E1 & O1 & OB1 & LV1 & TR1 & WP1). pose proof TR1 as (_ & (K1 & EK1 & OK1) & _).
  assert (C1 : candidate s F names bounds x s1 F1) by (split; auto).
  set (fm := match K with LRbf _ => Infinite | LMatern _ _ p => formula_for p end).
  assert (G : fm <> General) by (unfold fm; destruct OK as (_ & _ & _ & O4); destruct K; [discriminate|apply O4]).
  assert (CL : forall y s' F' K', candidate s F names bounds y s' F' -> full_lib s' F' = Some K' -> lk_def K' = lk_def K1 /\
    forall v, lk_cov gamma kv K' Fc (reals s') [] v = matern_value gamma kv fm 0 (sdist Fc (scale_of (lk_def K1) (reals s') []) v)).
  { intros y s' F' K' C E. destruct (cand_lib s F names x0 bounds MO EO x s1 F1 K K1 C1 EK EK1) as [[M1 _]|Bad]; [|contradiction].
    destruct (cand_lib s F names x0 bounds MO EO y s' F' K K' C EK E) as [[M2 FM]|Bad]; [|contradiction].
    assert (DD : lk_def K' = lk_def K1) by congruence. split; [exact DD|]. intros v.
    destruct (lk_matern gamma kv K' Fc (reals s') [] v) as (f & nu & -> & Ef). rewrite DD, Ef, FM. apply matern_nu. exact G. }
  set (T := (list R * (store * full * libkernel))%type).
  set (k := fun (u : T) => lk_cov gamma kv (snd (snd u)) Fc (reals (fst (fst (snd u)))) []).
  set (m := fun (u : T) => full_noise (fst (fst (snd u))) (snd (fst (snd u)))).
  set (near := fun d (u : T) => point_close x (fst u) d /\ candidate s F names bounds (fst u) (fst (fst (snd u))) (snd (fst (snd u))) /\
     full_lib (fst (fst (snd u))) (snd (fst (snd u))) = Some (snd (snd u)) /\ lk_ok (snd (snd u)) Fc (reals (fst (fst (snd u)))) [] /\
     loo_well_posed (m u) train b n c q).
  assert (MON : forall d d' u, near d u -> d <= d' -> near d' u).
  { intros d d' u (H1 & H) L. split; [|exact H]. clear -H1 L. induction H1; constructor; auto. lra. }
  assert (VAL : forall d u nm, near d u -> 0 < d -> In nm (declared (f_attr F)) ->
     Rabs (reals (fst (fst (snd u))) (nm_loc (move_named (st_next s) nm)) - reals s1 (nm_loc (move_named (st_next s) nm))) < d).
  { intros d u nm (PC & C & _) D Hin. destruct (cand_opt s F names x0 bounds MO EO _ _ _ nm C Hin) as [_ ->].
    destruct (cand_opt s F names x0 bounds MO EO _ _ _ nm C1 Hin) as [_ ->]. apply kw_or_close; auto. }
  assert (M1 : moved_def s F = Some (lk_def K1)).
  { destruct (cand_lib s F names x0 bounds MO EO x s1 F1 K K1 C1 EK EK1) as [[M1 _]|Bad]; [exact M1|contradiction]. }
  assert (TK : forall v, tends near (fun u => k u v) (lk_cov gamma kv K1 Fc (reals s1) [] v)).
  { intros v. rewrite (proj2 (CL x s1 F1 K1 C1 EK1) v).
    apply (tends_ext near MON (fun u => matern_value gamma kv fm 0 (sdist Fc (scale_of (lk_def K1) (reals (fst (fst (snd u)))) []) v))).
    { exists 1. split; [lra|]. intros u (_ & C & E & _). symmetry. apply (CL _ _ _ _ C E). }
    apply (tends_matern near MON gamma kv fm 0 (fun _ => 0)); [exact G|].
    apply (tends_sdist near MON Fc (fun u => scale_of (lk_def K1) (reals (fst (fst (snd u)))) [])); [apply OK1|].
    intros f _ e E0. exists e. split; [exact E0|]. intros u NU. apply scale_of_close_on; [|exact E0].
    intros nm Hin. destruct (moved_elems _ nm M1 Hin) as (nm0 & -> & D0). apply (VAL e u nm0 NU E0 D0). }
  assert (TN : forall y i, (y < b)%nat -> (i < n)%nat -> tends near (fun u => noise_at (m u) None y i) (noise_at (full_noise s1 F1) None y i)).
  { intros y i Hy Hi e E0. exists e. split; [exact E0|]. intros u NU. pose proof NU as (_ & C & _).
    destruct (cand_attr s F names bounds _ _ _ C) as (AT & _ & HT & _). destruct (cand_attr s F names bounds _ _ _ C1) as (AT1 & _ & HT1 & _).
    unfold m, full_noise. rewrite AT, AT1. cbn [model_make move_model m_noise].
    destruct (m_noise (f_attr F)) as [nm| |] eqn:EN; cbn [move_noise noise_of noise_at].
    - apply (VAL e u nm NU E0). unfold declared. rewrite EN. apply in_app_iff. right. left. reflexivity.
    - rewrite HT, HT1. unfold Rminus. rewrite Rplus_opp_r, Rabs_R0. exact E0.
    - unfold Rminus. rewrite Rplus_opp_r, Rabs_R0. exact E0. }
  set (k1 := lk_cov gamma kv K1 Fc (reals s1) []) in *. set (m1 := full_noise s1 F1) in *.
  assert (PD : forall y, (y < b)%nat -> pd n (loo_A train q k1 m1 y)) by (apply loo_pd; auto).
  assert (SY : forall y, (y < b)%nat -> symmetric n (loo_A train q k1 m1 y)) by (intros y _; apply nbr_sym).
  assert (NSA : forall d u, near d u -> forall y, (y < b)%nat -> nonsingular n (loo_A train q (k u) (m u) y)).
  { intros d u (_ & _ & _ & OKu & WPu) y Hy. apply pd_nonsingular. apply loo_pd; auto. }
  assert (NS : forall y, (y < b)%nat -> eventually near (fun u => nonsingular n (loo_A train q (k u) (m u) y))).
  { intros y Hy. exists 1. split; [lra|]. intros u NU. apply (NSA 1 u NU y Hy). }
  assert (VP : forall y, (y < b)%nat -> 0 < loo_var train n c q k1 m1 y).
  { intros y Hy. unfold loo_var. apply (kriging_pos gamma kv K1 (reals s1) [] n m1 train (c y) q y); [exact OK1|apply WP1; exact Hy|].
    apply gsol_solves. apply pd_nonsingular. apply PD. exact Hy. }
  assert (TL : tends near (fun u => loss_value l kw b (fun y => at_ targets [c y]) (loo_mean train targets n c q (k u) (m u)) (loo_var train n c q (k u) (m u))
      (loo_scale train targets b n q (k u) (m u) (f_kind F) (f_scale F)))
    (loss_value l kw b (fun y => at_ targets [c y]) (loo_mean train targets n c q k1 m1) (loo_var train n c q k1 m1)
      (loo_scale train targets b n q k1 m1 (f_kind F) (f_scale F)))).
  { apply (tends_loss near MON b l kw (fun y => at_ targets [c y]) (fun u => loo_mean train targets n c q (k u) (m u)) (fun u => loo_var train n c q (k u) (m u))
      (fun u => loo_scale train targets b n q (k u) (m u) (f_kind F) (f_scale F))).
    - intros y Hy. apply (tends_loo_mean near MON train targets b n c q k m k1 m1 TK TN PD SY NS y Hy).
    - intros y Hy. apply (tends_loo_var near MON train b n c q k m k1 m1 TK TN PD SY NS y Hy).
    - apply (tends_loo_scale near MON train targets b n q k m k1 m1 TK TN PD SY NS).
    - exact VP.
    - intros HL. apply scale_pos; auto. }
  destruct (TL eps EPS) as (d & D & H). exists d. split; [exact D|]. intros y BY PC.
  destruct (CV y BY) as (s2 & F2 & v2 & E2 & O2 & OB2 & LV2 & TR2 & WP2). pose proof TR2 as (_ & (K2 & EK2 & OK2) & _).
  exists v1, v2. split; [exact OB1|]. split; [exact OB2|].
  assert (C2 : candidate s F names bounds y s2 F2) by (split; auto).
  assert (NU : near d (y, (s2, F2, K2))) by (split; [exact PC|]; split; [exact C2|]; split; [exact EK2|]; split; [exact OK2|exact WP2]).
  specialize (H _ NU). pose proof (NSA d _ NU) as NS2. unfold k, m in H, NS2. cbn [fst snd] in H, NS2.
  pose proof (loo_value_formula gamma kv s1 F1 l kw train targets b n c q v1 K1 LV1 EK1 (fun z Hz => pd_nonsingular _ _ (PD z Hz))) as V1.
  pose proof (loo_value_formula gamma kv s2 F2 l kw train targets b n c q v2 K2 LV2 EK2 NS2) as V2.
  destruct (cand_attr s F names bounds _ _ _ C1) as (_ & _ & _ & KI1 & SC1). destruct (cand_attr s F names bounds _ _ _ C2) as (_ & _ & _ & KI2 & SC2).
  rewrite KI1, SC1 in V1. rewrite KI2, SC2 in V2. rewrite V1, V2. fold Fc k1 m1. fold Fc in H.
  match type of H with Rabs (?a - ?b) < _ => replace (- a - - b) with (- (a - b)) by ring end. rewrite Rabs_Ropp. exact H.
Qed.

Lemma box_nonempty : exists x, in_box x bounds.
Proof.
  destruct MO as (_ & NNO & _). pose proof EO as E. rewrite get_opt_params_eq in E by assumption. injection E as _ _ <-.
  pose proof BO as B. pose proof PB as P. unfold bounds_ok, positive_bounds in B, P.
  assert (H : forall L, (forall a, In a L -> In a (declared (f_attr F)) /\ p_fixed (st_cell s (nm_loc a)) = false) ->
     exists x, in_box x (map (fun a => p_bounds (st_cell s (nm_loc a))) L)).
  { induction L as [|a L IH]; intros HL; [exists []; constructor|]. destruct IH as (x & HX); [intros; apply HL; right; auto|].
    destruct (HL a (or_introl eq_refl)) as [I Ff]. destruct (P a I Ff) as (lo & El & _). destruct (B a I Ff) as (_ & _ & O).
    exists (lo :: x). cbn [map]. constructor; [|exact HX]. rewrite El in *. split; [|exact O]. intros X. inversion X. lra. }
  apply H. intros a Ha. apply filter_In in Ha as [I Hf]. split; [exact I|]. unfold NamedSpec.free in Hf. destruct (p_fixed (st_cell s (nm_loc a))); [discriminate|reflexivity].
Qed.

Lemma obj_max : finite_bounds bounds -> exists x vx, in_box x bounds /\ obj (combine names x) = Ok vx /\
  forall y, in_box y bounds -> exists vy, obj (combine names y) = Ok vy /\ vy <= vx.
Proof.
  intros FB. set (val := fun x => match obj (combine names x) with Ok v => v | Err _ => 0 end).
  assert (TOT : forall y, in_box y bounds -> exists v, obj (combine names y) = Ok v).
  { intros y BY.
    destruct (candidate_value ls EX slogdet eps0 gamma kv s F l kw draws train targets ix nn N b n c q names x0 bounds t MO BO PB LF EO SK TR WP BK KW LS ET y BY)
      as (s2 & F2 & v2 & _ & _ & OB2 & _). exists v2. exact OB2. }
  destruct (box_max bounds val FB box_nonempty) as (x & BX & MX).
  - intros x BX eps EPS. destruct (obj_cont x BX eps EPS) as (d & D & H). exists d. split; [exact D|]. intros y BY PC.
    destruct (H y BY PC) as (vx & vy & Ex & Ey & L). unfold val. rewrite Ex, Ey. exact L.
  - destruct (TOT x BX) as (vx & Ex). exists x, vx. split; [exact BX|]. split; [exact Ex|]. intros y BY. destruct (TOT y BY) as (vy & Ey).
    exists vy. split; [exact Ey|]. specialize (MX y BY). unfold val in MX. rewrite Ex, Ey in MX. exact MX.
Qed.
End Objective.
