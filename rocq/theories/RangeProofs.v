(** Lemmas for C121. *)
From Coq Require Import Lia Lra Psatz.
From Verif Require Import Base BaseFacts NdModel NdFacts RSum HyperModel NamedModel NamedSpec LinAlgModel LinAlgSpec LinAlgFacts Gauss
  GPModel NoiseModel MuyGPSModel GPSpec GPTheorems TensorModel TensorSpec KernelModel KernelSpec KernelLemmas
  FlowModel FlowSpec FlowProofs PointwiseSpec LibSpec LibProofs MultiModel DriverModel NeighborsModel NeighborsProofs WorkModel WorkSpec WorkProofs WorkLemmas
  SimplerSpec SimplerProofs ExpoSpec ExpoProofs ExpoProofs2 RangeSpec.
Local Open Scope R_scope.

(** ** Bridge weights *)
Lemma exp_ge1 x : 0 <= x -> 1 <= exp x.
Proof. intros H. pose proof (exp_ineq1_le x). lra. Qed.

Lemma sinh_super A B : 0 <= A -> 0 <= B -> sinh A + sinh B <= sinh (A + B).
Proof.
  intros HA HB. unfold sinh. rewrite Ropp_plus_distr, !exp_plus.
  pose proof (exp_ge1 A HA) as A1. pose proof (exp_ge1 B HB) as B1.
  assert (EA : exp A * exp (- A) = 1) by (rewrite <- exp_plus, Rplus_opp_r; apply exp_0).
  assert (EB : exp B * exp (- B) = 1) by (rewrite <- exp_plus, Rplus_opp_r; apply exp_0).
  pose proof (exp_pos (- A)) as PA. pose proof (exp_pos (- B)) as PB.
  set (a := exp A) in *. set (b := exp B) in *. set (a' := exp (- A)) in *. set (b' := exp (- B)) in *.
  assert (Q : 0 <= (a * b - 1) * ((a - 1) * (b - 1)) * (a' * b')).
  { apply Rmult_le_pos; [apply Rmult_le_pos|]; [nra|apply Rmult_le_pos; lra|apply Rmult_le_pos; lra]. }
  assert (E : (a * b - 1) * ((a - 1) * (b - 1)) * (a' * b') = a * b - a' * b' - a + a' - b + b').
  { transitivity ((a * a') * (b * b') * (a * b) - (a * a') * (b * b') * a - (a * a') * (b * b') * b + (a * a') * (b * b') - (a * a') * (b * b') + (a * a') * b' + (b * b') * a' - a' * b'); [ring|].
    rewrite EA, EB. ring. }
  lra.
Qed.

Lemma sinh_nonneg x : 0 <= x -> 0 <= sinh x.
Proof. intros [H| <-]; [left; apply sinh_pos; exact H|rewrite sinh_0; lra]. Qed.

Lemma bridge_weights A B : 0 <= A -> 0 <= B -> 0 < A + B ->
  0 <= sinh A / sinh (A + B) /\ 0 <= sinh B / sinh (A + B) /\ sinh B / sinh (A + B) + sinh A / sinh (A + B) <= 1.
Proof.
  intros HA HB H. pose proof (sinh_pos _ H) as P. pose proof (sinh_super A B HA HB) as S0.
  assert (I : 0 <= / sinh (A + B)) by (left; apply Rinv_0_lt_compat; exact P).
  split; [apply Rmult_le_pos; [apply sinh_nonneg; exact HA|exact I]|]. split; [apply Rmult_le_pos; [apply sinh_nonneg; exact HB|exact I]|].
  apply (Rmult_le_reg_r (sinh (A + B))); [exact P|]. rewrite Rmult_plus_distr_r. unfold Rdiv. rewrite !Rmult_assoc, Rinv_l by lra. lra.
Qed.

Lemma delta_range i j : 0 <= delta i j <= 1.
Proof. unfold delta. destruct (i =? j)%nat; lra. Qed.
Lemma delta_ne i j : i <> j -> delta i j = 0.
Proof. intros H. unfold delta. destruct (i =? j)%nat eqn:E; [apply Nat.eqb_eq in E; contradiction|reflexivity]. Qed.

Section E.
Variables (l : R).
Hypothesis Hl : 0 < l.

Lemma ek_le1 s t : 0 < ek l s t <= 1.
Proof.
  unfold ek. split; [apply exp_pos|]. rewrite <- exp_0.
  assert (0 <= Rabs (s - t) / l) by (apply Rmult_le_pos; [apply Rabs_pos|left; apply Rinv_0_lt_compat; exact Hl]).
  destruct (Req_dec (Rabs (s - t) / l) 0) as [->|N]; [rewrite Ropp_0; lra|]. left. apply exp_increasing. lra.
Qed.
Lemma ek_lt1 s t : s <> t -> ek l s t < 1.
Proof.
  intros N. unfold ek. rewrite <- exp_0. apply exp_increasing.
  assert (0 < Rabs (s - t) / l) by (apply Rdiv_lt_0_compat; [apply Rabs_pos_lt; lra|exact Hl]). lra.
Qed.
Lemma ek_sym s t : ek l s t = ek l t s.
Proof. unfold ek. rewrite Rabs_minus_sym. reflexivity. Qed.
Lemma ek_refl s : ek l s s = 1.
Proof. unfold ek, Rminus. rewrite Rplus_opp_r, Rabs_R0. unfold Rdiv. rewrite Rmult_0_l, Ropp_0. apply exp_0. Qed.

Lemma bridge_args u v w : u <= v <= w -> u < w ->
  0 <= sinh ((v - u) / l) / sinh ((w - u) / l) /\ 0 <= sinh ((w - v) / l) / sinh ((w - u) / l) /\
  sinh ((w - v) / l) / sinh ((w - u) / l) + sinh ((v - u) / l) / sinh ((w - u) / l) <= 1.
Proof.
  intros H H'. replace ((w - u) / l) with ((v - u) / l + (w - v) / l) by (field; lra).
  assert (I : 0 < / l) by (apply Rinv_0_lt_compat; exact Hl).
  apply bridge_weights; unfold Rdiv; [apply Rmult_le_pos; lra|apply Rmult_le_pos; lra|]. rewrite <- Rmult_plus_distr_r. apply Rmult_lt_0_compat; lra.
Qed.

Lemma delta_combo_nonneg n a b u u' : 0 <= u -> 0 <= u' ->
  forall j, (j < n)%nat -> 0 <= delta j a * u + delta j b * u'.
Proof.
  intros U U' j Hj. pose proof (delta_range j a). pose proof (delta_range j b).
  assert (0 <= delta j a * u) by (apply Rmult_le_pos; lra). assert (0 <= delta j b * u') by (apply Rmult_le_pos; lra). lra.
Qed.
Lemma delta_combo_sum n a b u u' : (a < n)%nat -> (b < n)%nat -> rsum n (fun j => delta j a * u + delta j b * u') = u + u'.
Proof. intros Ha Hb. rewrite rsum_plus. rewrite (rsum_delta n a (fun _ => u) Ha), (rsum_delta n b (fun _ => u') Hb). reflexivity. Qed.

(** Noise-free weights at [z] are non-negative with total at most 1. *)
Lemma clean_weights n (p : nat -> R) z : exists c, solves n (fun i j => ek l (p i) (p j)) c (fun i => ek l z (p i)) /\
  (forall j, (j < n)%nat -> 0 <= c j) /\ rsum n c <= 1.
Proof.
  destruct (Classical_Prop.classic (exists a, (a < n)%nat /\ p a <= z)) as [L|NL];
  destruct (Classical_Prop.classic (exists b, (b < n)%nat /\ z < p b)) as [G|NG].
  - destruct (ex_max n (fun a => p a <= z) p L) as (a & Ha & Pa & Ma).
    destruct (ex_max n (fun b => z < p b) (fun b => - p b) G) as (b & Hb & Pb & Mb).
    exists (fun j => delta j a * (sinh ((p b - z) / l) / sinh ((p b - p a) / l)) + delta j b * (sinh ((z - p a) / l) / sinh ((p b - p a) / l))).
    split.
    { apply two_points; auto. intros i Hi. destruct (Rle_dec (p i) z) as [Q|Q]; [left; apply Ma; auto|right].
      assert (- p i <= - p b) by (apply Mb; [exact Hi|lra]). lra. }
    destruct (bridge_args (p a) z (p b)) as (B1 & B2 & B3); [lra|lra|].
    split; [apply delta_combo_nonneg; assumption|]. rewrite delta_combo_sum by assumption. exact B3.
  - destruct (ex_max n (fun a => p a <= z) p L) as (a & Ha & Pa & Ma).
    exists (fun j => delta j a * ek l z (p a)). split.
    { apply one_point; auto. intros i Hi. apply Ma; [exact Hi|]. apply Rnot_lt_le. intros Q. apply NG. eauto. }
    pose proof (ek_le1 z (p a)). split.
    + intros j _. pose proof (delta_range j a). apply Rmult_le_pos; lra.
    + rewrite (rsum_delta n a (fun _ => ek l z (p a)) Ha). lra.
  - destruct (ex_max n (fun b => z < p b) (fun b => - p b) G) as (b & Hb & Pb & Mb).
    exists (fun j => delta j b * ek l z (p b)). split.
    { apply one_point'; [exact Hb| |lra]. intros i Hi. assert (- p i <= - p b); [|lra]. apply Mb; [exact Hi|]. apply Rnot_le_lt. intros Q. apply NL. eauto. }
    pose proof (ek_le1 z (p b)). split.
    + intros j _. pose proof (delta_range j b). apply Rmult_le_pos; lra.
    + rewrite (rsum_delta n b (fun _ => ek l z (p b)) Hb). lra.
  - assert (n = O) as ->.
    { destruct n as [|n]; [reflexivity|exfalso]. destruct (Rle_dec (p O) z) as [Q|Q]; [apply NL|apply NG]; exists O; (split; [lia|lra]). }
    exists (fun _ => 0). split; [intros i Hi; lia|]. split; [intros j Hj; lia|cbn; lra].
Qed.

(** Weights for position [p i] from the other positions. *)
Definition loo_weights n (p : nat -> R) i (u : nat -> R) (v : R) : Prop :=
  (forall j, (j < n)%nat -> 0 <= u j) /\ rsum n u <= 1 /\
  (forall m, (m < n)%nat -> p m <> p i -> rsum n (fun j => ek l (p m) (p j) * u j) = ek l (p m) (p i)) /\
  (forall m, (m < n)%nat -> p m = p i -> u m = 0) /\
  0 < v /\ v = 1 - rsum n (fun j => ek l (p i) (p j) * u j).

Lemma moved_row n (p : nat -> R) i a (u : nat -> R) z m : (m < n)%nat -> p m <> p i ->
  (forall j, (j < n)%nat -> p j = p i -> u j = 0) ->
  solves n (fun s t => ek l (if Req_EM_T (p s) (p i) then p a else p s) (if Req_EM_T (p t) (p i) then p a else p t)) u
    (fun s => ek l z (if Req_EM_T (p s) (p i) then p a else p s)) ->
  rsum n (fun j => ek l (p m) (p j) * u j) = ek l (p m) z.
Proof.
  intros Hm NE U0 S0. specialize (S0 m Hm). cbv beta in S0. destruct (Req_EM_T (p m) (p i)) as [|_]; [contradiction|].
  rewrite (ek_sym (p m) z), <- S0. apply rsum_ext. intros j Hj. destruct (Req_EM_T (p j) (p i)) as [E|_]; [rewrite U0 by assumption; ring|reflexivity].
Qed.

Lemma strict_var n (p : nat -> R) i (u : nat -> R) : (forall j, (j < n)%nat -> 0 <= u j) -> rsum n u <= 1 ->
  (forall m, (m < n)%nat -> p m = p i -> u m = 0) -> 0 < 1 - rsum n (fun j => ek l (p i) (p j) * u j).
Proof.
  intros U SU U0.
  assert (T : forall j, (j < n)%nat -> 0 <= u j - ek l (p i) (p j) * u j).
  { intros j Hj. pose proof (ek_le1 (p i) (p j)). specialize (U j Hj). nra. }
  destruct (Classical_Prop.classic (exists j, (j < n)%nat /\ u j <> 0)) as [(j & Hj & NZ)|AZ].
  - pose proof (rsum_term_le n _ j T Hj) as TL. cbv beta in TL.
    assert (NE : p i <> p j) by (intros E; apply NZ, U0; auto). pose proof (ek_lt1 _ _ NE). pose proof (U j Hj).
    assert (0 < u j - ek l (p i) (p j) * u j) by nra.
    rewrite rsum_minus in TL. lra.
  - rewrite (rsum_ext n _ (fun _ => 0)); [rewrite rsum_const; lra|]. intros j Hj. destruct (Req_dec (u j) 0) as [->|NZ]; [ring|exfalso; apply AZ; eauto].
Qed.

Lemma loo_exists n (p : nat -> R) i : (i < n)%nat -> exists u v, loo_weights n p i u v.
Proof.
  intros Hin.
  assert (D : exists u, (forall j, (j < n)%nat -> 0 <= u j) /\ rsum n u <= 1 /\
    (forall m, (m < n)%nat -> p m <> p i -> rsum n (fun j => ek l (p m) (p j) * u j) = ek l (p m) (p i)) /\
    (forall m, (m < n)%nat -> p m = p i -> u m = 0)).
  { destruct (Classical_Prop.classic (exists a, (a < n)%nat /\ p a < p i)) as [L|NL];
    destruct (Classical_Prop.classic (exists b, (b < n)%nat /\ p i < p b)) as [G|NG].
    - destruct (ex_max n (fun a => p a < p i) p L) as (a & Ha & Pa & Ma).
      destruct (ex_max n (fun b => p i < p b) (fun b => - p b) G) as (b & Hb & Pb & Mb).
      set (u := fun j => delta j a * (sinh ((p b - p i) / l) / sinh ((p b - p a) / l)) + delta j b * (sinh ((p i - p a) / l) / sinh ((p b - p a) / l))).
      assert (U0 : forall m, (m < n)%nat -> p m = p i -> u m = 0).
      { intros m Hm E. unfold u. rewrite (delta_ne m a), (delta_ne m b); [ring|intros ->; lra|intros ->; lra]. }
      exists u. destruct (bridge_args (p a) (p i) (p b)) as (B1 & B2 & B3); [lra|lra|].
      split; [apply delta_combo_nonneg; assumption|]. split; [unfold u; rewrite delta_combo_sum by assumption; exact B3|]. split; [|exact U0].
      intros m Hm NE. apply (moved_row n p i a u (p i) m Hm NE U0).
      set (p' := fun s => if Req_EM_T (p s) (p i) then p a else p s).
      assert (Ea : p' a = p a) by (unfold p'; destruct (Req_EM_T (p a) (p i)); [lra|reflexivity]).
      assert (Eb : p' b = p b) by (unfold p'; destruct (Req_EM_T (p b) (p i)); [lra|reflexivity]).
      pose proof (two_points n l p' (p i) a b Hl Ha Hb) as T. rewrite Ea, Eb in T. apply T; [lra|].
      intros k Hk. unfold p'. destruct (Req_EM_T (p k) (p i)) as [E|NEk]; [left; lra|].
      destruct (Rlt_dec (p k) (p i)) as [Q|Q]; [left; apply Ma; auto|right]. assert (- p k <= - p b) by (apply Mb; [exact Hk|lra]). lra.
    - destruct (ex_max n (fun a => p a < p i) p L) as (a & Ha & Pa & Ma).
      set (u := fun j => delta j a * ek l (p i) (p a)).
      assert (U0 : forall m, (m < n)%nat -> p m = p i -> u m = 0) by (intros m Hm E; unfold u; rewrite delta_ne by (intros ->; lra); ring).
      pose proof (ek_le1 (p i) (p a)). exists u. split; [intros j _; pose proof (delta_range j a); apply Rmult_le_pos; lra|].
      split; [unfold u; rewrite (rsum_delta n a (fun _ => ek l (p i) (p a)) Ha); lra|]. split; [|exact U0].
      intros m Hm NE. apply (moved_row n p i a u (p i) m Hm NE U0).
      set (p' := fun s => if Req_EM_T (p s) (p i) then p a else p s).
      assert (Ea : p' a = p a) by (unfold p'; destruct (Req_EM_T (p a) (p i)); [lra|reflexivity]).
      pose proof (one_point n l p' (p i) a Ha) as T. rewrite Ea in T. apply T; [|lra].
      intros k Hk. unfold p'. destruct (Req_EM_T (p k) (p i)) as [E|NEk]; [lra|]. apply Ma; [exact Hk|].
      destruct (Rtotal_order (p k) (p i)) as [Q|[Q|Q]]; [exact Q|contradiction|exfalso; apply NG; eauto].
    - destruct (ex_max n (fun b => p i < p b) (fun b => - p b) G) as (b & Hb & Pb & Mb).
      set (u := fun j => delta j b * ek l (p i) (p b)).
      assert (U0 : forall m, (m < n)%nat -> p m = p i -> u m = 0) by (intros m Hm E; unfold u; rewrite delta_ne by (intros ->; lra); ring).
      pose proof (ek_le1 (p i) (p b)). exists u. split; [intros j _; pose proof (delta_range j b); apply Rmult_le_pos; lra|].
      split; [unfold u; rewrite (rsum_delta n b (fun _ => ek l (p i) (p b)) Hb); lra|]. split; [|exact U0].
      intros m Hm NE. apply (moved_row n p i b u (p i) m Hm NE U0).
      set (p' := fun s => if Req_EM_T (p s) (p i) then p b else p s).
      assert (Eb : p' b = p b) by (unfold p'; destruct (Req_EM_T (p b) (p i)); [lra|reflexivity]).
      pose proof (one_point' n l p' (p i) b Hb) as T. rewrite Eb in T. apply T; [|lra].
      intros k Hk. unfold p'. destruct (Req_EM_T (p k) (p i)) as [E|NEk]; [lra|]. assert (- p k <= - p b); [|lra]. apply Mb; [exact Hk|].
      destruct (Rtotal_order (p k) (p i)) as [Q|[Q|Q]]; [exfalso; apply NL; eauto|contradiction|exact Q].
    - exists (fun _ => 0). split; [intros; lra|]. split; [rewrite rsum_const; lra|]. split; [|reflexivity].
      intros m Hm NE. exfalso. destruct (Rtotal_order (p m) (p i)) as [Q|[Q|Q]]; [apply NL; eauto|contradiction|apply NG; eauto]. }
  destruct D as (u & U & SU & UE & U0). exists u, (1 - rsum n (fun j => ek l (p i) (p j) * u j)).
  split; [exact U|]. split; [exact SU|]. split; [exact UE|]. split; [exact U0|]. split; [|reflexivity]. apply strict_var; assumption.
Qed.

(** A system with noise whose right-hand side exceeds its own leave-one-out predictions has a non-negative solution. *)
Section N.
Variables (n : nat) (p nu : nat -> R).
Hypothesis NU : forall i, (i < n)%nat -> 0 <= nu i.
Hypothesis DI : forall i j, (i < n)%nat -> (j < n)%nat -> i <> j -> p i = p j -> nu i = 0 -> nu j = 0 -> False.

Let K := fun i j : nat => ek l (p i) (p j).
Let same (i : nat) (w : nat -> R) := fun j : nat => if Req_EM_T (p j) (p i) then w j else 0.

Lemma loo_residual i u v w : (i < n)%nat -> loo_weights n p i u v ->
  rsum n (fun j => K i j * w j) - rsum n (fun m => u m * rsum n (fun j => K m j * w j)) = v * rsum n (same i w).
Proof.
  intros Hin (U & SU & UE & U0 & PV & EV).
  assert (E1 : rsum n (fun m => u m * rsum n (fun j => K m j * w j)) = rsum n (fun j => w j * rsum n (fun m => K j m * u m))).
  { rewrite (rsum_ext n _ (fun m => rsum n (fun j => u m * (K m j * w j)))) by (intros; symmetry; apply rsum_scal).
    rewrite rsum_swap. apply rsum_ext. intros j Hj. rewrite <- rsum_scal. apply rsum_ext. intros m Hm. unfold K. rewrite (ek_sym (p m) (p j)). ring. }
  rewrite E1, <- rsum_minus, <- rsum_scal. apply rsum_ext. intros j Hj. unfold same.
  destruct (Req_EM_T (p j) (p i)) as [E|NE].
  - rewrite EV. unfold K. rewrite E, ek_refl. ring.
  - unfold K at 2. rewrite UE by assumption. unfold K. rewrite (ek_sym (p j) (p i)). ring.
Qed.

Variables (h w : nat -> R).
Hypothesis SW : solves n (plus_diag K nu) w h.
Hypothesis HS : forall i j, (i < n)%nat -> (j < n)%nat -> p i = p j -> h i = h j.
Hypothesis HL : forall i u v, (i < n)%nat -> loo_weights n p i u v -> rsum n (fun m => u m * h m) <= h i.

Lemma noisy_row i : (i < n)%nat -> rsum n (fun j => K i j * w j) = h i - nu i * w i.
Proof.
  intros Hin. specialize (SW i Hin). unfold plus_diag in SW. rewrite <- SW.
  rewrite (rsum_ext n (fun j => (K i j + (if (i =? j)%nat then nu i else 0)) * w j) (fun j => K i j * w j + delta j i * (nu i * w j))).
  - rewrite rsum_plus, (rsum_delta n i (fun j => nu i * w j) Hin). ring.
  - intros j Hj. unfold delta. rewrite (Nat.eqb_sym i j). destruct (j =? i)%nat; ring.
Qed.

Lemma noisy_residual i u v : (i < n)%nat -> loo_weights n p i u v ->
  v * rsum n (same i w) = (h i - rsum n (fun m => u m * h m)) - (nu i * w i - rsum n (fun m => u m * (nu m * w m))).
Proof.
  intros Hin LW. rewrite <- (loo_residual i u v w Hin LW), (noisy_row i Hin).
  rewrite (rsum_ext n (fun m => u m * rsum n (fun j => K m j * w j)) (fun m => u m * h m - u m * (nu m * w m))).
  - rewrite rsum_minus. ring.
  - intros m Hm. rewrite (noisy_row m Hm). ring.
Qed.

Lemma same_z i j : (i < n)%nat -> (j < n)%nat -> p j = p i -> nu j * w j = nu i * w i.
Proof.
  intros Hin Hj E. pose proof (noisy_row i Hin) as A. pose proof (noisy_row j Hj) as B. pose proof (HS j i Hj Hin E) as EH.
  assert (rsum n (fun k => K j k * w k) = rsum n (fun k => K i k * w k)) by (apply rsum_ext; intros k _; unfold K; rewrite E; reflexivity). lra.
Qed.

Lemma z_nonneg j : (j < n)%nat -> 0 <= nu j * w j.
Proof.
  intros Hj. destruct (ex_max n (fun _ => True) (fun i => - (nu i * w i))) as (i & Hi & _ & Mi); [exists j; auto|].
  destruct (Rle_dec 0 (nu i * w i)) as [P|N]; [specialize (Mi j Hj Logic.I); lra|exfalso].
  assert (Z : nu i * w i < 0) by lra. clear N.
  destruct (loo_exists n p i Hi) as (u & v & LW). pose proof (noisy_residual i u v Hi LW) as E. pose proof (HL i u v Hi LW) as H.
  destruct LW as (U & SU & UE & U0 & PV & EV).
  assert (G : rsum n (same i w) < 0).
  { assert (T : forall k, (k < n)%nat -> 0 <= - same i w k).
    { intros k Hk. unfold same. destruct (Req_EM_T (p k) (p i)) as [Q|_]; [|lra]. pose proof (same_z i k Hi Hk Q). pose proof (NU k Hk). nra. }
    pose proof (rsum_term_le n _ i T Hi) as TL. cbv beta in TL.
    rewrite (rsum_ext n (fun k => - same i w k) (fun k => (-1) * same i w k)) in TL by (intros; ring). rewrite rsum_scal in TL.
    unfold same at 1 in TL. destruct (Req_EM_T (p i) (p i)) as [_|C]; [|contradiction C; reflexivity]. pose proof (NU i Hi).
    assert (w i < 0) by nra. lra. }
  assert (ZU : (nu i * w i) * rsum n u <= rsum n (fun m => u m * (nu m * w m))).
  { rewrite <- rsum_scal. apply rsum_le. intros m Hm. specialize (Mi m Hm Logic.I). specialize (U m Hm). nra. }
  assert (nu i * w i <= (nu i * w i) * rsum n u) by nra.
  assert (v * rsum n (same i w) < 0) by nra. lra.
Qed.

Lemma solution_nonneg i : (i < n)%nat -> 0 <= w i.
Proof.
  intros Hi. pose proof (z_nonneg i Hi) as Z. destruct (NU i Hi) as [P|E0].
  - destruct (Rle_dec 0 (w i)) as [Q|Q]; [exact Q|exfalso]. nra.
  - destruct (loo_exists n p i Hi) as (u & v & LW). pose proof (noisy_residual i u v Hi LW) as E. pose proof (HL i u v Hi LW) as H.
    destruct LW as (U & SU & UE & U0 & PV & EV).
    assert (G : rsum n (same i w) = w i).
    { rewrite (rsum_ext n _ (fun j => delta j i * w j)); [apply (rsum_delta n i w Hi)|]. intros j Hj. unfold same.
      destruct (Nat.eq_dec j i) as [->|NE].
      - destruct (Req_EM_T (p i) (p i)) as [_|C]; [|contradiction C; reflexivity]. unfold delta. rewrite Nat.eqb_refl. ring.
      - rewrite delta_ne by exact NE. destruct (Req_EM_T (p j) (p i)) as [Q|_]; [|ring].
        pose proof (same_z i j Hi Hj Q) as S0. rewrite <- E0 in S0. rewrite Rmult_0_l in *.
        apply Rmult_integral in S0 as [S0|S0]; [exfalso; apply (DI j i Hj Hi NE Q S0); symmetry; exact E0|exact S0]. }
    assert (0 <= rsum n (fun m => u m * (nu m * w m))) by (apply rsum_nonneg; intros m Hm; apply Rmult_le_pos; [apply U; exact Hm|apply z_nonneg; exact Hm]).
    rewrite G, <- E0 in E. destruct (Rle_dec 0 (w i)) as [Q|Q]; [exact Q|exfalso]. nra.
Qed.
End N.

(** Weights with noise. *)
Lemma noisy_weights n (p nu : nat -> R) z w :
  (forall i, (i < n)%nat -> 0 <= nu i) ->
  (forall i j, (i < n)%nat -> (j < n)%nat -> i <> j -> p i = p j -> nu i = 0 -> nu j = 0 -> False) ->
  nonsingular n (plus_diag (fun i j => ek l (p i) (p j)) nu) ->
  solves n (plus_diag (fun i j => ek l (p i) (p j)) nu) w (fun i => ek l z (p i)) ->
  (forall j, (j < n)%nat -> 0 <= w j) /\ rsum n w <= 1.
Proof.
  intros NU DI NS SW.
  destruct (clean_weights n p z) as (c & SC & C0 & CS).
  assert (W0 : forall j, (j < n)%nat -> 0 <= w j).
  { apply (solution_nonneg n p nu NU DI (fun i => ek l z (p i)) w SW).
    - intros i j _ _ E. cbv beta. rewrite E. reflexivity.
    - intros i u v Hi LW. pose proof (loo_residual n p i u v c Hi LW) as E. cbv zeta beta in E.
      rewrite (SC i Hi) in E. rewrite (rsum_ext n (fun m => u m * rsum n (fun j => ek l (p m) (p j) * c j)) (fun m => u m * ek l z (p m))) in E
        by (intros m Hm; rewrite (SC m Hm); reflexivity).
      destruct LW as (_ & _ & _ & _ & PV & _).
      assert (0 <= rsum n (fun j => if Req_EM_T (p j) (p i) then c j else 0)).
      { apply rsum_nonneg. intros j Hj. destruct (Req_EM_T (p j) (p i)); [apply C0; exact Hj|lra]. }
      assert (0 <= v * rsum n (fun j => if Req_EM_T (p j) (p i) then c j else 0)) by (apply Rmult_le_pos; lra). lra. }
  split; [exact W0|].
  destruct (ginv_complete n _ NS) as [fi FI]. pose proof (proj1 (ginv_sound n _ fi FI) (fun _ => 1)) as SY. set (y := fi (fun _ => 1)) in *.
  assert (Y0 : forall j, (j < n)%nat -> 0 <= y j).
  { apply (solution_nonneg n p nu NU DI (fun _ => 1) y SY); [reflexivity|]. intros i u v Hi (U & SU & _).
    rewrite (rsum_ext n _ u) by (intros; ring). exact SU. }
  assert (ZY : forall j, (j < n)%nat -> 0 <= nu j * y j) by (intros j Hj; apply Rmult_le_pos; auto).
  assert (SYM : forall i j, plus_diag (fun i j => ek l (p i) (p j)) nu i j = plus_diag (fun i j => ek l (p i) (p j)) nu j i).
  { intros i j. unfold plus_diag. rewrite (ek_sym (p i) (p j)), (Nat.eqb_sym i j). destruct (j =? i)%nat eqn:E; [apply Nat.eqb_eq in E; subst; reflexivity|reflexivity]. }
  (* sum w = 1^T w = y^T A w = y^T k = y^T K c = c^T (1 - N y) *)
  assert (E1 : rsum n w = rsum n (fun i => y i * ek l z (p i))).
  { rewrite (rsum_ext n (fun i => y i * ek l z (p i)) (fun i => rsum n (fun j => y i * (plus_diag (fun i j => ek l (p i) (p j)) nu i j * w j)))).
    - rewrite rsum_swap. apply rsum_ext. intros j Hj.
      rewrite (rsum_ext n _ (fun i => w j * (plus_diag (fun i j => ek l (p i) (p j)) nu j i * y i))) by (intros; rewrite SYM; ring).
      rewrite rsum_scal, (SY j Hj). ring.
    - intros i Hi. rewrite rsum_scal. rewrite (SW i Hi). reflexivity. }
  assert (E2 : rsum n (fun i => y i * ek l z (p i)) = rsum n (fun j => c j * (1 - nu j * y j))).
  { rewrite (rsum_ext n (fun i => y i * ek l z (p i)) (fun i => rsum n (fun j => y i * (ek l (p i) (p j) * c j)))).
    - rewrite rsum_swap. apply rsum_ext. intros j Hj.
      rewrite (rsum_ext n _ (fun i => c j * (ek l (p j) (p i) * y i))) by (intros i _; rewrite (ek_sym (p i) (p j)); ring).
      rewrite rsum_scal. f_equal. exact (noisy_row n p nu (fun _ => 1) y SY j Hj).
    - intros i Hi. rewrite rsum_scal, (SC i Hi). reflexivity. }
  rewrite E1, E2. eapply Rle_trans; [apply rsum_le|exact CS]. intros j Hj. pose proof (C0 j Hj). pose proof (ZY j Hj). nra.
Qed.
End E.
