(** Lemmas for C118. *)
From Coq Require Import Lia Lra.
From Verif Require Import Base BaseFacts NdModel NdFacts RSum LinAlgModel LinAlgSpec LinAlgFacts GPModel NoiseModel
  MuyGPSModel GPSpec MuyGPSProofs TensorModel TensorSpec TensorProofs KernelSpec
  ShearModel ShearSpec ShearFlowSpec ShearProofs ShearLemmas ShearPsd ShearGram ShearFlow SkySpec.
Local Open Scope R_scope.

Lemma sum3 (f : nat -> R) : rsum 3 f = f 0%nat + f 1%nat + f 2%nat.
Proof. cbn [rsum]. ring. Qed.

(** ** The covariances *)
Definition al (l R2 : R) : R := (l ^ 2 - l * R2) / l ^ 4.
(** Covariances as polynomials of R2 = u^2 + v^2, P = u^2 - v^2 and Q = 2uv, without the exponential. *)
Definition pform (l : R) (a c : nat) (R2 P Q : R) : R :=
  match a, c with
  | O, O => (2 * l ^ 2 - 2 * l * R2 + R2 ^ 2 / 4) / l ^ 4
  | O, 1%nat | 1%nat, O => (R2 / 4 - 3 / 2 * l) * P / l ^ 4
  | O, 2%nat | 2%nat, O => (R2 / 4 - 3 / 2 * l) * Q / l ^ 4
  | 1%nat, 1%nat => al l R2 + P * P / (4 * l ^ 4)
  | 1%nat, 2%nat | 2%nat, 1%nat => P * Q / (4 * l ^ 4)
  | 2%nat, 2%nat => al l R2 + Q * Q / (4 * l ^ 4)
  | _, _ => 0
  end.
Lemma cform_poly l a c u v : l <> 0 -> (a < 3)%nat -> (c < 3)%nat ->
  cform l a c u v = pform l a c (u ^ 2 + v ^ 2) (u ^ 2 - v ^ 2) (2 * (u * v)) * exp (- (u ^ 2 + v ^ 2) / (2 * l)).
Proof.
  intros Hl Ha Hc. destruct a as [|[|[|a]]]; [| | |lia]; (destruct c as [|[|[|c]]]; [| | |lia]);
    unfold cform, pform, al, kk_fn, kg1_fn, kg2_fn, g1g1_fn, g1g2_fn, g2g2_fn; cbn [obs];
    replace 0.25 with (1 / 4) by lra; replace 0.5 with (1 / 2) by lra; set (e := exp _); clearbody e; field; auto.
Qed.

Lemma turn_pform g l a c R2 P Q : rigid g -> l <> 0 -> (a < 3)%nat -> (c < 3)%nat ->
  pform l a c R2 (turn g 1 1 * P + turn g 1 2 * Q) (turn g 2 1 * P + turn g 2 2 * Q) =
  rsum 3 (fun a' => rsum 3 (fun c' => turn g a a' * turn g c c' * pform l a' c' R2 P Q)).
Proof.
  intros HR Hl Ha Hc. rewrite sum3, !sum3.
  unfold rigid in HR.
  assert (G : msign g * msign g = 1) by (unfold msign; destruct (mflip g); ring).
  assert (CS : (mc g ^ 2 - ms g ^ 2) ^ 2 + (2 * mc g * ms g) ^ 2 = 1).
  { transitivity ((mc g ^ 2 + ms g ^ 2) ^ 2); [ring|rewrite HR; ring]. }
  destruct a as [|[|[|a]]]; [| | |lia]; (destruct c as [|[|[|c]]]; [| | |lia]); cbn [turn pform];
    set (C := mc g ^ 2 - ms g ^ 2) in *; set (S := 2 * mc g * ms g) in *; set (e := msign g) in *; clearbody C S e;
    set (A := al l R2); clearbody A; try (field; auto).
  - transitivity (A * (C ^ 2 + S ^ 2) + (C * P - S * e * Q) * (C * P - S * e * Q) / (4 * l ^ 4)); [rewrite CS; field; auto|].
    transitivity (A * (C ^ 2 + S ^ 2 * (e * e)) + (C * P - S * e * Q) * (C * P - S * e * Q) / (4 * l ^ 4)); [rewrite G; ring|field; auto].
  - transitivity (A * (C * S) * (1 - e * e) + (C * P - S * e * Q) * (S * P + C * e * Q) / (4 * l ^ 4)); [rewrite G; field; auto|field; auto].
  - transitivity (A * (C * S) * (1 - e * e) + (C * P - S * e * Q) * (S * P + C * e * Q) / (4 * l ^ 4)); [rewrite G; field; auto|field; auto].
  - transitivity (A * (C ^ 2 + S ^ 2) + (S * P + C * e * Q) * (S * P + C * e * Q) / (4 * l ^ 4)); [rewrite CS; field; auto|].
    transitivity (A * (C ^ 2 * (e * e) + S ^ 2) + (S * P + C * e * Q) * (S * P + C * e * Q) / (4 * l ^ 4)); [rewrite G; ring|field; auto].
Qed.

Lemma turn_cov g l a c x y : rigid g -> l <> 0 -> (a < 3)%nat -> (c < 3)%nat ->
  shear_cov l (obs a) (obs c) (move g x) (move g y) =
  rsum 3 (fun a' => rsum 3 (fun c' => turn g a a' * turn g c c' * shear_cov l (obs a') (obs c') x y)).
Proof.
  intros HR Hl Ha Hc. rewrite cov_closed by auto. rewrite cform_poly by auto.
  set (u := x O - y O). set (v := x 1%nat - y 1%nat).
  assert (G : msign g * msign g = 1) by (unfold msign; destruct (mflip g); ring).
  unfold rigid in HR.
  set (u' := move g x O - move g y O). set (v' := move g x 1%nat - move g y 1%nat).
  assert (Eu : u' = mc g * u - ms g * (msign g * v)) by (unfold u', u, v; cbn [move]; ring).
  assert (Ev : v' = ms g * u + mc g * (msign g * v)) by (unfold v', u, v; cbn [move]; ring).
  clearbody u' v'.
  assert (E1 : u' ^ 2 + v' ^ 2 = u ^ 2 + v ^ 2).
  { rewrite Eu, Ev. transitivity ((mc g ^ 2 + ms g ^ 2) * (u ^ 2 + (msign g * msign g) * v ^ 2)); [ring|]. rewrite HR, G. ring. }
  assert (E2 : u' ^ 2 - v' ^ 2 = turn g 1 1 * (u ^ 2 - v ^ 2) + turn g 1 2 * (2 * (u * v))).
  { rewrite Eu, Ev. cbn [turn]. transitivity ((mc g ^ 2 - ms g ^ 2) * (u ^ 2 - (msign g * msign g) * v ^ 2) - 2 * mc g * ms g * msign g * (2 * (u * v))); [ring|].
    rewrite G. ring. }
  assert (E3 : 2 * (u' * v') = turn g 2 1 * (u ^ 2 - v ^ 2) + turn g 2 2 * (2 * (u * v))).
  { rewrite Eu, Ev. cbn [turn]. transitivity (2 * mc g * ms g * (u ^ 2 - (msign g * msign g) * v ^ 2) + (mc g ^ 2 - ms g ^ 2) * msign g * (2 * (u * v))); [ring|].
    rewrite G. ring. }
  rewrite E1, E2, E3, (turn_pform g l a c) by auto.
  rewrite <- rsum_scal_r. apply rsum_ext. intros a' Ha'. rewrite <- rsum_scal_r. apply rsum_ext. intros c' Hc'.
  rewrite cov_closed, cform_poly by auto. fold u v. ring.
Qed.

(** ** Turning stacked vectors *)
Section Stack.
Variables (g : motion) (s r k : nat).
Hypothesis HR : rigid g.
Hypothesis SR : (s = 0 /\ r = 3)%nat \/ (s = 1 /\ r = 2)%nat.
Hypothesis Hk : (0 < k)%nat.

Definition tstack (w : nat -> R) : nat -> R := fun p => rsum r (fun a => turn g (s + p / k) (s + a) * w (a * k + p mod k)%nat).

Lemma dm a i : (i < k)%nat -> ((a * k + i) / k = a /\ (a * k + i) mod k = i)%nat.
Proof.
  intros Hi. split.
  - rewrite Nat.div_add_l by lia. rewrite Nat.div_small by lia. lia.
  - rewrite Nat.add_comm, Nat.mod_add by lia. apply Nat.mod_small; lia.
Qed.

Lemma restrict o (f : nat -> R) : (s <= o < 3)%nat -> rsum 3 (fun a => turn g o a * f a) = rsum r (fun a => turn g o (s + a) * f (s + a)%nat).
Proof.
  intros Ho. destruct SR as [[-> ->]|[-> ->]]; [reflexivity|].
  destruct o as [|[|[|o]]]; try lia; cbn [rsum turn plus]; ring.
Qed.

(** Columns of [turn] are orthonormal. *)
Lemma turn_orth b c : (b < r)%nat -> (c < r)%nat -> rsum r (fun a => turn g (s + a) (s + b) * turn g (s + a) (s + c)) = delta b c.
Proof.
  intros Hb Hc. unfold rigid in HR.
  assert (G : msign g * msign g = 1) by (unfold msign; destruct (mflip g); ring).
  assert (CS : (mc g ^ 2 - ms g ^ 2) ^ 2 + (2 * mc g * ms g) ^ 2 = 1).
  { transitivity ((mc g ^ 2 + ms g ^ 2) ^ 2); [ring|rewrite HR; ring]. }
  assert (X11 : turn g 1 1 * turn g 1 1 + turn g 2 1 * turn g 2 1 = 1) by (cbn [turn]; rewrite <- CS; ring).
  assert (X12 : turn g 1 1 * turn g 1 2 + turn g 2 1 * turn g 2 2 = 0) by (cbn [turn]; ring).
  assert (X22 : turn g 1 2 * turn g 1 2 + turn g 2 2 * turn g 2 2 = 1).
  { cbn [turn]. transitivity ((msign g * msign g) * ((mc g ^ 2 - ms g ^ 2) ^ 2 + (2 * mc g * ms g) ^ 2)); [ring|rewrite CS, G; ring]. }
  assert (Z1 : turn g 0 1 = 0) by reflexivity. assert (Z2 : turn g 0 2 = 0) by reflexivity.
  assert (Z3 : turn g 1 0 = 0) by reflexivity. assert (Z4 : turn g 2 0 = 0) by reflexivity. assert (Z5 : turn g 0 0 = 1) by reflexivity.
  destruct SR as [[-> ->]|[-> ->]]; (destruct b as [|[|[|b]]]; try lia); (destruct c as [|[|[|c]]]; try lia);
    cbn [rsum plus delta Nat.eqb]; unfold delta; cbn [Nat.eqb]; rewrite ?Z1, ?Z2, ?Z3, ?Z4, ?Z5; lra.
Qed.
(** Rows too. *)
Lemma turn_orth_rows b c : (b < r)%nat -> (c < r)%nat -> rsum r (fun a => turn g (s + b) (s + a) * turn g (s + c) (s + a)) = delta b c.
Proof.
  intros Hb Hc. unfold rigid in HR.
  assert (G : msign g * msign g = 1) by (unfold msign; destruct (mflip g); ring).
  assert (CS : (mc g ^ 2 - ms g ^ 2) ^ 2 + (2 * mc g * ms g) ^ 2 = 1).
  { transitivity ((mc g ^ 2 + ms g ^ 2) ^ 2); [ring|rewrite HR; ring]. }
  assert (X11 : turn g 1 1 * turn g 1 1 + turn g 1 2 * turn g 1 2 = 1).
  { cbn [turn]. transitivity ((mc g ^ 2 - ms g ^ 2) ^ 2 + (msign g * msign g) * (2 * mc g * ms g) ^ 2); [ring|rewrite G; lra]. }
  assert (X12 : turn g 1 1 * turn g 2 1 + turn g 1 2 * turn g 2 2 = 0).
  { cbn [turn]. transitivity ((1 - msign g * msign g) * ((mc g ^ 2 - ms g ^ 2) * (2 * mc g * ms g))); [ring|rewrite G; ring]. }
  assert (X22 : turn g 2 1 * turn g 2 1 + turn g 2 2 * turn g 2 2 = 1).
  { cbn [turn]. transitivity ((msign g * msign g) * (mc g ^ 2 - ms g ^ 2) ^ 2 + (2 * mc g * ms g) ^ 2); [ring|rewrite G; lra]. }
  assert (Z1 : turn g 0 1 = 0) by reflexivity. assert (Z2 : turn g 0 2 = 0) by reflexivity.
  assert (Z3 : turn g 1 0 = 0) by reflexivity. assert (Z4 : turn g 2 0 = 0) by reflexivity. assert (Z5 : turn g 0 0 = 1) by reflexivity.
  destruct SR as [[-> ->]|[-> ->]]; (destruct b as [|[|[|b]]]; try lia); (destruct c as [|[|[|c]]]; try lia);
    cbn [rsum plus]; unfold delta; cbn [Nat.eqb]; rewrite ?Z1, ?Z2, ?Z3, ?Z4, ?Z5; lra.
Qed.

(** Turning twice a sum: sum_c (turn d)(c) v c against turned vector. *)
Lemma turn_dot (f h : nat -> R) : rsum r (fun c => rsum r (fun a => turn g (s + c) (s + a) * f a) * rsum r (fun a => turn g (s + c) (s + a) * h a)) =
  rsum r (fun a => f a * h a).
Proof.
  rewrite (rsum_ext r _ (fun c => rsum r (fun a => rsum r (fun b => (turn g (s + c) (s + a) * turn g (s + c) (s + b)) * (f a * h b))))).
  2:{ intros c Hc. rewrite <- rsum_scal_r. apply rsum_ext. intros a Ha. rewrite <- rsum_scal. apply rsum_ext. intros b Hb. ring. }
  rewrite rsum_swap. apply rsum_ext. intros a Ha. rewrite rsum_swap.
  rewrite (rsum_ext r _ (fun b => delta b a * (f a * h b))).
  2:{ intros b Hb. rewrite rsum_scal_r. rewrite turn_orth by auto. unfold delta. rewrite Nat.eqb_sym. reflexivity. }
  rewrite (rsum_delta r a (fun b => f a * h b)) by auto. reflexivity.
Qed.

Lemma tstack_at w a i : (i < k)%nat -> tstack w (a * k + i)%nat = rsum r (fun a' => turn g (s + a) (s + a') * w (a' * k + i)%nat).
Proof. intros Hi. unfold tstack. destruct (dm a i Hi) as [-> ->]. reflexivity. Qed.

Lemma tstack_dot w y : dot (r * k) (tstack w) (tstack y) = dot (r * k) w y.
Proof.
  unfold dot. rewrite !rsum_mul. rewrite (rsum_swap r k). rewrite (rsum_swap r k). apply rsum_ext. intros i Hi.
  rewrite (rsum_ext r _ (fun c => rsum r (fun a => turn g (s + c) (s + a) * w (a * k + i)%nat) * rsum r (fun a => turn g (s + c) (s + a) * y (a * k + i)%nat))).
  2:{ intros c Hc. rewrite !tstack_at by auto. reflexivity. }
  apply (turn_dot (fun a => w (a * k + i)%nat) (fun a => y (a * k + i)%nat)).
Qed.

Lemma dot_tstack_ext w y y' : (forall p, (p < r * k)%nat -> y p = y' p) -> dot (r * k) w y = dot (r * k) w y'.
Proof. intros H. unfold dot. apply rsum_ext. intros p Hp. rewrite H by auto. reflexivity. Qed.
Lemma pdiv p : (p < r * k)%nat -> (p / k < r /\ p mod k < k /\ p = p / k * k + p mod k)%nat.
Proof.
  intros Hp. split; [apply Nat.div_lt_upper_bound; lia|]. split; [apply Nat.mod_upper_bound; lia|].
  rewrite Nat.mul_comm. apply Nat.div_mod. lia.
Qed.

Variables (l : R) (pt pt' : nat -> nat -> R) (d : nat -> R).
Hypothesis Hl : 0 < l.
Hypothesis PT : forall i f, (i < k)%nat -> (f < 2)%nat -> pt' i f = move g (pt i) f.

Lemma cov_ext a c x x' y y' : (forall f, (f < 2)%nat -> x f = x' f) -> (forall f, (f < 2)%nat -> y f = y' f) ->
  shear_cov l a c x y = shear_cov l a c x' y'.
Proof. intros H1 H2. unfold shear_cov. rewrite !H1, !H2 by lia. reflexivity. Qed.

(** Row of the moved matrix. *)
Lemma stacked_turn a i q : (a < r)%nat -> (i < k)%nat -> (q < r * k)%nat ->
  stacked_cov l s k pt' (a * k + i)%nat q =
  rsum r (fun a' => turn g (s + a) (s + a') * rsum r (fun c' => turn g (s + q / k) (s + c') * stacked_cov l s k pt (a' * k + i)%nat (c' * k + q mod k)%nat)).
Proof.
  intros Ha Hi Hq. destruct (pdiv q Hq) as (Q1 & Q2 & Q3). unfold stacked_cov at 1. destruct (dm a i Hi) as [-> ->].
  rewrite (cov_ext _ _ (pt' i) (move g (pt i)) (pt' (q mod k)%nat) (move g (pt (q mod k)%nat))) by (intros; apply PT; auto).
  assert (B : forall a, (a < r)%nat -> (s <= s + a < 3)%nat) by (intros; destruct SR as [[? ?]|[? ?]]; lia).
  rewrite turn_cov; [|exact HR|lra|apply B; auto|apply B; auto].
  rewrite (rsum_ext 3 _ (fun a' => turn g (s + a) a' * rsum 3 (fun c' => turn g (s + q / k) c' * shear_cov l (obs a') (obs c') (pt i) (pt (q mod k)%nat)))).
  2:{ intros a' _. rewrite <- rsum_scal. apply rsum_ext. intros; ring. }
  rewrite restrict by (apply B; auto). apply rsum_ext. intros a' Ha'. f_equal.
  rewrite restrict by (apply B; auto). apply rsum_ext. intros c' Hc'. f_equal.
  unfold stacked_cov. destruct (dm a' i Hi) as [-> ->]. destruct (dm c' (q mod k)%nat Q2) as [-> ->]. reflexivity.
Qed.

(** The noise is the same for both shears. *)
Hypothesis DN : forall a a' i, (a < r)%nat -> (a' < r)%nat -> (i < k)%nat -> turn g (s + a) (s + a') * d (a * k + i)%nat = turn g (s + a) (s + a') * d (a' * k + i)%nat.

Lemma turned_solves w b b' :
  solves (r * k) (plus_diag (stacked_cov l s k pt) d) w b -> (forall p, (p < r * k)%nat -> b' p = tstack b p) ->
  solves (r * k) (plus_diag (stacked_cov l s k pt') d) (tstack w) b'.
Proof.
  intros Hw Hb p Hp. rewrite Hb by auto. destruct (pdiv p Hp) as (P1 & P2 & P3). set (a := (p / k)%nat) in *. set (i := (p mod k)%nat) in *. clearbody a i. subst p.
  rewrite tstack_at by auto.
  (* the covariance part *)
  assert (COV : rsum (r * k) (fun q => stacked_cov l s k pt' (a * k + i)%nat q * tstack w q) =
    rsum r (fun a' => turn g (s + a) (s + a') * rsum (r * k) (fun q => stacked_cov l s k pt (a' * k + i)%nat q * w q))).
  { rewrite (rsum_ext (r * k) _ (fun q => rsum r (fun a' => turn g (s + a) (s + a') *
      (tstack (fun z => stacked_cov l s k pt (a' * k + i)%nat z) q * tstack w q)))).
    2:{ intros q Hq. rewrite stacked_turn by auto. rewrite <- rsum_scal_r. apply rsum_ext. intros a' _. unfold tstack. ring. }
    rewrite rsum_swap. apply rsum_ext. intros a' Ha'. rewrite rsum_scal. f_equal.
    exact (tstack_dot (fun z => stacked_cov l s k pt (a' * k + i)%nat z) w). }
  assert (SPL : forall A v x, (x < r * k)%nat -> rsum (r * k) (fun q => plus_diag A d x q * v q) = rsum (r * k) (fun q => A x q * v q) + d x * v x).
  { intros A v x Hx. unfold plus_diag. rewrite (rsum_ext (r * k) _ (fun q => A x q * v q + delta q x * (d x * v q))).
    - rewrite rsum_plus. f_equal. apply (rsum_delta (r * k) x (fun q => d x * v q)); auto.
    - intros q _. unfold delta. rewrite (Nat.eqb_sym x q). destruct (q =? x)%nat; ring. }
  rewrite SPL by auto. rewrite COV, tstack_at by auto. rewrite <- rsum_scal, <- rsum_plus.
  apply rsum_ext. intros a' Ha'. assert (Hx : (a' * k + i < r * k)%nat) by nia.
  rewrite <- (Hw (a' * k + i)%nat Hx). rewrite SPL by auto. rewrite Rmult_plus_distr_l.
  transitivity (turn g (s + a) (s + a') * rsum (r * k) (fun q : nat => stacked_cov l s k pt (a' * k + i) q * w q)
     + (turn g (s + a) (s + a') * d (a * k + i)%nat) * w (a' * k + i)%nat); [ring|]. rewrite DN by auto. ring.
Qed.

(** Linear combinations of solutions. *)
Lemma solves_comb n A (t : nat -> R) (w b : nat -> nat -> R) m : (forall o, (o < m)%nat -> solves n A (w o) (b o)) ->
  solves n A (fun p => rsum m (fun o => t o * w o p)) (fun p => rsum m (fun o => t o * b o p)).
Proof.
  intros H i Hi. rewrite (rsum_ext n _ (fun j => rsum m (fun o => t o * (A i j * w o j)))).
  2:{ intros j Hj. rewrite <- rsum_scal. apply rsum_ext. intros; ring. }
  rewrite rsum_swap. apply rsum_ext. intros o Ho. rewrite rsum_scal. f_equal. apply H; auto.
Qed.

Variables (test test' : nat -> R).
Hypothesis TT : forall f, (f < 2)%nat -> test' f = move g test f.

Lemma cross_turn o p : (o < 3)%nat -> (p < r * k)%nat ->
  stacked_cross l s k pt' test' o p = tstack (fun q => rsum 3 (fun o' => turn g o o' * stacked_cross l s k pt test o' q)) p.
Proof.
  intros Ho Hp. destruct (pdiv p Hp) as (P1 & P2 & P3).
  assert (B : (s <= s + p / k < 3)%nat) by (destruct SR as [[? ?]|[? ?]]; lia).
  unfold stacked_cross at 1.
  rewrite (cov_ext _ _ (pt' (p mod k)%nat) (move g (pt (p mod k)%nat)) test' (move g test)) by (intros; auto).
  rewrite turn_cov; [|exact HR|lra|apply B|exact Ho].
  rewrite (rsum_ext 3 _ (fun a' => turn g (s + p / k) a' * rsum 3 (fun c' => turn g o c' * shear_cov l (obs a') (obs c') (pt (p mod k)%nat) test))).
  2:{ intros a' _. rewrite <- rsum_scal. apply rsum_ext. intros; ring. }
  rewrite restrict by exact B. unfold tstack. apply rsum_ext. intros a' Ha'. f_equal. apply rsum_ext. intros o' _. f_equal.
  unfold stacked_cross. destruct (dm a' (p mod k)%nat P2) as [-> ->]. reflexivity.
Qed.

Section Sol.
Variable w : nat -> nat -> R.
Hypothesis Hw : forall o, (o < 3)%nat -> solves (r * k) (plus_diag (stacked_cov l s k pt) d) (w o) (stacked_cross l s k pt test o).

(** The weights of the moved observables. *)
Definition tweights (o : nat) : nat -> R := tstack (fun p => rsum 3 (fun o' => turn g o o' * w o' p)).
Lemma tweights_ok o : (o < 3)%nat ->
  solves (r * k) (plus_diag (stacked_cov l s k pt') d) (tweights o) (stacked_cross l s k pt' test' o).
Proof.
  intros Ho. apply (turned_solves _ (fun p => rsum 3 (fun o' => turn g o o' * stacked_cross l s k pt test o' p))).
  - apply solves_comb. exact Hw.
  - intros p Hp. apply cross_turn; auto.
Qed.
Lemma dot_comb n (t : nat -> R) m (v : nat -> nat -> R) y : dot n (fun p => rsum m (fun o => t o * v o p)) y = rsum m (fun o => t o * dot n (v o) y).
Proof.
  unfold dot. rewrite (rsum_ext n _ (fun p => rsum m (fun o => t o * (v o p * y p)))).
  2:{ intros p _. rewrite <- rsum_scal_r. apply rsum_ext. intros; ring. }
  rewrite rsum_swap. apply rsum_ext. intros o _. apply rsum_scal.
Qed.
Lemma dot_comb_r n (t : nat -> R) m (v : nat -> nat -> R) y : dot n y (fun p => rsum m (fun o => t o * v o p)) = rsum m (fun o => t o * dot n y (v o)).
Proof.
  transitivity (dot n (fun p => rsum m (fun o => t o * v o p)) y); [unfold dot; apply rsum_ext; intros; ring|].
  rewrite dot_comb. apply rsum_ext. intros o _. f_equal. unfold dot. apply rsum_ext. intros; ring.
Qed.
Lemma tmean o y y' : (forall p, (p < r * k)%nat -> y' p = tstack y p) ->
  dot (r * k) (tweights o) y' = rsum 3 (fun o' => turn g o o' * dot (r * k) (w o') y).
Proof. intros Hy. rewrite (dot_tstack_ext _ _ _ Hy). unfold tweights. rewrite tstack_dot. apply dot_comb. Qed.
Lemma tvar o p : (o < 3)%nat -> (p < 3)%nat ->
  dot (r * k) (tweights o) (stacked_cross l s k pt' test' p) =
  rsum 3 (fun o' => rsum 3 (fun p' => turn g o o' * turn g p p' * dot (r * k) (w o') (stacked_cross l s k pt test p'))).
Proof.
  intros Ho Hp. rewrite (tmean o (fun q => rsum 3 (fun p' => turn g p p' * stacked_cross l s k pt test p' q))) by (intros; apply cross_turn; auto).
  apply rsum_ext. intros o' Ho'. rewrite dot_comb_r. rewrite <- rsum_scal. apply rsum_ext. intros; ring.
Qed.
End Sol.
End Stack.
