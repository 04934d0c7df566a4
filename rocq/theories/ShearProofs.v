(** Proofs about the shear kernels: closed forms of the derivatives, entries, layout. *)
From Coq Require Import Lia Lra FunctionalExtensionality.
From Coquelicot Require Import Coquelicot.
From Verif Require Import Base NdModel NdFacts RSum ShearModel ShearSpec.
Local Open Scope R_scope.

Lemma fext4 (f g : cov2) : (forall a b c d, f a b c d = g a b c d) -> f = g.
Proof. intros H. do 4 (apply functional_extensionality; intro). apply H. Qed.

Section closed.
  Variable l : R.
  Hypothesis Hl : l <> 0.
  Notation E x1 x2 y1 y2 := (exp (- ((x1 - y1) ^ 2 + (x2 - y2) ^ 2) / (2 * l))).

  Ltac nexp := match goal with |- _ = ?r => match r with context [exp ?s] =>
    let EE := fresh "EE" in set (EE := exp s);
    repeat match goal with |- context [exp ?q] => replace (exp q) with EE by (unfold EE; f_equal; field; auto) end;
    clearbody EE end end.
  Ltac dsolve := apply fext4; intros; unfold dx1, dx2, dy1, dy2, rbf2; apply is_derive_unique;
    auto_derive; auto; cbn [Nat.pred INR]; nexp; field; auto.

  Lemma dy1_rbf : dy1 (rbf2 l) = fun x1 x2 y1 y2 => (x1 - y1) / l * E x1 x2 y1 y2.
  Proof. dsolve. Qed.
  Lemma dy2_rbf : dy2 (rbf2 l) = fun x1 x2 y1 y2 => (x2 - y2) / l * E x1 x2 y1 y2.
  Proof. dsolve. Qed.

  (** Quadratic polynomial in the differences, times the Gaussian. *)
  Definition qform (a b c d : R) : cov2 := fun x1 x2 y1 y2 =>
    (a * (x1 - y1) ^ 2 + b * (x2 - y2) ^ 2 + c * (x1 - y1) * (x2 - y2) + d) * E x1 x2 y1 y2.

  Lemma dy11_rbf : dy1 (dy1 (rbf2 l)) = qform (/ l ^ 2) 0 0 (- / l).
  Proof. rewrite dy1_rbf. unfold qform. dsolve. Qed.
  Lemma dy22_rbf : dy2 (dy2 (rbf2 l)) = qform 0 (/ l ^ 2) 0 (- / l).
  Proof. rewrite dy2_rbf. unfold qform. dsolve. Qed.
  Lemma dy12_rbf : dy1 (dy2 (rbf2 l)) = qform 0 0 (/ l ^ 2) 0.
  Proof. rewrite dy2_rbf. unfold qform. dsolve. Qed.

  Lemma dx1_q a b c d : dx1 (qform a b c d) = fun x1 x2 y1 y2 =>
    (2 * a * (x1 - y1) + c * (x2 - y2)
     - (x1 - y1) / l * (a * (x1 - y1) ^ 2 + b * (x2 - y2) ^ 2 + c * (x1 - y1) * (x2 - y2) + d)) * E x1 x2 y1 y2.
  Proof. unfold qform. dsolve. Qed.
  Lemma dx2_q a b c d : dx2 (qform a b c d) = fun x1 x2 y1 y2 =>
    (2 * b * (x2 - y2) + c * (x1 - y1)
     - (x2 - y2) / l * (a * (x1 - y1) ^ 2 + b * (x2 - y2) ^ 2 + c * (x1 - y1) * (x2 - y2) + d)) * E x1 x2 y1 y2.
  Proof. unfold qform. dsolve. Qed.

  Definition qv (a b c d u v : R) := a * u ^ 2 + b * v ^ 2 + c * u * v + d.
  Lemma dx11_q a b c d : dx1 (dx1 (qform a b c d)) = fun x1 x2 y1 y2 =>
    let u := x1 - y1 in let v := x2 - y2 in
    (2 * a - 2 * (u / l) * (2 * a * u + c * v) + (u ^ 2 / l ^ 2 - / l) * qv a b c d u v) * E x1 x2 y1 y2.
  Proof. rewrite dx1_q. unfold qv. cbv zeta. dsolve. Qed.
  Lemma dx22_q a b c d : dx2 (dx2 (qform a b c d)) = fun x1 x2 y1 y2 =>
    let u := x1 - y1 in let v := x2 - y2 in
    (2 * b - 2 * (v / l) * (2 * b * v + c * u) + (v ^ 2 / l ^ 2 - / l) * qv a b c d u v) * E x1 x2 y1 y2.
  Proof. rewrite dx2_q. unfold qv. cbv zeta. dsolve. Qed.
  Lemma dx12_q a b c d : dx1 (dx2 (qform a b c d)) = fun x1 x2 y1 y2 =>
    let u := x1 - y1 in let v := x2 - y2 in
    (c - (u / l) * (2 * b * v + c * u) - (v / l) * (2 * a * u + c * v) + u * v / l ^ 2 * qv a b c d u v) * E x1 x2 y1 y2.
  Proof. rewrite dx2_q. unfold qv. cbv zeta. dsolve. Qed.

  Lemma second_q o : at_second o (rbf2 l) = match o with
    | Convergence => qform (/ (2 * l ^ 2)) (/ (2 * l ^ 2)) 0 (- / l)
    | Shear1 => qform (/ (2 * l ^ 2)) (- / (2 * l ^ 2)) 0 0
    | Shear2 => qform 0 0 (/ l ^ 2) 0 end.
  Proof.
    unfold at_second. destruct o; apply fext4; intros; rewrite ?dy11_rbf, ?dy22_rbf, ?dy12_rbf; unfold qform; try (field; auto); reflexivity.
  Qed.

  Lemma first_q o a b c d x1 x2 y1 y2 : at_first o (qform a b c d) x1 x2 y1 y2 =
    let u := x1 - y1 in let v := x2 - y2 in
    let q := qv a b c d u v in
    let xx := 2 * a - 2 * (u / l) * (2 * a * u + c * v) + (u ^ 2 / l ^ 2 - / l) * q in
    let yy := 2 * b - 2 * (v / l) * (2 * b * v + c * u) + (v ^ 2 / l ^ 2 - / l) * q in
    let xy := c - (u / l) * (2 * b * v + c * u) - (v / l) * (2 * a * u + c * v) + u * v / l ^ 2 * q in
    match o with
    | Convergence => (xx + yy) / 2 * E x1 x2 y1 y2
    | Shear1 => (xx - yy) / 2 * E x1 x2 y1 y2
    | Shear2 => xy * E x1 x2 y1 y2 end.
  Proof.
    unfold at_first. destruct o; rewrite ?dx11_q, ?dx22_q, ?dx12_q; cbv zeta; try (field; auto); reflexivity.
  Qed.
End closed.

(** The closed form of each covariance. *)
Definition cform (l : R) (a c : nat) (u v : R) : R :=
  let e := exp (- (u ^ 2 + v ^ 2) / (2 * l)) in
  match obs a, obs c with
  | Convergence, Convergence => kk_fn e (u ^ 2 + v ^ 2) (u ^ 2 * v ^ 2) (u ^ 4 + v ^ 4) l
  | Convergence, Shear1 | Shear1, Convergence => kg1_fn e (u ^ 4 - v ^ 4) (v ^ 2 - u ^ 2) l
  | Convergence, Shear2 | Shear2, Convergence => kg2_fn e (u ^ 2 + v ^ 2) (u * v) l
  | Shear1, Shear1 => g1g1_fn e (u ^ 2 + v ^ 2) (u ^ 4 + v ^ 4) (u ^ 2 * v ^ 2) l
  | Shear1, Shear2 | Shear2, Shear1 => g1g2_fn e (u ^ 2 - v ^ 2) (u * v) l
  | Shear2, Shear2 => g2g2_fn e (u ^ 2 + v ^ 2) (u ^ 2 * v ^ 2) l
  end.

Lemma cov_closed l a c x y : l <> 0 ->
  shear_cov l (obs a) (obs c) x y = cform l a c (x O - y O) (x 1%nat - y 1%nat).
Proof.
  intros Hl. unfold shear_cov. rewrite second_q by auto. unfold cform.
  destruct (obs c), (obs a); rewrite first_q by auto; cbv zeta;
    unfold qv, kk_fn, kg1_fn, kg2_fn, g1g1_fn, g1g2_fn, g2g2_fn;
    replace 0.25 with (1 / 4) by lra; replace 0.5 with (1 / 2) by lra;
    set (e := exp _); clearbody e; field; auto.
Qed.
