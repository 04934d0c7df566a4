(** Specification of lensing observables of a potential with RBF covariance; depends on no
    model code.  For a potential psi, the convergence is (psi_11 + psi_22)/2, the two shears
    are (psi_11 - psi_22)/2 and psi_12; the covariance of two observables is obtained by
    applying one differential operator in each argument of the covariance of psi. *)
From Coquelicot Require Import Coquelicot.
From Verif Require Import Base.
Local Open Scope R_scope.

(** Functions of two points of the plane, (x1, x2) and (y1, y2). *)
Definition cov2 := R -> R -> R -> R -> R.
Definition dx1 (f : cov2) : cov2 := fun x1 x2 y1 y2 => Derive (fun t => f t x2 y1 y2) x1.
Definition dx2 (f : cov2) : cov2 := fun x1 x2 y1 y2 => Derive (fun t => f x1 t y1 y2) x2.
Definition dy1 (f : cov2) : cov2 := fun x1 x2 y1 y2 => Derive (fun t => f x1 x2 t y2) y1.
Definition dy2 (f : cov2) : cov2 := fun x1 x2 y1 y2 => Derive (fun t => f x1 x2 y1 t) y2.

Inductive observable := Convergence | Shear1 | Shear2.
Definition obs (k : nat) : observable :=
  match k with O => Convergence | 1%nat => Shear1 | _ => Shear2 end.

(** The observable applied in the first and in the second argument. *)
Definition at_first (o : observable) (f : cov2) : cov2 := fun x1 x2 y1 y2 =>
  match o with
  | Convergence => (dx1 (dx1 f) x1 x2 y1 y2 + dx2 (dx2 f) x1 x2 y1 y2) / 2
  | Shear1 => (dx1 (dx1 f) x1 x2 y1 y2 - dx2 (dx2 f) x1 x2 y1 y2) / 2
  | Shear2 => dx1 (dx2 f) x1 x2 y1 y2
  end.
Definition at_second (o : observable) (f : cov2) : cov2 := fun x1 x2 y1 y2 =>
  match o with
  | Convergence => (dy1 (dy1 f) x1 x2 y1 y2 + dy2 (dy2 f) x1 x2 y1 y2) / 2
  | Shear1 => (dy1 (dy1 f) x1 x2 y1 y2 - dy2 (dy2 f) x1 x2 y1 y2) / 2
  | Shear2 => dy1 (dy2 f) x1 x2 y1 y2
  end.

(** The Gaussian covariance with *squared* length scale [l]. *)
Definition rbf2 (l : R) : cov2 := fun x1 x2 y1 y2 =>
  exp (- ((x1 - y1) ^ 2 + (x2 - y2) ^ 2) / (2 * l)).

(** Covariance of observable [o] at [x] with observable [o'] at [y]. *)
Definition shear_cov (l : R) (o o' : observable) (x y : nat -> R) : R :=
  at_first o (at_second o' (rbf2 l)) (x O) (x 1%nat) (y O) (y 1%nat).

(** ** Prediction: covariances of the stacked observations.  Observations are ordered
    observable by observable, neighbours within; the first observable observed is [obs s]
    (s = 0: convergence and both shears; s = 1: the two shears only). *)
Definition stacked_cov (l : R) (s k : nat) (pt : nat -> nat -> R) : nat -> nat -> R := fun p q =>
  shear_cov l (obs (s + p / k)) (obs (s + q / k)) (pt (p mod k)%nat) (pt (q mod k)%nat).
Definition stacked_cross (l : R) (s k : nat) (pt : nat -> nat -> R) (test : nat -> R) (o : nat) : nat -> R :=
  fun p => shear_cov l (obs (s + p / k)) (obs o) (pt (p mod k)%nat) test.
(** The noise variance of stacked observation [p]. *)
Definition flat_noise (v : R) : nat -> R := fun _ => v.
Definition shear_noise (v : R) (k : nat) : nat -> R := fun p => if (p <? k)%nat then 2 * v else v.

(** All four partial derivatives exist everywhere. *)
Definition differentiable4 (f : cov2) : Prop := forall x1 x2 y1 y2,
  ex_derive (fun t => f t x2 y1 y2) x1 /\ ex_derive (fun t => f x1 t y1 y2) x2 /\
  ex_derive (fun t => f x1 x2 t y2) y1 /\ ex_derive (fun t => f x1 x2 y1 t) y2.
