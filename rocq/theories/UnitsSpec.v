(** Specification vocabulary for responses measured in another unit (C93). *)
From Verif Require Import Base NdModel RSum HyperModel NamedModel NamedSpec LossModel ChassisModel ChassisSpec.
Local Open Scope R_scope.

(** The responses [Y'] are the responses [Y] multiplied by [a]. *)
Definition rescaled (a : R) (Y Y' : nd R) (N : nat) (ex : list nat) : Prop :=
  shape Y = N :: ex /\ shape Y' = N :: ex /\
  forall i e, (i < N)%nat -> inb ex e -> at_ Y' (i :: e) = a * at_ Y (i :: e).

(** How the objective must change: squared errors are in squared units; a log likelihood is shifted by the same constant for every model. *)
Definition in_units (l : loss) (a : R) (b : nat) (v v' : R) : Prop :=
  match l with
  | Mse | PseudoHuber => v' = a ^ 2 * v
  | Lool | Looph => v' = v - INR b * ln (a ^ 2)
  | _ => False
  end.

(** The pseudo-Huber boundary is a length in the unit of the responses; the boundary of the leave-one-out pseudo-Huber likelihood is not. *)
Definition units_kw (l : loss) (a : R) (kw kw' : dict R) : Prop :=
  match l with
  | PseudoHuber => kw_or kw' "boundary_scale" (3/2) = a * kw_or kw "boundary_scale" (3/2)
  | Looph => kw_or kw' "boundary_scale" 3 = kw_or kw "boundary_scale" 3
  | _ => True
  end.

(** An optimizer that only compares values of the objective. *)
Definition compares_only (opt : store -> full -> (dict R -> result R) -> result (store * full)) (s : store) (F : full)
  (names : list string) (bounds : list (num * num)) : Prop :=
  forall f f' : dict R -> result R,
    (forall y, in_box y bounds -> (exists v, f (combine names y) = Ok v) /\ (exists v, f' (combine names y) = Ok v)) ->
    (forall x y vx vy vx' vy', in_box x bounds -> in_box y bounds ->
       f (combine names x) = Ok vx -> f (combine names y) = Ok vy -> f' (combine names x) = Ok vx' -> f' (combine names y) = Ok vy' ->
       (vx <= vy <-> vx' <= vy')) ->
    opt s F f = opt s F f'.
