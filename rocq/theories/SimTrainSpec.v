(** Specification vocabulary for training in other coordinates of the features (C97). *)
From Verif Require Import Base NdModel RSum HyperModel NamedModel NamedSpec TensorModel TensorSpec ChassisModel ChassisSpec WorkSpec.
Local Open Scope R_scope.

(** The candidate [x'] is the candidate [x] with the hyperparameter called [name] multiplied by [r]. *)
Definition with_scaled (r : R) (name : string) (names : list string) (x x' : list R) : Prop :=
  forall h, dget (combine names x') h = option_map (fun v => if String.eqb h name then r * v else v) (dget (combine names x) h).

(** An optimizer whose result only depends on the values of the objective in the box. *)
Definition values_only (opt : store -> full -> (dict R -> result R) -> result (store * full)) (s : store) (F : full)
  (names : list string) (bounds : list (num * num)) : Prop :=
  forall f f' : dict R -> result R,
    (forall y, in_box y bounds -> exists v, f (combine names y) = Ok v /\ f' (combine names y) = Ok v) -> opt s F f = opt s F f'.
