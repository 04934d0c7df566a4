(** Model of [MuyGPS.__eq__] (/repo/src/MuyGPyS/gp/muygps.py:553-567) and of Python's [==] between
    two model objects. *)
From Verif Require Import Base NdModel HyperModel NamedModel.
Local Open Scope string_scope.

(** The noise object of a model: homoscedastic or shear (gp/noise/homoscedastic.py, shear.py), whose
    value is the scalar parameter at a heap location; heteroscedastic (heteroscedastic.py), whose value is the
    stored tensor; null (null.py:29-30), whose value is always 0.0. *)
Inductive eq_noise :=
| EHomo (n : named)
| EHetero (t : nd num)
| ENull.

(** A MuyGPS object as [__eq__] sees it: its class, given as the path from [MuyGPS] down to it in the
    class tree (the empty path is [MuyGPS] itself; simplification: single inheritance), the kernel, the noise
    and [scale()].  Simplification: the scale's value is one number (scale.py:49-61 also lets a
    one-element array through). *)
Record eq_model := mkEq {
  e_class : list nat;
  e_kernel : kernel;
  e_noise : eq_noise;
  e_scale : num
}.

(** [isinstance(rhs, self.__class__)] (muygps.py:554): the class of [self] is on the path of [rhs]'s. *)
Fixpoint is_ancestor (c d : list nat) : bool :=
  match c, d with
  | [], _ => true
  | x :: c', y :: d' => Nat.eqb x y && is_ancestor c' d'
  | _, [] => false
  end.

(** [noise()] (homoscedastic.py via scalar.py:269-276, tensor.py:99-106, null.py:29-30): a scalar is a
    0-d array here. *)
Definition scalar_nd (v : num) : nd num := mkNd [] (fun _ => v).
Definition noise_value (s : store) (z : eq_noise) : nd num :=
  match z with
  | EHomo n => scalar_nd (p_val (st_cell s (nm_loc n)))
  | EHetero t => t
  | ENull => scalar_nd (Fin 0)
  end.

(** [bool(a)] of a boolean array or scalar (numpy: one element is its value, none is False, more is a
    ValueError). *)
Definition truth (a : nd bool) : result bool :=
  match nprod (shape a) with
  | O => Ok false
  | S O => Ok (at_ a (unravel (shape a) 0))
  | _ => Err ValueError
  end.

(** The inner [all(... for h in ...)] (muygps.py:557-561): a generator, stopping at the first False. *)
Fixpoint all_hypers (s : store) (mine : dict named) (theirs : dict named) : result bool :=
  match mine with
  | [] => Ok true
  | (h, n) :: mine' =>
      match dget theirs h with
      | None => Err KeyError
      | Some n' =>
          if num_eqb (p_val (st_cell s (nm_loc n))) (p_val (st_cell s (nm_loc n')))
          then all_hypers s mine' theirs else Ok false
      end
  end.

(** [MuyGPS.__eq__] (muygps.py:553-567).  The three entries of the tuple are all computed before the outer
    [all] looks at their truth values, in order. *)
Definition model_eq (s : store) (self rhs : eq_model) : result bool :=
  if is_ancestor (e_class self) (e_class rhs) then
    let! hypers := all_hypers s (kernel_dict (e_kernel self)) (kernel_dict (e_kernel rhs)) in
    let! noise := bop num_eqb (noise_value s (e_noise self)) (noise_value s (e_noise rhs)) in
    let scale := num_eqb (e_scale self) (e_scale rhs) in
    if hypers then
      let! tn := truth noise in
      Ok (if tn then scale else false)
    else Ok false
  else Ok false.

(** The expression [a == b]: Python asks the right operand first when its class is a proper subclass of
    the left operand's (the data model's rule for rich comparisons); [__eq__] never returns NotImplemented. *)
Definition py_eq (s : store) (a b : eq_model) : result bool :=
  if is_ancestor (e_class a) (e_class b) && negb (is_ancestor (e_class b) (e_class a))
  then model_eq s b a else model_eq s a b.
