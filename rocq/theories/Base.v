(** Base definitions shared by every model file: Python exceptions as values,
    insertion-ordered dictionaries, and a number type with IEEE special values. *)
From Coq Require Export List Arith ZArith Bool String Reals.
Export ListNotations.

(** The exception classes the modelled code can raise. *)
Inductive err :=
| ValueError | TypeError | KeyError | IndexError | AttributeError
| NotImplementedError | LinAlgError | RecursionError | ModuleNotFoundError
| OverflowError | AssertionError | ZeroDivisionError | UnboundLocalError.

(** A Python call either returns or raises. *)
Inductive result (A : Type) := Ok (a : A) | Err (e : err).
Arguments Ok {A} a.
Arguments Err {A} e.

Definition bind {A B} (r : result A) (k : A -> result B) : result B :=
  match r with Ok a => k a | Err e => Err e end.

Definition rmap {A B} (f : A -> B) (r : result A) : result B :=
  match r with Ok a => Ok (f a) | Err e => Err e end.

Declare Scope result_scope.
Delimit Scope result_scope with result.
Notation "'let!' x ':=' r 'in' k" := (bind r (fun x => k))
  (at level 200, x pattern, r at level 100, k at level 200) : result_scope.
Open Scope result_scope.

Definition is_ok {A} (r : result A) : Prop := exists a, r = Ok a.

(** Left-to-right evaluation of a list of calls (a Python loop / comprehension). *)
Fixpoint sequence {A} (l : list (result A)) : result (list A) :=
  match l with
  | [] => Ok []
  | r :: l' => let! a := r in let! l'' := sequence l' in Ok (a :: l'')
  end.

(** Insertion-ordered Python dictionaries with string keys. *)
Definition dict (V : Type) := list (string * V).

Fixpoint dget {V} (d : dict V) (k : string) : option V :=
  match d with
  | [] => None
  | (k', v) :: d' => if String.eqb k' k then Some v else dget d' k
  end.

(** d.setdefault(k, v): appended at the end when absent, unchanged otherwise. *)
Definition setdefault {V} (d : dict V) (k : string) (v : V) : dict V :=
  match dget d k with Some _ => d | None => d ++ [(k, v)] end.

(** d[k] = v: in place when present, appended at the end otherwise. *)
Fixpoint dset {V} (d : dict V) (k : string) (v : V) : dict V :=
  match d with
  | [] => [(k, v)]
  | (k', v') :: d' => if String.eqb k' k then (k', v) :: d' else (k', v') :: dset d' k v
  end.

(** A well-formed Python dictionary has distinct keys. *)
Definition dict_ok {V} (d : dict V) : Prop := NoDup (map fst d).

(** Floating-point numbers: exact reals plus the IEEE special values. *)
Inductive num := NaN | PInf | NInf | Fin (r : R).

Definition Rltb (a b : R) : bool := if Rlt_dec a b then true else false.
Definition Rleb (a b : R) : bool := if Rle_dec a b then true else false.
Definition Reqb (a b : R) : bool := if Req_EM_T a b then true else false.

(** [a < b] with IEEE semantics: false as soon as an operand is NaN. *)
Definition num_ltb (a b : num) : bool :=
  match a, b with
  | NaN, _ | _, NaN => false
  | Fin x, Fin y => Rltb x y
  | NInf, NInf => false
  | NInf, _ => true
  | _, NInf => false
  | _, PInf => match a with PInf => false | _ => true end
  | PInf, Fin _ => false
  end.

Definition num_gtb (a b : num) : bool := num_ltb b a.

(** [a == b] with IEEE semantics. *)
Definition num_eqb (a b : num) : bool :=
  match a, b with
  | Fin x, Fin y => Reqb x y
  | PInf, PInf | NInf, NInf => true
  | _, _ => false
  end.

(** [a + r] for a finite constant [r]. *)
Definition num_addR (a : num) (r : R) : num :=
  match a with Fin x => Fin (x + r)%R | _ => a end.
