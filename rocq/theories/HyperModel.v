(** Model of the scalar hyperparameter classes
    (/repo/src/MuyGPyS/gp/hyperparameter/scalar.py). *)
From Verif Require Import Base.
Local Open Scope R_scope.
Local Open Scope string_scope.

(** The Python values a user can pass as [val] or [bounds].  Simplification: a class of value is
    represented by what the constructor observes of it ([isinstance], [__len__], [__iter__],
    subscripting, [float()]). *)
Inductive pyval :=
| PNum (x : num)                      (* int / float / numpy scalar *)
| PComplex                            (* a Number that float() rejects with TypeError *)
| PHuge                               (* an int too large for float(): OverflowError *)
| PStr (s : string)
| PList (l : list pyval)              (* list or tuple *)
| PArr (l : list pyval)               (* ndarray with at least one axis *)
| PArr0 (x : num)                     (* 0-d ndarray *)
| PSet (n : nat)                      (* a set with n elements: iterable, sized, not subscriptable *)
| PDict (l : list (Z * pyval))        (* a dictionary with integer keys *)
| PGen                                (* a generator: iterable, not sized *)
| PObj.                               (* None, functions, ...: none of the above *)

(** [isinstance(v, Number)] (scalar.py:248-257). *)
Definition is_number (v : pyval) : bool :=
  match v with PNum _ | PComplex | PHuge => true | _ => false end.

(** [float(v)] for the values the code applies it to (scalar.py:182, 258). *)
Definition py_float (v : pyval) : result num :=
  match v with
  | PNum x => Ok x
  | PArr0 x => Ok x
  | PHuge => Err OverflowError
  | PStr _ => Err ValueError
  | _ => Err TypeError
  end.

(** [hasattr(v, "__iter__")] (scalar.py:238). *)
Definition has_iter (v : pyval) : bool :=
  match v with
  | PStr _ | PList _ | PArr _ | PArr0 _ | PSet _ | PDict _ | PGen => true
  | _ => false
  end.

(** [len(v)] (scalar.py:243). *)
Definition py_len (v : pyval) : result nat :=
  match v with
  | PList l | PArr l => Ok (List.length l)
  | PStr s => Ok (String.length s)
  | PSet n => Ok n
  | PDict l => Ok (List.length l)
  | _ => Err TypeError
  end.

(** [hasattr(v, "__len__")] (scalar.py:177). *)
Definition has_len (v : pyval) : bool :=
  match v with
  | PStr _ | PList _ | PArr _ | PArr0 _ | PSet _ | PDict _ => true
  | _ => false
  end.

(** [v[i]] (scalar.py:248-258). *)
Definition py_item (v : pyval) (i : nat) : result pyval :=
  match v with
  | PList l | PArr l =>
      match nth_error l i with Some x => Ok x | None => Err IndexError end
  | PDict l =>
      match find (fun kv => Z.eqb (fst kv) (Z.of_nat i)) l with
      | Some kv => Ok (snd kv)
      | None => Err KeyError
      end
  | _ => Err TypeError
  end.

(** The state of a [Parameter] object: [_val], [_bounds], [_fixed] (scalar.py:74-122). *)
Record param := mkParam { p_val : num; p_bounds : num * num; p_fixed : bool }.

(** What the random generator and the MPI world give to one call of [_sample_val].
    [uniform] is numpy's draw on a finite range; [root] is, in MPI mode, the value broadcast by
    rank 0 (scalar.py:145-146). *)
Record env := mkEnv { uniform : R -> R -> R; root : option num }.

(** [np.random.uniform(low, high)]: numpy raises OverflowError when [high - low] is not finite. *)
Definition np_uniform (e : env) (lo hi : num) : result num :=
  match lo, hi with
  | Fin a, Fin b => Ok (Fin (uniform e a b))
  | _, _ => Err OverflowError
  end.

(** [np.log] and [np.exp] with their IEEE special cases. *)
Definition np_log (x : num) : num :=
  match x with
  | NaN | NInf => NaN
  | PInf => PInf
  | Fin r => if Rltb r 0 then NaN else if Reqb r 0 then NInf else Fin (ln r)
  end.

Definition np_exp (x : num) : num :=
  match x with NaN => NaN | PInf => PInf | NInf => Fin 0 | Fin r => Fin (exp r) end.

(** [config.mpi_state.comm_world.bcast(newval, root=0)] (scalar.py:145-146). *)
Definition bcast (e : env) (v : num) : num :=
  match root e with Some r => r | None => v end.

(** [Parameter._sample_val] (scalar.py:124-147). *)
Definition sample_val (e : env) (bounds : num * num) (fixed : bool) (s : string) : result num :=
  if fixed then Err ValueError
  else if String.eqb s "sample" then
    let! v := np_uniform e (fst bounds) (snd bounds) in Ok (bcast e v)
  else if String.eqb s "log_sample" then
    let! v := np_uniform e (np_log (fst bounds)) (np_log (snd bounds)) in Ok (bcast e (np_exp v))
  else Err ValueError.

(** The tolerance 1e-5 of scalar.py:187 and 193. *)
Definition tol : R := / 100000.

(** The range check of [_set_val] (scalar.py:184-205). *)
Definition check_range (bounds : num * num) (fixed : bool) (v : num) : result num :=
  if fixed then Ok v
  else if num_ltb v (num_addR (fst bounds) (- tol)) then Err ValueError
  else if num_gtb v (num_addR (snd bounds) tol) then Err ValueError
  else Ok v.

(** [Parameter._set_val] (scalar.py:149-206): the new [_val]. *)
Definition set_val (e : env) (bounds : num * num) (fixed : bool) (val : pyval) : result num :=
  match val with
  | PStr s => let! v := sample_val e bounds fixed s in check_range bounds fixed v
  | _ =>
      if has_len val then Err ValueError
      else let! v := py_float val in check_range bounds fixed v
  end.

(** [Parameter._set_bounds] (scalar.py:208-267): the new [_bounds] and [_fixed]. *)
Definition set_bounds (bounds : pyval) : result ((num * num) * bool) :=
  match bounds with
  | PStr s => if String.eqb s "fixed" then Ok ((Fin 0, Fin 0), true) else Err ValueError
  | _ =>
      if negb (has_iter bounds) then Err ValueError
      else
        let! n := py_len bounds in
        if negb (Nat.eqb n 2) then Err ValueError
        else
          let! b0 := py_item bounds 0 in
          if negb (is_number b0) then Err ValueError
          else
            let! b1 := py_item bounds 1 in
            if negb (is_number b1) then Err ValueError
            else
              let! lo := py_float b0 in
              let! hi := py_float b1 in
              if num_gtb lo hi then Err ValueError else Ok ((lo, hi), false)
  end.

(** [Parameter.__init__] (scalar.py:74-83). *)
Definition param_init (e : env) (val bounds : pyval) : result param :=
  let! bf := set_bounds bounds in
  let! v := set_val e (fst bf) (snd bf) val in
  Ok (mkParam v (fst bf) (snd bf)).

(** [Parameter._set_val] on an existing object. *)
Definition param_set_val (e : env) (p : param) (val : pyval) : result param :=
  let! v := set_val e (p_bounds p) (p_fixed p) val in
  Ok (mkParam v (p_bounds p) (p_fixed p)).

(** [Parameter._set(rhs)] (scalar.py:89-122): the receiver becomes a copy of [rhs]. *)
Definition param_set (p rhs : param) : param :=
  mkParam (p_val rhs) (p_bounds rhs) (p_fixed rhs).

(** ** Heap of parameter objects, and histories of operations on it *)

Record store := mkStore { st_next : nat; st_cell : nat -> param }.

Definition st_put (s : store) (l : nat) (p : param) : store :=
  mkStore (st_next s) (fun l' => if Nat.eqb l' l then p else st_cell s l').

Definition st_new (s : store) (p : param) : store :=
  mkStore (S (st_next s)) (fun l' => if Nat.eqb l' (st_next s) then p else st_cell s l').

(** The operations of the public API that write a scalar parameter: the constructor, a value
    reset (what the optimizer chassis does, _src/optimize/chassis/numpy.py:14-36), copying
    from another parameter ([KernelFn.set_params], kernel_fn.py:82-91), and naming
    ([NamedParameter.__init__], scalar.py:298-310, which builds a fresh copy). *)
Inductive op :=
| ONew (e : env) (val bounds : pyval)
| OSetVal (e : env) (l : nat) (val : pyval)
| OCopy (dst src : nat)
| ONamed (src : nat).

(** An operation that raises leaves the heap as it was ([_set_val] assigns last). *)
Definition step (s : store) (o : op) : store :=
  match o with
  | ONew e v b => match param_init e v b with Ok p => st_new s p | Err _ => s end
  | OSetVal e l v =>
      if Nat.ltb l (st_next s) then
        match param_set_val e (st_cell s l) v with Ok p => st_put s l p | Err _ => s end
      else s
  | OCopy d r =>
      if Nat.ltb d (st_next s) && Nat.ltb r (st_next s) then
        st_put s d (param_set (st_cell s d) (st_cell s r)) else s
  | ONamed r =>
      if Nat.ltb r (st_next s) then
        st_new s (param_set (mkParam (Fin 0) (Fin 0, Fin 0) true) (st_cell s r)) else s
  end.

Definition run (ops : list op) (s : store) : store := fold_left step ops s.

(** The heap before anything is constructed. *)
Definition empty_store : store := mkStore 0 (fun _ => mkParam (Fin 0) (Fin 0, Fin 0) true).
