(** Independent specification of scalar hyperparameters: what a user is told about
    [Parameter(val, bounds)] (docstring of /repo/src/MuyGPyS/gp/hyperparameter/scalar.py:30-71). *)
From Verif Require Import Base HyperModel.
Local Open Scope R_scope.
Local Open Scope string_scope.

(** Order on extended numbers, NaN being comparable with nothing. *)
Inductive nlt : num -> num -> Prop :=
| nlt_fin a b : a < b -> nlt (Fin a) (Fin b)
| nlt_ninf_fin b : nlt NInf (Fin b)
| nlt_ninf_pinf : nlt NInf PInf
| nlt_fin_pinf a : nlt (Fin a) PInf.

Definition shift (x : num) (d : R) : num := match x with Fin r => Fin (r + d) | _ => x end.

(** A two-element container of numbers. *)
Inductive pair_of : pyval -> num -> num -> Prop :=
| po_list a b : pair_of (PList [PNum a; PNum b]) a b
| po_arr a b : pair_of (PArr [PNum a; PNum b]) a b
| po_dict01 a b : pair_of (PDict [(0%Z, PNum a); (1%Z, PNum b)]) a b
| po_dict10 a b : pair_of (PDict [(1%Z, PNum b); (0%Z, PNum a)]) a b.

(** [Some (lo, hi)]: optimizable within these bounds; [None]: fixed. *)
Inductive bounds_mean : pyval -> option (num * num) -> Prop :=
| bm_fixed : bounds_mean (PStr "fixed") None
| bm_pair b lo hi : pair_of b lo hi -> ~ nlt hi lo -> bounds_mean b (Some (lo, hi)).

(** In range up to the documented tolerance 1e-5; fixed parameters accept any number. *)
Definition in_range (b : option (num * num)) (x : num) : Prop :=
  match b with
  | None => True
  | Some (lo, hi) => ~ nlt x (shift lo (- / 100000)) /\ ~ nlt (shift hi (/ 100000)) x
  end.

(** What a value argument means, given the bounds and the draws. *)
Inductive value_means (e : env) (b : option (num * num)) : pyval -> num -> Prop :=
| vm_num x : in_range b x -> value_means e b (PNum x) x
| vm_sample lo hi x :
    b = Some (Fin lo, Fin hi) -> root e = None -> x = Fin (uniform e lo hi) -> in_range b x ->
    value_means e b (PStr "sample") x
| vm_log_sample lo hi x :
    b = Some (Fin lo, Fin hi) -> 0 < lo -> 0 < hi -> root e = None ->
    x = Fin (exp (uniform e (ln lo) (ln hi))) -> in_range b x ->
    value_means e b (PStr "log_sample") x.

(** The arguments covered by the documentation: a number or a string for the value, a string or
    a container of numbers or strings for the bounds. *)
Inductive documented_val : pyval -> Prop :=
| dv_num x : documented_val (PNum x)
| dv_str s : documented_val (PStr s)
| dv_list l : documented_val (PList l)
| dv_arr l : documented_val (PArr l)
| dv_arr0 x : documented_val (PArr0 x).

Inductive documented_bounds : pyval -> Prop :=
| db_str s : documented_bounds (PStr s)
| db_num x : documented_bounds (PNum x)
| db_list l : (forall v, In v l -> v <> PComplex /\ v <> PHuge) -> documented_bounds (PList l)
| db_arr l : (forall v, In v l -> v <> PComplex /\ v <> PHuge) -> documented_bounds (PArr l).

(** The invariant of an optimizable parameter. *)
Definition within_bounds (p : param) : Prop :=
  p_fixed p = false ->
  fst (p_bounds p) <> NaN -> snd (p_bounds p) <> NaN -> p_val p <> NaN ->
  ~ nlt (snd (p_bounds p)) (fst (p_bounds p)) /\
  ~ nlt (p_val p) (shift (fst (p_bounds p)) (- / 100000)) /\
  ~ nlt (shift (snd (p_bounds p)) (/ 100000)) (p_val p).
