(** A small model of numpy arrays: a shape and a total index function whose
    in-range values are the entries (row-major order fixed by [ravel]).
    Models the parts of numpy the code relies on: indexing, reshape, broadcasting,
    elementwise maps, squeeze.  Values outside the index range are never observed. *)
From Verif Require Import Base.

Record nd (A : Type) := mkNd { shape : list nat; at_ : list nat -> A }.
Arguments mkNd {A} shape at_.
Arguments shape {A} n.
Arguments at_ {A} n idx.

Definition nprod (sh : list nat) : nat := fold_right Nat.mul 1 sh.
Arguments nprod : simpl never.
Definition ndim {A} (t : nd A) : nat := List.length (shape t).

(** [idx] is a valid multi-index for [sh]. *)
Definition inb (sh idx : list nat) : Prop := Forall2 lt idx sh.

(** Row-major position of a multi-index, and its inverse. *)
Fixpoint ravel (sh idx : list nat) : nat :=
  match sh, idx with
  | _ :: sh', i :: idx' => i * nprod sh' + ravel sh' idx'
  | _, _ => 0
  end.

Fixpoint unravel (sh : list nat) (k : nat) : list nat :=
  match sh with
  | [] => []
  | _ :: sh' => (k / nprod sh') :: unravel sh' (k mod nprod sh')
  end.

(** ndarray.reshape: same entries in row-major order, ValueError when the sizes differ. *)
Definition reshape {A} (t : nd A) (sh : list nat) : result (nd A) :=
  if nprod sh =? nprod (shape t)
  then Ok (mkNd sh (fun idx => at_ t (unravel (shape t) (ravel sh idx))))
  else Err ValueError.

(** Elementwise map. *)
Definition ndmap {A B} (f : A -> B) (t : nd A) : nd B := mkNd (shape t) (fun idx => f (at_ t idx)).

(** numpy broadcasting, on reversed shapes (alignment is at the last axis). *)
Fixpoint brev (s1 s2 : list nat) : option (list nat) :=
  match s1, s2 with
  | [], s | s, [] => Some s
  | a :: s1', b :: s2' =>
    match brev s1' s2' with
    | None => None
    | Some s => if a =? b then Some (a :: s) else if a =? 1 then Some (b :: s)
                else if b =? 1 then Some (a :: s) else None
    end
  end.
Definition bshape (s1 s2 : list nat) : option (list nat) :=
  option_map (@rev nat) (brev (rev s1) (rev s2)).

(** The index of an operand of shape [sh] read for output index [idx]. *)
Fixpoint bidx_rev (sh idx : list nat) : list nat :=
  match sh, idx with
  | d :: sh', i :: idx' => (if d =? 1 then 0 else i) :: bidx_rev sh' idx'
  | _, _ => []
  end.
Definition bidx (sh idx : list nat) : list nat := rev (bidx_rev (rev sh) (rev idx)).

Definition bop {A B C} (f : A -> B -> C) (x : nd A) (y : nd B) : result (nd C) :=
  match bshape (shape x) (shape y) with
  | Some s => Ok (mkNd s (fun idx => f (at_ x (bidx (shape x) idx)) (at_ y (bidx (shape y) idx))))
  | None => Err ValueError
  end.

(** np.squeeze: remove every axis of length one. *)
Definition squeeze_shape (sh : list nat) : list nat := filter (fun d => negb (d =? 1)) sh.
Fixpoint unsqueeze_idx (sh idx : list nat) : list nat :=
  match sh with
  | [] => []
  | d :: sh' => if d =? 1 then 0 :: unsqueeze_idx sh' idx
                else match idx with i :: idx' => i :: unsqueeze_idx sh' idx' | [] => 0 :: unsqueeze_idx sh' [] end
  end.
Definition squeeze {A} (t : nd A) : nd A :=
  mkNd (squeeze_shape (shape t)) (fun idx => at_ t (unsqueeze_idx (shape t) idx)).

(** Observational equality of arrays: same shape, same entries. *)
Definition nd_eq {A} (x y : nd A) : Prop :=
  shape x = shape y /\ forall idx, inb (shape x) idx -> at_ x idx = at_ y idx.

(** Arrays from nested lists, used by the concrete examples. *)
Definition vec {A} (d : A) (l : list A) : nd A :=
  mkNd [List.length l] (fun idx => match idx with [i] => nth i l d | _ => d end).
