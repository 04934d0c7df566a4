(** Vocabulary for the MPI properties C41-C43.  Depends on no model code beyond the array type. *)
From Verif Require Import Base NdModel.
Local Open Scope R_scope.

Definition sum_nat (l : list nat) : nat := fold_right Nat.add 0%nat l.

(** [c] holds [n] consecutive rows (entries along the first axis) of [t], starting at row [off]. *)
Definition rows_of (t : nd R) (off n : nat) (c : nd R) : Prop :=
  shape c = n :: tl (shape t) /\
  forall i l, (i < n)%nat -> inb (tl (shape t)) l -> at_ c (i :: l) = at_ t ((off + i)%nat :: l).

(** The chunks, in order, are all the rows of [t], chunk [r] having [nth r sizes] of them. *)
Definition split_into (t : nd R) (sizes : list nat) (chunks : list (nd R)) : Prop :=
  shape t = sum_nat sizes :: tl (shape t) /\ List.length chunks = List.length sizes /\
  forall r c, nth_error chunks r = Some c ->
    rows_of t (sum_nat (firstn r sizes)) (nth r sizes 0%nat) c.

(** [size] parts that differ by at most one. *)
Definition balanced (count size : nat) (sizes : list nat) : Prop :=
  List.length sizes = size /\ sum_nat sizes = count /\
  forall x y, In x sizes -> In y sizes -> (x <= y + 1)%nat.

(** Under every schedule every rank completes, and the ranks together hold each of the arrays [ts],
    split evenly by rows in rank order. *)
From Verif Require Import MpiModel MpiSem.
Definition delivers_split (size : nat) (ps : nat -> proc (nd R) (list (nd R))) (ts : list (nd R)) : Prop :=
  exists res : nat -> list (nd R),
    always_delivers size ps (fun r => Ok (res r)) /\
    (forall r, List.length (res r) = List.length ts) /\
    forall j t, nth_error ts j = Some t ->
      exists sizes chunks, balanced (hd 0%nat (shape t)) size sizes /\ split_into t sizes chunks /\
        forall r, (r < size)%nat -> nth_error (res r) j = nth_error chunks r.
