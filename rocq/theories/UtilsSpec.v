(** Vocabulary for the claims about the shipped data helpers. *)
From Verif Require Import Base NdModel RSum ClassifySpec NeighborsSpec.
Local Open Scope R_scope.

(** [t'] consists of the listed rows of [t], in this order. *)
Definition rows_of (t : nd R) (rows : list nat) (t' : nd R) : Prop :=
  exists n rest, shape t = n :: rest /\ shape t' = List.length rows :: rest /\
    (forall r, In r rows -> (r < n)%nat) /\
    forall i l, (i < List.length rows)%nat -> inb rest l -> at_ t' (i :: l) = at_ t (nth i rows 0%nat :: l).

(** The generator draws without replacement. *)
Definition fair (draw : list nat -> nat -> list nat) : Prop :=
  forall pop k, (k <= List.length pop)%nat -> NoDup pop -> valid_choice pop k (draw pop k).

(** [cls] names the class of every row: the first position of its largest entry. *)
Definition classes_are (out : nd R) (n c : nat) (cls : nat -> nat) : Prop :=
  forall i, (i < n)%nat -> is_argmax c (fun j => at_ out [i; j]) (cls i).

(** How many of the listed rows have class [k], and how many classes occur among the first [n] rows. *)
Definition in_class (cls : nat -> nat) (k : nat) (rows : list nat) : nat := List.length (filter (fun i => (cls i =? k)%nat) rows).
Definition number_of_classes (cls : nat -> nat) (n : nat) : nat := List.length (nodup Nat.eq_dec (map cls (seq 0 n))).

(** Squared Euclidean norm of row [i]. *)
Definition sqnorm (X : nd R) (f i : nat) : R := rsum f (fun k => at_ X [i; k] ^ 2).
