(** Specification vocabulary for renumbering the classes of a classification problem (C98). *)
From Verif Require Import Base NdModel RSum.
Local Open Scope R_scope.

(** The label matrix [labels'] is [labels] with class [c] called [p c]: its columns are permuted. *)
Definition renumbered (p : nat -> nat) (labels labels' : nd R) (N C : nat) : Prop :=
  perm_on C p /\ shape labels = [N; C] /\ shape labels' = [N; C] /\
  forall i c, (i < N)%nat -> (c < C)%nat -> at_ labels' [i; p c] = at_ labels [i; c].

(** The scores [out'] are the scores [out] with the same renumbering. *)
Definition scores_renumbered (p : nat -> nat) (out out' : nd R) (M C : nat) : Prop :=
  shape out = [M; C] /\ shape out' = [M; C] /\
  forall x c, (x < M)%nat -> (c < C)%nat -> at_ out' [x; p c] = at_ out [x; c].

(** Class [c] is number [j] among the classes that occur in the data, counted from 0 in increasing order. *)
Definition occurs (N : nat) (cl : nat -> nat) (c : nat) : bool := existsb (fun i => (cl i =? c)%nat) (seq 0 N).
Definition nth_class (N : nat) (cl : nat -> nat) (j c : nat) : Prop :=
  occurs N cl c = true /\ List.length (filter (occurs N cl) (seq 0 c)) = j.

(** Two runs of balanced sampling ([draw j pop k] chooses [k] of the rows [pop] for class number [j]) draw the same rows from each class,
    where row [a] of the second run is row [p a] of the first and class [c] of the first is class [sg c] of the second. *)
Definition same_draws (N : nat) (p sg cl cl' : nat -> nat) (draw draw' : nat -> list nat -> nat -> list nat) : Prop :=
  forall c j j' pop pop' k, nth_class N cl j c -> nth_class N cl' j' (sg c) -> NoDup pop -> NoDup pop' ->
    (forall a, In a pop -> (a < N)%nat) -> (forall a, In a pop' -> (a < N)%nat) -> (k <= List.length pop)%nat ->
    (forall a, (a < N)%nat -> (In a pop' <-> In (p a) pop)) ->
    forall a, (a < N)%nat -> (In a (draw' j' pop' k) <-> In (p a) (draw j pop k)).
