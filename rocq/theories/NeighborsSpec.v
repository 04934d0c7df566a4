(** Specification vocabulary for neighbours and batches. *)
From Coq Require Import Sorted.
From Verif Require Import Base.
Local Open Scope R_scope.

(** Squared Euclidean distance of two rows. *)
Fixpoint sq_dist (x y : list R) : R :=
  match x, y with
  | a :: x', b :: y' => (a - b) ^ 2 + sq_dist x' y'
  | _, _ => 0
  end.

(** [ans] lists the [k] points closest to [q] among the points [i] with [allowed i], in ascending
    order of the distance [d], each once and with its distance. *)
Definition nearest (d : list R -> list R -> R) (train : list (list R)) (allowed : nat -> Prop)
  (q : list R) (k : nat) (ans : list (nat * R)) : Prop :=
  List.length ans = k /\
  NoDup (map fst ans) /\
  (forall i x, In (i, x) ans -> (i < List.length train)%nat /\ allowed i /\ x = d q (nth i train [])) /\
  StronglySorted (fun a b => snd a <= snd b) ans /\
  (forall i j x, (i < List.length train)%nat -> allowed i -> ~ In i (map fst ans) ->
     In (j, x) ans -> x <= d q (nth i train [])).

(** What numpy's choice without replacement may return. *)
Definition valid_choice (pop : list nat) (n : nat) (drawn : list nat) : Prop :=
  List.length drawn = n /\ NoDup drawn /\ incl drawn pop.

(** Number of elements of [l] with label [c]. *)
Definition class_count (labels : list R) (c : R) (l : list nat) : nat :=
  List.length (filter (fun i => Reqb (nth i labels 0) c) l).

(** A neighbourhood with two different labels. *)
Definition mixed (labels : list R) (nn : list nat) : Prop :=
  exists i j, In i nn /\ In j nn /\ nth i labels 0 <> nth j labels 0.

(** Integer class labels. *)
Definition integral (labels : list R) : Prop := forall r, In r labels -> exists z, r = IZR z.

(** Rectangular data: every row has the same number of features. *)
Definition rectangular (f : nat) (rows : list (list R)) : Prop :=
  forall r, In r rows -> List.length r = f.
