(** Network semantics for rank programs: one first-in-first-out channel per ordered pair of ranks.
    A send either is buffered (at the discretion of the MPI library) or waits for the receiver. *)
From Verif Require Import Base MpiModel.

Section Sem.
Context {V A : Type}.

Record world := mkW { w_proc : nat -> proc V A; w_chan : nat -> nat -> list V }.

Definition upd {B} (f : nat -> B) (r : nat) (b : B) : nat -> B :=
  fun x => if (x =? r)%nat then b else f x.
Definition upd2 {B} (f : nat -> nat -> B) (s d : nat) (b : B) : nat -> nat -> B :=
  fun x y => if (x =? s)%nat && (y =? d)%nat then b else f x y.

(** A buffered send. *)
Definition step_send (size : nat) (w w' : world) : Prop :=
  exists r d v k, (r < size)%nat /\ w_proc w r = Send v d k /\
    w' = mkW (upd (w_proc w) r k) (upd2 (w_chan w) r d (w_chan w r d ++ [v])).
(** Receiving a buffered message. *)
Definition step_recv (size : nat) (w w' : world) : Prop :=
  exists r s v vs k, (r < size)%nat /\ w_proc w r = Recv s k /\ w_chan w s r = v :: vs /\
    w' = mkW (upd (w_proc w) r (k v)) (upd2 (w_chan w) s r vs).
(** A send completing directly with a waiting receive. *)
Definition step_meet (size : nat) (w w' : world) : Prop :=
  exists r d v k k2, (r < size)%nat /\ (d < size)%nat /\ r <> d /\
    w_proc w r = Send v d k /\ w_proc w d = Recv r k2 /\ w_chan w r d = [] /\
    w' = mkW (upd (upd (w_proc w) r k) d (k2 v)) (w_chan w).

(** Steps the network must eventually allow, and all steps it may take. *)
Definition must_step size w w' := step_recv size w w' \/ step_meet size w w'.
Definition may_step size w w' := step_send size w w' \/ must_step size w w'.

Inductive steps (size : nat) : nat -> world -> world -> Prop :=
| steps_0 w : steps size 0 w w
| steps_S n w w' w'' : may_step size w w' -> steps size n w' w'' -> steps size (S n) w w''.

Definition outcome (p : proc V A) : option (result A) :=
  match p with Ret a => Some (Ok a) | Raise e => Some (Err e) | _ => None end.
Definition finished (size : nat) (w : world) : Prop :=
  forall r, (r < size)%nat -> outcome (w_proc w r) <> None.

Definition start (ps : nat -> proc V A) : world := mkW ps (fun _ _ => []).

(** Under every schedule: the number of steps is bounded, no rank ever blocks for good (even when
    the network buffers nothing), and on completion rank [r] has the outcome [res r] and no message
    is left. *)
Definition always_delivers (size : nat) (ps : nat -> proc V A) (res : nat -> result A) : Prop :=
  exists bound, forall n w, steps size n (start ps) w ->
    (n <= bound)%nat /\
    (~ finished size w -> exists w', must_step size w w') /\
    (finished size w -> (forall r, (r < size)%nat -> outcome (w_proc w r) = Some (res r)) /\
                        forall s d, w_chan w s d = []).
End Sem.
