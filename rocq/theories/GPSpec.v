(** Specification vocabulary for batched univariate GP tensors. *)
From Verif Require Import Base NdModel RSum LinAlgSpec NoiseModel.
Local Open Scope R_scope.

(** Batch element [x] of a (batch, n, n) tensor, and of a (batch, n) tensor. *)
Definition rowmat (t : nd R) (x : nat) : nat -> nat -> R := fun i j => at_ t [x; i; j].
Definition rowvec (t : nd R) (x : nat) : nat -> R := fun i => at_ t [x; i].

(** A + v I. *)
Definition plus_nugget (A : nat -> nat -> R) (v : R) : nat -> nat -> R :=
  fun i j => A i j + (if Nat.eqb i j then v else 0).

(** The joint (n+1)-square covariance of a test point (index 0, prior variance [kout],
    cross-covariances [k]) and its neighbours (covariance [A]). *)
Definition joint (kout : R) (k : nat -> R) (A : nat -> nat -> R) : nat -> nat -> R :=
  fun i j => match i, j with
             | O, O => kout
             | O, S j' => k j'
             | S i', O => k i'
             | S i', S j' => A i' j'
             end.

(** Any matrix plus a per-row diagonal term. *)
Definition plus_diag (A : nat -> nat -> R) (d : nat -> R) : nat -> nat -> R :=
  fun i j => A i j + (if Nat.eqb i j then d i else 0).

(** [v] is the kriging prediction for kernel matrix [A], cross-covariance [k], data [y]:
    the weights solve A w = k. *)
Definition kriging (n : nat) (A : nat -> nat -> R) (k y : nat -> R) (v : R) : Prop :=
  exists w, solves n A w k /\ v = dot n w y.

(** Univariate targets come as (batch, nn) or (batch, nn, 1) tensors. *)
Definition univariate_shape (T : nd R) (b n : nat) : Prop := shape T = [b; n] \/ shape T = [b; n; 1%nat].
Definition tgt (T : nd R) (x i : nat) : R :=
  match shape T with [_; _] => at_ T [x; i] | _ => at_ T [x; i; O] end.

(** Targets as (batch, nn, response) tensors, or (batch, nn) for a single response. *)
Definition resp_shape (T : nd R) (b n r : nat) : Prop :=
  shape T = [b; n; r] \/ (shape T = [b; n] /\ r = 1%nat).
Definition resp (T : nd R) (x s i : nat) : R :=
  match shape T with [_; _] => at_ T [x; i] | _ => at_ T [x; i; s] end.


(** No trailing target axis has the same length as the neighbour axis at its position (and
    there are no more trailing axes than neighbour axes): the shapes for which the code can
    tell neighbour axes from response axes. *)
Definition no_coincidence (ex ins : list nat) : Prop :=
  (List.length ex <= List.length ins)%nat /\
  forall k, (k < List.length ex)%nat -> nth k ex O <> nth k ins O.

(** The variance the noise model adds at neighbour [i] of batch element [x]. *)
Definition noise_at (m : noise_model) (kw : option R) (x i : nat) : R :=
  match m with
  | HomoscedasticNoise v => match kw with None => v | Some u => u end
  | HeteroscedasticNoise t => at_ t [x; i]
  | ShearNoise33 _ => 0
  | NullNoise => 0
  end.

(** Noise models applicable to (b, n, n) kernel tensors. *)
Definition noise_fits (m : noise_model) (b n : nat) : Prop :=
  match m with
  | HeteroscedasticNoise t => shape t = [b; n] /\ (0 < b)%nat /\ (0 < n)%nat
  | ShearNoise33 _ => False
  | _ => True
  end.

(** Noise-perturbed covariance of batch element x. *)
Definition noisy (m : noise_model) (Kin : nd R) : nat -> nat -> nat -> R :=
  fun x => plus_diag (rowmat Kin x) (noise_at m None x).

(** The (in * nn)-square matrix of batch element x of a five-axis kernel tensor. *)
Definition flat5 (K : nd R) (n x : nat) : nat -> nat -> R :=
  fun a b => at_ K [x; (a / n)%nat; (a mod n)%nat; (b / n)%nat; (b mod n)%nat].

