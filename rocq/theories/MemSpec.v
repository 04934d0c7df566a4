(** Specification vocabulary for memory effects. *)
From Verif Require Import Base NdModel CongProofs MemModel KernelModel.

(** No buffer that existed in [h] has changed in [h']. *)
Definition untouched (h h' : heap) : Prop :=
  h_next h <= h_next h' /\ forall a p, a < h_next h -> h_buf h' a p = h_buf h a p.

(** The array exists in memory [h]. *)
Definition lives (h : heap) (t : tref) : Prop := t_addr t < h_next h.

(** What a program returned, with arrays replaced by their contents. *)
Definition contents (h : heap) (r : result tref) : result (nd R) := rmap (read h) r.

(** The array was created by the call that turned [h] into its present state. *)
Definition fresh_result (h : heap) (r : result tref) : Prop :=
  match r with Ok t => h_next h <= t_addr t | Err _ => True end.

(** The pure value of a kernel call. *)
Definition kernel_value (gamma : R -> R) (kv : R -> R -> R) (k : mem_kernel) (cur : nat -> R)
  (x : nd R) (kw : dict R) : result (nd R) :=
  match k with
  | MKRbf d => rbf_call d cur x kw
  | MKMatern d sm c => matern_call gamma kv d sm c cur x kw
  end.

(** A noise model with its array replaced by its contents. *)
Definition noise_contents (h : heap) (z : mem_noise) : NoiseModel.noise_model :=
  match z with
  | MHomo v => NoiseModel.HomoscedasticNoise v
  | MShear v => NoiseModel.ShearNoise33 v
  | MHetero t => NoiseModel.HeteroscedasticNoise (read h t)
  | MNull => NoiseModel.NullNoise
  end.
Definition noise_lives (h : heap) (z : mem_noise) : Prop :=
  match z with MHetero t => lives h t | _ => True end.

(** The pure value of an objective: kernels, then mean, variance and scale on the perturbed kernel, then
    the loss. *)
Definition objective_value (gamma : R -> R) (kv : R -> R -> R)
  (mean_f : nd R -> nd R -> nd R -> result (nd R)) (var_f : nd R -> nd R -> result (nd R))
  (scale_f : nd R -> nd R -> result R) (loss_f : nd R -> nd R -> nd R -> R -> result R)
  (k : mem_kernel) (z : NoiseModel.noise_model) (cur : nat -> R)
  (pairwise crosswise nn_targets targets : nd R) (kw : dict R) : result R :=
  let! Kin := kernel_value gamma kv k cur pairwise kw in
  let! Kcross := kernel_value gamma kv k cur crosswise kw in
  let! P := NoiseModel.perturb z Kin (dget kw "noise") in
  let! mean := mean_f P Kcross nn_targets in
  let! var := var_f P Kcross in
  let! P' := NoiseModel.perturb z Kin None in
  let! s := scale_f P' nn_targets in
  loss_f mean targets var s.

(** The numerical routines depend only on the contents of their arguments. *)
Definition content_only2 {B} (eqB : B -> B -> Prop) (f : nd R -> nd R -> B) : Prop :=
  forall x x' y y', nd_eq x x' -> nd_eq y y' -> eqB (f x y) (f x' y').
Definition content_only3 {B} (eqB : B -> B -> Prop) (f : nd R -> nd R -> nd R -> B) : Prop :=
  forall x x' y y' z z', nd_eq x x' -> nd_eq y y' -> nd_eq z z' -> eqB (f x y z) (f x' y' z').
