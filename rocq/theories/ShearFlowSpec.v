(** Valid inputs and noise of a shear prediction (vocabulary of the theorems). *)
From Verif Require Import Base NdModel NoiseModel MuyGPSModel TensorModel TensorSpec ShearModel ShearSpec.
Local Open Scope R_scope.

(** How many observables are observed at each neighbour. *)
Definition observed (k : shear_model) : nat := match k with Full33 => 3 | Two23 => 2 end.

(** Valid inputs: 2-D points, valid indices, sizes the library supports. *)
Record shear_inputs (test train targets : nd R) (ix nn : nd Z) (m n b k : nat) : Prop := {
  si_test : shape test = [m; 2]%nat;
  si_train : shape train = [n; 2]%nat;
  si_targets : shape targets = [n; 3]%nat;
  si_ix : shape ix = [b];
  si_nn : shape nn = [b; k];
  si_ixok : forall x, (x < b)%nat -> ~ out_of_range m (at_ ix [x]);
  si_nnok : forall x i, (x < b)%nat -> (i < k)%nat -> ~ out_of_range n (at_ nn [x; i]);
  si_b : b <> 1%nat; si_k : (2 <= k)%nat; si_bk : b <> k }.

(** Noise models a shear model can use: nonnegative variance per stacked observation. *)
Definition stacked_noise (noise : noise_model) (km : shear_model) (k : nat) (d : nat -> R) : Prop :=
  match noise, km with
  | HomoscedasticNoise v, _ => d = flat_noise v
  | ShearNoise33 v, Full33 => d = shear_noise v k
  | _, _ => False
  end.

