(** Model of _src/gp/noise/numpy.py and of the [perturb] methods in gp/noise/. *)
From Verif Require Import Base NdModel.
Local Open Scope R_scope.

(** np.eye(n). *)
Definition eye (n : nat) : nd R :=
  mkNd [n; n] (fun idx => match idx with [i; j] => if Nat.eqb i j then 1 else 0 | _ => 0 end).

(** np.diag(v) for a vector of length n. *)
Definition diag (n : nat) (v : nat -> R) : nd R :=
  mkNd [n; n] (fun idx => match idx with [i; j] => if Nat.eqb i j then v i else 0 | _ => 0 end).

(** numpy.py:9-27 [_homoscedastic_perturb]. *)
Definition homoscedastic_perturb (Kin : nd R) (noise : R) : result (nd R) :=
  match shape Kin with
  | [_; nn_count; _] => bop Rplus Kin (ndmap (Rmult noise) (eye nn_count))
  | [b; in_count; nn_count; in_count2; nn_count2] =>
    if negb (nn_count =? nn_count2)%nat then Err AssertionError
    else if negb (in_count =? in_count2)%nat then Err AssertionError
    else
      let all_count := (in_count * nn_count)%nat in
      let! flat := reshape Kin [b; all_count; all_count] in
      let! flat' := bop Rplus flat (ndmap (Rmult noise) (eye all_count)) in
      reshape flat' [b; in_count; nn_count; in_count; nn_count]
  | _ => Err ValueError
  end.

(** numpy.py:30-53 [_shear_perturb33].  np.hstack of the two constant vectors is the
    vector whose first nn entries are 2*noise and whose other 2*nn entries are noise. *)
Definition shear_perturb33 (Kin : nd R) (noise : R) : result (nd R) :=
  let convergence_variance := noise * 2 in
  match shape Kin with
  | [b; in_count; nn_count; in_count2; nn_count2] =>
    if negb (nn_count =? nn_count2)%nat then Err AssertionError
    else if negb (in_count =? in_count2)%nat then Err AssertionError
    else if negb (in_count =? 3)%nat then Err AssertionError
    else
      let all_count := (in_count * nn_count)%nat in
      let! flat := reshape Kin [b; all_count; all_count] in
      let nugget := diag (nn_count + 2 * nn_count)
        (fun i => if (i <? nn_count)%nat then convergence_variance * 1 else noise * 1) in
      let! flat' := bop Rplus flat nugget in
      reshape flat' [b; in_count; nn_count; in_count; nn_count]
  | _ => Err ValueError
  end.

(** numpy.py:56-67 [_heteroscedastic_perturb].  The fancy index lists (b,i,i) for every
    b and i once, in row-major order, so the in-place += adds flat entry b*nn+i of the
    noise tensor to entry (b,i,i).  noise.flatten() must have batch*nn entries
    (or one, which numpy broadcasts), otherwise the in-place add raises ValueError;
    the index i must be valid on the last axis too (IndexError).  With no batch elements
    np.repeat(range(0), nn) is an array of floats, which is not an index (IndexError). *)
Definition heteroscedastic_perturb (Kin noise : nd R) : result (nd R) :=
  match shape Kin with
  | [batch_count; nn_count; nn2] =>
    if (batch_count =? 0)%nat then Err IndexError
    else if (batch_count * nn_count =? 0)%nat then
      (if (nprod (shape noise) =? 0)%nat || (nprod (shape noise) =? 1)%nat
       then Ok Kin else Err ValueError)
    else if (nn2 <? nn_count)%nat then Err IndexError
    else
      let flat := fun q => at_ noise (unravel (shape noise) q) in
      let add (q : nat -> nat -> nat) := Ok (mkNd (shape Kin) (fun idx =>
        match idx with
        | [b; i; j] => if (i =? j)%nat && (i <? nn_count)%nat
                       then at_ Kin idx + flat (q b i) else at_ Kin idx
        | _ => at_ Kin idx
        end)) in
      if (nprod (shape noise) =? batch_count * nn_count)%nat then add (fun b i => b * nn_count + i)%nat
      else if (nprod (shape noise) =? 1)%nat then add (fun _ _ => O)
      else Err ValueError
  | _ => Err ValueError
  end.

(** The noise models' [perturb] (gp/noise/homoscedastic.py:60-88, heteroscedastic.py:48-67,
    null.py:32-47, shear.py:19-27).  [noise=None] prompts the stored value. *)
Inductive noise_model :=
| HomoscedasticNoise (val : R)
| HeteroscedasticNoise (val : nd R)
| ShearNoise33 (val : R)
| NullNoise.

Definition perturb (m : noise_model) (Kin : nd R) (noise : option R) : result (nd R) :=
  match m with
  | HomoscedasticNoise v =>
    homoscedastic_perturb Kin (match noise with None => v | Some x => x end)
  | ShearNoise33 v =>
    shear_perturb33 Kin (match noise with None => v | Some x => x end)
  | HeteroscedasticNoise t => heteroscedastic_perturb Kin t
  | NullNoise => Ok Kin
  end.
