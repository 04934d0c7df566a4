(** Model of the dense reference computations for weak lensing (/repo/src/MuyGPyS/_test/shear.py), which the tests and the shear
    notebooks compare the library with. *)
From Verif Require Import Base NdModel RSum LinAlgModel NoiseModel TensorModel ShearModel BenchModel.
Local Open Scope R_scope.

(** ** The six formulas for points (x1, y1) and (x2, y2) *)
(** shear.py:17-34 [kk_f]. *)
Definition kk_f (x1 y1 x2 y2 a b : R) : R :=
  1 / 4 * (a * (8 * b ^ 2 - 8 * b * ((x1 - x2) ^ 2 + (y1 - y2) ^ 2) + (x1 - x2) ^ 4 + 2 * (x1 - x2) ^ 2 * (y1 - y2) ^ 2 + (y1 - y2) ^ 4)
    * exp (- ((x1 - x2) ^ 2 + (y1 - y2) ^ 2) / (2 * b)) / b ^ 4).
(** shear.py:36-51 [kg1_f]. *)
Definition kg1_f (x1 y1 x2 y2 a b : R) : R :=
  1 / 4 * (a * (6 * b * (- (x1 - x2) ^ 2 + (y1 - y2) ^ 2) + (x1 - x2) ^ 4 - (y1 - y2) ^ 4)
    * exp (- ((x1 - x2) ^ 2 + (y1 - y2) ^ 2) / (2 * b)) / b ^ 4).
(** shear.py:53-67 [kg2_f]. *)
Definition kg2_f (x1 y1 x2 y2 a b : R) : R :=
  1 / 4 * (2 * a * (x1 - x2) * (y1 - y2) * (- 6 * b + (x1 - x2) ^ 2 + (y1 - y2) ^ 2)
    * exp (- ((x1 - x2) ^ 2 + (y1 - y2) ^ 2) / (2 * b)) / b ^ 4).
(** shear.py:69-86 [g1g1_f]. *)
Definition g1g1_f (x1 y1 x2 y2 a b : R) : R :=
  1 / 4 * (a * (4 * b ^ 2 - 4 * b * ((x1 - x2) ^ 2 + (y1 - y2) ^ 2) + (x1 - x2) ^ 4 - 2 * (x1 - x2) ^ 2 * (y1 - y2) ^ 2 + (y1 - y2) ^ 4)
    * exp (- ((x1 - x2) ^ 2 + (y1 - y2) ^ 2) / (2 * b)) / b ^ 4).
(** shear.py:88-102 [g1g2_f]. *)
Definition g1g2_f (x1 y1 x2 y2 a b : R) : R :=
  1 / 4 * (2 * a * (x1 - x2) * (y1 - y2) * ((x1 - x2) ^ 2 - (y1 - y2) ^ 2)
    * exp (- ((x1 - x2) ^ 2 + (y1 - y2) ^ 2) / (2 * b)) / b ^ 4).
(** shear.py:104-120 [g2g2_f]. *)
Definition g2g2_f (x1 y1 x2 y2 a b : R) : R :=
  1 / 4 * (4 * a * (b ^ 2 - b * ((x1 - x2) ^ 2 + (y1 - y2) ^ 2) + (x1 - x2) ^ 2 * (y1 - y2) ^ 2)
    * exp (- ((x1 - x2) ^ 2 + (y1 - y2) ^ 2) / (2 * b)) / b ^ 4).

(** The assignment [m[p, q] = v]. *)
Definition set_at (m : nd R) (p q : nat) (v : R) : nd R :=
  mkNd (shape m) (fun idx => match idx with
    | [p'; q'] => if (p' =? p)%nat && (q' =? q)%nat then v else at_ m idx
    | _ => at_ m idx end).

(** shear.py:123-136 [shear_kernel]. *)
Definition shear_kernel (x1 y1 x2 y2 a b : R) : nd R :=
  let m := mkNd [3; 3]%nat (fun _ => 0) in
  let m := set_at m 0 0 (kk_f x1 y1 x2 y2 a b) in
  let m := set_at m 0 1 (kg1_f x1 y1 x2 y2 a b) in
  let m := set_at m 0 2 (kg2_f x1 y1 x2 y2 a b) in
  let m := set_at m 1 1 (g1g1_f x1 y1 x2 y2 a b) in
  let m := set_at m 1 2 (g1g2_f x1 y1 x2 y2 a b) in
  let m := set_at m 2 2 (g2g2_f x1 y1 x2 y2 a b) in
  let m := set_at m 1 0 (at_ m [0; 1]%nat) in
  let m := set_at m 2 0 (at_ m [0; 2]%nat) in
  set_at m 2 1 (at_ m [1; 2]%nat).

(** [for i in range(n): body], the state being the array under construction. *)
Definition for_range {A} (n : nat) (body : A -> nat -> A) (s : A) : A := fold_left body (seq 0 n) s.

(** shear.py:138-151 [conventional_shear]; [nan] stands for the NaN the array is filled with first.  Unpacking a shape that has not two
    entries, or a row that has not two, raises ValueError; rows are unpacked only where the loops reach them. *)
Definition conventional_shear (nan : R) (X1 : nd R) (X2 : option (nd R)) (length_scale : R) : result (nd R) :=
  let X2 := match X2 with Some t => t | None => X1 end in
  match shape X1, shape X2 with
  | [n1; f1], [n2; f2] =>
    if negb (n1 =? 0)%nat && (negb (f1 =? 2)%nat || negb (n2 =? 0)%nat && negb (f2 =? 2)%nat) then Err ValueError
    else Ok (for_range n1 (fun vals i =>
               for_range n2 (fun vals j =>
                 let tmp := shear_kernel (at_ X1 [i; 0]%nat) (at_ X1 [i; 1]%nat) (at_ X2 [j; 0]%nat) (at_ X2 [j; 1]%nat) 1 length_scale in
                 for_range 3 (fun vals a =>
                   for_range 3 (fun vals b => set_at vals (a * n1 + i) (b * n2 + j) (at_ tmp [a; b])) vals) vals) vals)
               (mkNd [3 * n1; 3 * n2]%nat (fun _ => nan)))
  | _, _ => Err ValueError
  end.

(** shear.py:154-169 [targets_from_GP]: a shear kernel on all pairwise differences, flattened, plus noise on the diagonal; [e] are the
    standard normal draws.  The result has one row of three observables per point. *)
Definition targets_from_GP (ch : cholesky_fn) (features : nd R) (n : nat) (ls noise : R) (e : nat -> R) : result (nd R) :=
  match shape features with
  | [] => Err IndexError
  | rows :: _ =>
    let! diffs := pairwise_tensor features (arange rows) in
    let! Kin := shear33_call ls diffs false None in
    let! flat := reshape (ndmap (Rmult 1) Kin) [3 * n ^ 2; 3 * n ^ 2]%nat in
    let! Kin_flat := bop Rplus flat (ndmap (Rmult noise) (eye (3 * n ^ 2)%nat)) in
    let! L := np_cholesky ch Kin_flat in
    let! t := reshape (mkNd [3 * n ^ 2]%nat (fun idx => match idx with
                         | [p] => rsum (3 * n ^ 2)%nat (fun k => at_ L [p; k] * e k)
                         | _ => 0 end)) [3; n ^ 2]%nat in
    Ok (swapaxes_last t)
  end.

(** The assignment [m[lo:hi, lo:hi] = v] of one number. *)
Definition fill_square (m : nd R) (lo hi : nat) (v : R) : nd R :=
  mkNd (shape m) (fun idx => match idx with
    | [p; q] => if (lo <=? p)%nat && (p <? hi)%nat && ((lo <=? q)%nat && (q <? hi)%nat) then v else at_ m idx
    | _ => at_ m idx end).

(** shear.py:172-180 [conventional_Kout]; [Kout] is what kernel.Kout() returned. *)
Definition conventional_Kout (Kout : nd R) (test_count : nat) : nd R :=
  let m := mkNd [3 * test_count; 3 * test_count]%nat (fun _ => 0) in
  let m := fill_square m 0 test_count (at_ Kout [0; 0]%nat) in
  let m := fill_square m test_count (2 * test_count) (at_ Kout [1; 1]%nat) in
  fill_square m (2 * test_count) (3 * test_count) (at_ Kout [2; 2]%nat).

(** A vector as one column.  numpy solves for and multiplies by a vector; the extra axis of length one disappears in the reshape. *)
Definition as_column (y : nd R) : result (nd R) :=
  match shape y with [_] => Ok (newaxis 1 y) | _ => Err ValueError end.

(** The body common to shear.py:183-190 and 193-207: Kcross @ solve(Kin + nugget, targets), reshaped to (3, test_count) and transposed.
    Simplification: targets are a vector, as in every caller; int(n / 3) is the integer quotient (exact below 2^53). *)
Definition flat_mean (ls : lsolver) (Kin Kcross targets nugget : nd R) : result (nd R) :=
  match shape Kcross with
  | [] => Err IndexError
  | m :: _ =>
    let! K := bop Rplus Kin nugget in
    let! y := as_column targets in
    let! x := np_solve ls K y in
    let! p := np_matmul Kcross x in
    let! r := reshape p [3; m / 3]%nat in
    Ok (swapaxes_last r)
  end.

(** shear.py:183-190 [conventional_mean]. *)
Definition conventional_mean (ls : lsolver) (Kin Kcross targets : nd R) (noise : R) : result (nd R) :=
  match shape Kin with
  | [] => Err IndexError
  | n :: _ => flat_mean ls Kin Kcross targets (ndmap (Rmult noise) (eye n))
  end.

(** The nugget of shear.py:198-202 and 221-225: twice the noise for the first third, the convergence. *)
Definition nugget33 (train_count : nat) (noise : R) : nd R :=
  diag (train_count + 2 * train_count)%nat (fun p => if (p <? train_count)%nat then 2 * noise * 1 else noise * 1).

(** shear.py:193-207 [conventional_mean33]. *)
Definition conventional_mean33 (ls : lsolver) (Kin Kcross targets : nd R) (noise : R) : result (nd R) :=
  match shape Kin with
  | [] => Err IndexError
  | n :: _ => if negb (n mod 3 =? 0)%nat then Err AssertionError
              else flat_mean ls Kin Kcross targets (nugget33 (n / 3)%nat noise)
  end.

(** The body common to shear.py:210-214 and 217-226. *)
Definition flat_variance (ls : lsolver) (Kin Kcross Kout nugget : nd R) : result (nd R) :=
  let! K := bop Rplus Kin nugget in
  let! x := np_solve ls K (swapaxes_last Kcross) in
  let! p := np_matmul Kcross x in
  bop Rminus Kout p.

(** shear.py:210-214 [conventional_variance]. *)
Definition conventional_variance (ls : lsolver) (Kin Kcross Kout : nd R) (noise : R) : result (nd R) :=
  match shape Kin with
  | [] => Err IndexError
  | n :: _ => flat_variance ls Kin Kcross Kout (ndmap (Rmult noise) (eye n))
  end.

(** shear.py:217-226 [conventional_variance33]. *)
Definition conventional_variance33 (ls : lsolver) (Kin Kcross Kout : nd R) (noise : R) : result (nd R) :=
  match shape Kin with
  | [] => Err IndexError
  | n :: _ => if negb (n mod 3 =? 0)%nat then Err AssertionError
              else flat_variance ls Kin Kcross Kout (nugget33 (n / 3)%nat noise)
  end.

(** How the tests build the dense arguments (tests/experimental/shear.py:131-146, 240-248, 452-463): targets column by column, the
    cross-covariance transposed; for the shear-only model the convergence rows are cut off. *)
Definition stack_targets (targets : nd R) : result (nd R) :=
  match shape targets with
  | [n; o] => reshape (swapaxes_last targets) [n * o]%nat
  | _ => Err ValueError
  end.
Definition cut_rows (s : nat) (t : nd R) : nd R :=
  mkNd (match shape t with n :: r => (n - s)%nat :: r | [] => [] end)
       (fun idx => match idx with i :: r => at_ t ((s + i)%nat :: r) | [] => at_ t [] end).
Definition cut_cols (s : nat) (t : nd R) : nd R :=
  mkNd (match shape t with n :: m :: r => n :: (m - s)%nat :: r | r => r end)
       (fun idx => match idx with i :: j :: r => at_ t (i :: (s + j)%nat :: r) | r => at_ t r end).

(** The dense prediction: all training points at once, the same formulas for every test point. *)
Definition dense_inputs (km : shear_model) (nan : R) (test train targets : nd R) (l : R) : result (nd R * nd R * nd R) :=
  match shape train with
  | [] => Err ValueError
  | n :: _ =>
    let s := (unobserved km * n)%nat in
    let! Kin := conventional_shear nan train None l in
    let! Kcross := conventional_shear nan train (Some test) l in
    let! y := stack_targets targets in
    Ok (cut_cols s (cut_rows s Kin), swapaxes_last (cut_rows s Kcross), cut_rows s y)
  end.
Definition dense_mean (ls : lsolver) (km : shear_model) (nan : R) (noise : noise_model) (test train targets : nd R) (l : R) : result (nd R) :=
  let! (Kin, Kcross, y) := dense_inputs km nan test train targets l in
  match noise with
  | HomoscedasticNoise v => conventional_mean ls Kin Kcross y v
  | ShearNoise33 v => conventional_mean33 ls Kin Kcross y v
  | _ => Err TypeError
  end.
Definition dense_variance (ls : lsolver) (km : shear_model) (nan : R) (noise : noise_model) (test train targets : nd R) (l : R) : result (nd R) :=
  let! (Kin, Kcross, y) := dense_inputs km nan test train targets l in
  let! K := match km with Full33 => shear33_Kout l None | Two23 => shear23_Kout l None end in
  match shape test with
  | [] => Err ValueError
  | t :: _ =>
    match noise with
    | HomoscedasticNoise v => conventional_variance ls Kin Kcross (conventional_Kout K t) v
    | ShearNoise33 v => conventional_variance33 ls Kin Kcross (conventional_Kout K t) v
    | _ => Err TypeError
    end
  end.
