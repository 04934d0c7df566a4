(** Model of gp/multivariate_muygps.py: a list of univariate models, one per response. *)
From Verif Require Import Base NdModel RSum LinAlgModel GPModel NoiseModel MuyGPSModel.
Local Open Scope R_scope.

(** One entry of self.models (multivariate_muygps.py:77-86): the univariate model and its kernel
    functor, a function of a difference tensor that returns or raises.  Simplification: the
    entries are separate objects, although two argument dictionaries may share a scale object. *)
Record mmodel := mkMm { mm_gp : gp; mm_kernel : nd R -> result (nd R) }.

(** mm.zeros(shape). *)
Definition zeros (sh : list nat) : nd R := mkNd sh (fun _ => 0).

(** _src/math/numpy.py:86-89 [assign] with slices (:, ..., :, i): copy x, then write y into the
    i-th entry of the last axis of the copy.  IndexError when i is out of range; y must
    broadcast to the remaining shape (simplification: numpy also strips leading axes of length
    one of y, which no caller produces). *)
Definition assign_last (x y : nd R) (i : nat) : result (nd R) :=
  let sh := removelast (shape x) in
  if (last (shape x) O <=? i)%nat then Err IndexError
  else match bshape (shape y) sh with
       | Some s => if list_eq_dec Nat.eq_dec s sh
                   then Ok (mkNd (shape x) (fun idx =>
                          if (last idx O =? i)%nat then at_ y (bidx (shape y) (removelast idx))
                          else at_ x idx))
                   else Err ValueError
       | None => Err ValueError
       end.

(** targets[:, :, i]. *)
Definition column (T : nd R) (i : nat) : result (nd R) :=
  match shape T with
  | [b; n; r] => if (r <=? i)%nat then Err IndexError
                 else Ok (mkNd [b; n] (fun idx => at_ T (idx ++ [i])))
  | _ => Err IndexError
  end.

(** The body shared by the loops of lines 150-169 and 219-229: evaluate the model, then
    write its flattened result into column i of the accumulator. *)
Fixpoint column_loop (f : nat -> mmodel -> result (nd R)) (b i : nat) (ms : list mmodel) (acc : nd R)
  : result (nd R) :=
  match ms with
  | [] => Ok acc
  | m :: ms' =>
    let! y := f i m in
    let! y' := reshape y [b] in
    let! acc' := assign_last acc y' i in
    column_loop f b (S i) ms' acc'
  end.

(** multivariate_muygps.py:152-163: one iteration of posterior_mean, before the reshape. *)
Definition mm_mean_one (ls : lsolver) (pairwise crosswise T : nd R) (i : nat) (m : mmodel)
  : result (nd R) :=
  let! Kin := mm_kernel m pairwise in
  let! Kcross := mm_kernel m crosswise in
  match shape T with
  | [b; n; _] =>
    let! c := column T i in
    let! c' := reshape c [b; n; 1%nat] in
    gp_posterior_mean ls (mm_gp m) Kin Kcross c' None
  | _ => Err ValueError
  end.

(** multivariate_muygps.py:99-170 [posterior_mean]. *)
Definition mm_posterior_mean (ls : lsolver) (ms : list mmodel) (pairwise crosswise T : nd R)
  : result (nd R) :=
  match shape T with
  | [b; n; r] => column_loop (mm_mean_one ls pairwise crosswise T) b 0 ms (zeros [b; r])
  | _ => Err ValueError
  end.

(** multivariate_muygps.py:219-226: one iteration of posterior_variance.  The univariate
    posterior variance is already scaled and is multiplied by model.scale() again (line 226;
    the multiplication commutes with the reshape that precedes it). *)
Definition mm_var_one (ls : lsolver) (pairwise crosswise : nd R) (i : nat) (m : mmodel)
  : result (nd R) :=
  let! Kin := mm_kernel m pairwise in
  let! Kcross := mm_kernel m crosswise in
  let ss := gp_scale (mm_gp m) in
  let! v := gp_posterior_variance ls (mm_gp m) Kin Kcross in
  Ok (ndmap (fun a => a * ss) v).

(** multivariate_muygps.py:172-230 [posterior_variance]. *)
Definition mm_posterior_variance (ls : lsolver) (ms : list mmodel) (pairwise crosswise : nd R)
  : result (nd R) :=
  match shape crosswise with
  | [] => Err IndexError
  | b :: _ => column_loop (mm_var_one ls pairwise crosswise) b 0 ms (zeros [b; List.length ms])
  end.

(** multivariate_muygps.py:276-288: the loop of fast_coefficients.  The noise is applied here
    and once more inside the univariate call; the array mm.assign returns is discarded. *)
Fixpoint mm_coeff_loop (ls : lsolver) (pairwise T acc : nd R) (i : nat) (ms : list mmodel)
  : result unit :=
  match ms with
  | [] => Ok tt
  | m :: ms' =>
    let! Kin := mm_kernel m pairwise in
    let! pK := perturb (gp_noise (mm_gp m)) Kin None in
    let! c := column T i in
    let! y := gp_fast_coefficients ls (mm_gp m) pK c in
    let! _ := assign_last acc y i in
    mm_coeff_loop ls pairwise T acc (S i) ms'
  end.

(** multivariate_muygps.py:232-290 [fast_coefficients]. *)
Definition mm_fast_coefficients (ls : lsolver) (ms : list mmodel) (pairwise T : nd R)
  : result (nd R) :=
  match shape T with
  | [b; n; r] =>
    let coeffs := zeros [b; n; r] in
    let! _ := mm_coeff_loop ls pairwise T coeffs 0 ms in Ok coeffs
  | _ => Err ValueError
  end.

(** multivariate_muygps.py:331-339: the loop of fast_posterior_mean, results discarded. *)
Fixpoint mm_kcross_loop (crosswise acc : nd R) (i : nat) (ms : list mmodel) : result unit :=
  match ms with
  | [] => Ok tt
  | m :: ms' =>
    let! Kcross := mm_kernel m crosswise in
    let! _ := assign_last acc Kcross i in
    mm_kcross_loop crosswise acc (S i) ms'
  end.

(** multivariate_muygps.py:292-340 [fast_posterior_mean]. *)
Definition mm_fast_mean (ms : list mmodel) (crosswise coeffs : nd R) : result (nd R) :=
  let Kcross := zeros (shape coeffs) in
  let! _ := mm_kcross_loop crosswise Kcross 0 ms in
  mm_fast_posterior_mean Kcross coeffs.

(** multivariate_muygps.py:374-382: one iteration of optimize_scale; [_set] without [_make].
    A nan scale is reported as ValueError, as in MuyGPSModel.optimize_scale. *)
Definition mm_scale_one (ls : lsolver) (draws : nat -> list nat) (pairwise T : nd R) (i : nat)
  (m : mmodel) : result mmodel :=
  let! Kin := mm_kernel m pairwise in
  match shape T with
  | [b; n; _] =>
    let! c := column T i in
    let! c' := reshape c [b; n; 1%nat] in
    let! o := scale_opt ls (mm_gp m) draws Kin c' in
    match o with
    | Some v => let! g' := scale_set (mm_gp m) v in Ok (mkMm g' (mm_kernel m))
    | None => Err ValueError
    end
  | _ => Err ValueError
  end.

(** The loop: models updated before a failing iteration stay updated. *)
Fixpoint mm_scale_loop (ls : lsolver) (draws : nat -> nat -> list nat) (pairwise T : nd R) (i : nat)
  (ms : list mmodel) : list mmodel * result unit :=
  match ms with
  | [] => ([], Ok tt)
  | m :: ms' =>
    match mm_scale_one ls (draws i) pairwise T i m with
    | Err e => (m :: ms', Err e)
    | Ok m' => let (r, o) := mm_scale_loop ls draws pairwise T (S i) ms' in (m' :: r, o)
    end
  end.

(** multivariate_muygps.py:342-383 [optimize_scale]: the models afterwards, and the outcome. *)
Definition mm_optimize_scale (ls : lsolver) (draws : nat -> nat -> list nat) (ms : list mmodel)
  (pairwise T : nd R) : list mmodel * result unit :=
  match shape T with
  | [b; n; r] =>
    if (r =? List.length ms)%nat then mm_scale_loop ls draws pairwise T 0 ms
    else (ms, Err ValueError)
  | _ => (ms, Err ValueError)
  end.
