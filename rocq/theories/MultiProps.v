(** Property theorems C44: a multivariate model acts response by response. *)
From Coq Require Import Lia Lra.
From Verif Require Import Base NdModel NdFacts RSum LinAlgModel LinAlgSpec LinAlgFacts GPModel NoiseModel
  MuyGPSModel GPSpec GPTheorems Gauss GPExamples MultiModel MultiSpec MultiProofs MultiLemmas.
Local Open Scope R_scope.

(** A successful posterior mean: every column that has a model is that model's own posterior
    mean on that target column; columns without a model are zero. *)
Theorem C44_posterior_mean : forall ls ms pairwise crosswise T b n r out,
  shape T = [b; n; r] ->
  mm_posterior_mean ls ms pairwise crosswise T = Ok out ->
  shape out = [b; r] /\ (List.length ms <= r)%nat /\
  (forall i m, nth_error ms i = Some m -> exists t, univariate_mean ls m pairwise crosswise T i = Ok t /\
     nprod (shape t) = b /\ forall x, (x < b)%nat -> at_ out [x; i] = entry t x) /\
  (forall x i, (x < b)%nat -> (List.length ms <= i)%nat -> at_ out [x; i] = 0).
Proof. exact mm_mean_ok. Qed.
Print Assumptions C44_posterior_mean.

(** It succeeds when each univariate call does. *)
Theorem C44_posterior_mean_defined : forall ls ms pairwise crosswise T b n r,
  shape T = [b; n; r] -> (List.length ms <= r)%nat ->
  (forall i m, nth_error ms i = Some m ->
     exists t, univariate_mean ls m pairwise crosswise T i = Ok t /\ nprod (shape t) = b) ->
  exists out, mm_posterior_mean ls ms pairwise crosswise T = Ok out.
Proof. exact mm_mean_total. Qed.
Print Assumptions C44_posterior_mean_defined.

(** It raises what the first failing univariate call raises (ValueError when that call returns
    something that is not one number per batch element). *)
Theorem C44_posterior_mean_raises : forall ls ms pairwise crosswise T b n r e,
  shape T = [b; n; r] -> (List.length ms <= r)%nat ->
  mm_posterior_mean ls ms pairwise crosswise T = Err e ->
  exists i m, nth_error ms i = Some m /\
    (forall j m', (j < i)%nat -> nth_error ms j = Some m' -> is_ok (univariate_mean ls m' pairwise crosswise T j)) /\
    (univariate_mean ls m pairwise crosswise T i = Err e \/
     exists t, univariate_mean ls m pairwise crosswise T i = Ok t /\ nprod (shape t) <> b /\ e = ValueError).
Proof. exact mm_mean_err. Qed.
Print Assumptions C44_posterior_mean_raises.

(** With an exact solver, entry (x, i) is the kriging prediction of model i's noisy kernel. *)
Theorem C44_posterior_mean_kriging : forall ls ms pairwise crosswise T b n r,
  exact_solver ls -> shape T = [b; n; r] -> n <> 1%nat -> (List.length ms <= r)%nat ->
  (forall i m, nth_error ms i = Some m -> noise_fits (gp_noise (mm_gp m)) b n /\
     exists Kin Kcross, mm_kernel m pairwise = Ok Kin /\ mm_kernel m crosswise = Ok Kcross /\
       shape Kin = [b; n; n] /\ shape Kcross = [b; n] /\
       forall x, (x < b)%nat -> nonsingular n (noisy (gp_noise (mm_gp m)) Kin x)) ->
  exists out, mm_posterior_mean ls ms pairwise crosswise T = Ok out /\ shape out = [b; r] /\
    forall i m Kin Kcross x, nth_error ms i = Some m ->
      mm_kernel m pairwise = Ok Kin -> mm_kernel m crosswise = Ok Kcross -> (x < b)%nat ->
      kriging n (noisy (gp_noise (mm_gp m)) Kin x) (rowvec Kcross x)
              (fun j => at_ T [x; j; i]) (at_ out [x; i]).
Proof. exact mm_mean_kriging. Qed.
Print Assumptions C44_posterior_mean_kriging.

Example C44_mean_sat :
  let ms := [ex_mm (HomoscedasticNoise 1) 1; ex_mm (HomoscedasticNoise 1) 2] in
  shape exT3 = [2; 2; 3]%nat /\ (2 <> 1)%nat /\ (List.length ms <= 3)%nat /\
  exists out, mm_posterior_mean gauss ms ex_pd ex_cd exT3 = Ok out.
Proof.
  cbn zeta. split; [reflexivity|]. split; [lia|]. split; [cbn; lia|].
  destruct (C44_posterior_mean_kriging gauss [ex_mm (HomoscedasticNoise 1) 1; ex_mm (HomoscedasticNoise 1) 2]
     ex_pd ex_cd exT3 2 2 3 gauss_exact eq_refl) as (out & E & _); [lia|cbn; lia| |eauto].
  intros i m Hi. assert (Hm : m = ex_mm (HomoscedasticNoise 1) 1 \/ m = ex_mm (HomoscedasticNoise 1) 2).
  { apply nth_error_In in Hi. cbn in Hi. intuition. }
  destruct Hm as [-> | ->]; (split; [exact I|]; exists exKin, exKcross; repeat split; intros; apply ex_noisy_ns).
Qed.

(** The posterior variance multiplies each univariate (already scaled) variance by the scale
    once more. *)
Theorem C44_posterior_variance : forall ls ms pairwise crosswise b sh out,
  shape crosswise = b :: sh ->
  mm_posterior_variance ls ms pairwise crosswise = Ok out ->
  shape out = [b; List.length ms] /\
  (forall i m, nth_error ms i = Some m ->
     exists v, univariate_variance ls (mm_gp m) m pairwise crosswise = Ok v /\ nprod (shape v) = b /\
       forall x, (x < b)%nat -> at_ out [x; i] = gp_scale (mm_gp m) * entry v x).
Proof. exact mm_var_ok. Qed.
Print Assumptions C44_posterior_variance.

(** Hence it equals the univariate one for models whose scale is one ... *)
Theorem C44_posterior_variance_unit_scale_partial : forall ls ms pairwise crosswise b sh out,
  shape crosswise = b :: sh -> (forall m, In m ms -> gp_scale (mm_gp m) = 1) ->
  mm_posterior_variance ls ms pairwise crosswise = Ok out ->
  forall i m, nth_error ms i = Some m ->
     exists v, univariate_variance ls (mm_gp m) m pairwise crosswise = Ok v /\
       forall x, (x < b)%nat -> at_ out [x; i] = entry v x.
Proof.
  intros ls ms pd cd b sh out HC H1 E i m Hm.
  destruct (mm_var_ok ls ms pd cd b sh out HC E) as (_ & H). destruct (H i m Hm) as (v & Ev & _ & Hv).
  exists v. split; [auto|]. intros x Hx. rewrite Hv, (H1 m) by (auto; eapply nth_error_In; eauto). ring.
Qed.
Print Assumptions C44_posterior_variance_unit_scale_partial.

(** ... and is wrong for a model built with scale 2 (18 instead of 9). *)
Theorem C44_posterior_variance_refuted : exists ls, exact_solver ls /\ exists m out v,
  mm_posterior_variance ls [m] ex_pd ex_cd = Ok out /\
  univariate_variance ls (mm_gp m) m ex_pd ex_cd = Ok v /\
  gp_scale (mm_gp m) = 2 /\ at_ out [O; O] = 18 /\ entry v 0 = 9.
Proof. exact mm_variance_refuted. Qed.
Print Assumptions C44_posterior_variance_refuted.

(** Scale optimization stores, per response, the value the univariate model computes from its
    column; a response count that differs from the model count is rejected beforehand. *)
Theorem C44_optimize_scale : forall ls draws ms pairwise T b n r ms',
  exact_solver ls -> shape T = [b; n; r] -> (forall i k a, In a (draws i k) -> (a < n)%nat) ->
  mm_optimize_scale ls draws ms pairwise T = (ms', Ok tt) ->
  r = List.length ms /\ List.length ms' = List.length ms /\
  forall i m, nth_error ms i = Some m ->
    exists m' g', nth_error ms' i = Some m' /\ univariate_scale ls (draws i) m pairwise T i = Ok g' /\
      mm_kernel m' = mm_kernel m /\ make (mm_gp m') = g' /\ gp_var_scale (mm_gp m') = gp_var_scale (mm_gp m).
Proof. exact mm_scale_ok. Qed.
Print Assumptions C44_optimize_scale.

Theorem C44_optimize_scale_raises : forall ls draws ms pairwise T b n r ms' e,
  exact_solver ls -> shape T = [b; n; r] -> (forall i k a, In a (draws i k) -> (a < n)%nat) ->
  r = List.length ms ->
  mm_optimize_scale ls draws ms pairwise T = (ms', Err e) ->
  exists i m, nth_error ms i = Some m /\ univariate_scale ls (draws i) m pairwise T i = Err e /\
    (forall j, (i <= j)%nat -> nth_error ms' j = nth_error ms j) /\
    (forall j m0, (j < i)%nat -> nth_error ms j = Some m0 -> exists m' g', nth_error ms' j = Some m' /\
         univariate_scale ls (draws j) m0 pairwise T j = Ok g' /\ make (mm_gp m') = g').
Proof. exact mm_scale_err. Qed.
Print Assumptions C44_optimize_scale_raises.

Theorem C44_optimize_scale_count : forall ls draws ms pairwise T b n r,
  shape T = [b; n; r] -> r <> List.length ms ->
  mm_optimize_scale ls draws ms pairwise T = (ms, Err ValueError).
Proof.
  intros ls draws ms pd T b n r HT Hr. unfold mm_optimize_scale. rewrite HT.
  destruct (Nat.eqb_spec r (List.length ms)); [contradiction|reflexivity].
Qed.
Print Assumptions C44_optimize_scale_count.

Example C44_scale_sat : exists ms',
  mm_optimize_scale gauss (fun _ _ => []) (repeat (ex_mm (HomoscedasticNoise 1) 1) 3) ex_pd (ex_const 3 4) = (ms', Ok tt).
Proof. apply ex_scale_multi. intros i k a []. Qed.

(** The variance after optimizing models built with unit scale is the univariate one: the
    second multiplication makes up for the variance closure that was not rebuilt. *)
Theorem C44_variance_after_optimize : forall ls draws ms pairwise crosswise T b n r sh ms' out,
  exact_solver ls -> shape T = [b; n; r] -> shape crosswise = b :: sh ->
  (forall i k a, In a (draws i k) -> (a < n)%nat) ->
  (forall m, In m ms -> gp_var_scale (mm_gp m) = 1) ->
  mm_optimize_scale ls draws ms pairwise T = (ms', Ok tt) ->
  mm_posterior_variance ls ms' pairwise crosswise = Ok out ->
  forall i m, nth_error ms i = Some m -> exists g' v,
    univariate_scale ls (draws i) m pairwise T i = Ok g' /\
    univariate_variance ls g' m pairwise crosswise = Ok v /\
    forall x, (x < b)%nat -> at_ out [x; i] = entry v x.
Proof. exact mm_var_after_optimize. Qed.
Print Assumptions C44_variance_after_optimize.

(** The optimized submodel itself still predicts with the old scale (4.5 instead of 18). *)
Theorem C44_submodel_variance_refuted : exists ls, exact_solver ls /\ exists draws m m' g' v v',
  mm_optimize_scale ls draws [m] ex_pd (ex_const 1 4) = ([m'], Ok tt) /\
  univariate_scale ls (draws O) m ex_pd (ex_const 1 4) 0 = Ok g' /\
  gp_scale (mm_gp m') = 4 /\ gp_scale g' = 4 /\
  univariate_variance ls (mm_gp m') m' ex_pd ex_cd = Ok v' /\
  univariate_variance ls g' m ex_pd ex_cd = Ok v /\ entry v' 0 = 9 / 2 /\ entry v 0 = 18.
Proof. exact mm_stale_refuted. Qed.
Print Assumptions C44_submodel_variance_refuted.

(** Fast prediction discards every computed column: all coefficients and all predictions are 0. *)
Theorem C44_fast_coefficients_always_zero : forall ls ms pairwise T out,
  mm_fast_coefficients ls ms pairwise T = Ok out ->
  shape out = shape T /\ forall idx, at_ out idx = 0.
Proof. exact mm_fast_coeffs_zero. Qed.
Print Assumptions C44_fast_coefficients_always_zero.

Theorem C44_fast_mean_always_zero : forall ms crosswise coeffs out,
  mm_fast_mean ms crosswise coeffs = Ok out -> forall idx, at_ out idx = 0.
Proof. exact mm_fast_mean_zero. Qed.
Print Assumptions C44_fast_mean_always_zero.

(** A model without a coefficient column is refused. *)
Theorem C44_fast_mean_too_many : forall ms crosswise coeffs b n r,
  shape coeffs = [b; n; r] -> (r < List.length ms)%nat ->
  (forall m, In m ms -> exists K, mm_kernel m crosswise = Ok K /\ shape K = [b; n]) ->
  mm_fast_mean ms crosswise coeffs = Err IndexError.
Proof. exact mm_fast_mean_too_many. Qed.
Print Assumptions C44_fast_mean_too_many.

Theorem C44_fast_coefficients_too_many : forall ls ms pairwise T b n r,
  shape T = [b; n; r] -> (r < List.length ms)%nat ->
  (forall m i, In m ms -> (i < r)%nat -> exists Kin c y, mm_kernel m pairwise = Ok Kin /\ column T i = Ok c /\
     (let! pK := perturb (gp_noise (mm_gp m)) Kin None in gp_fast_coefficients ls (mm_gp m) pK c) = Ok y /\ shape y = [b; n]) ->
  (forall m, In m ms -> exists Kin pK, mm_kernel m pairwise = Ok Kin /\ perturb (gp_noise (mm_gp m)) Kin None = Ok pK) ->
  mm_fast_coefficients ls ms pairwise T = Err IndexError.
Proof. exact mm_fast_coeffs_too_many. Qed.
Print Assumptions C44_fast_coefficients_too_many.

Theorem C44_fast_refuted : exists ls, exact_solver ls /\ exists m C c F,
  mm_fast_coefficients ls [m] ex_pd (ex_const 1 4) = Ok C /\
  univariate_coefficients ls m ex_pd (ex_const 1 4) 0 = Ok c /\
  at_ C [0; 0; 0]%nat = 0 /\ at_ c [0; 0]%nat = 4 / 3 /\
  mm_fast_mean [m] ex_cd (ex_const 1 (4 / 3)) = Ok F /\ at_ F [0; 0]%nat = 0 /\
  (exists f, gp_fast_posterior_mean exKcross c = Ok f /\ mm_kernel m ex_cd = Ok exKcross /\ at_ f [0%nat] = 8 / 3).
Proof. exact mm_fast_refuted. Qed.
Print Assumptions C44_fast_refuted.
