(** Property theorems C20 (scale part), C33, C34 and C56. *)
From Coq Require Import Lia Lra Sorted Permutation.
From Verif Require Import Base NdModel NdFacts RSum LinAlgModel LinAlgSpec LinAlgFacts
  GPModel NoiseModel MuyGPSModel GPSpec ScaleSpec ScaleProofs DownSampleProofs Gauss GPExamples.
Local Open Scope R_scope.

(** * C33: the analytic scale (one pass, the default iteration_count) *)
Theorem C33_analytic_scale_formula : forall ls, exact_solver ls -> forall g it kw Kin T b n,
  (it <= 1)%nat -> (0 < b)%nat -> (0 < n)%nat ->
  noise_fits (gp_noise g) b n -> shape Kin = [b; n; n] -> univariate_shape T b n ->
  (forall x, (x < b)%nat -> nonsingular n (noisy (gp_noise g) Kin x)) ->
  exists s, analytic_scale_opt ls g it Kin T kw = Ok s /\
    ml_scale b n (noisy (gp_noise g) Kin) (tgt T) s.
Proof. exact c33_formula. Qed.
Print Assumptions C33_analytic_scale_formula.

Theorem C33_maximizes_likelihood : forall ls, exact_solver ls -> forall g it kw Kin T b n s s' L L',
  (it <= 1)%nat -> (0 < b)%nat -> (0 < n)%nat ->
  noise_fits (gp_noise g) b n -> shape Kin = [b; n; n] -> univariate_shape T b n ->
  analytic_scale_opt ls g it Kin T kw = Ok s -> 0 < s -> 0 < s' ->
  batch_loglik b n (noisy (gp_noise g) Kin) (tgt T) s L ->
  batch_loglik b n (noisy (gp_noise g) Kin) (tgt T) s' L' ->
  L' <= L /\ (s' <> s -> L' < L).
Proof. exact c33_ml. Qed.
Print Assumptions C33_maximizes_likelihood.

Theorem C33_nonnegative : forall ls, exact_solver ls -> forall g it kw Kin T b n s,
  (it <= 1)%nat -> noise_fits (gp_noise g) b n -> shape Kin = [b; n; n] -> univariate_shape T b n ->
  (forall x, (x < b)%nat -> psd n (noisy (gp_noise g) Kin x)) ->
  analytic_scale_opt ls g it Kin T kw = Ok s -> 0 <= s.
Proof. exact c33_nonneg. Qed.
Print Assumptions C33_nonnegative.

Theorem C33_quadratic_in_targets : forall ls, exact_solver ls -> forall g it kw Kin T T' b n a s s',
  (it <= 1)%nat -> noise_fits (gp_noise g) b n -> shape Kin = [b; n; n] ->
  univariate_shape T b n -> univariate_shape T' b n ->
  (forall x i, (x < b)%nat -> (i < n)%nat -> tgt T' x i = a * tgt T x i) ->
  analytic_scale_opt ls g it Kin T kw = Ok s ->
  analytic_scale_opt ls g it Kin T' kw = Ok s' ->
  s' = a * a * s.
Proof. exact c33_quadratic. Qed.
Print Assumptions C33_quadratic_in_targets.

(** optimize_scale stores the value it computed and rebinds the posterior variance to it;
    a nonpositive value raises and no model is returned. *)
Theorem C33_optimize_scale : forall ls g it draws Kin T s,
  gp_kind g = AnalyticScale it ->
  analytic_scale_opt ls g it Kin T None = Ok s ->
  (0 < s -> exists g', optimize_scale ls g draws Kin T = Ok g' /\ gp_scale g' = s /\ gp_var_scale g' = s /\
     gp_noise g' = gp_noise g /\ gp_kind g' = gp_kind g /\ gp_Kout g' = gp_Kout g) /\
  (s <= 0 -> optimize_scale ls g draws Kin T = Err ValueError).
Proof. exact optimize_scale_spec. Qed.
Print Assumptions C33_optimize_scale.

(** Finding: with iteration_count = k + 2 the returned value lies within
    ((S+1)/2 - sqrt S) / 2^k above sqrt S, where S is the maximum-likelihood scale: the
    iteration converges to sqrt S, not to S. *)
Theorem C33_iterated_scale_refuted : forall ls, exact_solver ls -> forall g kw Kin T b n S k,
  noise_fits (gp_noise g) b n -> shape Kin = [b; n; n] -> univariate_shape T b n -> 0 < S ->
  analytic_scale_opt ls g 1 Kin T kw = Ok S ->
  exists v, analytic_scale_opt ls g (k + 2) Kin T kw = Ok v /\
    sqrt S <= v /\ v - sqrt S <= ((S + 1) / 2 - sqrt S) / 2 ^ k.
Proof. exact c33_iterated. Qed.
Print Assumptions C33_iterated_scale_refuted.

Theorem C33_two_iterations_refuted : forall ls, exact_solver ls -> forall g kw Kin T b n S,
  noise_fits (gp_noise g) b n -> shape Kin = [b; n; n] -> univariate_shape T b n -> 0 < S ->
  analytic_scale_opt ls g 1 Kin T kw = Ok S ->
  analytic_scale_opt ls g 2 Kin T kw = Ok ((S + 1) / 2).
Proof. exact c33_two_iterations. Qed.
Print Assumptions C33_two_iterations_refuted.

(** Finding: several responses are rejected. *)
Theorem C33_multi_response_refuted : forall ls g it kw Kin T b n r,
  (0 < b)%nat -> (0 < n)%nat -> r <> 1%nat ->
  noise_fits (gp_noise g) b n -> shape Kin = [b; n; n] -> shape T = [b; n; r] ->
  analytic_scale_opt ls g it Kin T kw = Err ValueError.
Proof. exact c33_multi_response. Qed.
Print Assumptions C33_multi_response_refuted.

Example C33_sat : exists s, analytic_scale_opt gauss (exgp (HomoscedasticNoise 1)) 1 exKin exT2 None = Ok s /\ 0 < s /\
  exists L, batch_loglik 2 2 (noisy (HomoscedasticNoise 1) exKin) (tgt exT2) s L.
Proof.
  assert (Hpd : forall x, (x < 2)%nat -> pd 2 (noisy (HomoscedasticNoise 1) exKin x)).
  { intros x Hx. apply (exKin_noisy_pd (HomoscedasticNoise 1)); cbn; auto; intros; lra. }
  destruct (c33_formula gauss gauss_exact (exgp (HomoscedasticNoise 1)) 1 None exKin exT2 2 2) as (s & Es & Hs);
    try reflexivity; try exact I; try lia; try (left; reflexivity).
  { intros x Hx. apply pd_nonsingular. apply Hpd; auto. }
  assert (Hp : 0 < s).
  { apply (ml_scale_pos 2 2 (noisy (HomoscedasticNoise 1) exKin) (tgt exT2) s Hpd); auto. exists O, O. repeat split; try lia. cbn. lra. }
  exists s. split; auto. split; auto. apply (loglik_exists 2 2 _ _ s); auto.
Qed.

(** * C34: during training the scale should use the candidate noise -- refuted: whatever noise
    candidate is passed, the optimiser perturbs with the stored value. *)
Theorem C34_scale_ignores_candidate_noise_refuted : forall ls, exact_solver ls ->
  exists g Kin T cand s s_cand,
    analytic_scale_opt ls g 1 Kin T (Some cand) = Ok s /\
    ml_scale 1 1 (fun x => plus_diag (rowmat Kin x) (noise_at (gp_noise g) (Some cand) x)) (tgt T) s_cand /\
    (forall x, (x < 1)%nat -> nonsingular 1 (plus_diag (rowmat Kin x) (noise_at (gp_noise g) (Some cand) x))) /\
    s <> s_cand.
Proof. exact c34_refuted. Qed.
Print Assumptions C34_scale_ignores_candidate_noise_refuted.

(** * C20: the analytic scale does not depend on the order of the neighbours *)
Theorem C20_scale_permutation : forall ls, exact_solver ls -> forall g g' it kw Kin Kin' T T' b n p s s',
  (it <= 1)%nat -> noise_fits (gp_noise g) b n -> noise_fits (gp_noise g') b n ->
  shape Kin = [b; n; n] -> univariate_shape T b n -> shape Kin' = [b; n; n] -> univariate_shape T' b n ->
  (forall x, (x < b)%nat -> perm_on n (p x)) ->
  (forall x i j, (x < b)%nat -> (i < n)%nat -> (j < n)%nat -> at_ Kin' [x; i; j] = at_ Kin [x; p x i; p x j]) ->
  (forall x i, (x < b)%nat -> (i < n)%nat -> noise_at (gp_noise g') None x i = noise_at (gp_noise g) None x (p x i)) ->
  (forall x i, (x < b)%nat -> (i < n)%nat -> tgt T' x i = tgt T x (p x i)) ->
  analytic_scale_opt ls g it Kin T kw = Ok s ->
  analytic_scale_opt ls g' it Kin' T' kw = Ok s' ->
  s = s'.
Proof. exact c20_scale_perm. Qed.
Print Assumptions C20_scale_permutation.

(** * C56: the down-sampled scale *)
Theorem C56_downsample_median : forall ls, exact_solver ls -> forall g down it draws Kin T b n r,
  noise_fits (gp_noise g) b n -> shape Kin = [b; n; n] -> resp_shape T b n r ->
  (0 < b)%nat -> (0 < down < n)%nat -> (0 < it)%nat ->
  (forall x, (x < b)%nat -> pd n (noisy (gp_noise g) Kin x)) ->
  (forall k, (k < it)%nat -> NoDup (draws k) /\ List.length (draws k) = down /\
     forall a, In a (draws k) -> (a < n)%nat) ->
  exists scales m, downsample_scale_opt ls g down it draws Kin T = Ok (Some (m / (INR down * INR b))) /\
    is_median scales m /\
    Forall2 (fun k q => exists idx, Permutation (draws k) idx /\ Sorted le idx /\
       sub_quad b r (noisy (gp_noise g) Kin) (resp T) idx q) (seq 0 it) scales.
Proof. exact c56_downsample. Qed.
Print Assumptions C56_downsample_median.

Theorem C56_downsample_too_many_rejected : forall ls g down it draws Kin T b n n',
  shape Kin = [b; n; n'] -> (n <= down)%nat ->
  downsample_scale_opt ls g down it draws Kin T = Err ValueError.
Proof. exact c56_reject. Qed.
Print Assumptions C56_downsample_too_many_rejected.

(** Finding: "positive" counts are only required to be nonnegative; zero is accepted and then
    the scale is nan. *)
Theorem C56_zero_count_refuted :
  check_positive_integer 0 = Ok 0%Z /\
  (forall c, (c < 0)%Z -> check_positive_integer c = Err ValueError) /\
  forall ls g down draws Kin T b n K,
    shape Kin = [b; n; n] -> (down < n)%nat -> perturb (gp_noise g) Kin None = Ok K ->
    downsample_scale_opt ls g down 0 draws Kin T = Ok None.
Proof. exact c56_zero. Qed.
Print Assumptions C56_zero_count_refuted.

Example C56_sat : (forall x, (x < 2)%nat -> pd 2 (noisy (HomoscedasticNoise 1) exKin x)) /\
  resp_shape exT3 2 2 3 /\
  (forall k, (k < 5)%nat -> NoDup [1%nat] /\ List.length [1%nat] = 1%nat /\ forall a, In a [1%nat] -> (a < 2)%nat).
Proof.
  split.
  - intros x Hx. apply (exKin_noisy_pd (HomoscedasticNoise 1)); cbn; auto; intros; lra.
  - split; [left; reflexivity|]. intros k Hk. split; [repeat constructor; cbn; auto|].
    split; auto. cbn. intros a [<-|[]]. lia.
Qed.
