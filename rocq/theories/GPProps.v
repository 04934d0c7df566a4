(** Property theorems C10-C12, C14 (prediction part), C17-C24 and C53. *)
From Coq Require Import Lia Lra.
From Verif Require Import Base NdModel NdFacts RSum LinAlgModel LinAlgSpec LinAlgFacts
  GPModel NoiseModel NoiseProofs MuyGPSModel GPSpec GPTheorems ScaleSpec ScaleProofs
  FastProofs WellPosedProofs Gauss GPExamples.
Local Open Scope R_scope.

(** The solver hypothesis used throughout is met by Gaussian elimination. *)
Theorem exact_solver_exists : exists ls, exact_solver ls.
Proof. exact (ex_intro _ gauss gauss_exact). Qed.
Print Assumptions exact_solver_exists.

(** * C10: homoscedastic noise *)
Theorem C10_homoscedastic_univariate : forall Kin v b n, shape Kin = [b; n; n]%nat ->
  exists K, homoscedastic_perturb Kin v = Ok K /\ shape K = [b; n; n]%nat /\
    forall x i j, (x < b)%nat -> (i < n)%nat -> (j < n)%nat ->
      at_ K [x; i; j] = at_ Kin [x; i; j] + (if Nat.eqb i j then v else 0).
Proof. exact homoscedastic3. Qed.
Print Assumptions C10_homoscedastic_univariate.

Theorem C10_homoscedastic_multivariate : forall Kin v b p n, shape Kin = [b; p; n; p; n]%nat ->
  exists K, homoscedastic_perturb Kin v = Ok K /\ shape K = [b; p; n; p; n]%nat /\
    forall x i j k l, (x < b)%nat -> (i < p)%nat -> (j < n)%nat -> (k < p)%nat -> (l < n)%nat ->
      at_ K [x; i; j; k; l] = at_ Kin [x; i; j; k; l] + (if Nat.eqb i k && Nat.eqb j l then v else 0).
Proof. exact homoscedastic5. Qed.
Print Assumptions C10_homoscedastic_multivariate.

Theorem C10_other_axes_rejected : forall Kin v,
  List.length (shape Kin) <> 3%nat -> List.length (shape Kin) <> 5%nat ->
  homoscedastic_perturb Kin v = Err ValueError.
Proof. exact homoscedastic_bad_ndim. Qed.
Print Assumptions C10_other_axes_rejected.

Example C10_sat : shape exKin = [2; 2; 2]%nat /\
  shape (mkNd [2; 3; 4; 3; 4]%nat (fun _ => 1)) = [2; 3; 4; 3; 4]%nat.
Proof. auto. Qed.

(** * C11: heteroscedastic noise (construction and aliasing are in HyperProps / HeapProps) *)
Theorem C11_heteroscedastic : forall Kin noise b n,
  shape Kin = [b; n; n]%nat -> shape noise = [b; n]%nat -> (0 < b)%nat ->
  exists K, heteroscedastic_perturb Kin noise = Ok K /\ shape K = [b; n; n]%nat /\
    forall x i j, (x < b)%nat -> (i < n)%nat -> (j < n)%nat ->
      at_ K [x; i; j] = at_ Kin [x; i; j] + (if Nat.eqb i j then at_ noise [x; i] else 0).
Proof. exact heteroscedastic_all. Qed.
Print Assumptions C11_heteroscedastic.

(** Finding: an empty batch is not accepted (np.repeat(range(0), nn) is an array of floats), unlike with homoscedastic noise. *)
Theorem C11_empty_batch_refuted : forall Kin noise n, shape Kin = [0; n; n]%nat ->
  heteroscedastic_perturb Kin noise = Err IndexError /\ exists K, homoscedastic_perturb Kin 1 = Ok K.
Proof.
  intros Kin noise n H. split; [exact (heteroscedastic_empty Kin noise n n H)|].
  destruct (homoscedastic3 Kin 1 0 n H) as (K & E & _). exists K. exact E.
Qed.
Print Assumptions C11_empty_batch_refuted.

Example C11_sat : shape exKin = [2; 2; 2]%nat /\ shape exNoise = [2; 2]%nat /\ (0 < 2)%nat.
Proof. cbn. auto. Qed.

(** * C12: positive noise makes the solve well posed *)
Theorem C12_univariate_prediction_never_singular : forall ls, exact_solver ls ->
  forall g kw Kin Kcross T b n ex,
  noise_fits (gp_noise g) b n -> shape Kin = [b; n; n] -> shape Kcross = [b; n] -> shape T = b :: n :: ex ->
  no_coincidence ex [n] -> shape (gp_Kout g) = [] ->
  (forall x i, (x < b)%nat -> (i < n)%nat -> 0 < noise_at (gp_noise g) kw x i) ->
  (forall x, (x < b)%nat -> psd n (rowmat Kin x)) ->
  (exists t, gp_posterior_mean ls g Kin Kcross T kw = Ok t) /\
  (exists v, gp_opt_variance ls g Kin Kcross kw = Ok v) /\
  (forall x, (x < b)%nat -> symmetric n (rowmat Kin x) ->
     symmetric n (plus_diag (rowmat Kin x) (noise_at (gp_noise g) kw x))).
Proof. exact c12_predict. Qed.
Print Assumptions C12_univariate_prediction_never_singular.

Theorem C12_multivariate_prediction_never_singular : forall ls, exact_solver ls ->
  forall g Kin Kcross T b p n outs ex v,
  (gp_noise g = HomoscedasticNoise v \/ (gp_noise g = ShearNoise33 v /\ p = 3%nat)) -> 0 < v ->
  (0 < n)%nat -> shape Kin = [b; p; n; p; n] -> shape Kcross = [b; p; n] ++ outs -> shape T = [b; p; n] ++ ex ->
  no_coincidence ex [p; n] -> shape (gp_Kout g) = outs ++ outs ->
  (forall x, (x < b)%nat -> psd (p * n) (flat5 Kin n x)) ->
  (exists t, gp_posterior_mean ls g Kin Kcross T None = Ok t /\ shape t = b :: outs ++ ex) /\
  (exists w, gp_opt_variance ls g Kin Kcross None = Ok w /\ shape w = b :: outs ++ outs).
Proof. exact c12_multivariate. Qed.
Print Assumptions C12_multivariate_prediction_never_singular.

Example C12_sat :
  noise_fits (HeteroscedasticNoise exNoise) 2 2 /\
  (forall x i, (x < 2)%nat -> (i < 2)%nat -> 0 < noise_at (HeteroscedasticNoise exNoise) None x i) /\
  (forall x, (x < 2)%nat -> psd 2 (rowmat exKin x)) /\ no_coincidence [3%nat] [2%nat].
Proof.
  split; [cbn; auto|]. split.
  - intros x i _ _. cbn. pose proof (pos_INR x). pose proof (pos_INR i). lra.
  - split; [intros; apply exKin_psd|apply no_coincidence_1; lia].
Qed.

(** * C14: null noise predicts exactly as zero noise *)
Theorem C14_null_noise_mean : forall ls, exact_solver ls -> forall Kin Kcross T b n ex t t' g g',
  gp_noise g = NullNoise -> gp_noise g' = HomoscedasticNoise 0 ->
  shape Kin = [b; n; n] -> shape Kcross = [b; n] -> shape T = b :: n :: ex -> no_coincidence ex [n] ->
  gp_posterior_mean ls g Kin Kcross T None = Ok t ->
  gp_posterior_mean ls g' Kin Kcross T None = Ok t' ->
  nd_eq t t'.
Proof. exact c14_mean. Qed.
Print Assumptions C14_null_noise_mean.

Theorem C14_null_noise_mean_defined : forall ls, exact_solver ls -> forall Kin Kcross T b n ex g g' t',
  gp_noise g = NullNoise -> gp_noise g' = HomoscedasticNoise 0 ->
  shape Kin = [b; n; n] -> shape Kcross = [b; n] -> shape T = b :: n :: ex -> no_coincidence ex [n] ->
  gp_posterior_mean ls g' Kin Kcross T None = Ok t' ->
  exists t, gp_posterior_mean ls g Kin Kcross T None = Ok t.
Proof. exact c14_mean_total. Qed.
Print Assumptions C14_null_noise_mean_defined.

Theorem C14_null_noise_variance : forall ls, exact_solver ls -> forall Kin Kcross b n t t' g g',
  gp_noise g = NullNoise -> gp_noise g' = HomoscedasticNoise 0 -> gp_Kout g = gp_Kout g' ->
  gp_var_scale g = gp_var_scale g' ->
  shape Kin = [b; n; n] -> shape Kcross = [b; n] -> shape (gp_Kout g) = [] ->
  gp_posterior_variance ls g Kin Kcross = Ok t ->
  gp_posterior_variance ls g' Kin Kcross = Ok t' ->
  nd_eq t t'.
Proof. exact c14_var. Qed.
Print Assumptions C14_null_noise_variance.

Example C14_sat : exists t t',
  gp_posterior_mean gauss (exgp NullNoise) exKin exKcross exT3 None = Ok t /\
  gp_posterior_mean gauss (exgp (HomoscedasticNoise 0)) exKin exKcross exT3 None = Ok t'.
Proof.
  destruct (gp_mean_total gauss gauss_exact NullNoise None exKin exKcross exT3 2 2 [3%nat]) as (t & Et & _);
    try reflexivity; try exact I; try (apply no_coincidence_1; lia).
  { intros x Hx. apply pd_nonsingular. apply (exKin_noisy_pd NullNoise); cbn; auto; intros; lra. }
  destruct (gp_mean_total gauss gauss_exact (HomoscedasticNoise 0) None exKin exKcross exT3 2 2 [3%nat]) as (t' & Et' & _);
    try reflexivity; try exact I; try (apply no_coincidence_1; lia).
  { intros x Hx. apply pd_nonsingular. apply (exKin_noisy_pd (HomoscedasticNoise 0)); cbn; auto; intros; lra. }
  exists t, t'. auto.
Qed.

(** * C17: the posterior mean is the kriging predictor *)
Theorem C17_posterior_mean_responses : forall ls, exact_solver ls -> forall g kw Kin Kcross T b n r,
  noise_fits (gp_noise g) b n -> shape Kin = [b; n; n] -> shape Kcross = [b; n] -> shape T = [b; n; r] ->
  r <> n ->
  (forall x, (x < b)%nat -> nonsingular n (plus_diag (rowmat Kin x) (noise_at (gp_noise g) kw x))) ->
  exists t, gp_posterior_mean ls g Kin Kcross T kw = Ok t /\ shape t = [b; r] /\
    forall x s, (x < b)%nat -> (s < r)%nat ->
      kriging n (plus_diag (rowmat Kin x) (noise_at (gp_noise g) kw x)) (rowvec Kcross x)
              (fun j => at_ T [x; j; s]) (at_ t [x; s]).
Proof. exact c17_mean3. Qed.
Print Assumptions C17_posterior_mean_responses.

Theorem C17_posterior_mean_flat : forall ls, exact_solver ls -> forall g kw Kin Kcross T b n,
  noise_fits (gp_noise g) b n -> shape Kin = [b; n; n] -> shape Kcross = [b; n] -> shape T = [b; n] ->
  (forall x, (x < b)%nat -> nonsingular n (plus_diag (rowmat Kin x) (noise_at (gp_noise g) kw x))) ->
  exists t, gp_posterior_mean ls g Kin Kcross T kw = Ok t /\ shape t = [b] /\
    forall x, (x < b)%nat ->
      kriging n (plus_diag (rowmat Kin x) (noise_at (gp_noise g) kw x)) (rowvec Kcross x)
              (rowvec T x) (at_ t [x]).
Proof. exact c17_mean2. Qed.
Print Assumptions C17_posterior_mean_flat.

Example C17_sat : noise_fits (gp_noise (exgp (HomoscedasticNoise 1))) 2 2 /\ (3 <> 2)%nat /\
  (forall x, (x < 2)%nat -> nonsingular 2 (plus_diag (rowmat exKin x) (noise_at (HomoscedasticNoise 1) None x))).
Proof.
  split; [exact I|]. split; [lia|]. intros x Hx. apply pd_nonsingular.
  apply (exKin_noisy_pd (HomoscedasticNoise 1)); cbn; auto; intros; lra.
Qed.

(** * C18: every response count -- refuted when response_count = nn_count *)
Theorem C18_response_count_refuted : forall ls Kin Kcross T b n,
  shape Kin = [b; n; n] -> shape Kcross = [b; n] -> shape T = [b; n; n] -> (b * n * n <> 1)%nat ->
  posterior_mean ls Kin Kcross T = Err ValueError.
Proof. exact c18_refuted. Qed.
Print Assumptions C18_response_count_refuted.

Example C18_sat : exists Kin Kcross T b n, shape (A:=R) Kin = [b; n; n] /\ shape (A:=R) Kcross = [b; n] /\
  shape (A:=R) T = [b; n; n] /\ (b * n * n <> 1)%nat.
Proof. exists exKin, exKcross, exKin, 2%nat, 2%nat. cbn. auto. Qed.

(** * C19: linearity and locality *)
Theorem C19_linear : forall ls, exact_solver ls -> forall g kw Kin Kcross T1 T2 T b n ex t1 t2 a c,
  noise_fits (gp_noise g) b n -> shape Kin = [b; n; n] -> shape Kcross = [b; n] ->
  shape T1 = b :: n :: ex -> shape T2 = b :: n :: ex -> shape T = b :: n :: ex ->
  no_coincidence ex [n] ->
  (forall idx, inb (b :: n :: ex) idx -> at_ T idx = a * at_ T1 idx + c * at_ T2 idx) ->
  gp_posterior_mean ls g Kin Kcross T1 kw = Ok t1 ->
  gp_posterior_mean ls g Kin Kcross T2 kw = Ok t2 ->
  exists t, gp_posterior_mean ls g Kin Kcross T kw = Ok t /\ shape t = b :: ex /\
    forall idx, inb (b :: ex) idx -> at_ t idx = a * at_ t1 idx + c * at_ t2 idx.
Proof. exact c19_linear. Qed.
Print Assumptions C19_linear.

Theorem C19_local : forall ls, exact_solver ls ->
  forall m m' kw kw' Kin Kcross T t Kin' Kcross' T' t' b b' n ex x x',
  noise_fits m b n -> noise_fits m' b' n ->
  shape Kin = [b; n; n] -> shape Kcross = [b; n] -> shape T = b :: n :: ex ->
  shape Kin' = [b'; n; n] -> shape Kcross' = [b'; n] -> shape T' = b' :: n :: ex ->
  no_coincidence ex [n] -> (x < b)%nat -> (x' < b')%nat ->
  (forall i j, (i < n)%nat -> (j < n)%nat -> at_ Kin [x; i; j] = at_ Kin' [x'; i; j]) ->
  (forall i, (i < n)%nat -> noise_at m kw x i = noise_at m' kw' x' i) ->
  (forall i, (i < n)%nat -> at_ Kcross [x; i] = at_ Kcross' [x'; i]) ->
  (forall i e, (i < n)%nat -> inb ex e -> at_ T (x :: i :: e) = at_ T' (x' :: i :: e)) ->
  (let! K := perturb m Kin kw in posterior_mean ls K Kcross T) = Ok t ->
  (let! K := perturb m' Kin' kw' in posterior_mean ls K Kcross' T') = Ok t' ->
  forall e, inb ex e -> at_ t (x :: e) = at_ t' (x' :: e).
Proof. exact c19_local. Qed.
Print Assumptions C19_local.

Example C19_sat : exists t, gp_posterior_mean gauss (exgp (HomoscedasticNoise 1)) exKin exKcross exT3 None = Ok t.
Proof.
  destruct (C17_posterior_mean_responses gauss gauss_exact (exgp (HomoscedasticNoise 1)) None exKin exKcross exT3 2 2 3)
    as (t & Et & _); try reflexivity; try exact I; try lia; [|eauto].
  intros x Hx. apply pd_nonsingular.
  apply (exKin_noisy_pd (HomoscedasticNoise 1)); cbn; auto; intros; lra.
Qed.

(** * C20: neighbour order is irrelevant *)
Theorem C20_mean_permutation : forall ls, exact_solver ls ->
  forall m m' kw Kin Kcross T Kin' Kcross' T' b n ex p t t',
  noise_fits m b n -> noise_fits m' b n ->
  shape Kin = [b; n; n] -> shape Kcross = [b; n] -> shape T = b :: n :: ex ->
  shape Kin' = [b; n; n] -> shape Kcross' = [b; n] -> shape T' = b :: n :: ex ->
  no_coincidence ex [n] ->
  (forall x, (x < b)%nat -> perm_on n (p x)) ->
  (forall x i j, (x < b)%nat -> (i < n)%nat -> (j < n)%nat -> at_ Kin' [x; i; j] = at_ Kin [x; p x i; p x j]) ->
  (forall x i, (x < b)%nat -> (i < n)%nat -> noise_at m' kw x i = noise_at m kw x (p x i)) ->
  (forall x i, (x < b)%nat -> (i < n)%nat -> at_ Kcross' [x; i] = at_ Kcross [x; p x i]) ->
  (forall x i e, (x < b)%nat -> (i < n)%nat -> inb ex e -> at_ T' (x :: i :: e) = at_ T (x :: p x i :: e)) ->
  (let! K := perturb m Kin kw in posterior_mean ls K Kcross T) = Ok t ->
  (let! K := perturb m' Kin' kw in posterior_mean ls K Kcross' T') = Ok t' ->
  nd_eq t t'.
Proof. exact c20_mean_perm. Qed.
Print Assumptions C20_mean_permutation.

Theorem C20_variance_permutation : forall ls, exact_solver ls ->
  forall m m' kw Kin Kcross Kin' Kcross' Kout b n p t t',
  noise_fits m b n -> noise_fits m' b n ->
  shape Kin = [b; n; n] -> shape Kcross = [b; n] -> shape Kout = [] ->
  shape Kin' = [b; n; n] -> shape Kcross' = [b; n] ->
  (forall x, (x < b)%nat -> perm_on n (p x)) ->
  (forall x i j, (x < b)%nat -> (i < n)%nat -> (j < n)%nat -> at_ Kin' [x; i; j] = at_ Kin [x; p x i; p x j]) ->
  (forall x i, (x < b)%nat -> (i < n)%nat -> noise_at m' kw x i = noise_at m kw x (p x i)) ->
  (forall x i, (x < b)%nat -> (i < n)%nat -> at_ Kcross' [x; i] = at_ Kcross [x; p x i]) ->
  (let! K := perturb m Kin kw in diagonal_variance ls K Kcross Kout 1) = Ok t ->
  (let! K := perturb m' Kin' kw in diagonal_variance ls K Kcross' Kout 1) = Ok t' ->
  nd_eq t t'.
Proof. exact c20_var_perm. Qed.
Print Assumptions C20_variance_permutation.

Example C20_sat : perm_on 2 (fun i => (1 - i)%nat) /\
  (forall x i j, (i < 2)%nat -> (j < 2)%nat -> at_ exKin [x; i; j] = at_ exKin [x; (1 - i)%nat; (1 - j)%nat]).
Proof.
  split.
  - split; [intros; lia|intros; lia].
  - intros x i j Hi Hj. destruct i as [|[|i]]; [| |lia]; (destruct j as [|[|j]]; [| |lia]); reflexivity.
Qed.

(** * C21: variance bounds *)
Theorem C21_variance_bounds : forall ls, exact_solver ls -> forall g Kin Kcross b n t,
  noise_fits (gp_noise g) b n -> shape Kin = [b; n; n] -> shape Kcross = [b; n] -> shape (gp_Kout g) = [] ->
  0 <= gp_var_scale g ->
  (forall x i, (x < b)%nat -> (i < n)%nat -> 0 <= noise_at (gp_noise g) None x i) ->
  (forall x, (x < b)%nat -> psd (S n) (joint (at_ (gp_Kout g) []) (rowvec Kcross x) (rowmat Kin x))) ->
  gp_posterior_variance ls g Kin Kcross = Ok t ->
  shape t = [b] /\ forall x, (x < b)%nat -> 0 <= at_ t [x] <= gp_var_scale g * at_ (gp_Kout g) [].
Proof. exact c21_variance. Qed.
Print Assumptions C21_variance_bounds.

Example C21_sat : exists t, gp_posterior_variance gauss (exgp (HomoscedasticNoise 1)) exKin exKcross = Ok t /\
  forall x, (x < 2)%nat -> psd 3 (joint (at_ exKout []) (rowvec exKcross x) (rowmat exKin x)).
Proof.
  destruct (gp_var_total gauss gauss_exact (HomoscedasticNoise 1) None exKin exKcross exKout 2 2) as (v & Ev);
    try reflexivity; try exact I.
  { intros x Hx. apply pd_nonsingular. apply (exKin_noisy_pd (HomoscedasticNoise 1)); cbn; auto; intros; lra. }
  exists (ndmap (Rmult 1) v). split.
  - unfold gp_posterior_variance, gp_opt_variance. cbn [gp_noise exgp gp_Kout]. rewrite Ev. reflexivity.
  - intros x Hx. apply exjoint_psd; auto.
Qed.

(** * C22: interpolation *)
Theorem C22_mean_interpolates : forall ls, exact_solver ls -> forall m kw Kin Kcross T b n ex t x j0 e,
  noise_fits m b n -> shape Kin = [b; n; n] -> shape Kcross = [b; n] -> shape T = b :: n :: ex ->
  no_coincidence ex [n] ->
  (let! K := perturb m Kin kw in posterior_mean ls K Kcross T) = Ok t ->
  (x < b)%nat -> (j0 < n)%nat -> inb ex e ->
  (forall i, (i < n)%nat -> noise_at m kw x i = 0) ->
  (forall i, (i < n)%nat -> at_ Kcross [x; i] = at_ Kin [x; i; j0]) ->
  at_ t (x :: e) = at_ T (x :: j0 :: e).
Proof. exact c22_mean. Qed.
Print Assumptions C22_mean_interpolates.

Theorem C22_variance_vanishes : forall ls, exact_solver ls -> forall m kw Kin Kcross Kout b n t x j0,
  noise_fits m b n -> shape Kin = [b; n; n] -> shape Kcross = [b; n] -> shape Kout = [] ->
  (let! K := perturb m Kin kw in diagonal_variance ls K Kcross Kout 1) = Ok t ->
  (x < b)%nat -> (j0 < n)%nat ->
  (forall i, (i < n)%nat -> noise_at m kw x i = 0) ->
  (forall i, (i < n)%nat -> at_ Kcross [x; i] = at_ Kin [x; i; j0]) ->
  at_ Kout [] = at_ Kin [x; j0; j0] ->
  at_ t [x] = 0.
Proof. exact c22_var. Qed.
Print Assumptions C22_variance_vanishes.

Example C22_sat : let Kc := mkNd [2; 2]%nat (fun idx => match idx with [x; i] => at_ exKin [x; i; 1%nat] | _ => 0 end) in
  exists t, gp_posterior_mean gauss (exgp (HomoscedasticNoise 0)) exKin Kc exT3 None = Ok t /\
  forall i, (i < 2)%nat -> at_ Kc [O; i] = at_ exKin [O; i; 1%nat].
Proof.
  intros Kc.
  destruct (C17_posterior_mean_responses gauss gauss_exact (exgp (HomoscedasticNoise 0)) None exKin Kc exT3 2 2 3)
    as (t & Et & _); try reflexivity; try exact I; try lia; [|eauto].
  intros x Hx. apply pd_nonsingular.
  apply (exKin_noisy_pd (HomoscedasticNoise 0)); cbn; auto; intros; lra.
Qed.

(** * C23: fast prediction equals ordinary prediction (several rows, several neighbours) *)
Theorem C23_fast_equals_ordinary_partial : forall ls, exact_solver ls -> forall g Kin Kcross T b n r C F M,
  b <> 1%nat -> n <> 1%nat -> r <> 1%nat -> r <> n ->
  noise_fits (gp_noise g) b n -> shape Kin = [b; n; n] -> shape Kcross = [b; n] -> shape T = [b; n; r] ->
  (forall x, (x < b)%nat -> symmetric n (rowmat Kin x)) ->
  gp_posterior_mean ls g Kin Kcross T None = Ok M ->
  gp_fast_coefficients ls g Kin T = Ok C ->
  gp_fast_posterior_mean Kcross C = Ok F ->
  nd_eq F M.
Proof. exact c23_multi. Qed.
Print Assumptions C23_fast_equals_ordinary_partial.

Theorem C23_fast_equals_ordinary_single_response_partial : forall ls, exact_solver ls ->
  forall g Kin Kcross T b n C F M,
  b <> 1%nat -> n <> 1%nat ->
  noise_fits (gp_noise g) b n -> shape Kin = [b; n; n] -> shape Kcross = [b; n] -> univariate_shape T b n ->
  (forall x, (x < b)%nat -> symmetric n (rowmat Kin x)) ->
  gp_posterior_mean ls g Kin Kcross T None = Ok M ->
  gp_fast_coefficients ls g Kin T = Ok C ->
  gp_fast_posterior_mean Kcross C = Ok F ->
  shape F = [b] /\
  forall x, (x < b)%nat -> at_ F [x] = at_ M (if (ndim T =? 2)%nat then [x] else [x; O]).
Proof. exact c23_single. Qed.
Print Assumptions C23_fast_equals_ordinary_single_response_partial.

Theorem C23_fast_defined : forall ls, exact_solver ls -> forall g Kin Kcross T b n r,
  b <> 1%nat -> n <> 1%nat ->
  noise_fits (gp_noise g) b n -> shape Kin = [b; n; n] -> shape Kcross = [b; n] -> resp_shape T b n r ->
  (forall x, (x < b)%nat -> nonsingular n (noisy (gp_noise g) Kin x)) ->
  exists C F, gp_fast_coefficients ls g Kin T = Ok C /\ gp_fast_posterior_mean Kcross C = Ok F.
Proof. exact c23_total. Qed.
Print Assumptions C23_fast_defined.

(** One training row and several responses: the fast path raises although the ordinary one works. *)
Theorem C23_one_row_refuted : forall ls, exact_solver ls -> forall g Kin Kcross T n r,
  n <> 1%nat -> r <> 1%nat -> r <> n ->
  noise_fits (gp_noise g) 1 n -> shape Kin = [1%nat; n; n] -> shape Kcross = [1%nat; n] -> shape T = [1%nat; n; r] ->
  nonsingular n (noisy (gp_noise g) Kin O) ->
  exists C, gp_fast_coefficients ls g Kin T = Ok C /\ gp_fast_posterior_mean Kcross C = Err ValueError.
Proof. exact c23_one_row. Qed.
Print Assumptions C23_one_row_refuted.

(** One training row and one response: its one row of coefficients serves every test row. *)
Theorem C23_one_row_shared : forall ls, exact_solver ls -> forall g Kin Kcross T b n,
  b <> 1%nat -> n <> 1%nat ->
  noise_fits (gp_noise g) 1 n -> shape Kin = [1%nat; n; n] -> shape Kcross = [b; n] -> shape T = [1%nat; n; 1%nat] ->
  nonsingular n (noisy (gp_noise g) Kin O) ->
  exists C F c, gp_fast_coefficients ls g Kin T = Ok C /\ gp_fast_posterior_mean Kcross C = Ok F /\
    solves n (noisy (gp_noise g) Kin O) c (fun i => at_ T [O; i; O]) /\
    shape F = [b] /\ forall x, (x < b)%nat -> at_ F [x] = rsum n (fun j => at_ Kcross [x; j] * c j).
Proof. exact c23_one_row_shared. Qed.
Print Assumptions C23_one_row_shared.

(** One neighbour and several responses: the fast path returns the *sum* over the responses. *)
Theorem C23_one_neighbour_refuted : forall ls, exact_solver ls -> forall g Kin Kcross T b r,
  b <> 1%nat -> r <> 1%nat ->
  noise_fits (gp_noise g) b 1 -> shape Kin = [b; 1%nat; 1%nat] -> shape Kcross = [b; 1%nat] -> shape T = [b; 1%nat; r] ->
  (forall x, (x < b)%nat -> nonsingular 1 (noisy (gp_noise g) Kin x)) ->
  exists C F, gp_fast_coefficients ls g Kin T = Ok C /\ gp_fast_posterior_mean Kcross C = Ok F /\
    shape F = [b] /\ forall x, (x < b)%nat ->
      at_ F [x] = rsum r (fun s => at_ Kcross [x; O] * (at_ T [x; O; s] / noisy (gp_noise g) Kin x O O)).
Proof. exact c23_one_neighbour. Qed.
Print Assumptions C23_one_neighbour_refuted.

Example C23_sat : exists C F M,
  gp_posterior_mean gauss (exgp (HomoscedasticNoise 1)) exKin exKcross exT3 None = Ok M /\
  gp_fast_coefficients gauss (exgp (HomoscedasticNoise 1)) exKin exT3 = Ok C /\
  gp_fast_posterior_mean exKcross C = Ok F /\ (forall x, symmetric 2 (rowmat exKin x)).
Proof.
  destruct C19_sat as [M EM].
  destruct (C23_fast_defined gauss gauss_exact (exgp (HomoscedasticNoise 1)) exKin exKcross exT3 2 2 3) as (C & F & EC & EF);
    try reflexivity; try exact I; try lia; try (left; reflexivity).
  { intros x Hx. apply pd_nonsingular. apply (exKin_noisy_pd (HomoscedasticNoise 1)); cbn; auto; intros; lra. }
  exists C, F, M. split; auto. split; auto. split; auto. intros; apply exKin_sym.
Qed.

(** * C24: scale invariance of the mean, proportionality of the variance *)
Theorem C24_mean_scale_invariant : forall ls, exact_solver ls ->
  forall m m' kw kw' Kin Kcross Kin' Kcross' T b n ex c t t',
  noise_fits m b n -> noise_fits m' b n ->
  shape Kin = [b; n; n] -> shape Kcross = [b; n] -> shape T = b :: n :: ex ->
  shape Kin' = [b; n; n] -> shape Kcross' = [b; n] -> no_coincidence ex [n] -> c <> 0 ->
  (forall x i j, (x < b)%nat -> (i < n)%nat -> (j < n)%nat -> at_ Kin' [x; i; j] = c * at_ Kin [x; i; j]) ->
  (forall x i, (x < b)%nat -> (i < n)%nat -> noise_at m' kw' x i = c * noise_at m kw x i) ->
  (forall x i, (x < b)%nat -> (i < n)%nat -> at_ Kcross' [x; i] = c * at_ Kcross [x; i]) ->
  (let! K := perturb m Kin kw in posterior_mean ls K Kcross T) = Ok t ->
  (let! K := perturb m' Kin' kw' in posterior_mean ls K Kcross' T) = Ok t' ->
  nd_eq t t'.
Proof. exact c24_mean_scale_invariant. Qed.
Print Assumptions C24_mean_scale_invariant.

(** After any history of successful optimize_scale calls the variance uses the current scale. *)
Theorem C24_variance_uses_latest_scale : forall ls g g' Kin Kcross v,
  gp_var_scale g = gp_scale g -> scale_history ls g g' ->
  gp_opt_variance ls g' Kin Kcross None = Ok v ->
  exists t, gp_posterior_variance ls g' Kin Kcross = Ok t /\ shape t = shape v /\
    forall idx, at_ t idx = gp_scale g' * at_ v idx.
Proof. exact c24_history. Qed.
Print Assumptions C24_variance_uses_latest_scale.

Theorem C24_mean_ignores_scale_history : forall ls g g' Kin Kcross T kw,
  gp_var_scale g = gp_scale g -> scale_history ls g g' ->
  gp_posterior_mean ls g' Kin Kcross T kw = gp_posterior_mean ls g Kin Kcross T kw.
Proof. exact c24_mean_history. Qed.
Print Assumptions C24_mean_ignores_scale_history.

Example C24_sat : exists g', scale_history gauss (exgp (HomoscedasticNoise 1)) g' /\ 
  optimize_scale gauss (exgp (HomoscedasticNoise 1)) (fun _ => []) exKin exT2 = Ok g'.
Proof.
  assert (Hpd : forall x, (x < 2)%nat -> pd 2 (noisy (HomoscedasticNoise 1) exKin x)).
  { intros x Hx. apply (exKin_noisy_pd (HomoscedasticNoise 1)); cbn; auto; intros; lra. }
  destruct (c33_formula gauss gauss_exact (exgp (HomoscedasticNoise 1)) 1 None exKin exT2 2 2) as (s & Es & Hs);
    try reflexivity; try exact I; try lia; try (left; reflexivity).
  { intros x Hx. apply pd_nonsingular. apply Hpd; auto. }
  destruct (optimize_scale_spec gauss (exgp (HomoscedasticNoise 1)) 1 (fun _ => []) exKin exT2 s) as [H _]; auto.
  destruct H as (g' & Eg & _).
  { apply (ml_scale_pos 2 2 (noisy (HomoscedasticNoise 1) exKin) (tgt exT2) s Hpd); auto. exists O, O. repeat split; try lia. cbn. lra. }
  exists g'. split; [|exact Eg]. eapply sh_opt; [exact Eg|constructor].
Qed.

(** * C53: shear noise *)
Theorem C53_shear_noise : forall Kin v b n, shape Kin = [b; 3; n; 3; n]%nat ->
  exists K, shear_perturb33 Kin v = Ok K /\ shape K = [b; 3; n; 3; n]%nat /\
    forall x i j k l, (x < b)%nat -> (i < 3)%nat -> (j < n)%nat -> (k < 3)%nat -> (l < n)%nat ->
      at_ K [x; i; j; k; l] = at_ Kin [x; i; j; k; l] +
        (if Nat.eqb i k && Nat.eqb j l then (if Nat.eqb i 0 then 2 * v else v) else 0).
Proof. exact shear33. Qed.
Print Assumptions C53_shear_noise.

(** The rejected shapes: ValueError for a wrong number of axes, AssertionError otherwise. *)
Theorem C53_shear_noise_rejects : forall Kin v,
  (List.length (shape Kin) <> 5%nat -> shear_perturb33 Kin v = Err ValueError) /\
  (forall b p n p2 n2, shape Kin = [b; p; n; p2; n2]%nat -> (n <> n2 \/ p <> p2 \/ p <> 3%nat) ->
     shear_perturb33 Kin v = Err AssertionError).
Proof. exact shear33_bad. Qed.
Print Assumptions C53_shear_noise_rejects.

Example C53_sat : shape (mkNd [2; 3; 4; 3; 4]%nat (fun _ : list nat => 1)) = [2; 3; 4; 3; 4]%nat.
Proof. reflexivity. Qed.
