(** Lemmas for C110, part 2: dense means and variances. *)
From Coq Require Import Lia Lra Arith.
From Verif Require Import Base BaseFacts NdModel NdFacts RSum LinAlgModel LinAlgSpec LinAlgFacts Gauss NoiseModel GPModel MuyGPSModel GPSpec MuyGPSProofs GPTheorems
  WellPosedProofs TensorModel TensorSpec TensorProofs KernelLemmas ShearModel ShearSpec ShearFlowSpec ShearProofs ShearLemmas ShearFlow BenchModel BenchProofs
  DenseShearModel DenseShearProofs.
Local Open Scope R_scope.

Lemma bop_sq (f : R -> R -> R) (A B : nd R) n : shape A = [n; n] -> shape B = [n; n] ->
  exists C, bop f A B = Ok C /\ shape C = [n; n] /\ forall i j, (i < n)%nat -> (j < n)%nat -> at_ C [i; j] = f (at_ A [i; j]) (at_ B [i; j]).
Proof.
  intros SA SB. destruct (bop_spec f A B [n; n]) as (C & E & S & V); [rewrite SA, SB; apply bshape_sq|].
  exists C. split; [exact E|]. split; [exact S|]. intros i j Hi Hj. rewrite V, SA, SB. unfold bidx. cbn [rev app bidx_rev].
  rewrite !bidx1 by auto. reflexivity.
Qed.

Section Flat.
Variable ls : lsolver.
Hypothesis EX : exact_solver ls.

Lemma solve2 A B N c : shape A = [N; N] -> shape B = [N; c] -> nonsingular N (fun i j => at_ A [i; j]) ->
  exists X, np_solve ls A B = Ok X /\ shape X = [N; c] /\
    forall j, (j < c)%nat -> solves N (fun i j => at_ A [i; j]) (fun i => at_ X [i; j]) (fun i => at_ B [i; j]).
Proof.
  intros SA SB NS.
  destruct (np_solve_ok ls A B [] N c SA SB) as [X E].
  { intros x Hx. apply inb_inv_nil in Hx. subst x. apply (proj1 (proj2 EX N c (slice2 A []) (slice2 B [])) NS). }
  destruct (np_solve_inv ls A B X [] N c SA SB E) as [SX HX]. destruct (HX [] (Forall2_nil _)) as (Y & EY & VY).
  exists X. split; [exact E|]. split; [exact SX|]. intros j Hj.
  pose proof (proj1 EX N c _ _ Y EY j Hj) as SO. cbn beta in SO. intros i Hi.
  rewrite (rsum_ext N _ (fun k => slice2 A [] i k * Y k j)) by (intros k Hk; pose proof (VY k j) as V; cbn [app] in V; rewrite V; reflexivity).
  rewrite SO by auto. reflexivity.
Qed.

Lemma flat_mean_ok Kin Kcross y nugget N m : shape Kin = [N; N] -> shape Kcross = [3 * m; N]%nat -> shape y = [N] -> shape nugget = [N; N] ->
  symmetric N (fun i j => at_ Kin [i; j] + at_ nugget [i; j]) -> nonsingular N (fun i j => at_ Kin [i; j] + at_ nugget [i; j]) ->
  exists t, flat_mean ls Kin Kcross y nugget = Ok t /\ shape t = [m; 3]%nat /\
    forall r o, (r < m)%nat -> (o < 3)%nat ->
      kriging N (fun i j => at_ Kin [i; j] + at_ nugget [i; j]) (fun p => at_ Kcross [o * m + r; p]%nat) (fun p => at_ y [p]) (at_ t [r; o]).
Proof.
  intros SK SC SY SN SYM NS. unfold flat_mean. rewrite SC.
  destruct (bop_sq Rplus Kin nugget N SK SN) as (K & EK & SKK & VK). rewrite EK. cbn [bind].
  unfold as_column. rewrite SY. cbn [bind].
  assert (SB : shape (newaxis 1 y) = [N; 1]%nat) by (unfold newaxis; cbn [shape]; rewrite SY; reflexivity).
  assert (NSK : nonsingular N (fun i j => at_ K [i; j])) by (apply (nonsingular_ext N (fun i j => at_ Kin [i; j] + at_ nugget [i; j])); [intros; symmetry; apply VK; auto|exact NS]).
  destruct (solve2 K (newaxis 1 y) N 1 SKK SB NSK) as (X & EXX & SX & VX). rewrite EXX. cbn [bind].
  destruct (np_matmul_inv Kcross X [] (3 * m) N 1) as (P & EP & SP & VP); [exact SC|exact SX|]. rewrite EP. cbn [bind app] in *.
  replace (3 * m / 3)%nat with m by (rewrite Nat.mul_comm, Nat.div_mul; lia).
  destruct (reshape_ok P [3; m]%nat) as [T ET]. { rewrite SP, !nprod2. lia. }
  rewrite ET. cbn [bind]. pose proof (reshape_shape _ _ _ ET) as ST. eexists. split; [reflexivity|].
  split; [unfold swapaxes_last; cbn [shape]; rewrite ST; reflexivity|].
  intros r o Hr Ho. unfold swapaxes_last. cbn [at_ swap_last rev app].
  assert (Q : (o * m + r < 3 * m)%nat) by nia.
  rewrite (reshape_at P T [3; m]%nat [(o * m + r)%nat; O] [o; r] ET).
  2:{ rewrite SP. apply inb2; lia. }
  2:{ rewrite SP. cbn [ravel]. rewrite !nprod1, ?nprod0. lia. }
  pose proof (VP [] (o * m + r)%nat 0%nat) as V. cbn [app] in V. rewrite V.
  assert (W : exists w, solves N (fun i j => at_ Kin [i; j] + at_ nugget [i; j]) w (fun p => at_ Kcross [(o * m + r)%nat; p])).
  { destruct (proj1 (proj2 EX N 1%nat _ (fun p _ => at_ Kcross [(o * m + r)%nat; p])) NS) as [Z EZ].
    exists (fun i => Z i O). apply (proj1 EX N 1%nat _ _ Z EZ O). lia. }
  destruct W as [w W]. exists w. split; [exact W|].
  assert (SO : solves N (fun i j => at_ Kin [i; j] + at_ nugget [i; j]) (fun i => at_ X [i; O]) (fun p => at_ y [p])).
  { intros i Hi. pose proof (VX O ltac:(lia) i Hi) as E. cbn beta in E.
    transitivity (at_ (newaxis 1 y) [i; O]); [rewrite <- E; apply rsum_ext; intros j Hj; rewrite VK by auto; reflexivity|reflexivity]. }
  rewrite (symmetric_adjoint N _ w (fun i => at_ X [i; O]) _ _ SYM W SO). unfold dot. apply rsum_ext. reflexivity.
Qed.

Lemma flat_variance_ok Kin Kcross Kout nugget N M : shape Kin = [N; N] -> shape Kcross = [M; N] -> shape Kout = [M; M] -> shape nugget = [N; N] ->
  nonsingular N (fun i j => at_ Kin [i; j] + at_ nugget [i; j]) ->
  exists t, flat_variance ls Kin Kcross Kout nugget = Ok t /\ shape t = [M; M] /\
    forall P Q, (P < M)%nat -> (Q < M)%nat -> exists w,
      solves N (fun i j => at_ Kin [i; j] + at_ nugget [i; j]) w (fun p => at_ Kcross [Q; p]) /\
      at_ t [P; Q] = at_ Kout [P; Q] - dot N (fun p => at_ Kcross [P; p]) w.
Proof.
  intros SK SC SO SN NS. unfold flat_variance.
  destruct (bop_sq Rplus Kin nugget N SK SN) as (K & EK & SKK & VK). rewrite EK. cbn [bind].
  assert (SB : shape (swapaxes_last Kcross) = [N; M]) by (unfold swapaxes_last; cbn [shape]; rewrite SC; reflexivity).
  assert (NSK : nonsingular N (fun i j => at_ K [i; j])) by (apply (nonsingular_ext N (fun i j => at_ Kin [i; j] + at_ nugget [i; j])); [intros; symmetry; apply VK; auto|exact NS]).
  destruct (solve2 K (swapaxes_last Kcross) N M SKK SB NSK) as (X & EXX & SX & VX). rewrite EXX. cbn [bind].
  destruct (np_matmul_inv Kcross X [] M N M) as (P & EP & SP & VP); [exact SC|exact SX|]. rewrite EP. cbn [bind app] in *.
  destruct (bop_sq Rminus Kout P M SO SP) as (t & Et & St & Vt). exists t. split; [exact Et|]. split; [exact St|].
  intros p q Hp Hq. exists (fun i => at_ X [i; q]). split.
  - intros i Hi. pose proof (VX q Hq i Hi) as E. cbn beta in E.
    transitivity (at_ (swapaxes_last Kcross) [i; q]); [rewrite <- E; apply rsum_ext; intros j Hj; rewrite VK by auto; reflexivity|reflexivity].
  - rewrite Vt by auto. pose proof (VP [] p q) as V. cbn [app] in V. rewrite V. reflexivity.
Qed.
End Flat.

Lemma shift_div n s p : (0 < n)%nat -> ((s * n + p) / n = s + p / n)%nat /\ ((s * n + p) mod n = p mod n)%nat.
Proof. intros Hn. rewrite Nat.add_comm, Nat.div_add, Nat.mod_add by lia. lia. Qed.

Lemma dense_inputs_ok km nan test train targets l n m : l <> 0 -> (0 < n)%nat ->
  shape test = [m; 2]%nat -> shape train = [n; 2]%nat -> shape targets = [n; 3]%nat ->
  exists Kin Kcross y, dense_inputs km nan test train targets l = Ok (Kin, Kcross, y) /\
    shape Kin = [observed km * n; observed km * n]%nat /\ shape Kcross = [3 * m; observed km * n]%nat /\ shape y = [observed km * n]%nat /\
    (forall p q, (p < observed km * n)%nat -> (q < observed km * n)%nat -> at_ Kin [p; q] = stacked_cov l (unobserved km) n (feature train) p q) /\
    (forall r o p, (r < m)%nat -> (o < 3)%nat -> (p < observed km * n)%nat ->
       at_ Kcross [(o * m + r)%nat; p] = stacked_cross l (unobserved km) n (feature train) (feature test r) o p) /\
    (forall p, (p < observed km * n)%nat -> at_ y [p] = at_ targets [(p mod n)%nat; (unobserved km + p / n)%nat]).
Proof.
  intros Hl Hn S1 S2 S3. unfold dense_inputs. rewrite S2.
  destruct (conventional_shear_ok nan train train l n n Hl S2 S2) as (V & EV & SV & HV).
  replace (conventional_shear nan train None l) with (conventional_shear nan train (Some train) l) by reflexivity.
  destruct (conventional_shear_ok nan train test l n m Hl S2 S1) as (C & EC & SC & HC).
  rewrite EV. cbn [bind]. rewrite EC. cbn [bind]. unfold stack_targets. rewrite S3.
  assert (ST : shape (swapaxes_last targets) = [3; n]%nat) by (unfold swapaxes_last; cbn [shape]; rewrite S3; reflexivity).
  destruct (reshape_ok (swapaxes_last targets) [n * 3]%nat) as [Y EY]. { rewrite ST, nprod1, nprod2. lia. }
  rewrite EY. cbn [bind]. pose proof (reshape_shape _ _ _ EY) as SY.
  eexists _, _, _. split; [reflexivity|].
  assert (OB : (unobserved km * n + observed km * n = 3 * n)%nat) by (destruct km; unfold unobserved, observed; lia).
  split; [unfold cut_cols, cut_rows; cbn [shape]; rewrite SV; replace (3 * n - unobserved km * n)%nat with (observed km * n)%nat by lia; reflexivity|].
  split; [unfold swapaxes_last, cut_rows; cbn [shape]; rewrite SC; replace (3 * n - unobserved km * n)%nat with (observed km * n)%nat by lia; reflexivity|].
  split; [unfold cut_rows; cbn [shape]; rewrite SY; replace (n * 3 - unobserved km * n)%nat with (observed km * n)%nat by lia; reflexivity|].
  split; [|split].
  - intros p q Hp Hq. unfold cut_cols, cut_rows. cbn [at_]. rewrite HV by lia.
    destruct (shift_div n (unobserved km) p Hn) as [D1 M1]. destruct (shift_div n (unobserved km) q Hn) as [D2 M2].
    unfold stacked_cov. rewrite D1, D2, M1, M2. reflexivity.
  - intros r o p Hr Ho Hp. unfold swapaxes_last, cut_rows. cbn [at_ swap_last rev app]. rewrite HC by nia.
    destruct (shift_div n (unobserved km) p Hn) as [D1 M1]. destruct (shift_div m o r ltac:(lia)) as [D2 M2].
    unfold stacked_cross. rewrite D1, D2, M1, M2, (Nat.div_small r m), Nat.add_0_r, (Nat.mod_small r m) by lia. reflexivity.
  - intros p Hp. unfold cut_rows. cbn [at_].
    destruct (shift_div n (unobserved km) p Hn) as [D1 M1].
    assert (p / n < observed km)%nat as Hd by (apply Nat.div_lt_upper_bound; lia).
    rewrite (reshape_at _ Y [n * 3]%nat [(unobserved km + p / n)%nat; (p mod n)%nat] [(unobserved km * n + p)%nat] EY).
    + reflexivity.
    + rewrite ST. apply inb2; [|apply Nat.mod_upper_bound; lia]. destruct km; cbn [unobserved observed] in *; lia.
    + rewrite ST. cbn [ravel]. rewrite !nprod1, ?nprod0.
      pose proof (Nat.div_mod p n). nia.
Qed.

Lemma stacked_sym l s k pt N : l <> 0 -> symmetric N (stacked_cov l s k pt).
Proof. intros Hl i j _ _. unfold stacked_cov. apply cov_sym. exact Hl. Qed.

(** The nugget of each of the two noise models the dense functions know. *)
Definition nugget_of (noise : noise_model) (N : nat) : nd R :=
  match noise with
  | HomoscedasticNoise v => ndmap (Rmult v) (eye N)
  | ShearNoise33 v => nugget33 (N / 3)%nat v
  | _ => eye N
  end.
Lemma nugget_ok noise km n d : (0 < n)%nat -> stacked_noise noise km n d ->
  shape (nugget_of noise (observed km * n)%nat) = [observed km * n; observed km * n]%nat /\
  forall p q, (p < observed km * n)%nat -> (q < observed km * n)%nat ->
    at_ (nugget_of noise (observed km * n)%nat) [p; q] = if (p =? q)%nat then d p else 0.
Proof.
  intros Hn Hd. destruct noise as [v|t|v|]; cbn [stacked_noise] in Hd; try (destruct km; contradiction).
  - subst d. split; [reflexivity|]. intros p q _ _. cbn [nugget_of ndmap at_ eye]. unfold flat_noise. destruct (p =? q)%nat; ring.
  - destruct km; [|contradiction]. subst d. cbn [observed nugget_of]. unfold nugget33.
    replace (3 * n / 3)%nat with n by (rewrite Nat.mul_comm, Nat.div_mul; lia).
    split; [cbn [shape diag]; replace (n + 2 * n)%nat with (3 * n)%nat by lia; reflexivity|].
    intros p q _ _. cbn [at_ diag]. unfold shear_noise. destruct (p =? q)%nat; [|reflexivity]. destruct (p <? n)%nat; ring.
Qed.
Lemma dense_mean_unfold ls km nan noise test train targets l Kin Kcross y n d : stacked_noise noise km n d ->
  dense_inputs km nan test train targets l = Ok (Kin, Kcross, y) -> shape Kin = [observed km * n; observed km * n]%nat ->
  dense_mean ls km nan noise test train targets l = flat_mean ls Kin Kcross y (nugget_of noise (observed km * n)%nat).
Proof.
  intros Hd E SK. unfold dense_mean. rewrite E. cbn [bind]. destruct noise as [v|t|v|]; cbn [stacked_noise] in Hd; try (destruct km; contradiction).
  - unfold conventional_mean. rewrite SK. reflexivity.
  - destruct km; [|contradiction]. unfold conventional_mean33. rewrite SK. cbn [observed].
    rewrite (Nat.mul_comm 3 n), Nat.mod_mul by lia. cbn [Nat.eqb negb]. reflexivity.
Qed.

Lemma dense_mean_ok ls : exact_solver ls -> forall km nan l noise d test train targets n m,
  0 < l -> (0 < n)%nat -> shape test = [m; 2]%nat -> shape train = [n; 2]%nat -> shape targets = [n; 3]%nat -> stacked_noise noise km n d ->
  (forall p, (p < observed km * n)%nat -> 0 < d p) ->
  exists t, dense_mean ls km nan noise test train targets l = Ok t /\ shape t = [m; 3]%nat /\
    forall r o, (r < m)%nat -> (o < 3)%nat ->
      kriging (observed km * n) (plus_diag (stacked_cov l (unobserved km) n (feature train)) d)
        (stacked_cross l (unobserved km) n (feature train) (feature test r) o)
        (fun p => at_ targets [(p mod n)%nat; (unobserved km + p / n)%nat]) (at_ t [r; o]).
Proof.
  intros EX km nan l noise d test train targets n m Hl Hn S1 S2 S3 Hd Pd.
  destruct (dense_inputs_ok km nan test train targets l n m ltac:(lra) Hn S1 S2 S3) as (Kin & Kc & y & E & SK & SC & SY & VK & VC & VY).
  rewrite (dense_mean_unfold ls km nan noise test train targets l Kin Kc y n d Hd E SK).
  destruct (nugget_ok noise km n d Hn Hd) as [SN VN].
  set (N := (observed km * n)%nat) in *. set (A := plus_diag (stacked_cov l (unobserved km) n (feature train)) d).
  assert (EA : forall i j, (i < N)%nat -> (j < N)%nat -> at_ Kin [i; j] + at_ (nugget_of noise N) [i; j] = A i j).
  { intros i j Hi Hj. unfold A, plus_diag. rewrite VK, VN by auto. reflexivity. }
  assert (PD : pd N A) by (apply plus_diag_pd; auto; apply stacked_psd; auto).
  destruct (flat_mean_ok ls EX Kin Kc y (nugget_of noise N) N m SK SC SY SN) as (t & Et & St & Vt).
  - intros i j Hi Hj. rewrite !EA by auto. apply (plus_diag_sym N); auto. apply stacked_sym. lra.
  - apply (nonsingular_ext N A); [intros; symmetry; auto|apply pd_nonsingular; exact PD].
  - exists t. split; [exact Et|]. split; [exact St|]. intros r o Hr Ho. destruct (Vt r o Hr Ho) as (w & W & ->). exists w. split.
    + intros i Hi. pose proof (W i Hi) as E'. cbn beta in E'. rewrite VC in E' by auto. rewrite <- E'. apply rsum_ext. intros j Hj. rewrite EA by auto. reflexivity.
    + unfold dot. apply rsum_ext. intros j Hj. rewrite VY by auto. reflexivity.
Qed.
