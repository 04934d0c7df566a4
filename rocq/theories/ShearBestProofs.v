(** Proofs about optimal linear prediction of lensing observables. *)
From Coq Require Import Lia Lra.
From Verif Require Import Base BaseFacts NdModel NdFacts RSum LinAlgModel LinAlgSpec LinAlgFacts NoiseModel GPModel MuyGPSModel GPSpec WellPosedProofs
  HyperModel NamedModel NamedSpec KernelModel TensorModel TensorSpec KernelSpec KernelLemmas FlowSpec LossModel LossSpec ChassisModel WorkSpec ShearModel ShearSpec ShearProofs ShearGram ShearFlowSpec
  ShearFlow ShearEdge ShearTrainModel ShearTrainSpec ShearTrainProofs ShearTrainProofs2 DenseShearProofs3 SkyProofs SkyProofs2 BestSpec BestProofs BestGram ShearBestSpec.
Local Open Scope R_scope.

Lemma quad_zero n A v : (forall i, (i < n)%nat -> v i = 0) -> quad n A v = 0.
Proof.
  intros Z. unfold quad. rewrite (rsum_ext n _ (fun _ => 0)); [apply rsum_0|]. intros i Hi.
  rewrite (rsum_ext n _ (fun _ => 0)); [apply rsum_0|]. intros j Hj. rewrite (Z i Hi). ring.
Qed.

Lemma prior_pos l o x : 0 < l -> (o < 3)%nat -> 0 < shear_cov l (obs o) (obs o) x x.
Proof.
  intros Hl Ho. rewrite cov_closed by lra. replace (x 0%nat - x 0%nat) with 0 by ring. replace (x 1%nat - x 1%nat) with 0 by ring.
  assert (E0 : exp (- (0 ^ 2 + 0 ^ 2) / (2 * l)) = 1) by (replace (- (0 ^ 2 + 0 ^ 2) / (2 * l)) with 0 by (field; lra); apply exp_0).
  destruct o as [|[|[|o]]]; [| | |lia]; unfold cform; cbn [obs]; rewrite E0.
  - assert (H : kk_fn 1 (0 ^ 2 + 0 ^ 2) (0 ^ 2 * 0 ^ 2) (0 ^ 4 + 0 ^ 4) l = 2 * (/ l * / l)) by (unfold kk_fn; replace 0.25 with (/ 4) by lra; field; lra).
    rewrite H. assert (0 < / l) by (apply Rinv_0_lt_compat; auto). nra.
  - assert (H : g1g1_fn 1 (0 ^ 2 + 0 ^ 2) (0 ^ 4 + 0 ^ 4) (0 ^ 2 * 0 ^ 2) l = / l * / l) by (unfold g1g1_fn; replace 0.25 with (/ 4) by lra; field; lra).
    rewrite H. assert (0 < / l) by (apply Rinv_0_lt_compat; auto). nra.
  - assert (H : g2g2_fn 1 (0 ^ 2 + 0 ^ 2) (0 ^ 2 * 0 ^ 2) l = / l * / l) by (unfold g2g2_fn; field; lra).
    rewrite H. assert (0 < / l) by (apply Rinv_0_lt_compat; auto). nra.
Qed.

Section Flat.
Variables (km : shear_model) (k : nat).
Hypothesis Hk : (0 < k)%nat.
Notation s := (unobserved km).
Notation N := (observed km * k)%nat.

Definition flatw (w : nat -> nat -> R) (p : nat) : R := w (s + p / k)%nat (p mod k)%nat.
Definition unflatw (u : nat -> R) (a i : nat) : R := u ((a - s) * k + i)%nat.
Lemma divmod_k a i : (i < k)%nat -> ((a * k + i) / k = a /\ (a * k + i) mod k = i)%nat.
Proof.
  intros Hi. split.
  - rewrite Nat.div_add_l by lia. rewrite Nat.div_small by auto. lia.
  - rewrite Nat.add_comm, Nat.mod_add by lia. apply Nat.mod_small. auto.
Qed.
Lemma over_flat f : over km k f = rsum N (fun p => f (s + p / k)%nat (p mod k)%nat).
Proof.
  unfold over. rewrite rsum_mul. apply rsum_ext. intros a Ha. apply rsum_ext. intros i Hi.
  destruct (divmod_k a i Hi) as [-> ->]. reflexivity.
Qed.
Lemma over_ext f g : (forall a i, (s <= a < 3)%nat -> (i < k)%nat -> f a i = g a i) -> over km k f = over km k g.
Proof. intros H. unfold over. apply rsum_ext. intros a Ha. apply rsum_ext. intros i Hi. apply H; auto. destruct km; cbn in *; lia. Qed.
Lemma flat_range p : (p < N)%nat -> (s <= s + p / k < 3)%nat /\ (p mod k < k)%nat.
Proof.
  intros Hp. split; [|apply Nat.mod_upper_bound; lia]. assert (p / k < observed km)%nat by (apply Nat.div_lt_upper_bound; lia).
  destruct km; cbn in *; lia.
Qed.
Lemma flat_unflat u p : (p < N)%nat -> flatw (unflatw u) p = u p.
Proof.
  intros Hp. unfold flatw, unflatw. f_equal. replace (s + p / k - s)%nat with (p / k)%nat by lia.
  pose proof (Nat.div_mod p k ltac:(lia)). lia.
Qed.
Lemma unflat_flat w a i : (s <= a < 3)%nat -> (i < k)%nat -> unflatw (flatw w) a i = w a i.
Proof.
  intros Ha Hi. unfold flatw, unflatw. destruct (divmod_k (a - s) i Hi) as [-> ->]. f_equal. lia.
Qed.
Lemma flat_index a i : (s <= a < 3)%nat -> (i < k)%nat -> ((a - s) * k + i < N)%nat.
Proof. intros Ha Hi. assert (a - s < observed km)%nat by (destruct km; cbn in *; lia). nia. Qed.
End Flat.

Section P.
Variables (km : shear_model) (sn : bool) (l v : R) (train : nd R) (k : nat) (rows : nat -> nat) (point : nat -> R).
Hypothesis Hk : (0 < k)%nat.
Hypothesis Hl : 0 < l.
Hypothesis Hv : 0 < v.
Hypothesis SNF : sn = true -> km = Full33.
Notation s := (unobserved km).
Notation N := (observed km * k)%nat.
Definition pts : nat -> nat -> R := fun i => feature train (rows i).
Definition matA := plus_diag (stacked_cov l s k pts) (obs_noise sn v k).
Definition crs := stacked_cross l s k pts point.
Definition prior (o o' : nat) : R := shear_cov l (obs o) (obs o') point point.
Definition flat_error (o : nat) (w : nat -> R) : R := prior o o - 2 * dot N w (crs o) + quad N matA w.

Lemma matA_pd : pd N matA.
Proof. apply plus_diag_pd; [apply stacked_psd; auto|]. intros. apply obs_noise_pos. auto. Qed.
Lemma matA_sym : symmetric N matA.
Proof.
  intros i j Hi Hj. unfold matA, plus_diag, stacked_cov. rewrite cov_sym_obs by lra. rewrite (Nat.eqb_sym i j).
  destruct (Nat.eqb_spec j i) as [->|]; reflexivity.
Qed.
Lemma noise_flat p : (p < N)%nat -> obs_noise sn v k p = lens_noise sn v (s + p / k).
Proof.
  intros Hp. unfold obs_noise, lens_noise. destruct sn; [|reflexivity]. rewrite (SNF eq_refl). cbn [unobserved]. unfold shear_noise.
  destruct (Nat.ltb_spec p k) as [L|L].
  - rewrite Nat.div_small by auto. reflexivity.
  - cbn [Nat.add]. destruct (p / k)%nat eqn:E; [|reflexivity]. apply Nat.div_small_iff in E; lia.
Qed.
Lemma matA_flat p q : (p < N)%nat -> (q < N)%nat ->
  matA p q = lens_obs_cov l sn v train rows (s + p / k) (p mod k) (s + q / k) (q mod k).
Proof.
  intros Hp Hq. unfold matA, plus_diag, lens_obs_cov, stacked_cov, pts. f_equal.
  rewrite (noise_flat p Hp). pose proof (Nat.div_mod p k ltac:(lia)) as E1. pose proof (Nat.div_mod q k ltac:(lia)) as E2.
  destruct (Nat.eqb_spec p q) as [->|NE]; [rewrite !Nat.eqb_refl; reflexivity|].
  destruct (Nat.eqb_spec (s + p / k) (s + q / k)) as [A|A]; [|reflexivity].
  destruct (Nat.eqb_spec (p mod k) (q mod k)) as [B|B]; [|reflexivity]. exfalso. apply NE.
  assert (p / k = q / k)%nat by lia. rewrite E1, E2, B, H. reflexivity.
Qed.
Lemma lens_flat o w : lens_error km sn l v train k rows point o w = flat_error o (flatw km k w).
Proof.
  unfold lens_error, flat_error, prior. apply f_equal2; [apply f_equal2; [reflexivity|apply f_equal]|].
  - rewrite over_flat by auto. unfold dot. apply rsum_ext. intros p Hp. reflexivity.
  - rewrite over_flat by auto. unfold quad. apply rsum_ext. intros p Hp. rewrite over_flat by auto. apply rsum_ext. intros q Hq.
    rewrite matA_flat by auto. unfold flatw. ring.
Qed.
Lemma flat_error_ext o w w' : (forall p, (p < N)%nat -> w p = w' p) -> flat_error o w = flat_error o w'.
Proof.
  intros H. unfold flat_error, dot, quad. apply f_equal2; [apply f_equal2; [reflexivity|apply f_equal]|].
  - apply rsum_ext. intros p Hp. rewrite H by auto. reflexivity.
  - apply rsum_ext. intros p Hp. apply rsum_ext. intros q Hq. rewrite !H by auto. reflexivity.
Qed.
Lemma flat_value o u : solves N matA u (crs o) -> flat_error o u = prior o o - dot N u (crs o).
Proof. intros SO. unfold flat_error. rewrite (quad_solves _ _ _ _ SO). ring. Qed.
Lemma flat_optimal o u : solves N matA u (crs o) -> forall w, flat_error o u <= flat_error o w /\
  (flat_error o w = flat_error o u -> forall p, (p < N)%nat -> w p = u p).
Proof.
  intros SO w. pose proof (quad_diff N matA u w _ matA_sym SO) as Q.
  assert (W : flat_error o w = flat_error o u + quad N matA (fun i => w i - u i)) .
  { rewrite (flat_value o u SO), Q. unfold flat_error. ring. }
  split.
  - rewrite W. assert (0 <= quad N matA (fun i => w i - u i)); [|lra].
    destruct (classic_zero N (fun i => w i - u i)) as [Z|NZ]; [|left; apply matA_pd; exact NZ]. right. symmetry. apply quad_zero. exact Z.
  - intros E p Hp. rewrite W in E. destruct (Req_dec (w p - u p) 0) as [Z|NZ]; [lra|]. exfalso.
    assert (0 < quad N matA (fun i => w i - u i)); [|lra]. apply matA_pd. exists p. auto.
Qed.
Lemma weights_exist ls : exact_solver ls -> exists u, forall o, (o < 3)%nat -> solves N matA (u o) (crs o).
Proof.
  intros EX. apply (choose_weights 3 (fun o u => solves N matA u (crs o))). intros o Ho.
  pose proof (pd_nonsingular N matA matA_pd) as NS. destruct EX as [H1 H2].
  destruct (proj1 (H2 N 1%nat matA (fun p _ => crs o p)) NS) as [X E].
  exists (fun p => X p 0%nat). exact (H1 _ _ _ _ _ E 0%nat Nat.lt_0_1).
Qed.
End P.

(** ** Predictions *)
Section Pred.
Variables (ls : lsolver).
Hypothesis EX : exact_solver ls.
Variables (km : shear_model) (sn : bool) (s : store) (F : full) (l v : R) (test train : nd R) (ix : nd Z) (nn : nd Z) (m n b k : nat)
  (r : nat -> nat) (rows : nat -> nat -> nat).
Hypothesis TR : shear_trainable km sn s F.
Hypothesis SV : shear_values s F l v.
Hypothesis Hr : forall x, (x < b)%nat -> selects m (at_ ix [x]) (r x).
Hypothesis Hrows : forall x i, (x < b)%nat -> (i < k)%nat -> selects n (at_ nn [x; i]) (rows x i).

Lemma trainable_pos : 0 < l /\ 0 < v /\ (sn = true -> km = Full33).
Proof.
  destruct TR as (_ & (l' & v' & (nl & nv & EK & EN & E1 & E2) & Hl & Hv) & SNF).
  destruct SV as (nl1 & nv1 & EK1 & EN1 & -> & ->). rewrite EK in EK1. rewrite EN in EN1. injection EK1 as ->. injection EN1 as ->.
  rewrite <- E1, <- E2. auto.
Qed.

Lemma posterior_flat : exists u, forall targets, shear_inputs test train targets ix nn m n b k ->
  exists mean var, shear_posterior ls km sn s F test train targets ix nn = Ok (mean, var) /\ shape mean = [b; 3]%nat /\ shape var = [b; 3; 3]%nat /\
    forall x o, (x < b)%nat -> (o < 3)%nat ->
      solves (observed km * k) (matA km sn l v train k (rows x)) (u x o) (crs km l train k (rows x) (feature test (r x)) o) /\
      at_ mean [x; o] = over km k (fun a i => unflatw km k (u x o) a i * at_ targets [rows x i; a]) /\
      forall o', (o' < 3)%nat -> at_ var [x; o; o'] = f_var_scale F *
        (prior l (feature test (r x)) o o' - dot (observed km * k) (u x o) (crs km l train k (rows x) (feature test (r x)) o')).
Proof.
  destruct trainable_pos as (Hl & Hv & SNF).
  assert (U : exists u, forall x, (x < b)%nat -> forall o, (o < 3)%nat ->
     solves (observed km * k) (matA km sn l v train k (rows x)) (u x o) (crs km l train k (rows x) (feature test (r x)) o)).
  { assert (G : forall j, (j <= b)%nat -> exists u, forall x, (x < j)%nat -> forall o, (o < 3)%nat ->
     solves (observed km * k) (matA km sn l v train k (rows x)) (u x o) (crs km l train k (rows x) (feature test (r x)) o)).
    { induction j as [|j IH]; intros Hj; [exists (fun _ _ _ => 0); intros; lia|].
      destruct IH as [u Hu]; [lia|]. destruct (weights_exist km sn l v train k (rows j) (feature test (r j)) Hl Hv ls EX) as [w Hw].
      exists (fun x => if (x =? j)%nat then w else u x). intros x Hx o Ho. destruct (Nat.eqb_spec x j) as [->|NE]; [apply Hw; auto|apply Hu; auto; lia]. }
    apply (G b). auto. }
  destruct U as [u Hu]. exists u. intros targets IN.
  assert (Hk : (0 < k)%nat) by (destruct IN; lia).
  destruct (shear_posterior_ok ls EX km sn s F l v test train targets ix nn m n b k TR SV IN) as (mean & var & E & SM & SVa & V).
  exists mean, var. split; [exact E|]. split; [exact SM|]. split; [exact SVa|]. intros x o Hx Ho.
  split; [apply Hu; auto|].
  destruct (V x (r x) (rows x) o Hx Ho (Hr x Hx) (fun i Hi => Hrows x i Hx Hi)) as [(w & Sw & Ew) ((w' & Sw' & Ew') & _)].
  pose proof (pd_nonsingular _ _ (matA_pd km sn l v train k (rows x) Hl Hv)) as NS.
  pose proof (solves_unique _ _ _ _ _ NS Sw (Hu x Hx o Ho)) as U1. pose proof (solves_unique _ _ _ _ _ NS Sw' (Hu x Hx o Ho)) as U2.
  split.
  - rewrite Ew, over_flat by auto. unfold dot. apply rsum_ext. intros p Hp. rewrite U1 by auto. f_equal.
    symmetry. apply (flat_unflat km k Hk (u x o) p Hp).
  - intros o' Ho'. rewrite Ew' by auto. f_equal. unfold prior. f_equal. unfold dot. apply rsum_ext. intros p Hp. rewrite U2 by auto. reflexivity.
Qed.

Lemma shear_best : exists u, forall targets, shear_inputs test train targets ix nn m n b k ->
  exists mean var, shear_posterior ls km sn s F test train targets ix nn = Ok (mean, var) /\
    forall x o, (x < b)%nat -> (o < 3)%nat ->
      at_ mean [x; o] = over km k (fun a i => u x o a i * at_ targets [rows x i; a]) /\
      (let error := lens_error km sn l v train k (rows x) (feature test (r x)) o in
       at_ var [x; o; o] = f_var_scale F * error (u x o) /\
       forall w, error (u x o) <= error w /\
         (error w = error (u x o) -> forall a i, (unobserved km <= a < 3)%nat -> (i < k)%nat -> w a i = u x o a i)).
Proof.
  destruct trainable_pos as (Hl & Hv & SNF). destruct posterior_flat as [u Hu]. exists (fun x o => unflatw km k (u x o)). intros targets IN.
  assert (Hk : (0 < k)%nat) by (destruct IN; lia).
  destruct (Hu targets IN) as (mean & var & E & _ & _ & V). exists mean, var. split; [exact E|]. intros x o Hx Ho.
  destruct (V x o Hx Ho) as (SO & M & VV). split; [exact M|]. cbv zeta. split.
  - rewrite VV by auto. f_equal. rewrite lens_flat by auto.
    rewrite (flat_error_ext km sn l v train k (rows x) (feature test (r x)) o _ (u x o)) by (intros; apply flat_unflat; auto).
    symmetry. apply flat_value. exact SO.
  - intros w. rewrite !lens_flat by auto.
    rewrite (flat_error_ext km sn l v train k (rows x) (feature test (r x)) o (flatw km k (unflatw km k (u x o))) (u x o)) by (intros; apply flat_unflat; auto).
    destruct (flat_optimal km sn l v train k (rows x) (feature test (r x)) Hl Hv o (u x o) SO (flatw km k w)) as [O1 O2].
    split; [exact O1|]. intros E1 a i Ha Hi. rewrite <- (unflat_flat km k Hk w a i Ha Hi). unfold unflatw. apply O2; auto. apply flat_index; auto.
Qed.

(** *** Second moments *)
Lemma expect_minus S pi X Y : expect S pi (fun s => X s - Y s) = expect S pi X - expect S pi Y.
Proof. unfold expect. rewrite <- rsum_minus. apply rsum_ext. intros; ring. Qed.
Lemma miss_moments outcomes pi f y sc x : (0 < k)%nat -> lens_moments outcomes pi f y km sn l v sc train k (rows x) (feature test (r x)) ->
  forall o o' w w', (o < 3)%nat -> (o' < 3)%nat ->
  let N := (observed km * k)%nat in let c := crs km l train k (rows x) (feature test (r x)) in
  expect outcomes pi (fun s => lens_miss km k (f o) y w s * lens_miss km k (f o') y w' s) =
  sc * (prior l (feature test (r x)) o o' - dot N (flatw km k w) (c o') - dot N (flatw km k w') (c o)
        + rsum N (fun p => rsum N (fun q => flatw km k w p * matA km sn l v train k (rows x) p q * flatw km k w' q))).
Proof.
  intros Hk [_ M1 M2 M3] o o' w w' Ho Ho' N c. destruct trainable_pos as (Hl & Hv & SNF).
  set (Y := fun p s => y (unobserved km + p / k)%nat (p mod k)%nat s).
  rewrite (expect_ext _ _ _ (fun s => (f o s * f o' s - rsum N (fun p => flatw km k w p * (f o' s * Y p s)))
     - rsum N (fun p => flatw km k w' p * (f o s * Y p s)) + rsum N (fun p => rsum N (fun q => flatw km k w p * flatw km k w' q * (Y p s * Y q s))))).
  2:{ intros t Ht. unfold lens_miss. rewrite !over_flat by auto. fold N.
    set (A := rsum N (fun p => w (unobserved km + p / k)%nat (p mod k)%nat * y (unobserved km + p / k)%nat (p mod k)%nat t)).
    set (B := rsum N (fun p => w' (unobserved km + p / k)%nat (p mod k)%nat * y (unobserved km + p / k)%nat (p mod k)%nat t)).
    rewrite (rsum_ext N (fun p => flatw km k w p * (f o' t * Y p t)) (fun p => f o' t * (w (unobserved km + p / k)%nat (p mod k)%nat * y (unobserved km + p / k)%nat (p mod k)%nat t)))
      by (intros; unfold flatw, Y; ring).
    rewrite (rsum_ext N (fun p => flatw km k w' p * (f o t * Y p t)) (fun p => f o t * (w' (unobserved km + p / k)%nat (p mod k)%nat * y (unobserved km + p / k)%nat (p mod k)%nat t)))
      by (intros; unfold flatw, Y; ring).
    rewrite !rsum_scal. fold A B.
    rewrite (rsum_ext N _ (fun p => (w (unobserved km + p / k)%nat (p mod k)%nat * y (unobserved km + p / k)%nat (p mod k)%nat t) * B)).
    2:{ intros p Hp. unfold B. rewrite <- rsum_scal. apply rsum_ext. intros q Hq. unfold flatw, Y. ring. }
    rewrite rsum_scal_r. fold A. ring. }
  rewrite expect_plus, !expect_minus, M1, !expect_rsum by auto.
  rewrite (rsum_ext N (fun p => expect outcomes pi (fun s => flatw km k w p * (f o' s * Y p s))) (fun p => sc * (flatw km k w p * c o' p))).
  2:{ intros p Hp. rewrite expect_scal. unfold Y. destruct (flat_range km k Hk p Hp). rewrite M2 by auto. unfold c, crs, stacked_cross, pts. ring. }
  rewrite (rsum_ext N (fun p => expect outcomes pi (fun s => flatw km k w' p * (f o s * Y p s))) (fun p => sc * (flatw km k w' p * c o p))).
  2:{ intros p Hp. rewrite expect_scal. unfold Y. destruct (flat_range km k Hk p Hp). rewrite M2 by auto. unfold c, crs, stacked_cross, pts. ring. }
  rewrite (rsum_ext N (fun p => expect outcomes pi (fun s => rsum N (fun q => flatw km k w p * flatw km k w' q * (Y p s * Y q s))))
    (fun p => sc * rsum N (fun q => flatw km k w p * matA km sn l v train k (rows x) p q * flatw km k w' q))).
  2:{ intros p Hp. rewrite expect_rsum, <- rsum_scal. apply rsum_ext. intros q Hq. rewrite expect_scal. unfold Y.
    destruct (flat_range km k Hk p Hp). destruct (flat_range km k Hk q Hq). rewrite M3 by auto.
    rewrite <- matA_flat by auto. ring. }
  rewrite !rsum_scal. unfold dot, prior. ring.
Qed.

Lemma shear_mse : exists u, forall targets, shear_inputs test train targets ix nn m n b k ->
  exists mean var, shear_posterior ls km sn s F test train targets ix nn = Ok (mean, var) /\
    forall x, (x < b)%nat ->
      (forall o, (o < 3)%nat -> at_ mean [x; o] = over km k (fun a i => u x o a i * at_ targets [rows x i; a])) /\
      forall outcomes pi f y, lens_moments outcomes pi f y km sn l v (f_var_scale F) train k (rows x) (feature test (r x)) ->
      forall o, (o < 3)%nat ->
        (forall o', (o' < 3)%nat -> at_ var [x; o; o'] =
           expect outcomes pi (fun s => lens_miss km k (f o) y (u x o) s * lens_miss km k (f o') y (u x o') s)) /\
        forall w, expect outcomes pi (fun s => lens_miss km k (f o) y (u x o) s ^ 2) <= expect outcomes pi (fun s => lens_miss km k (f o) y w s ^ 2).
Proof.
  destruct trainable_pos as (Hl & Hv & SNF). destruct posterior_flat as [u Hu]. exists (fun x o => unflatw km k (u x o)). intros targets IN.
  assert (Hk : (0 < k)%nat) by (destruct IN; lia).
  destruct (Hu targets IN) as (mean & var & E & _ & _ & V). exists mean, var. split; [exact E|]. intros x Hx.
  split; [intros o Ho; apply V; auto|]. intros outcomes pi f y MM o Ho.
  set (N := (observed km * k)%nat) in *.
  assert (EXT : forall o, (o < 3)%nat -> forall p, (p < N)%nat -> flatw km k (unflatw km k (u x o)) p = u x o p) by (intros; apply flat_unflat; auto).
  destruct (V x o Hx Ho) as (SO & _ & VV). split.
  - intros o' Ho'. rewrite (miss_moments outcomes pi f y (f_var_scale F) x Hk MM o o') by auto. rewrite VV by auto. f_equal.
    fold N. destruct (V x o' Hx Ho') as (SO' & _ & _). fold N in SO'.
    set (c := crs km l train k (rows x) (feature test (r x))) in *.
    rewrite (rsum_ext N (fun p => rsum N (fun q => flatw km k (unflatw km k (u x o)) p * matA km sn l v train k (rows x) p q * flatw km k (unflatw km k (u x o')) q))
      (fun p => u x o p * c o' p)).
    2:{ intros p Hp. rewrite <- (SO' p Hp), <- rsum_scal. apply rsum_ext. intros q Hq. rewrite !EXT by auto. ring. }
    assert (D1 : dot N (flatw km k (unflatw km k (u x o))) (c o') = dot N (u x o) (c o')) by (unfold dot; apply rsum_ext; intros; rewrite EXT by auto; reflexivity).
    assert (D2 : dot N (flatw km k (unflatw km k (u x o'))) (c o) = dot N (u x o) (c o')).
    { unfold dot. rewrite (rsum_ext N (fun p => flatw km k (unflatw km k (u x o')) p * c o p) (fun p => rsum N (fun q => u x o q * (matA km sn l v train k (rows x) q p * u x o' p)))).
      - rewrite rsum_swap. apply rsum_ext. intros q Hq. rewrite <- (SO' q Hq), <- rsum_scal. reflexivity.
      - intros p Hp. rewrite EXT by auto. rewrite <- (SO p Hp), <- rsum_scal. apply rsum_ext. intros q Hq.
        rewrite (matA_sym km sn l v train k (rows x) Hl p q) by auto. ring. }
    rewrite D1, D2. unfold dot. ring.
  - intros w. destruct MM as [[P0 P1] M1 M2 M3]. assert (MM : lens_moments outcomes pi f y km sn l v (f_var_scale F) train k (rows x) (feature test (r x))) by (constructor; auto).
    assert (SC : 0 <= f_var_scale F).
    { pose proof (M1 o o Ho Ho) as H. assert (0 <= expect outcomes pi (fun s => f o s * f o s)).
      { unfold expect. apply rsum_nonneg. intros t Ht. apply Rmult_le_pos; [auto|]. pose proof (pow2_ge_0 (f o t)). cbn [pow] in *. nra. }
      assert (0 < shear_cov l (obs o) (obs o) (feature test (r x)) (feature test (r x))).
      { apply prior_pos; auto. }
      nra. }
    assert (G : forall w, expect outcomes pi (fun s => lens_miss km k (f o) y w s ^ 2) =
       f_var_scale F * flat_error km sn l v train k (rows x) (feature test (r x)) o (flatw km k w)).
    { intros w0. rewrite (expect_ext _ _ _ (fun s => lens_miss km k (f o) y w0 s * lens_miss km k (f o) y w0 s)) by (intros; ring).
      rewrite (miss_moments outcomes pi f y (f_var_scale F) x Hk MM o o) by auto. f_equal. unfold flat_error, quad. ring. }
    rewrite !G. apply Rmult_le_compat_l; [exact SC|].
    rewrite (flat_error_ext km sn l v train k (rows x) (feature test (r x)) o (flatw km k (unflatw km k (u x o))) (u x o)) by (apply EXT; auto).
    apply (flat_optimal km sn l v train k (rows x) (feature test (r x)) Hl Hv o (u x o) SO).
Qed.
End Pred.
