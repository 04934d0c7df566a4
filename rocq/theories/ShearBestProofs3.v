(** Proofs about lensing predictions: the theorems about [shear_posterior]. *)
From Coq Require Import Lia Lra.
From Verif Require Import Base BaseFacts NdModel NdFacts RSum TensorProofs LinAlgModel LinAlgSpec LinAlgFacts NoiseModel GPModel MuyGPSModel GPSpec WellPosedProofs
  HyperModel NamedModel NamedSpec KernelModel TensorModel TensorSpec KernelSpec KernelLemmas FlowSpec LossModel LossSpec ChassisModel WorkSpec ShearModel ShearSpec ShearProofs ShearGram ShearFlowSpec
  ShearFlow ShearEdge ShearTrainModel ShearTrainSpec ShearTrainProofs ShearTrainProofs2 DenseShearProofs3 SkyProofs SkyProofs2 BestSpec BestProofs BestGram
  ShearBestSpec ShearBestProofs ShearBestProofs2.
Local Open Scope R_scope.

Lemma selects_inj n i r r' : selects n i r -> selects n i r' -> r = r'.
Proof. intros A B. rewrite <- (selects_row_of n i r A). apply selects_row_of. exact B. Qed.
Lemma batch_rows test train targets ix nn m n b k : shear_inputs test train targets ix nn m n b k ->
  exists r, forall x, (x < b)%nat -> selects m (at_ ix [x]) (r x).
Proof.
  intros IN.
  assert (G : forall j, (j <= b)%nat -> exists r, forall x, (x < j)%nat -> selects m (at_ ix [x]) (r x)).
    { induction j as [|j IH]; intros Hj; [exists (fun _ => O); intros; lia|]. destruct IH as [r Hr]; [lia|].
      destruct (in_range_selects m (at_ ix [j])) as [r' Hr']; [apply (si_ixok _ _ _ _ _ _ _ _ _ IN); lia|].
      exists (fun x => if (x =? j)%nat then r' else r x). intros x Hx. destruct (Nat.eqb_spec x j); [subst; auto|apply Hr; lia]. }
    apply (G b). auto.
Qed.
Lemma batch_nbrs test train targets ix nn m n b k : shear_inputs test train targets ix nn m n b k ->
  exists rows, forall x i, (x < b)%nat -> (i < k)%nat -> selects n (at_ nn [x; i]) (rows x i).
Proof.
  intros IN.
  assert (G : forall j, (j <= b)%nat -> exists rows, forall x i, (x < j)%nat -> (i < k)%nat -> selects n (at_ nn [x; i]) (rows x i)).
    { induction j as [|j IH]; intros Hj; [exists (fun _ _ => O); intros; lia|]. destruct IH as [r Hr]; [lia|].
      assert (G : forall j', (j' <= k)%nat -> exists rows, forall i, (i < j')%nat -> selects n (at_ nn [j; i]) (rows i)).
      { induction j' as [|j' IH']; intros Hj'; [exists (fun _ => O); intros; lia|]. destruct IH' as [rw Hrw]; [lia|].
        destruct (in_range_selects n (at_ nn [j; j'])) as [r' Hr']; [apply (si_nnok _ _ _ _ _ _ _ _ _ IN); lia|].
        exists (fun i => if (i =? j')%nat then r' else rw i). intros i Hi. destruct (Nat.eqb_spec i j'); [subst; auto|apply Hrw; lia]. }
      destruct (G k (Nat.le_refl k)) as [rw Hrw].
      exists (fun x => if (x =? j)%nat then rw else r x). intros x i Hx Hi. destruct (Nat.eqb_spec x j); [subst; auto|apply Hr; auto; lia]. }
    apply (G b). auto.
Qed.

Section S.
Variables (ls : lsolver).
Hypothesis EX : exact_solver ls.

Lemma posterior_covariance km sn s F l v test train targets ix nn m n b k :
  shear_trainable km sn s F -> shear_values s F l v -> shear_inputs test train targets ix nn m n b k -> 0 < f_var_scale F ->
  exists mean var, shear_posterior ls km sn s F test train targets ix nn = Ok (mean, var) /\
    forall x r, (x < b)%nat -> selects m (at_ ix [x]) r ->
      (forall o o', (o < 3)%nat -> (o' < 3)%nat -> at_ var [x; o; o'] = at_ var [x; o'; o]) /\
      (forall t, (exists o, (o < 3)%nat /\ t o <> 0) -> 0 < rsum 3 (fun o => rsum 3 (fun o' => t o * at_ var [x; o; o'] * t o'))) /\
      (forall t, rsum 3 (fun o => rsum 3 (fun o' => t o * at_ var [x; o; o'] * t o')) <=
         f_var_scale F * rsum 3 (fun o => rsum 3 (fun o' => t o * shear_cov l (obs o) (obs o') (feature test r) (feature test r) * t o'))).
Proof.
  intros TR SV IN SC. destruct (trainable_pos km sn s F l v TR SV) as (Hl & Hv & SNF).
  assert (Hk : (0 < k)%nat) by (destruct IN; lia).
  pose proof (batch_rows _ _ _ _ _ _ _ _ _ IN) as GR.
  pose proof (batch_nbrs _ _ _ _ _ _ _ _ _ IN) as GW.
  destruct GR as [r0 Hr0]. destruct GW as [rows Hrows].
  destruct (posterior_flat ls EX km sn s F l v test train ix nn m n b k r0 rows TR SV Hr0 Hrows) as [u Hu].
  destruct (Hu targets IN) as (mean & var & E & _ & _ & V). exists mean, var. split; [exact E|]. intros x r Hx Hr.
  assert (r0 x = r) by (apply (selects_inj m (at_ ix [x]) (r0 x) r); auto). subst r. clear Hr.
  set (pt := feature test (r0 x)) in *. set (W := f_var_scale F) in *.
  assert (SO : forall o, (o < 3)%nat -> solves (observed km * k) (matA km sn l v train k (rows x)) (u x o) (crs km l train k (rows x) pt o))
    by (intros; apply V; auto).
  assert (VV : forall o o', (o < 3)%nat -> (o' < 3)%nat -> at_ var [x; o; o'] = W * (prior l pt o o' - dot (observed km * k) (u x o) (crs km l train k (rows x) pt o')))
    by (intros o o' Ho Ho'; apply V; auto).
  assert (Q : forall t, rsum 3 (fun o => rsum 3 (fun o' => t o * at_ var [x; o; o'] * t o')) =
     W * rsum 3 (fun o => rsum 3 (fun o' => t o * (prior l pt o o' - dot (observed km * k) (u x o) (crs km l train k (rows x) pt o')) * t o'))).
  { intros t. rewrite <- rsum_scal. apply rsum_ext. intros o Ho. rewrite <- rsum_scal. apply rsum_ext. intros o' Ho'. rewrite VV by auto. ring. }
  split; [|split].
  - intros o o' Ho Ho'. rewrite !VV by auto. f_equal. f_equal.
    + unfold prior. apply cov_sym_obs. lra.
    + apply (explained_sym km sn l v train k (rows x) pt Hl (u x) SO); auto.
  - intros t NZ. rewrite Q. apply Rmult_lt_0_compat; [exact SC|].
    apply (covariance_pd km sn l v train k (rows x) pt Hk Hl Hv (u x) SO t NZ).
  - intros t. rewrite Q. apply Rmult_le_compat_l; [lra|].
    pose proof (explained_nonneg km sn l v train k (rows x) pt Hl Hv (u x) SO t) as G.
    assert (D : rsum 3 (fun o => rsum 3 (fun o' => t o * (prior l pt o o' - (prior l pt o o' - dot (observed km * k) (u x o) (crs km l train k (rows x) pt o'))) * t o')) =
       rsum 3 (fun o => rsum 3 (fun o' => t o * shear_cov l (obs o) (obs o') pt pt * t o')) -
       rsum 3 (fun o => rsum 3 (fun o' => t o * (prior l pt o o' - dot (observed km * k) (u x o) (crs km l train k (rows x) pt o')) * t o'))).
    { rewrite <- rsum_minus. apply rsum_ext. intros o Ho. rewrite <- rsum_minus. apply rsum_ext. intros o' Ho'. unfold prior. ring. }
    cbn beta in G. rewrite D in G. lra.
Qed.

(** ** More observations *)
Section More.
Variables (km km' : shear_model) (sn sn' : bool) (l v : R) (train : nd R) (k k' : nat) (rows rows' : nat -> nat) (point : nat -> R).
Hypothesis Hk : (0 < k)%nat.
Hypothesis Hk' : (0 < k')%nat.
Hypothesis Hl : 0 < l.
Hypothesis SNF : sn = true -> km = Full33.
Hypothesis SNF' : sn' = true -> km' = Full33.
Hypothesis MORE : (km' = km /\ sn' = sn) \/ (km = Two23 /\ km' = Full33).
Hypothesis AM : among k rows k' rows'.
Notation N := (observed km * k)%nat.
Notation N' := (observed km' * k')%nat.

Lemma flat_padded o w : exists w', flat_error km' sn' l v train k' rows' point o w' = flat_error km sn l v train k rows point o w.
Proof.
  destruct AM as (p & B & J).
  set (f := fun q => ((unobserved km + q / k - unobserved km') * k' + p (q mod k))%nat).
  assert (UU : (unobserved km' <= unobserved km)%nat) by (destruct MORE as [[-> _]|[-> ->]]; cbn; lia).
  assert (FR : forall q, (q < N)%nat -> (f q < N')%nat /\ (unobserved km' + f q / k' = unobserved km + q / k)%nat /\ (f q mod k' = p (q mod k))%nat).
  { intros q Hq. destruct (flat_range km k Hk q Hq) as [R1 R2]. destruct (B (q mod k)%nat R2) as [B1 _].
    destruct (divmod_k k' Hk' (unobserved km + q / k - unobserved km') (p (q mod k)%nat) B1) as [D1 D2].
    split; [apply flat_index; auto; lia|]. unfold f. rewrite D1, D2. split; [lia|reflexivity]. }
  exists (padded N f w). unfold flat_error, dot, quad.
  assert (B' : forall q, (q < N)%nat -> (f q < N')%nat) by (intros; apply FR; auto).
  rewrite (padded_sum N N' f w (crs km' l train k' rows' point o) B').
  rewrite (rsum2_ext N' N' (fun i j => padded N f w i * matA km' sn' l v train k' rows' i j * padded N f w j)
     (fun i j => padded N f w i * padded N f w j * matA km' sn' l v train k' rows' i j)) by (intros; ring).
  rewrite (padded_quad N N' f w (matA km' sn' l v train k' rows') B').
  apply f_equal2; [apply f_equal2; [reflexivity|apply f_equal]|].
  - apply rsum_ext. intros q Hq. f_equal. destruct (FR q Hq) as (_ & F1 & F2). unfold crs, stacked_cross, pts. rewrite F1, F2.
    destruct (flat_range km k Hk q Hq) as [_ R2]. rewrite (proj2 (B _ R2)). reflexivity.
  - apply rsum2_ext. intros q q' Hq Hq'.
    assert (EM : matA km' sn' l v train k' rows' (f q) (f q') = matA km sn l v train k rows q q').
    { destruct (FR q Hq) as (FB & F1 & F2). destruct (FR q' Hq') as (FB' & F1' & F2').
      rewrite (matA_flat km' sn' l v train k' rows' Hk' SNF') by auto. rewrite (matA_flat km sn l v train k rows Hk SNF) by auto.
      rewrite F1, F1', F2, F2'. destruct (flat_range km k Hk q Hq) as [R1 R2]. destruct (flat_range km k Hk q' Hq') as [R1' R2'].
      unfold lens_obs_cov. rewrite (proj2 (B _ R2)), (proj2 (B _ R2')). f_equal.
      destruct (Nat.eqb_spec (unobserved km + q / k) (unobserved km + q' / k)) as [EA|]; [|reflexivity]. cbn [andb].
      assert (NZ : lens_noise sn' v (unobserved km + q / k) = lens_noise sn v (unobserved km + q / k)).
      { destruct MORE as [[_ ->]|[-> ->]]; [reflexivity|]. cbn [unobserved Nat.add]. unfold lens_noise. destruct sn'; [|destruct sn; [discriminate (SNF eq_refl)|reflexivity]].
        destruct sn; [discriminate (SNF eq_refl)|reflexivity]. }
      rewrite NZ.
      destruct (Nat.eqb_spec (q mod k) (q' mod k)) as [->|NE]; [rewrite Nat.eqb_refl; reflexivity|].
      destruct (Nat.eqb_spec (p (q mod k)) (p (q' mod k))) as [E|]; [|reflexivity]. exfalso. apply NE. apply J; auto. }
    rewrite EM. ring.
Qed.
End More.

Lemma more_observations km km' sn sn' s s' F F' l v test train targets ix nn nn' m n b k k' rows rows' :
  shear_trainable km sn s F -> shear_values s F l v -> shear_inputs test train targets ix nn m n b k ->
  shear_trainable km' sn' s' F' -> shear_values s' F' l v -> shear_inputs test train targets ix nn' m n b k' ->
  f_var_scale F' = f_var_scale F -> 0 <= f_var_scale F ->
  (km' = km /\ sn' = sn) \/ (km = Two23 /\ km' = Full33) ->
  (forall x i, (x < b)%nat -> (i < k)%nat -> selects n (at_ nn [x; i]) (rows x i)) ->
  (forall x i, (x < b)%nat -> (i < k')%nat -> selects n (at_ nn' [x; i]) (rows' x i)) ->
  (forall x, (x < b)%nat -> among k (rows x) k' (rows' x)) ->
  exists mean var mean' var', shear_posterior ls km sn s F test train targets ix nn = Ok (mean, var) /\
    shear_posterior ls km' sn' s' F' test train targets ix nn' = Ok (mean', var') /\
    forall x o, (x < b)%nat -> (o < 3)%nat -> at_ var' [x; o; o] <= at_ var [x; o; o].
Proof.
  intros TR SV IN TR' SV' IN' ES SC MO Hrows Hrows' AM. destruct (trainable_pos km sn s F l v TR SV) as (Hl & Hv & SNF).
  destruct (trainable_pos km' sn' s' F' l v TR' SV') as (_ & _ & SNF').
  assert (Hk : (0 < k)%nat) by (destruct IN; lia). assert (Hk' : (0 < k')%nat) by (destruct IN'; lia).
  pose proof (batch_rows _ _ _ _ _ _ _ _ _ IN) as GR.
  destruct GR as [r Hr].
  destruct (posterior_flat ls EX km sn s F l v test train ix nn m n b k r rows TR SV Hr Hrows) as [u Hu].
  destruct (posterior_flat ls EX km' sn' s' F' l v test train ix nn' m n b k' r rows' TR' SV' Hr Hrows') as [u' Hu'].
  destruct (Hu targets IN) as (mean & var & E & _ & _ & V). destruct (Hu' targets IN') as (mean' & var' & E' & _ & _ & V').
  exists mean, var, mean', var'. split; [exact E|]. split; [exact E'|]. intros x o Hx Ho.
  destruct (V x o Hx Ho) as (SO & _ & VV). destruct (V' x o Hx Ho) as (SO' & _ & VV'). rewrite VV, VV', ES by auto.
  apply Rmult_le_compat_l; [exact SC|].
  rewrite <- (flat_value km sn l v train k (rows x) (feature test (r x)) o _ SO), <- (flat_value km' sn' l v train k' (rows' x) (feature test (r x)) o _ SO').
  destruct (flat_padded km km' sn sn' l v train k k' (rows x) (rows' x) (feature test (r x)) Hk Hk' SNF SNF' MO (AM x Hx) o (u x o)) as [w' Hw'].
  rewrite <- Hw'. apply (flat_optimal km' sn' l v train k' (rows' x) (feature test (r x)) Hl Hv o _ SO').
Qed.

(** ** More noise *)
Lemma more_noise km sn sn' s s' F F' l v v' test train targets ix nn m n b k :
  shear_trainable km sn s F -> shear_values s F l v -> shear_inputs test train targets ix nn m n b k ->
  shear_trainable km sn' s' F' -> shear_values s' F' l v' ->
  f_var_scale F' = f_var_scale F -> 0 <= f_var_scale F ->
  (forall a, (a < 3)%nat -> lens_noise sn v a <= lens_noise sn' v' a) ->
  exists mean var mean' var', shear_posterior ls km sn s F test train targets ix nn = Ok (mean, var) /\
    shear_posterior ls km sn' s' F' test train targets ix nn = Ok (mean', var') /\
    forall x o, (x < b)%nat -> (o < 3)%nat -> at_ var [x; o; o] <= at_ var' [x; o; o].
Proof.
  intros TR SV IN TR' SV' ES SC LE. destruct (trainable_pos km sn s F l v TR SV) as (Hl & Hv & SNF).
  destruct (trainable_pos km sn' s' F' l v' TR' SV') as (_ & Hv' & SNF').
  assert (Hk : (0 < k)%nat) by (destruct IN; lia).
  pose proof (batch_rows _ _ _ _ _ _ _ _ _ IN) as GR.
  pose proof (batch_nbrs _ _ _ _ _ _ _ _ _ IN) as GW.
  destruct GR as [r Hr]. destruct GW as [rows Hrows].
  destruct (posterior_flat ls EX km sn s F l v test train ix nn m n b k r rows TR SV Hr Hrows) as [u Hu].
  destruct (posterior_flat ls EX km sn' s' F' l v' test train ix nn m n b k r rows TR' SV' Hr Hrows) as [u' Hu'].
  destruct (Hu targets IN) as (mean & var & E & _ & _ & V). destruct (Hu' targets IN) as (mean' & var' & E' & _ & _ & V').
  exists mean, var, mean', var'. split; [exact E|]. split; [exact E'|]. intros x o Hx Ho.
  destruct (V x o Hx Ho) as (SO & _ & VV). destruct (V' x o Hx Ho) as (SO' & _ & VV'). rewrite VV, VV', ES by auto.
  apply Rmult_le_compat_l; [exact SC|].
  rewrite <- (flat_value km sn l v train k (rows x) (feature test (r x)) o _ SO), <- (flat_value km sn' l v' train k (rows x) (feature test (r x)) o _ SO').
  apply Rle_trans with (flat_error km sn l v train k (rows x) (feature test (r x)) o (u' x o));
    [apply (flat_optimal km sn l v train k (rows x) (feature test (r x)) Hl Hv o _ SO)|].
  unfold flat_error. apply Rplus_le_compat_l. unfold quad. apply rsum_le. intros p Hp. apply rsum_le. intros q Hq.
  rewrite (matA_flat km sn l v train k (rows x) Hk SNF) by auto. rewrite (matA_flat km sn' l v' train k (rows x) Hk SNF') by auto.
  unfold lens_obs_cov. destruct (flat_range km k Hk p Hp) as [R1 _]. specialize (LE (unobserved km + p / k)%nat ltac:(lia)).
  destruct (Nat.eqb_spec p q) as [<-|NE].
  - rewrite !Nat.eqb_refl. cbn [andb]. pose proof (pow2_ge_0 (u' x o p)). cbn [pow] in *. nra.
  - assert (EF : ((unobserved km + p / k =? unobserved km + q / k) && (p mod k =? q mod k))%nat = false).
    { destruct (Nat.eqb_spec (unobserved km + p / k) (unobserved km + q / k)) as [EA|]; [|reflexivity].
      destruct (Nat.eqb_spec (p mod k) (q mod k)) as [EB|]; [|reflexivity]. exfalso. apply NE.
      rewrite (Nat.div_mod p k), (Nat.div_mod q k) by lia. rewrite EB. f_equal. f_equal. lia. }
    rewrite EF. lra.
Qed.

(** ** Superposition *)
Lemma superposition km sn s F l v test train t1 t2 t3 c1 c2 ix nn m n b k :
  shear_trainable km sn s F -> shear_values s F l v -> shear_inputs test train t1 ix nn m n b k ->
  shape t2 = [n; 3]%nat -> shape t3 = [n; 3]%nat ->
  (forall i o, (i < n)%nat -> (o < 3)%nat -> at_ t3 [i; o] = c1 * at_ t1 [i; o] + c2 * at_ t2 [i; o]) ->
  exists mean1 mean2 mean3 var1 var2 var3, shear_posterior ls km sn s F test train t1 ix nn = Ok (mean1, var1) /\
    shear_posterior ls km sn s F test train t2 ix nn = Ok (mean2, var2) /\ shear_posterior ls km sn s F test train t3 ix nn = Ok (mean3, var3) /\
    forall x o, (x < b)%nat -> (o < 3)%nat -> at_ mean3 [x; o] = c1 * at_ mean1 [x; o] + c2 * at_ mean2 [x; o] /\
      forall o', (o' < 3)%nat -> at_ var2 [x; o; o'] = at_ var1 [x; o; o'] /\ at_ var3 [x; o; o'] = at_ var1 [x; o; o'].
Proof.
  intros TR SV IN S2 S3 E3.
  assert (IN2 : shear_inputs test train t2 ix nn m n b k) by (destruct IN; constructor; auto).
  assert (IN3 : shear_inputs test train t3 ix nn m n b k) by (destruct IN; constructor; auto).
  assert (Hk : (0 < k)%nat) by (destruct IN; lia).
  pose proof (batch_rows _ _ _ _ _ _ _ _ _ IN) as GR.
  pose proof (batch_nbrs _ _ _ _ _ _ _ _ _ IN) as GW.
  destruct GR as [r Hr]. destruct GW as [rows Hrows].
  destruct (posterior_flat ls EX km sn s F l v test train ix nn m n b k r rows TR SV Hr Hrows) as [u Hu].
  destruct (Hu t1 IN) as (mean1 & var1 & E1 & _ & _ & V1). destruct (Hu t2 IN2) as (mean2 & var2 & E2 & _ & _ & V2).
  destruct (Hu t3 IN3) as (mean3 & var3 & E3' & _ & _ & V3).
  exists mean1, mean2, mean3, var1, var2, var3. split; [exact E1|]. split; [exact E2|]. split; [exact E3'|]. intros x o Hx Ho.
  destruct (V1 x o Hx Ho) as (_ & M1 & C1). destruct (V2 x o Hx Ho) as (_ & M2 & C2). destruct (V3 x o Hx Ho) as (_ & M3 & C3).
  split.
  - rewrite M1, M2, M3. rewrite !over_flat by auto. rewrite <- !rsum_scal, <- rsum_plus. apply rsum_ext. intros p Hp.
    destruct (flat_range km k Hk p Hp) as [R1 R2]. rewrite E3; [ring|apply (Hrows x (p mod k)%nat Hx R2)|lia].
  - intros o' Ho'. rewrite C1, C2, C3 by auto. auto.
Qed.
End S.
