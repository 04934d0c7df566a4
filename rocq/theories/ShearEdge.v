(** Shear models outside the well-formed sizes, and the stale prior variance. *)
From Coq Require Import Lia Lra Classical.
From Coquelicot Require Import Coquelicot.
From Verif Require Import Base BaseFacts NdModel NdFacts RSum LinAlgModel LinAlgSpec LinAlgFacts GPModel GPProofs NoiseModel NoiseProofs
  MuyGPSModel GPSpec MuyGPSProofs GPTheorems WellPosedProofs TensorModel TensorSpec TensorProofs KernelSpec KernelModel KernelLemmas
  ShearModel ShearSpec ShearFlowSpec ShearProofs ShearLemmas ShearPsd ShearGram ShearFlow.
Local Open Scope R_scope.

Lemma features_short l diffs pre n m d : shape diffs = (pre ++ [n; m; d])%list -> (d < 2)%nat ->
  shear_33_fn l diffs = Err IndexError /\ shear_Kin23_fn l diffs = Err IndexError /\ shear_Kcross23_fn l diffs = Err IndexError.
Proof.
  intros H Hd. unfold shear_33_fn, shear_Kin23_fn, shear_Kcross23_fn, shear_frame. rewrite H, rev_app_distr. cbn [rev app].
  apply Nat.ltb_lt in Hd. rewrite Hd. auto.
Qed.

(** One test point: the batch axis is squeezed away and every noise model but the null one rejects the tensor. *)
Lemma single_row cur diffs n v : shape diffs = [1; n; n; 2]%nat -> n <> 1%nat ->
  exists K, shear33_call cur diffs true None = Ok K /\ shape K = [3; n; 3; n]%nat /\
    homoscedastic_perturb K v = Err ValueError /\ shear_perturb33 K v = Err ValueError.
Proof.
  intros H Hn.
  assert (E : shear33_call cur diffs true None = shear_33_fn cur diffs).
  { unfold shear33_call, looks_crosswise. rewrite H. cbn [rev app bind]. rewrite Nat.eqb_refl. reflexivity. }
  rewrite E. destruct (entries33 cur diffs [1%nat] n n H) as (full & EF & SF & HF).
  cbn [app] in SF. exists (squeeze full). split; auto.
  assert (S : shape (squeeze full) = [3; n; 3; n]%nat).
  { unfold squeeze, squeeze_shape. rewrite SF. cbn [shape filter Nat.eqb negb]. apply Nat.eqb_neq in Hn. rewrite Hn. reflexivity. }
  split; auto. unfold homoscedastic_perturb, shear_perturb33. rewrite S. auto.
Qed.

(** ** Square difference tensors *)
Lemma confused_entries km cur diffs n : shape diffs = [n; n; 2]%nat -> n <> 1%nat ->
  exists K, shear_call km cur diffs = Ok K /\ shape K = [observed km; n; observed km; n]%nat /\
  forall a i c j, (a < observed km)%nat -> (i < n)%nat -> (c < observed km)%nat -> (j < n)%nat ->
    at_ K [a; i; c; j] = cform cur (unobserved km + a) (unobserved km + c) (at_ diffs [i; j; 0%nat]) (at_ diffs [i; j; 1%nat]).
Proof.
  intros H Hn.
  destruct km; cbn [observed unobserved Nat.add].
  - assert (EE : shear_call Full33 cur diffs = shear_33_fn cur diffs).
    { unfold shear_call, shear33_call, looks_crosswise. rewrite H. cbn [rev app bind]. rewrite Nat.eqb_refl. reflexivity. }
    rewrite EE. destruct (entries33 cur diffs [] n n H) as (full & EF & SF & HF).
    cbn [app] in SF. exists (squeeze full). split; auto.
    destruct (FastProofs.squeeze_none full) as [S1 S2].
    { rewrite SF. cbn. intuition congruence. }
    split; [congruence|]. intros. rewrite S2; [apply (HF []); auto|rewrite SF; apply inb4; auto].
  - assert (EE : shear_call Two23 cur diffs = shear_Kin23_fn cur diffs).
    { unfold shear_call, shear23_call, looks_crosswise. rewrite H. cbn [rev app bind]. rewrite Nat.eqb_refl. reflexivity. }
    rewrite EE. destruct (entriesKin23 cur diffs [] n n H) as (full & EF & SF & HF).
    cbn [app] in SF. exists (squeeze full). split; auto.
    destruct (FastProofs.squeeze_none full) as [S1 S2].
    { rewrite SF. cbn. intuition congruence. }
    split; [congruence|]. intros. rewrite S2; [apply (HF []); auto|rewrite SF; apply inb4; auto].
Qed.

(** Valid inputs as in [shear_inputs], but with as many test points as neighbours. *)
Lemma square_tensors km cur test train targets ix nn m n k : cur <> 0 -> (2 <= k)%nat ->
  shape test = [m; 2]%nat -> shape train = [n; 2]%nat -> shape targets = [n; 3]%nat -> shape ix = [k] -> shape nn = [k; k] ->
  (forall x, (x < k)%nat -> ~ out_of_range m (at_ ix [x])) ->
  (forall x i, (x < k)%nat -> (i < k)%nat -> ~ out_of_range n (at_ nn [x; i])) ->
  exists Kin Kcross T c p, crosswise_tensor test train ix nn = Ok c /\ pairwise_tensor train nn = Ok p /\
    shear_tensors km cur test train targets ix nn = Ok (Kin, Kcross, T) /\
    shape Kin = [k; observed km; k; observed km; k]%nat /\ shape Kcross = [observed km; k; observed km; k]%nat /\
    shape T = [k; observed km; k]%nat /\
    (forall x a i c' j, (x < k)%nat -> (a < observed km)%nat -> (i < k)%nat -> (c' < observed km)%nat -> (j < k)%nat ->
      at_ Kin [x; a; i; c'; j] = cform cur (unobserved km + a) (unobserved km + c') (at_ p [x; i; j; 0%nat]) (at_ p [x; i; j; 1%nat])) /\
    (forall a i c' j, (a < observed km)%nat -> (i < k)%nat -> (c' < observed km)%nat -> (j < k)%nat ->
      at_ Kcross [a; i; c'; j] = cform cur (unobserved km + a) (unobserved km + c') (at_ c [i; j; 0%nat]) (at_ c [i; j; 1%nat])) /\
    (forall x a i r, (x < k)%nat -> (i < k)%nat -> (a < observed km)%nat -> selects n (at_ nn [x; i]) r ->
      at_ T [x; a; i] = at_ targets [r; (unobserved km + a)%nat]) /\
    (forall x i f r r', (x < k)%nat -> (i < k)%nat -> (f < 2)%nat -> selects m (at_ ix [x]) r -> selects n (at_ nn [x; i]) r' ->
      at_ c [x; i; f] = feature test r f - feature train r' f) /\
    (forall x i j f r r', (x < k)%nat -> (i < k)%nat -> (j < k)%nat -> (f < 2)%nat ->
      selects n (at_ nn [x; i]) r -> selects n (at_ nn [x; j]) r' -> at_ p [x; i; j; f] = feature train r f - feature train r' f).
Proof.
  intros Hl Hk S1 S2 S3 S4 S5 I1 I2.
  destruct (crosswise_spec test train ix nn m n k k) as (c & Ec & Sc & Ac); auto.
  1:{ right; eauto. } 1:{ right; eauto. } 1:{ unfold ndim; rewrite S1, S2; auto. } 1:{ unfold feature_count; rewrite S1, S2; auto. }
  destruct (pairwise_spec train nn n k k) as (p & Ep & Sp & Ap); auto.
  1:{ right; eauto. }
  assert (F1 : feature_count test = 2%nat) by (unfold feature_count; rewrite S1; auto).
  assert (F2 : feature_count train = 2%nat) by (unfold feature_count; rewrite S2; auto).
  rewrite F1 in Sc, Ac. rewrite F2 in Sp, Ap.
  destruct (take_ok targets nn n [3%nat] S3) as (T & ET & ST & AT).
  { intros idx Hi. rewrite S5 in Hi. apply inb_inv2 in Hi as (x & i & -> & Hx & Hi'). auto. }
  destruct (confused_entries km cur c k Sc) as (Kc & EKc & SKc & AKc); [lia|].
  destruct (call_pairwise km cur p k k Sp) as (Ki & EKi & SKi & AKi); [lia|lia|].
  exists Ki, Kc, (drop_rows (unobserved km) (swapaxes_last T)), c, p.
  split; auto. split; auto.
  split. { unfold shear_tensors. rewrite Ec; cbn [bind]. rewrite Ep; cbn [bind]. rewrite ET; cbn [bind]. rewrite EKc; cbn [bind]. rewrite EKi; reflexivity. }
  split; auto. split; auto. rewrite S5 in ST. cbn [app] in ST.
  assert (SS : shape (swapaxes_last T) = [k; 3; k]%nat) by (unfold swapaxes_last; cbn [shape]; rewrite ST; reflexivity).
  split. { unfold drop_rows. rewrite SS. destruct km; reflexivity. }
  split; [exact AKi|]. split; [exact AKc|]. split; [|split].
  - intros x a i r Hx Hi Ha Hr.
    unfold drop_rows. rewrite SS. cbn [at_]. unfold swapaxes_last. cbn [at_ swap_last rev app].
    pose proof (AT [x; i] [(unobserved km + a)%nat] r) as Q.
    cbn [app] in Q. rewrite S5 in Q. rewrite <- Q; auto using inb2.
  - intros. apply Ac; auto.
  - intros. apply Ap; auto.
Qed.

(** With as many test points as neighbours prediction is rejected, unless that number equals the number of observed channels. *)
Lemma square_rejected ls km l noise d test train targets ix nn m n k : 0 < l -> (2 <= k)%nat -> k <> observed km ->
  shape test = [m; 2]%nat -> shape train = [n; 2]%nat -> shape targets = [n; 3]%nat -> shape ix = [k] -> shape nn = [k; k] ->
  (forall x, (x < k)%nat -> ~ out_of_range m (at_ ix [x])) ->
  (forall x i, (x < k)%nat -> (i < k)%nat -> ~ out_of_range n (at_ nn [x; i])) ->
  stacked_noise noise km k d ->
  shear_predict ls km l noise test train targets ix nn = Err ValueError.
Proof.
  intros Hl Hk Hko S1 S2 S3 S4 S5 I1 I2 Hno.
  destruct (square_tensors km l test train targets ix nn m n k ltac:(lra) Hk S1 S2 S3 S4 S5 I1 I2)
    as (Ki & Kc & T & c & p & _ & _ & ET & SK & SC & ST & _).
  destruct (perturb_flat noise km k d Ki k ltac:(lia) Hno SK) as (K & EK & SK' & _).
  unfold shear_predict. rewrite ET. cbn [bind]. rewrite EK. cbn [bind].
  unfold posterior_mean, find_matching_ndim. rewrite SK', ST, SC. cbn [List.length firstn combine filter fst snd Nat.eqb].
  rewrite !Nat.eqb_refl. cbn [List.length bind skipn Nat.mul Nat.add slice_to_neg Nat.eqb Nat.sub firstn app].
  unfold reshape at 1. rewrite ST. cbn [shape].
  assert (E1 : nprod [k; observed km; k] = nprod [k; nprod [observed km; k]; nprod []]).
  { rewrite !nprod_cons, nprod0. nia. }
  rewrite E1, Nat.eqb_refl. cbn [bind].
  unfold reshape at 1. rewrite SK'.
  assert (E2 : nprod [k; observed km; k; observed km; k] = nprod [k; nprod [observed km; k]; nprod [observed km; k]]).
  { rewrite !nprod_cons, !nprod0. nia. }
  rewrite E2, Nat.eqb_refl. cbn [bind].
  unfold reshape at 1. rewrite SC.
  destruct (Nat.eqb_spec (nprod [k; nprod [observed km; k]; nprod [k]]) (nprod [observed km; k; observed km; k])) as [E|E]; [|reflexivity].
  exfalso. rewrite !nprod_cons, !nprod0 in E. apply Hko.
  assert (0 < observed km)%nat by (destruct km; cbn; lia).
  assert (E' : (observed km * k * k * observed km = observed km * k * k * k)%nat) by nia.
  apply Nat.mul_cancel_l in E'; nia.
Qed.

(** ** Three test points with three neighbours: silently wrong *)
Definition Zf : nd R := mkNd [3; 2]%nat (fun _ => 0).
Definition Zix : nd Z := mkNd [3]%nat (fun idx => match idx with [i] => Z.of_nat i | _ => 0%Z end).
Definition Znn : nd Z := mkNd [3; 3]%nat (fun idx => match idx with [_; i] => Z.of_nat i | _ => 0%Z end).
Definition unit_target (p : nat) : nd R := mkNd [3; 3]%nat (fun idx =>
  match idx with [r; c] => if (c * 3 + r =? p)%nat then 1 else 0 | _ => 0 end).

Lemma weights_differ n A k k' : nonsingular n A -> (exists p, (p < n)%nat /\ k p <> k' p) ->
  forall w w', solves n A w k -> solves n A w' k' -> exists p, (p < n)%nat /\ w p <> w' p.
Proof.
  intros _ (p & Hp & Hk) w w' Hw Hw'. apply NNPP. intros C.
  apply Hk. rewrite <- (Hw p Hp), <- (Hw' p Hp). apply rsum_ext. intros j Hj. f_equal.
  apply NNPP. intros D. apply C. exists j. auto.
Qed.

Lemma square_wrong ls : exact_solver ls -> forall l v, 0 < l -> 0 < v -> exists targets t,
  shape targets = [3; 3]%nat /\
  shear_predict ls Full33 l (HomoscedasticNoise v) Zf Zf targets Zix Znn = Ok t /\
  ~ kriging 9 (plus_diag (stacked_cov l 0 3 (fun i => feature Zf i)) (flat_noise v))
      (stacked_cross l 0 3 (fun i => feature Zf i) (feature Zf 0) 0)
      (fun p => at_ targets [(p mod 3)%nat; (p / 3)%nat]) (at_ t [0; 0]%nat).
Proof.
  intros Hls l v Hl Hv.
  set (A := plus_diag (stacked_cov l 0 3 (fun i => feature Zf i)) (flat_noise v)).
  set (k := stacked_cross l 0 3 (fun i => feature Zf i) (feature Zf 0) 0).
  set (k' := fun p => cform l 0 (p mod 3) 0 0).
  assert (HA : nonsingular 9 A).
  { apply pd_nonsingular, plus_diag_pd; [apply stacked_psd; auto|intros; exact Hv]. }
  assert (SOL : forall b, exists w, solves 9 A w b).
  { intros b. destruct (proj1 (proj2 Hls 9%nat 1%nat A (fun i _ => b i)) HA) as [X HX].
    exists (fun i => X i 0%nat). apply (proj1 Hls 9%nat 1%nat A _ X HX 0%nat). lia. }
  destruct (SOL k) as [w Hw]. destruct (SOL k') as [w' Hw'].
  destruct (weights_differ 9 A k k' HA) with (w := w) (w' := w') as (p & Hp & Hne); auto.
  { exists 1%nat. split; [lia|]. unfold k, k', stacked_cross. cbn [Nat.div Nat.modulo Nat.add fst snd Nat.divmod Nat.sub].
    rewrite cov_closed by lra. cbn [feature].
    change (obs 0) with Convergence. unfold cform. cbn [obs]. unfold kk_fn, kg1_fn, feature, Zf; cbn [at_ shape].
    replace (- ((0 - 0) ^ 2 + (0 - 0) ^ 2) / (2 * l)) with 0 by (field; lra).
    replace (- (0 ^ 2 + 0 ^ 2) / (2 * l)) with 0 by (field; lra). rewrite exp_0.
    assert (0 < / l ^ 2) by (apply Rinv_0_lt_compat; nra).
    match goal with |- ?a <> ?b => replace a with (2 * / l ^ 2) by (replace 0.25 with (1/4) by lra; field; lra); replace b with 0 by (field; lra) end.
    lra. }
  exists (unit_target p).
  destruct (square_tensors Full33 l Zf Zf (unit_target p) Zix Znn 3 3 3) as (Ki & Kc & T & c & q & Ec & Eq & ET & SK & SC & ST & HKi & HKc & HT & Hc & Hq); auto; [lra|..].
  1:{ intros x Hx. unfold out_of_range. cbn. lia. }
  1:{ intros x i Hx Hi. unfold out_of_range. cbn. lia. }
  destruct (perturb_flat (HomoscedasticNoise v) Full33 3 (flat_noise v) Ki 3 ltac:(lia) eq_refl SK) as (K & EK & SK' & HK).
  assert (SEL : forall i, (i < 3)%nat -> selects 3 (Z.of_nat i) i) by (intros; unfold selects; lia).
  assert (FA : forall x p q, (x < 3)%nat -> (p < 9)%nat -> (q < 9)%nat -> flat5 K 3 x p q = A p q).
  { intros x a b Hx Ha Hb. rewrite HK by auto. unfold A, plus_diag. f_equal. unfold flat5, stacked_cov.
    destruct (divmod_lt 3 3 a Ha) as (_ & A1 & A2). destruct (divmod_lt 3 3 b Hb) as (_ & B1 & B2).
    rewrite HKi by auto. rewrite cov_closed by lra. cbn [unobserved Nat.add].
    rewrite !(Hq x (a mod 3) (b mod 3) _ (a mod 3) (b mod 3))%nat by (auto; apply SEL; auto). reflexivity. }
  destruct (mean5 ls Hls K Kc T 3 3 3 3 ltac:(lia) SK' SC ST) as (t & Et & St & Ht).
  { intros x Hx. apply (nonsingular_ext 9 A); auto. intros; symmetry; apply FA; auto. }
  exists t. split; auto. split. { unfold shear_predict. rewrite ET. cbn [bind]. rewrite EK. exact Et. }
  intros (u & Hu & Hval).
  destruct (Ht 0%nat 0%nat ltac:(lia) ltac:(lia)) as (u' & Hu' & Hval').
  assert (D : forall z, dot 9 z (fun q => at_ (unit_target p) [(q mod 3)%nat; (q / 3)%nat]) = z p).
  { intros z. unfold dot. rewrite <- (rsum_delta 9 p z Hp). apply rsum_ext. intros i Hi.
    unfold unit_target, delta. cbn [at_]. rewrite (Nat.mul_comm (i / 3)), <- Nat.div_mod by lia.
    destruct (i =? p)%nat; ring. }
  rewrite D in Hval.
  assert (E : dot 9 u' (fun a => at_ T [0%nat; (a / 3)%nat; (a mod 3)%nat]) = u' p).
  { rewrite <- D. unfold dot. apply rsum_ext. intros i Hi. f_equal.
    destruct (divmod_lt 3 3 i Hi) as (_ & A1 & A2). apply (HT 0%nat (i / 3)%nat (i mod 3)%nat (i mod 3)%nat); auto. apply SEL; auto. }
  change (3 * 3)%nat with 9%nat in *. rewrite E in Hval'.
  apply Hne.
  rewrite (solves_unique 9 A w u k HA Hw Hu p Hp). rewrite <- Hval, Hval'.
  apply (solves_unique 9 A u' w' k' HA); auto.
  intros i Hi. cbn beta. specialize (Hu' i Hi). cbn beta in Hu'.
  rewrite <- (rsum_ext 9 (fun j => flat5 K 3 0 i j * u' j)) by (intros; rewrite FA; auto; lia).
  rewrite Hu'. destruct (divmod_lt 3 3 i Hi) as (_ & A1 & A2).
  rewrite HKc by (cbn [observed]; auto; lia). unfold k'. cbn [unobserved Nat.add].
  rewrite !(Hc (i / 3) 0 _ (i / 3) 0)%nat by (auto; try lia; try (apply SEL; auto; lia)).
  unfold feature, Zf; cbn [at_ shape]. f_equal; ring.
Qed.

(** ** The stale prior variance *)
Lemma kout_stale km cur cand : 0 < cur -> exists K, (match km with Full33 => shear33_Kout cur (Some cand) | Two23 => shear23_Kout cur (Some cand) end) = Ok K /\
  shape K = [3; 3]%nat /\ forall o o' x, (o < 3)%nat -> (o' < 3)%nat -> at_ K [o; o'] = shear_cov cur (obs o) (obs o') x x.
Proof. intros H. destruct (kout_ok km cur H) as (K & E & R). exists K. split; auto. Qed.

Lemma prior_value l x : l <> 0 -> shear_cov l Convergence Convergence x x = 2 / l ^ 2 /\
  shear_cov l Shear1 Shear1 x x = 1 / l ^ 2 /\ shear_cov l Shear2 Shear2 x x = 1 / l ^ 2.
Proof.
  intros Hl. change Convergence with (obs 0). change Shear1 with (obs 1). change Shear2 with (obs 2). rewrite !cov_closed by auto.
  unfold cform. cbn [obs]. unfold kk_fn, g1g1_fn, g2g2_fn.
  replace (- ((x 0%nat - x 0%nat) ^ 2 + (x 1%nat - x 1%nat) ^ 2) / (2 * l)) with 0 by (field; lra). rewrite exp_0.
  replace (x 0%nat - x 0%nat) with 0 by ring. replace (x 1%nat - x 1%nat) with 0 by ring.
  replace 0.25 with (1/4) by lra.
  split; [|split]; field; auto.
Qed.

Lemma selections m n b k (ix nn : nd Z) x : (x < b)%nat -> (forall x, (x < b)%nat -> ~ out_of_range m (at_ ix [x])) ->
  (forall x i, (x < b)%nat -> (i < k)%nat -> ~ out_of_range n (at_ nn [x; i])) ->
  exists r rows, selects m (at_ ix [x]) r /\ forall i, (i < k)%nat -> selects n (at_ nn [x; i]) (rows i).
Proof.
  intros Hx I1 I2. destruct (in_range_selects m (at_ ix [x])) as [r Hr]; [auto|].
  assert (G : forall j, (j <= k)%nat -> exists rows, forall i, (i < j)%nat -> selects n (at_ nn [x; i]) (rows i)).
  { induction j as [|j IH]; intros Hj; [exists (fun _ => O); intros; lia|].
    destruct IH as [rows Hrows]; [lia|]. destruct (in_range_selects n (at_ nn [x; j])) as [r' Hr']; [auto|].
    exists (fun i => if (i =? j)%nat then r' else rows i). intros i Hi.
    destruct (Nat.eqb_spec i j); [subst; auto|apply Hrows; lia]. }
  destruct (G k (Nat.le_refl k)) as [rows Hrows]. exists r, rows. auto.
Qed.

Lemma stale_variance ls : exact_solver ls -> forall km cur cand noise d test train targets ix nn m n b k,
  0 < cur -> 0 < cand -> shear_inputs test train targets ix nn m n b k -> stacked_noise noise km k d ->
  (forall p, (p < observed km * k)%nat -> 0 < d p) ->
  exists t t', shear_variance ls km cand noise test train targets ix nn = Ok t /\
    shear_opt_variance ls km cur cand noise test train targets ix nn = Ok t' /\
    forall x o, (x < b)%nat -> (o < 3)%nat -> at_ t' [x; o; o] = at_ t [x; o; o] + (if (o =? 0)%nat then 2 else 1) * (1 / cur ^ 2 - 1 / cand ^ 2).
Proof.
  intros Hls km cur cand noise d test train targets ix nn m n b k Hc Hl Hin Hno Hd.
  assert (Hk : (0 < k)%nat) by (destruct Hin; lia).
  destruct (tensors_ok km cand test train targets ix nn m n b k ltac:(lra) Hin) as (Kin & Kc & T & ET & SK & SC & ST & HT).
  destruct (perturb_flat noise km k d Kin b Hk Hno SK) as (K & EK & SK' & HK).
  assert (NS : forall x, (x < b)%nat -> nonsingular (observed km * k) (flat5 K k x)).
  { intros x Hx. destruct (selections m n b k ix nn x Hx) as (r & rows & Hr & Hrows); [apply Hin|apply Hin|].
    destruct (HT x r rows Hx Hr Hrows) as (H1 & _ & _).
    apply (nonsingular_ext _ (plus_diag (stacked_cov cand (unobserved km) k (fun i => feature train (rows i))) d)).
    - intros p q Hp Hq. rewrite HK by auto. unfold plus_diag. rewrite H1 by auto. reflexivity.
    - apply pd_nonsingular, plus_diag_pd; auto. apply stacked_psd; auto. }
  destruct (kout_ok km cand Hl) as (Ko & EO & SO & HO).
  destruct (kout_stale km cur cand Hc) as (Ko' & EO' & SO' & HO').
  destruct (var5 ls Hls K Kc Ko b (observed km) k 3 Hk SK' SC SO NS) as (t & Et & St & Ht).
  destruct (var5 ls Hls K Kc Ko' b (observed km) k 3 Hk SK' SC SO' NS) as (t' & Et' & St' & Ht').
  exists t, t'. split. { unfold shear_variance. rewrite ET. cbn [bind]. rewrite EK. cbn [bind]. rewrite EO. cbn [bind]. exact Et. }
  split. { unfold shear_opt_variance. rewrite ET. cbn [bind]. rewrite EK. cbn [bind]. rewrite EO'. cbn [bind]. exact Et'. }
  intros x o Hx Ho.
  destruct (Ht x o Hx Ho) as (w & Hw & Hv). destruct (Ht' x o Hx Ho) as (w' & Hw' & Hv').
  rewrite Hv, Hv' by auto. rewrite (HO o o (fun _ => 0)), (HO' o o (fun _ => 0)) by auto.
  assert (D : dot (observed km * k) w' (fun a => at_ Kc [x; (a / k)%nat; (a mod k)%nat; o]) =
              dot (observed km * k) w (fun a => at_ Kc [x; (a / k)%nat; (a mod k)%nat; o])).
  { unfold dot. apply rsum_ext. intros a Ha. f_equal.
    apply (solves_unique _ _ _ _ _ (NS x Hx) Hw' Hw); auto. }
  rewrite D. destruct (prior_value cur (fun _ => 0)) as (P0 & P1 & P2); [lra|].
  destruct (prior_value cand (fun _ => 0)) as (Q0 & Q1 & Q2); [lra|].
  destruct o as [|[|[|o]]]; [| | |lia]; cbn [obs Nat.eqb]; rewrite ?P0, ?P1, ?P2, ?Q0, ?Q1, ?Q2; field; lra.
Qed.

(** ** Relation to the library's RBF kernel *)
Lemma rbf2_is_rbf lam x1 x2 y1 y2 : lam <> 0 ->
  rbf2 (lam ^ 2) x1 x2 y1 y2 = rbf_entry (scale_entry F2 lam ((x1 - y1) ^ 2 + (x2 - y2) ^ 2)).
Proof. intros H. unfold rbf2, rbf_entry, scale_entry. f_equal. field. auto. Qed.

(** ** Entries as covariances *)
Definition cov_entries (l : R) (ia ic : nat -> nat) (p q : nat) (diffs full : nd R) (pre : list nat) (n m : nat) : Prop :=
  shape full = (pre ++ [p; n; q; m])%list /\
  forall z a i c j x y, (a < p)%nat -> (c < q)%nat ->
    (forall f, (f < 2)%nat -> at_ diffs (z ++ [i; j; f]) = x f - y f) ->
    at_ full (z ++ [a; i; c; j]) = shear_cov l (obs (ia a)) (obs (ic c)) x y.

Lemma entries_cov l ia ic p q diffs full pre n m : l <> 0 -> entries l ia ic p q diffs full pre n m ->
  cov_entries l ia ic p q diffs full pre n m.
Proof.
  intros Hl (S & H). split; auto. intros z a i c j x y Ha Hc Hd.
  rewrite H by auto. rewrite !Hd by lia. apply cform_cov; auto.
Qed.

Lemma block33 l diffs pre n m : l <> 0 -> shape diffs = (pre ++ [n; m; 2%nat])%list ->
  exists full, shear_33_fn l diffs = Ok (squeeze full) /\ cov_entries l (fun a => a) (fun c => c) 3 3 diffs full pre n m.
Proof. intros Hl H. destruct (entries33 l diffs pre n m H) as (f & E & G). exists f. split; auto. apply entries_cov; auto. Qed.
Lemma blockKin23 l diffs pre n m : l <> 0 -> shape diffs = (pre ++ [n; m; 2%nat])%list ->
  exists full, shear_Kin23_fn l diffs = Ok (squeeze full) /\ cov_entries l S S 2 2 diffs full pre n m.
Proof. intros Hl H. destruct (entriesKin23 l diffs pre n m H) as (f & E & G). exists f. split; auto. apply entries_cov; auto. Qed.
Lemma blockKcross23 l diffs pre n m : l <> 0 -> shape diffs = (pre ++ [n; m; 2%nat])%list ->
  exists full, shear_Kcross23_fn l diffs = Ok (squeeze full) /\ cov_entries l S (fun c => c) 2 3 diffs full pre n m.
Proof. intros Hl H. destruct (entriesKcross23 l diffs pre n m H) as (f & E & G). exists f. split; auto. apply entries_cov; auto. Qed.

Lemma pairwise_cov km cur diffs b n : cur <> 0 -> shape diffs = [b; n; n; 2]%nat -> b <> 1%nat -> n <> 1%nat ->
  exists K, shear_call km cur diffs = Ok K /\ shape K = [b; observed km; n; observed km; n]%nat /\
    forall x a i c j p q, (x < b)%nat -> (a < observed km)%nat -> (i < n)%nat -> (c < observed km)%nat -> (j < n)%nat ->
      (forall f, (f < 2)%nat -> at_ diffs [x; i; j; f] = p f - q f) ->
      at_ K [x; a; i; c; j] = shear_cov cur (obs (unobserved km + a)) (obs (unobserved km + c)) p q.
Proof.
  intros Hl H Hb Hn. destruct (call_pairwise km cur diffs b n H Hb Hn) as (K & E & S & G).
  exists K. split; auto. split; auto. intros. rewrite G by auto. rewrite !H5 by lia. apply cform_cov; auto.
Qed.
Lemma crosswise_cov km cur diffs b n : cur <> 0 -> shape diffs = [b; n; 2]%nat -> b <> 1%nat -> n <> 1%nat -> b <> n ->
  exists K, shear_call km cur diffs = Ok K /\ shape K = [b; observed km; n; 3]%nat /\
    forall x a i c p q, (x < b)%nat -> (a < observed km)%nat -> (i < n)%nat -> (c < 3)%nat ->
      (forall f, (f < 2)%nat -> at_ diffs [x; i; f] = p f - q f) ->
      at_ K [x; a; i; c] = shear_cov cur (obs (unobserved km + a)) (obs c) p q.
Proof.
  intros Hl H Hb Hn Hbn. destruct (call_crosswise km cur diffs b n H Hb Hn Hbn) as (K & E & S & G).
  exists K. split; auto. split; auto. intros. rewrite G by auto. rewrite !H4 by lia. apply cform_cov; auto.
Qed.

Lemma cov_sym_obs l o o' x y : l <> 0 -> shear_cov l o o' x y = shear_cov l o' o y x.
Proof.
  intros Hl. destruct o, o'; first
   [ exact (cov_sym l 0 0 x y Hl) | exact (cov_sym l 0 1 x y Hl) | exact (cov_sym l 0 2 x y Hl)
   | exact (cov_sym l 1 0 x y Hl) | exact (cov_sym l 1 1 x y Hl) | exact (cov_sym l 1 2 x y Hl)
   | exact (cov_sym l 2 0 x y Hl) | exact (cov_sym l 2 1 x y Hl) | exact (cov_sym l 2 2 x y Hl) ].
Qed.

(** ** Example inputs: four test points, three neighbours each *)
Definition exFeat : nd R := mkNd [4; 2]%nat (fun idx => match idx with [i; f] => INR (i + i * f) | _ => 0 end).
Definition exIx : nd Z := mkNd [4]%nat (fun idx => match idx with [i] => Z.of_nat i | _ => 0%Z end).
Definition exNn : nd Z := mkNd [4; 3]%nat (fun idx => match idx with [_; i] => Z.of_nat i | _ => 0%Z end).
Definition exTgt : nd R := mkNd [4; 3]%nat (fun idx => match idx with [r; c] => INR (r + c) | _ => 0 end).
Lemma ex_inputs : shear_inputs exFeat exFeat exTgt exIx exNn 4 4 4 3.
Proof. constructor; auto; cbn; unfold out_of_range; intros; try lia. Qed.
