From Coq Require Import Lia Lra.
From Verif Require Import Base BaseFacts NdModel NdFacts RSum TensorModel TensorSpec.

Lemma norm_index_some n i k : norm_index n i = Some k <-> selects n i k.
Proof.
  unfold norm_index, selects.
  destruct ((0 <=? i)%Z && (i <? Z.of_nat n)%Z) eqn:E1.
  - apply andb_true_iff in E1. destruct E1 as [A B]. apply Z.leb_le in A. apply Z.ltb_lt in B.
    split; [intros H; inversion H; subst; lia|]. intros [H [H'|H']]; f_equal; lia.
  - destruct ((- Z.of_nat n <=? i)%Z && (i <? 0)%Z) eqn:E2.
    + apply andb_true_iff in E2. destruct E2 as [A B]. apply Z.leb_le in A. apply Z.ltb_lt in B.
      split; [intros H; inversion H; subst; lia|]. intros [H [H'|H']]; f_equal; lia.
    + split; [discriminate|]. intros [H [H'|H']];
      apply andb_false_iff in E1; apply andb_false_iff in E2;
      rewrite Z.leb_gt, Z.ltb_ge in E1; rewrite Z.leb_gt, Z.ltb_ge in E2; lia.
Qed.

Lemma norm_index_none n i : norm_index n i = None <-> out_of_range n i.
Proof.
  unfold norm_index, out_of_range.
  destruct ((0 <=? i)%Z && (i <? Z.of_nat n)%Z) eqn:E1.
  - apply andb_true_iff in E1. destruct E1 as [A B]. apply Z.leb_le in A. apply Z.ltb_lt in B.
    split; [discriminate|lia].
  - destruct ((- Z.of_nat n <=? i)%Z && (i <? 0)%Z) eqn:E2.
    + apply andb_true_iff in E2. destruct E2 as [A B]. apply Z.leb_le in A. apply Z.ltb_lt in B.
      split; [discriminate|lia].
    + apply andb_false_iff in E1; apply andb_false_iff in E2;
      rewrite Z.leb_gt, Z.ltb_ge in E1; rewrite Z.leb_gt, Z.ltb_ge in E2.
      split; auto. lia.
Qed.

Lemma all_idx_in sh idx : inb sh idx -> In idx (all_idx sh).
Proof.
  intros H. unfold all_idx. apply in_map_iff. exists (ravel sh idx).
  split; [apply unravel_ravel; auto|]. apply in_seq. pose proof (ravel_lt _ _ H). lia.
Qed.

Lemma in_all_idx sh idx : In idx (all_idx sh) -> inb sh idx.
Proof.
  unfold all_idx. rewrite in_map_iff. intros [k [<- H]]. apply in_seq in H.
  apply unravel_inb. lia.
Qed.

Lemma take_ok {A} (data : nd A) ix n rest :
  shape data = n :: rest ->
  (forall idx, inb (shape ix) idx -> ~ out_of_range n (at_ ix idx)) ->
  exists t, take data ix = Ok t /\ shape t = shape ix ++ rest /\
    forall i idx k, inb (shape ix) i -> selects n (at_ ix i) k ->
      at_ t (i ++ idx) = at_ data (k :: idx).
Proof.
  intros E H. unfold take. rewrite E.
  rewrite (proj2 (forallb_forall _ _)).
  - eexists; split; [reflexivity|]. split; [reflexivity|]. intros i idx k Hi Hk. simpl.
    rewrite <- (inb_length _ _ Hi). rewrite firstn_app, Nat.sub_diag, firstn_all, skipn_app, skipn_all, Nat.sub_diag.
    simpl. rewrite app_nil_r. apply norm_index_some in Hk. rewrite Hk. reflexivity.
  - intros idx Hin. apply in_all_idx in Hin. destruct (norm_index n (at_ ix idx)) eqn:N; auto.
    apply norm_index_none in N. exfalso; eapply H; eauto.
Qed.

Lemma take_err {A} (data : nd A) ix n rest idx :
  shape data = n :: rest -> inb (shape ix) idx -> out_of_range n (at_ ix idx) ->
  take data ix = Err IndexError.
Proof.
  intros E Hi Ho. unfold take. rewrite E.
  destruct (forallb _ _) eqn:F; auto. rewrite forallb_forall in F.
  specialize (F idx (all_idx_in _ _ Hi)). apply norm_index_none in Ho. rewrite Ho in F. discriminate.
Qed.

Lemma in_range_selects n i : ~ out_of_range n i -> exists k, selects n i k.
Proof.
  intros H. destruct (norm_index n i) eqn:N.
  - exists n0. apply norm_index_some; auto.
  - apply norm_index_none in N. contradiction.
Qed.

Lemma bop_spec {A B C} (f : A -> B -> C) x y s :
  bshape (shape x) (shape y) = Some s ->
  exists t, bop f x y = Ok t /\ shape t = s /\
    forall idx, at_ t idx = f (at_ x (bidx (shape x) idx)) (at_ y (bidx (shape y) idx)).
Proof. intros H. unfold bop. rewrite H. eexists; split; [reflexivity|]. split; reflexivity. Qed.

Ltac crush_b := unfold bshape, brev, bidx, bidx_rev; cbn [rev app];
  repeat (match goal with |- context [Nat.eqb ?a ?a] => rewrite (Nat.eqb_refl a) end).

Lemma nd1 (a : nat) : (if Nat.eqb 1 a then Some 1 else if Nat.eqb 1 1 then Some a else None) = Some a.
Proof. destruct (Nat.eqb_spec 1 a); subst; auto. Qed.

Lemma bidx1 i a : (i < a)%nat -> (if Nat.eqb a 1 then 0 else i) = i.
Proof. destruct (Nat.eqb_spec a 1); lia. Qed.

(** [b;1;f] against [b;n;f]. *)
Lemma bshape_cross b n f : bshape [b; 1; f] [b; n; f] = Some [b; n; f].
Proof.
  unfold bshape. cbn [rev app brev]. rewrite Nat.eqb_refl.
  destruct (Nat.eqb_spec 1 n); subst; cbn; rewrite ?Nat.eqb_refl; reflexivity.
Qed.

Lemma bshape_cross1 b n : bshape [b; 1; 1] [b; n; 1] = Some [b; n; 1].
Proof. apply bshape_cross. Qed.

Lemma bshape_pair b n f : bshape [b; n; 1; f] [b; 1; n; f] = Some [b; n; n; f].
Proof.
  unfold bshape. cbn [rev app brev]. rewrite Nat.eqb_refl.
  destruct (Nat.eqb_spec 1 n); destruct (Nat.eqb_spec n 1); subst; try congruence; cbn; rewrite ?Nat.eqb_refl; reflexivity.
Qed.

Lemma crosswise_spec data nn_data ix nix n n' b k :
  dataset data n -> dataset nn_data n' -> ndim data = ndim nn_data ->
  feature_count data = feature_count nn_data ->
  shape ix = [b] -> shape nix = [b; k] ->
  (forall x, (x < b)%nat -> ~ out_of_range n (at_ ix [x])) ->
  (forall x i, (x < b)%nat -> (i < k)%nat -> ~ out_of_range n' (at_ nix [x; i])) ->
  exists t, crosswise_tensor data nn_data ix nix = Ok t /\
    shape t = [b; k; feature_count data] /\
    forall x i f r r', (x < b)%nat -> (i < k)%nat -> (f < feature_count data)%nat ->
      selects n (at_ ix [x]) r -> selects n' (at_ nix [x; i]) r' ->
      at_ t [x; i; f] = (feature data r f - feature nn_data r' f)%R.
Proof.
  intros Hd Hn End Ef Si Sn Hi Hni. unfold crosswise_tensor.
  assert (Hi' : forall idx, inb (shape ix) idx -> ~ out_of_range n (at_ ix idx)).
  { intros idx H. rewrite Si in H. apply inb_inv1 in H. destruct H as [x [-> Hx]]. auto. }
  assert (Hn' : forall idx, inb (shape nix) idx -> ~ out_of_range n' (at_ nix idx)).
  { intros idx H. rewrite Sn in H. apply inb_inv2 in H. destruct H as [x [i [-> [Hx Hii]]]]. auto. }
  destruct Hd as [Sd|[fc Sd]].
  - (* 1-D *)
    assert (Sd' : shape nn_data = [n']).
    { destruct Hn as [H|[f' H]]; auto. unfold ndim in End. rewrite Sd, H in End. discriminate. }
    destruct (take_ok data ix n [] Sd Hi') as [L [EL [SL AL]]].
    destruct (take_ok nn_data nix n' [] Sd' Hn') as [P [EP [SP AP]]].
    rewrite EL, EP. cbn [bind]. unfold ndim at 1. rewrite Sd. cbn [List.length Nat.eqb].
    rewrite Si in SL. rewrite Sn in SP. cbn [app] in *.
    unfold ndim, newaxis. rewrite SL, SP. cbn [List.length firstn skipn app shape].
    destruct (bop_spec Rminus
       (mkNd [b; 1; 1] (fun idx => at_ L (firstn 1 (firstn 2 idx ++ skipn 3 idx) ++ skipn 2 (firstn 2 idx ++ skipn 3 idx))))
       (mkNd [b; k; 1] (fun idx => at_ P (firstn 2 idx ++ skipn 3 idx))) [b; k; 1] (bshape_cross1 b k))
      as [t [Et [St At]]].
    exists t. split; [exact Et|].
    unfold feature_count, feature. rewrite Sd, Sd'. split; [exact St|].
    intros x i f r r' Hx Hi0 Hf Hr Hr'. rewrite At. cbn [shape at_].
    assert (f = 0) by lia. subst f.
    unfold bidx. cbn [rev app bidx_rev Nat.eqb]. rewrite (bidx1 x b Hx), (bidx1 i k Hi0).
    cbn [rev app firstn skipn].
    pose proof (AL [x] [] r) as A1. pose proof (AP [x; i] [] r') as A2.
    rewrite Si in A1. rewrite Sn in A2. cbn [app] in A1, A2.
    rewrite A1, A2; auto using inb1, inb2.
  - assert (Sd' : shape nn_data = [n'; fc]).
    { destruct Hn as [H|[f' H]]; unfold ndim, feature_count in *; rewrite Sd, H in *; [discriminate|congruence]. }
    destruct (take_ok data ix n [fc] Sd Hi') as [L [EL [SL AL]]].
    destruct (take_ok nn_data nix n' [fc] Sd' Hn') as [P [EP [SP AP]]].
    rewrite EL, EP. cbn [bind]. unfold ndim at 1. rewrite Sd. cbn [List.length Nat.eqb].
    rewrite Si in SL. rewrite Sn in SP. cbn [app] in *.
    unfold ndim, newaxis. rewrite SL. cbn [List.length Nat.sub firstn skipn app].
    destruct (bop_spec Rminus
       (mkNd [b; 1; fc] (fun idx => at_ L (firstn 1 idx ++ skipn 2 idx))) P [b; k; fc])
      as [t [Et [St At]]].
    { cbn [shape]. rewrite SP. apply bshape_cross. }
    exists t. split; [exact Et|].
    unfold feature_count, feature. rewrite Sd, Sd'. split; [exact St|].
    intros x i f r r' Hx Hi0 Hf Hr Hr'. rewrite At. cbn [shape at_]. rewrite SP.
    unfold bidx. cbn [rev app bidx_rev Nat.eqb].
    rewrite (bidx1 x b Hx), (bidx1 i k Hi0), (bidx1 f fc Hf). cbn [rev app firstn skipn].
    pose proof (AL [x] [f] r) as A1. pose proof (AP [x; i] [f] r') as A2.
    rewrite Si in A1. rewrite Sn in A2. cbn [app] in A1, A2.
    rewrite A1, A2; auto using inb1, inb2.
Qed.

Lemma pairwise_spec data nix n b k :
  dataset data n -> shape nix = [b; k] ->
  (forall x i, (x < b)%nat -> (i < k)%nat -> ~ out_of_range n (at_ nix [x; i])) ->
  exists t, pairwise_tensor data nix = Ok t /\
    shape t = [b; k; k; feature_count data] /\
    forall x i j f r r', (x < b)%nat -> (i < k)%nat -> (j < k)%nat -> (f < feature_count data)%nat ->
      selects n (at_ nix [x; i]) r -> selects n (at_ nix [x; j]) r' ->
      at_ t [x; i; j; f] = (feature data r f - feature data r' f)%R.
Proof.
  intros Hd Sn Hni. unfold pairwise_tensor.
  assert (Hn' : forall idx, inb (shape nix) idx -> ~ out_of_range n (at_ nix idx)).
  { intros idx H. rewrite Sn in H. apply inb_inv2 in H. destruct H as [x [i [-> [Hx Hii]]]]. auto. }
  destruct Hd as [Sd|[fc Sd]].
  - destruct (take_ok data nix n [] Sd Hn') as [P [EP [SP AP]]].
    rewrite EP. cbn [bind]. unfold ndim at 1. rewrite Sd. cbn [List.length Nat.eqb].
    rewrite Sn in SP. cbn [app] in *.
    unfold ndim, newaxis. rewrite SP. cbn [List.length Nat.sub firstn skipn app shape].
    match goal with |- context [bop Rminus ?x ?y] =>
      destruct (bop_spec Rminus x y [b; k; k; 1] (bshape_pair b k 1)) as [t [Et [St At]]] end.
    exists t. split; [exact Et|]. unfold feature_count, feature. rewrite Sd. split; [exact St|].
    intros x i j f r r' Hx Hi0 Hj Hf Hr Hr'. rewrite At. cbn [shape at_].
    assert (f = 0) by lia. subst f.
    unfold bidx. cbn [rev app bidx_rev Nat.eqb]. rewrite (bidx1 x b Hx), (bidx1 i k Hi0), (bidx1 j k Hj).
    cbn [rev app firstn skipn].
    pose proof (AP [x; i] [] r) as A1. pose proof (AP [x; j] [] r') as A2.
    rewrite Sn in *. cbn [app] in A1, A2. rewrite A1, A2; auto using inb2.
  - destruct (take_ok data nix n [fc] Sd Hn') as [P [EP [SP AP]]].
    rewrite EP. cbn [bind]. unfold ndim at 1. rewrite Sd. cbn [List.length Nat.eqb].
    rewrite Sn in SP. cbn [app] in *.
    unfold ndim, newaxis. rewrite SP. cbn [List.length Nat.sub Nat.leb firstn skipn app shape].
    match goal with |- context [bop Rminus ?x ?y] =>
      destruct (bop_spec Rminus x y [b; k; k; fc] (bshape_pair b k fc)) as [t [Et [St At]]] end.
    exists t. split; [exact Et|]. unfold feature_count, feature. rewrite Sd. split; [exact St|].
    intros x i j f r r' Hx Hi0 Hj Hf Hr Hr'. rewrite At. cbn [shape at_].
    unfold bidx. cbn [rev app bidx_rev Nat.eqb].
    rewrite (bidx1 x b Hx), (bidx1 i k Hi0), (bidx1 j k Hj), (bidx1 f fc Hf).
    cbn [rev app firstn skipn].
    pose proof (AP [x; i] [f] r) as A1. pose proof (AP [x; j] [f] r') as A2.
    rewrite Sn in *. cbn [app] in A1, A2. rewrite A1, A2; auto using inb2.
Qed.

Lemma dataset_shape data n : dataset data n -> exists rest, shape data = n :: rest.
Proof. intros [H|[f H]]; rewrite H; eauto. Qed.

Lemma crosswise_index_error data nn_data ix nix n n' :
  dataset data n -> dataset nn_data n' ->
  (exists idx, inb (shape ix) idx /\ out_of_range n (at_ ix idx)) \/
  (exists idx, inb (shape nix) idx /\ out_of_range n' (at_ nix idx)) ->
  crosswise_tensor data nn_data ix nix = Err IndexError.
Proof.
  intros Hd Hn H. apply dataset_shape in Hd. apply dataset_shape in Hn.
  destruct Hd as [r1 Hd], Hn as [r2 Hn]. unfold crosswise_tensor.
  destruct H as [[idx [H1 H2]]|[idx [H1 H2]]].
  - rewrite (take_err data ix n r1 idx); auto.
  - assert (HT : (exists L, take data ix = Ok L) \/ take data ix = Err IndexError).
    { unfold take. rewrite Hd. destruct (forallb _ _); eauto. }
    destruct HT as [[L HT]|HT]; rewrite HT; auto. cbn [bind].
    rewrite (take_err nn_data nix n' r2 idx); auto.
Qed.

Lemma pairwise_index_error data nix n :
  dataset data n -> (exists idx, inb (shape nix) idx /\ out_of_range n (at_ nix idx)) ->
  pairwise_tensor data nix = Err IndexError.
Proof.
  intros Hd [idx [H1 H2]]. apply dataset_shape in Hd. destruct Hd as [r Hd].
  unfold pairwise_tensor. rewrite (take_err data nix n r idx); auto.
Qed.

(** ** Metrics *)
Local Open Scope R_scope.

Lemma F2_spec diffs sh f :
  shape diffs = (sh ++ [f])%list ->
  exists t, F2_fn diffs = Ok t /\ shape t = sh /\
    forall idx, at_ t idx = rsum f (fun k => at_ diffs (idx ++ [k]) ^ 2).
Proof.
  intros E. unfold F2_fn. rewrite E, rev_app_distr. simpl. rewrite rev_involutive.
  eexists; split; [reflexivity|]. split; reflexivity.
Qed.

Lemma l2_spec diffs sh f :
  shape diffs = (sh ++ [f])%list ->
  exists t, l2_fn diffs = Ok t /\ shape t = sh /\
    forall idx, at_ t idx = sqrt (rsum f (fun k => at_ diffs (idx ++ [k]) ^ 2)).
Proof.
  intros E. unfold l2_fn. destruct (F2_spec diffs sh f E) as [t [Et [St At]]]. rewrite Et. simpl.
  eexists; split; [reflexivity|]. simpl. split; auto. intros; rewrite At; auto.
Qed.

Definition mdist (m : metric) (F : nat) (x y : nat -> R) : R :=
  match m with L2 => euclid F x y | F2 => sqdist F x y end.

Lemma metric_spec m diffs sh f :
  shape diffs = (sh ++ [f])%list ->
  exists t, metric_call m diffs = Ok t /\ shape t = sh /\
    forall idx, at_ t idx = match m with
      | L2 => sqrt (rsum f (fun k => at_ diffs (idx ++ [k]) ^ 2))
      | F2 => rsum f (fun k => at_ diffs (idx ++ [k]) ^ 2) end.
Proof. destruct m; simpl; [apply l2_spec|apply F2_spec]. Qed.

Lemma pairwise_distances_spec m data nix n b k :
  dataset data n -> shape nix = [b; k] ->
  (forall x i, (x < b)%nat -> (i < k)%nat -> ~ out_of_range n (at_ nix [x; i])) ->
  exists t, pairwise_distances m data nix = Ok t /\ shape t = [b; k; k]%nat /\
    forall x i j r r', (x < b)%nat -> (i < k)%nat -> (j < k)%nat ->
      selects n (at_ nix [x; i]) r -> selects n (at_ nix [x; j]) r' ->
      at_ t [x; i; j] = mdist m (feature_count data) (feature data r) (feature data r').
Proof.
  intros Hd Sn Hni. destruct (pairwise_spec data nix n b k Hd Sn Hni) as [d [Ed [Sd Ad]]].
  unfold pairwise_distances. rewrite Ed. cbn [bind].
  destruct (metric_spec m d [b; k; k]%nat (feature_count data) Sd) as [t [Et [St At]]].
  exists t. split; auto. split; auto. intros x i j r r' Hx Hi Hj Hr Hr'.
  rewrite At. unfold mdist, euclid, sqdist.
  assert (E : rsum (feature_count data) (fun q => at_ d ([x; i; j] ++ [q])%list ^ 2) =
              rsum (feature_count data) (fun q => (feature data r q - feature data r' q) ^ 2)).
  { apply rsum_ext. intros q Hq. cbn [app]. rewrite (Ad x i j q r r'); auto. }
  rewrite E. reflexivity.
Qed.

Lemma crosswise_distances_spec m data nn_data ix nix n n' b k :
  dataset data n -> dataset nn_data n' -> ndim data = ndim nn_data ->
  feature_count data = feature_count nn_data ->
  shape ix = [b] -> shape nix = [b; k] ->
  (forall x, (x < b)%nat -> ~ out_of_range n (at_ ix [x])) ->
  (forall x i, (x < b)%nat -> (i < k)%nat -> ~ out_of_range n' (at_ nix [x; i])) ->
  exists t, crosswise_distances m data nn_data ix nix = Ok t /\ shape t = [b; k]%nat /\
    forall x i r r', (x < b)%nat -> (i < k)%nat ->
      selects n (at_ ix [x]) r -> selects n' (at_ nix [x; i]) r' ->
      at_ t [x; i] = mdist m (feature_count data) (feature data r) (feature nn_data r').
Proof.
  intros Hd Hn End Ef Si Sn Hi Hni.
  destruct (crosswise_spec data nn_data ix nix n n' b k Hd Hn End Ef Si Sn Hi Hni) as [d [Ed [Sd Ad]]].
  unfold crosswise_distances. rewrite Ed. cbn [bind].
  destruct (metric_spec m d [b; k]%nat (feature_count data) Sd) as [t [Et [St At]]].
  exists t. split; auto. split; auto. intros x i r r' Hx Hi0 Hr Hr'.
  rewrite At. unfold mdist, euclid, sqdist.
  assert (E : rsum (feature_count data) (fun q => at_ d ([x; i] ++ [q])%list ^ 2) =
              rsum (feature_count data) (fun q => (feature data r q - feature nn_data r' q) ^ 2)).
  { apply rsum_ext. intros q Hq. cbn [app]. rewrite (Ad x i q r r'); auto. }
  rewrite E. reflexivity.
Qed.

(** Metric axioms *)
Lemma sqdist_nonneg F x y : 0 <= sqdist F x y.
Proof. apply rsum_nonneg. intros; apply pow2_ge_0. Qed.

Lemma sqdist_sym F x y : sqdist F x y = sqdist F y x.
Proof. apply rsum_ext; intros; ring. Qed.

Lemma sqdist_refl F x : sqdist F x x = 0.
Proof. unfold sqdist. rewrite (rsum_ext F _ (fun _ => 0)); [apply rsum_0|]. intros; ring. Qed.

Lemma euclid_nonneg F x y : 0 <= euclid F x y.
Proof. apply sqrt_pos. Qed.
Lemma euclid_sym F x y : euclid F x y = euclid F y x.
Proof. unfold euclid. rewrite sqdist_sym; auto. Qed.
Lemma euclid_refl F x : euclid F x x = 0.
Proof. unfold euclid. rewrite sqdist_refl. apply sqrt_0. Qed.
Lemma euclid_sq F x y : euclid F x y ^ 2 = sqdist F x y.
Proof. unfold euclid. rewrite <- Rsqr_pow2. apply Rsqr_sqrt. apply sqdist_nonneg. Qed.

Lemma euclid_zero F x y : euclid F x y = 0 <-> forall f, (f < F)%nat -> x f = y f.
Proof.
  split.
  - intros H f Hf. unfold euclid in H. apply sqrt_eq_0 in H; [|apply sqdist_nonneg].
    unfold sqdist in H.
    pose proof (rsum_zero_inv F (fun f => (x f - y f) ^ 2) (fun i _ => pow2_ge_0 _) H f Hf) as G.
    simpl in G. nra.
  - intros H. unfold euclid, sqdist. rewrite (rsum_ext F _ (fun _ => 0)).
    + rewrite rsum_0. apply sqrt_0.
    + intros f Hf. rewrite (H f Hf). ring.
Qed.

Lemma cauchy_schwarz F (a b : nat -> R) :
  rsum F (fun f => a f * b f) ^ 2 <= rsum F (fun f => a f ^ 2) * rsum F (fun f => b f ^ 2).
Proof.
  set (A := rsum F (fun f => a f ^ 2)). set (B := rsum F (fun f => b f ^ 2)).
  set (C := rsum F (fun f => a f * b f)).
  assert (HA : 0 <= A) by (apply rsum_nonneg; intros; apply pow2_ge_0).
  assert (P : forall t, 0 <= A * t ^ 2 - 2 * t * C + B).
  { intros t. assert (E : A * t ^ 2 - 2 * t * C + B = rsum F (fun f => (t * a f - b f) ^ 2)).
    { unfold A, B, C. rewrite <- rsum_scal_r, <- rsum_scal, <- rsum_minus, <- rsum_plus.
      apply rsum_ext; intros; ring. }
    rewrite E. apply rsum_nonneg. intros; apply pow2_ge_0. }
  destruct (Req_dec A 0) as [HA0|HA0].
  - assert (HC : C = 0).
    { destruct (Req_dec C 0) as [|N]; auto. exfalso.
      specialize (P ((B + 1) / (2 * C))). rewrite HA0 in P.
      replace (0 * ((B + 1) / (2 * C)) ^ 2 - 2 * ((B + 1) / (2 * C)) * C + B) with (-1) in P by (field; auto). lra. }
    rewrite HC, HA0. lra.
  - specialize (P (C / A)).
    replace (A * (C / A) ^ 2 - 2 * (C / A) * C + B) with (B - C ^ 2 / A) in P by (field; auto).
    assert (C ^ 2 / A <= B) by lra.
    apply (Rmult_le_compat_l A) in H; auto.
    replace (A * (C ^ 2 / A)) with (C ^ 2) in H by (field; auto). lra.
Qed.

Lemma norm_triangle F (a b : nat -> R) :
  sqrt (rsum F (fun f => (a f + b f) ^ 2)) <=
  sqrt (rsum F (fun f => a f ^ 2)) + sqrt (rsum F (fun f => b f ^ 2)).
Proof.
  set (A := rsum F (fun f => a f ^ 2)). set (B := rsum F (fun f => b f ^ 2)).
  assert (HA : 0 <= A) by (apply rsum_nonneg; intros; apply pow2_ge_0).
  assert (HB : 0 <= B) by (apply rsum_nonneg; intros; apply pow2_ge_0).
  pose proof (sqrt_pos A). pose proof (sqrt_pos B).
  assert (CS : rsum F (fun f => a f * b f) <= sqrt A * sqrt B).
  { rewrite <- sqrt_mult by auto.
    destruct (Rle_dec (rsum F (fun f => a f * b f)) 0) as [L|L].
    - eapply Rle_trans; [exact L|apply sqrt_pos].
    - rewrite <- (sqrt_pow2 (rsum F (fun f => a f * b f))) by lra.
      apply sqrt_le_1_alt. apply cauchy_schwarz. }
  rewrite <- (sqrt_pow2 (sqrt A + sqrt B)) by lra.
  apply sqrt_le_1_alt.
  replace ((sqrt A + sqrt B) ^ 2) with (sqrt A * sqrt A + 2 * (sqrt A * sqrt B) + sqrt B * sqrt B) by ring.
  rewrite !sqrt_sqrt by auto.
  assert (E : rsum F (fun f => (a f + b f) ^ 2) = A + 2 * rsum F (fun f => a f * b f) + B).
  { unfold A, B. rewrite <- rsum_scal, <- !rsum_plus. apply rsum_ext; intros; ring. }
  rewrite E. lra.
Qed.

Lemma euclid_triangle F x y z : euclid F x z <= euclid F x y + euclid F y z.
Proof.
  unfold euclid, sqdist.
  pose proof (norm_triangle F (fun f => x f - y f) (fun f => y f - z f)) as H.
  cbv beta in H.
  rewrite (rsum_ext F (fun f => (x f - z f) ^ 2) (fun f => (x f - y f + (y f - z f)) ^ 2)) by (intros; ring).
  exact H.
Qed.

Lemma mdist_translate m F x y c : mdist m F (fun f => x f + c f) (fun f => y f + c f) = mdist m F x y.
Proof.
  assert (E : sqdist F (fun f => x f + c f) (fun f => y f + c f) = sqdist F x y)
    by (apply rsum_ext; intros; ring).
  destruct m; simpl; unfold euclid; rewrite E; auto.
Qed.
