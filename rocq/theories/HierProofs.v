(** Proofs about hierarchical hyperparameters. *)
From Coq Require Import Lia Lra.
From Verif Require Import Base BaseFacts NdModel NdFacts RSum HyperModel NamedModel NamedSpec NamedProofs
  TensorModel TensorSpec TensorProofs KernelModel KernelSpec KernelProofs KernelLemmas LinAlgModel LinAlgSpec
  LinAlgFacts GPSpec WellPosedProofs FlowModel FlowSpec PointwiseSpec PointwiseProofs HierModel HierSpec.
Local Open Scope R_scope.

Lemma arange_in n x : (x < n)%nat -> selects n (at_ (arange n) [x]) x.
Proof. intros H. split; auto. Qed.
Lemma arange_range n idx : inb (shape (arange n)) idx -> ~ out_of_range n (at_ (arange n) idx).
Proof. intros H. apply inb_inv1 in H as [i [-> Hi]]. unfold out_of_range. cbn. lia. Qed.

(** Difference tensors on 1-D index arrays. *)
Lemma bshape_cross2 b m f : bshape [b; 1; f]%nat [m; f] = Some [b; m; f].
Proof.
  unfold bshape. cbn [rev app brev]. destruct (Nat.eqb_spec 1 m); subst; cbn; rewrite Nat.eqb_refl; reflexivity.
Qed.
Lemma bshape_pair2 n f : bshape [n; 1; f]%nat [1; n; f]%nat = Some [n; n; f].
Proof.
  unfold bshape. cbn [rev app brev]. destruct (Nat.eqb_spec 1 n); destruct (Nat.eqb_spec n 1); subst; try congruence;
    cbn; rewrite Nat.eqb_refl; reflexivity.
Qed.
Lemma crosswise_flat data nn_data n n' :
  dataset data n -> dataset nn_data n' -> ndim data = ndim nn_data -> feature_count data = feature_count nn_data ->
  exists t, crosswise_tensor data nn_data (arange n) (arange n') = Ok t /\ shape t = [n; n'; feature_count data] /\
    forall x i f, (x < n)%nat -> (i < n')%nat -> (f < feature_count data)%nat ->
      at_ t [x; i; f] = feature data x f - feature nn_data i f.
Proof.
  intros Hd Hn End Ef. unfold crosswise_tensor.
  destruct Hd as [Sd|[fc Sd]].
  - assert (Sd' : shape nn_data = [n']).
    { destruct Hn as [H|[f' H]]; auto. unfold ndim in End. rewrite Sd, H in End. discriminate. }
    destruct (take_ok data (arange n) n [] Sd (arange_range n)) as [L [EL [SL AL]]].
    destruct (take_ok nn_data (arange n') n' [] Sd' (arange_range n')) as [P [EP [SP AP]]].
    rewrite EL, EP. cbn [bind]. unfold ndim at 1. rewrite Sd. cbn [List.length Nat.eqb].
    cbn [app shape arange] in SL, SP.
    unfold ndim, newaxis. rewrite SL, SP. cbn [List.length firstn skipn app shape].
    match goal with |- context [bop Rminus ?x ?y] =>
      destruct (bop_spec Rminus x y [n; n'; 1]%nat (bshape_cross2 n n' 1)) as [t [Et [St At]]] end.
    exists t. split; [exact Et|]. unfold feature_count, feature. rewrite Sd, Sd'. split; [exact St|].
    intros x i f Hx Hi Hf. rewrite At. cbn [shape at_]. assert (f = 0%nat) by lia. subst f.
    unfold bidx. cbn [rev app bidx_rev Nat.eqb]. rewrite (bidx1 x n Hx), (bidx1 i n' Hi). cbn [rev app firstn skipn].
    pose proof (AL [x] [] x (inb1 _ _ Hx) (arange_in _ _ Hx)) as A1. pose proof (AP [i] [] i (inb1 _ _ Hi) (arange_in _ _ Hi)) as A2.
    cbn [app] in A1, A2. rewrite A1, A2. reflexivity.
  - assert (Sd' : shape nn_data = [n'; fc]).
    { destruct Hn as [H|[f' H]]; unfold ndim, feature_count in *; rewrite Sd, H in *; [discriminate|congruence]. }
    destruct (take_ok data (arange n) n [fc] Sd (arange_range n)) as [L [EL [SL AL]]].
    destruct (take_ok nn_data (arange n') n' [fc] Sd' (arange_range n')) as [P [EP [SP AP]]].
    rewrite EL, EP. cbn [bind]. unfold ndim at 1. rewrite Sd. cbn [List.length Nat.eqb].
    cbn [app shape arange] in SL, SP.
    unfold ndim, newaxis. rewrite SL. cbn [List.length Nat.sub firstn skipn app].
    match goal with |- context [bop Rminus ?x ?y] =>
      destruct (bop_spec Rminus x y [n; n'; fc]%nat) as [t [Et [St At]]] end.
    { cbn [shape]. rewrite SP. apply bshape_cross2. }
    exists t. split; [exact Et|]. unfold feature_count, feature. rewrite Sd, Sd'. split; [exact St|].
    intros x i f Hx Hi Hf. rewrite At. cbn [shape at_]. rewrite SP.
    unfold bidx. cbn [rev app bidx_rev Nat.eqb]. rewrite (bidx1 x n Hx), (bidx1 i n' Hi), (bidx1 f fc Hf). cbn [rev app firstn skipn].
    pose proof (AL [x] [f] x (inb1 _ _ Hx) (arange_in _ _ Hx)) as A1. pose proof (AP [i] [f] i (inb1 _ _ Hi) (arange_in _ _ Hi)) as A2.
    cbn [app] in A1, A2. rewrite A1, A2. reflexivity.
Qed.
Lemma pairwise_flat data n : dataset data n ->
  exists t, pairwise_tensor data (arange n) = Ok t /\ shape t = [n; n; feature_count data] /\
    forall x i f, (x < n)%nat -> (i < n)%nat -> (f < feature_count data)%nat ->
      at_ t [x; i; f] = feature data x f - feature data i f.
Proof.
  intros Hd. unfold pairwise_tensor.
  destruct Hd as [Sd|[fc Sd]].
  - destruct (take_ok data (arange n) n [] Sd (arange_range n)) as [P [EP [SP AP]]].
    rewrite EP. cbn [bind]. unfold ndim at 1. rewrite Sd. cbn [List.length Nat.eqb].
    cbn [app shape arange] in SP.
    unfold ndim, newaxis. rewrite SP. cbn [List.length Nat.sub firstn skipn app shape].
    match goal with |- context [bop Rminus ?x ?y] =>
      destruct (bop_spec Rminus x y [n; n; 1]%nat (bshape_pair2 n 1)) as [t [Et [St At]]] end.
    exists t. split; [exact Et|]. unfold feature_count, feature. rewrite Sd. split; [exact St|].
    intros x i f Hx Hi Hf. rewrite At. cbn [shape at_]. assert (f = 0%nat) by lia. subst f.
    unfold bidx. cbn [rev app bidx_rev Nat.eqb]. rewrite (bidx1 x n Hx), (bidx1 i n Hi). cbn [rev app firstn skipn].
    pose proof (AP [x] [] x (inb1 _ _ Hx) (arange_in _ _ Hx)) as A1. pose proof (AP [i] [] i (inb1 _ _ Hi) (arange_in _ _ Hi)) as A2.
    cbn [app] in A1, A2. rewrite A1, A2. reflexivity.
  - destruct (take_ok data (arange n) n [fc] Sd (arange_range n)) as [P [EP [SP AP]]].
    rewrite EP. cbn [bind]. unfold ndim at 1. rewrite Sd. cbn [List.length Nat.eqb].
    cbn [app shape arange] in SP.
    unfold ndim, newaxis. rewrite SP. cbn [List.length Nat.sub Nat.leb firstn skipn app shape].
    match goal with |- context [bop Rminus ?x ?y] =>
      destruct (bop_spec Rminus x y [n; n; fc]%nat (bshape_pair2 n fc)) as [t [Et [St At]]] end.
    exists t. split; [exact Et|]. unfold feature_count, feature. rewrite Sd. split; [exact St|].
    intros x i f Hx Hi Hf. rewrite At. cbn [shape at_].
    unfold bidx. cbn [rev app bidx_rev Nat.eqb]. rewrite (bidx1 x n Hx), (bidx1 i n Hi), (bidx1 f fc Hf). cbn [rev app firstn skipn].
    pose proof (AP [x] [f] x (inb1 _ _ Hx) (arange_in _ _ Hx)) as A1. pose proof (AP [i] [f] i (inb1 _ _ Hi) (arange_in _ _ Hi)) as A2.
    cbn [app] in A1, A2. rewrite A1, A2. reflexivity.
Qed.

(** The kernel tensors. *)
Lemma hk_pairwise hk cur k Z m : pointwise_kernel (feature_count Z) (hk_diffs hk cur) k -> dataset Z m ->
  exists K, (let! D := deform_pairwise (hk_def hk) Z (arange m) in hk_call hk cur D) = Ok K /\ shape K = [m; m] /\
    forall i j, (i < m)%nat -> (j < m)%nat -> at_ K [i; j] = kcov k Z Z i j.
Proof.
  intros [X P] D. rewrite pairwise_over. destruct (pairwise_flat Z m D) as [t [Et [St At]]]. rewrite Et. cbn [bind].
  destruct (P t [m; m] St) as (K & EK & SK & AK). exists K. split; auto. split; auto.
  intros i j Hi Hj. rewrite AK by (apply inb2; auto). unfold kcov. apply X. intros f Hf. cbn [app]. auto.
Qed.
Lemma hk_crosswise hk cur k X Z b m : pointwise_kernel (feature_count Z) (hk_diffs hk cur) k -> dataset X b -> dataset Z m ->
  ndim X = ndim Z -> feature_count X = feature_count Z ->
  exists K, (let! D := deform_crosswise (hk_def hk) X Z (arange b) (arange m) in hk_call hk cur D) = Ok K /\ shape K = [b; m] /\
    forall i j, (i < b)%nat -> (j < m)%nat -> at_ K [i; j] = kcov k X Z i j.
Proof.
  intros [E P] DX DZ N F. rewrite crosswise_over. destruct (crosswise_flat X Z b m DX DZ N F) as [t [Et [St At]]]. rewrite Et. cbn [bind].
  rewrite F in *.
  destruct (P t [b; m] St) as (K & EK & SK & AK). exists K. split; auto. split; auto.
  intros i j Hi Hj. rewrite AK by (apply inb2; auto). unfold kcov. apply E. intros f Hf. cbn [app]. auto.
Qed.

Lemma bind_bind {A B C} (r : result A) (f : A -> result B) (g : B -> result C) :
  (let! y := (let! x := r in f x) in g y) = (let! x := r in let! y := f x in g y).
Proof. destruct r; reflexivity. Qed.

Lemma dataset_head X n : dataset X n -> exists r, shape X = n :: r.
Proof. intros [H|[f H]]; rewrite H; eauto. Qed.

(** Constructor. *)
Lemma hier_init_mismatch hk cur Z v m : dataset Z m -> List.length (v_elems v) <> m -> hier_init hk cur Z v = Err ValueError.
Proof.
  intros D N. destruct (dataset_head _ _ D) as [r S]. unfold hier_init. rewrite S.
  apply Nat.eqb_neq in N. rewrite N. reflexivity.
Qed.
Lemma hier_init_ok hk cur k Z v m : pointwise_kernel (feature_count Z) (hk_diffs hk cur) k -> dataset Z m -> List.length (v_elems v) = m ->
  exists K, hier_init hk cur Z v = Ok (mkHier m Z v K hk) /\ shape K = [m; m] /\
    forall i j, (i < m)%nat -> (j < m)%nat -> at_ K [i; j] = kcov k Z Z i j.
Proof.
  intros P D E. destruct (hk_pairwise hk cur k Z m P D) as (K & EK & SK & AK).
  destruct (dataset_head _ _ D) as [r S]. exists K. split; auto. unfold hier_init. rewrite S, E, Nat.eqb_refl. cbn [negb].
  rewrite <- (bind_bind _ (hk_call hk cur) (fun K => Ok (mkHier m Z v K hk))). rewrite EK. reflexivity.
Qed.

(** Knot values in order, also after the keyword filtering done by the embedding. *)
Lemma knots_params (v : nvec) (cur : nat -> R) name m kw : knots_ok v name m kw ->
  List.length (v_elems v) = m /\
  knots_ok v name m (fst (vec_filter v cur kw)) /\
  vec_call v cur (fst (vec_filter v cur kw)) = map (fun e => kw_or kw (nm_name e) (cur (nm_loc e))) (v_elems v) /\
  (forall e, In e (v_elems v) -> kw_or (fst (vec_filter v cur kw)) (nm_name e) (cur (nm_loc e)) = kw_or kw (nm_name e) (cur (nm_loc e))).
Proof.
  intros (s0 & srcs & j & Hv & HF & OK & Hj & E).
  destruct (vec_init_elems s0 name srcs) as [E1 [E2 E3]]. rewrite <- Hv in *.
  assert (L : List.length (v_elems v) = m) by congruence. split; [exact L|].
  assert (ND : NoDup (map nm_name (v_elems v))) by (rewrite E2; apply vec_names_nodup, seq_NoDup).
  assert (PF : forall x, In x (v_elems v) -> String.prefix (v_name v) (nm_name x) = true).
  { intros x Hx. apply (in_map nm_name) in Hx. rewrite E2 in Hx. apply in_map_iff in Hx.
    destruct Hx as [i [<- _]]. rewrite E1. apply prefix_append. }
  set (P := fst (vec_filter v cur kw)).
  assert (KP : map fst P = map nm_name (v_elems v)).
  { unfold P, vec_filter, vec_defaults; cbn [fst].
    rewrite <- (firstn_skipn j (v_elems v)) at 1.
    rewrite vec_defaults_prefix.
    - rewrite map_app, map_map. cbn [fst]. rewrite E1, E.
      rewrite <- (firstn_skipn j (v_elems v)) at 2. rewrite map_app. f_equal.
      rewrite <- firstn_map, E2, firstn_map. f_equal.
      clear -Hj HF. subst m. revert j Hj. generalize 0%nat. induction (List.length srcs); intros k [|j] Hj; cbn; auto; try lia.
      f_equal. apply IHn; lia.
    - rewrite firstn_skipn; auto.
    - rewrite E1, E. rewrite <- firstn_map, E2, firstn_map. f_equal.
      clear -Hj HF. subst m. revert j Hj. generalize 0%nat. induction (List.length srcs); intros k [|j] Hj; cbn; auto; try lia.
      f_equal. apply IHn; lia. }
  assert (FP : filter (fun kv => String.prefix (v_name v) (fst kv)) P = P).
  { clear -KP PF. assert (H : forall e, In e P -> String.prefix (v_name v) (fst e) = true).
    { intros e He. apply (in_map fst) in He. rewrite KP in He. apply in_map_iff in He.
      destruct He as [x [<- Hx]]. auto. }
    clear KP. induction P as [|e P IH]; cbn [filter]; auto.
    rewrite (H e) by (left; auto). f_equal. apply IH. intros; apply H; right; auto. }
  assert (V : forall e, In e (v_elems v) -> kw_or P (nm_name e) (cur (nm_loc e)) = kw_or kw (nm_name e) (cur (nm_loc e))).
  { intros e He. unfold kw_or at 1. unfold P. rewrite (vec_filter_content v cur kw e ND PF He). reflexivity. }
  assert (DP : dict_ok P) by (unfold dict_ok; rewrite KP; exact ND).
  split; [|split; [|exact V]].
  - exists s0, srcs, m. split; auto. split; auto. split; auto. split; auto. rewrite <- E1, FP, KP, E2. rewrite E1, HF. reflexivity.
  - rewrite (vec_call_in_order v cur P (List.length (v_elems v))); auto.
    + apply map_ext_in. auto.
    + rewrite FP, KP, firstn_all. reflexivity.
Qed.

(** The value of the parameter. *)
Lemma squeeze1 (t : nd R) b : shape t = [b] -> shape (squeeze t) = (if (b =? 1)%nat then [] else [b]) /\
  forall x, (x < b)%nat -> at_ (squeeze t) (batch_idx b x) = at_ t [x].
Proof.
  intros S. unfold squeeze, squeeze_shape, batch_idx. cbn [shape at_]. rewrite S. cbn [filter unsqueeze_idx].
  destruct (Nat.eqb_spec b 1) as [->|N]; cbn [negb]; split; auto. intros x Hx. assert (x = 0%nat) by lia. subst x. reflexivity.
Qed.

Lemma hier_value ls (EX : exact_solver ls) hk cur k cur' k' Z v m h X b noise name kw :
  pointwise_kernel (feature_count Z) (hk_diffs hk cur) k -> pointwise_kernel (feature_count Z) (hk_diffs hk cur') k' ->
  dataset Z m -> knots_ok v name m kw ->
  hier_init hk cur Z v = Ok h -> dataset X b -> ndim X = ndim Z -> feature_count X = feature_count Z ->
  nonsingular m (plus_diag (kcov k Z Z) (fun _ => noise)) ->
  exists y alpha, hier_call ls cur' noise h X kw = Ok y /\ shape y = (if (b =? 1)%nat then [] else [b]) /\
    solves m (plus_diag (kcov k Z Z) (fun _ => noise)) alpha (knot_value v cur' kw) /\
    forall x, (x < b)%nat -> at_ y (batch_idx b x) = rsum m (fun j => kcov k' X Z x j * alpha j).
Proof.
  intros P P' DZ KO I DX N F NS.
  destruct (knots_params v cur' name m kw KO) as (LV & _ & VC & _).
  destruct (hier_init_ok hk cur k Z v m P DZ LV) as (K & EI & SK & AK). rewrite EI in I. injection I as <-.
  unfold hier_call. cbn [h_params h_Kin h_count h_features h_kernel].
  destruct (bop_spec Rplus K (scaled_eye noise m) [m; m]) as (Kn & EKn & SKn & AKn).
  { rewrite SK. apply bshape_refl. }
  rewrite EKn. cbn [bind]. rewrite VC. 
  set (vv := vec 0 (map (fun e => kw_or kw (nm_name e) (cur' (nm_loc e))) (v_elems v))).
  assert (SV : shape vv = [m]) by (unfold vv; cbn [shape vec]; rewrite map_length, LV; reflexivity).
  unfold solve_vec. rewrite SKn, SV. rewrite !Nat.eqb_refl.
  destruct EX as [EX1 EX2].
  assert (AM : forall i j, (i < m)%nat -> (j < m)%nat -> at_ Kn [i; j] = plus_diag (kcov k Z Z) (fun _ => noise) i j).
  { intros i j Hi Hj. rewrite AKn, SK. cbn [shape scaled_eye]. rewrite bidx_id by (apply inb2; auto). cbn [at_ scaled_eye].
    rewrite AK by auto. unfold plus_diag. destruct (Nat.eqb i j); ring. }
  assert (NS' : nonsingular m (fun i j => at_ Kn [i; j])).
  { intros x Hx. apply NS. apply (solves_ext m (fun i j => at_ Kn [i; j])); auto. }
  destruct (proj1 (EX2 m 1%nat (fun i j => at_ Kn [i; j]) (fun i _ => at_ vv [i])) NS') as [S ES]. rewrite ES. cbn [bind].
  pose proof (EX1 _ _ _ _ _ ES 0%nat ltac:(lia)) as SOL. cbn beta in SOL.
  destruct (dataset_head _ _ DX) as [rx SX]. destruct (dataset_head _ _ DZ) as [rz SZ]. rewrite SX, SZ.
  destruct (hk_crosswise hk cur' k' X Z b m P' DX DZ N F) as (C & EC & SC & AC).
  match goal with |- context [bind (deform_crosswise _ _ _ _ _) ?f] =>
    change f with (fun D => bind (hk_call hk cur' D) (fun C => let! y := matvec C (mkNd [m] (fun idx => match idx with [i] => S i 0%nat | _ => 0 end)) in Ok (squeeze y))) end.
  rewrite <- bind_bind, EC. cbn [bind]. unfold matvec. rewrite SC. cbn [shape]. rewrite Nat.eqb_refl. cbn [bind].
  set (y := mkNd [b] _). destruct (squeeze1 y b eq_refl) as [Q1 Q2].
  exists (squeeze y), (fun j => S j 0%nat). split; [reflexivity|]. split; [exact Q1|]. split.
  - apply (solves_ext m (fun i j => at_ Kn [i; j])); auto.
  - intros x Hx. rewrite Q2 by auto. unfold y. cbn [at_]. apply rsum_ext. intros j Hj. rewrite AC by auto. reflexivity.
Qed.

Lemma plus_diag_sym m A d : symmetric m A -> symmetric m (plus_diag A d).
Proof.
  intros S i j Hi Hj. unfold plus_diag. rewrite (S i j) by auto. rewrite (Nat.eqb_sym j i).
  destruct (Nat.eqb_spec i j); subst; reflexivity.
Qed.

Lemma hier_kriging ls (EX : exact_solver ls) hk cur k Z v m h X b noise name kw :
  pointwise_kernel (feature_count Z) (hk_diffs hk cur) k ->
  dataset Z m -> knots_ok v name m kw ->
  hier_init hk cur Z v = Ok h -> dataset X b -> ndim X = ndim Z -> feature_count X = feature_count Z ->
  (forall i j, kcov k Z Z i j = kcov k Z Z j i) ->
  nonsingular m (plus_diag (kcov k Z Z) (fun _ => noise)) ->
  exists y, hier_call ls cur noise h X kw = Ok y /\ shape y = (if (b =? 1)%nat then [] else [b]) /\
    forall x, (x < b)%nat -> knot_mean k noise Z m (knot_value v cur kw) X x (at_ y (batch_idx b x)).
Proof.
  intros P DZ KO I DX N F SY NS.
  destruct (hier_value ls EX hk cur k cur k Z v m h X b noise name kw P P DZ KO I DX N F NS) as (y & al & E & S & SOL & V).
  exists y. split; auto. split; auto. intros x Hx. unfold knot_mean, kriging.
  destruct EX as [EX1 EX2].
  destruct (proj1 (EX2 m 1%nat _ (fun i _ => kcov k X Z x i)) NS) as [W EW].
  pose proof (EX1 _ _ _ _ _ EW 0%nat ltac:(lia)) as SW. cbn beta in SW.
  exists (fun i => W i 0%nat). split; auto. rewrite V by auto.
  pose proof (symmetric_adjoint m _ _ _ _ _ (plus_diag_sym m _ (fun _ => noise) (fun i j _ _ => SY i j)) SW SOL) as A.
  unfold dot in *. rewrite <- A. apply rsum_ext. intros j Hj. ring.
Qed.

Lemma hier_at_knots ls (EX : exact_solver ls) hk cur k Z v m h noise name kw :
  pointwise_kernel (feature_count Z) (hk_diffs hk cur) k ->
  dataset Z m -> knots_ok v name m kw -> hier_init hk cur Z v = Ok h ->
  nonsingular m (plus_diag (kcov k Z Z) (fun _ => noise)) ->
  exists y alpha, hier_call ls cur noise h Z kw = Ok y /\
    solves m (plus_diag (kcov k Z Z) (fun _ => noise)) alpha (knot_value v cur kw) /\
    forall i, (i < m)%nat -> at_ y (batch_idx m i) = knot_value v cur kw i - noise * alpha i.
Proof.
  intros P DZ KO I NS.
  destruct (hier_value ls EX hk cur k cur k Z v m h Z m noise name kw P P DZ KO I DZ eq_refl eq_refl NS) as (y & al & E & S & SOL & V).
  exists y, al. split; auto. split; auto. intros i Hi. rewrite V by auto. rewrite <- (SOL i Hi).
  assert (H : rsum m (fun j => plus_diag (kcov k Z Z) (fun _ => noise) i j * al j) =
              rsum m (fun j => kcov k Z Z i j * al j) + noise * al i).
  { unfold plus_diag.
    rewrite (rsum_ext m _ (fun j => kcov k Z Z i j * al j + (if Nat.eqb i j then noise else 0) * al j)) by (intros; ring).
    rewrite rsum_plus. f_equal.
    rewrite (rsum_ext m _ (fun j => delta j i * (noise * al j))).
    - apply (rsum_delta m i (fun j => noise * al j)). auto.
    - intros j Hj. unfold delta. rewrite (Nat.eqb_sym j i). destruct (Nat.eqb i j); ring. }
  rewrite H. ring.
Qed.

(** ** One length scale per batch element *)
Lemma brev_ones l b : brev (l ++ [b]) (map (fun _ : nat => 1%nat) l ++ [b]) = Some (l ++ [b])%list.
Proof.
  induction l as [|a l IH]; cbn [app map brev].
  - rewrite Nat.eqb_refl. reflexivity.
  - rewrite IH. destruct (Nat.eqb_spec a 1); subst; reflexivity.
Qed.
Lemma bidx_ones l b idx x : List.length idx = List.length l -> (x < b)%nat ->
  bidx_rev (map (fun _ : nat => 1%nat) l ++ [b]) (idx ++ [x]) = (map (fun _ : nat => 0%nat) l ++ [x])%list.
Proof.
  revert idx. induction l as [|a l IH]; intros [|i idx] L Hx; try discriminate; cbn [app map bidx_rev].
  - rewrite bidx1; auto.
  - cbn [Nat.eqb]. rewrite IH; auto.
Qed.

Lemma isotropy_array_spec m dists l b ds : shape dists = (b :: ds)%list -> shape l = (if (b =? 1)%nat then [] else [b]) ->
  exists t, isotropy_call_array m dists l = Ok t /\ shape t = (b :: ds)%list /\
    forall x idx, inb (b :: ds) (x :: idx) -> at_ t (x :: idx) = scale_entry m (at_ l (batch_idx b x)) (at_ dists (x :: idx)).
Proof.
  intros SD SL. unfold isotropy_call_array, batch_idx. rewrite SL, SD. destruct (Nat.eqb_spec b 1) as [->|N].
  - eexists. split; [reflexivity|]. split; [exact SD|]. reflexivity.
  - match goal with |- context [bop _ _ ?L] =>
      destruct (bop_spec (fun x y => scale_entry m y x) dists L (b :: ds)%list) as (t & Et & St & At) end.
    { cbn [shape]. rewrite app_nil_r, SD. unfold bshape. cbn [rev]. rewrite <- (map_rev (fun _ : nat => 1%nat) ds).
      rewrite brev_ones. cbn [option_map]. rewrite rev_app_distr, rev_involutive; cbn [rev app]; reflexivity. }
    exists t. split; [exact Et|]. split; [exact St|]. intros x idx H. rewrite At, SD. rewrite (bidx_id (b :: ds)%list (x :: idx)%list H). cbn [shape at_].
    apply inb_inv_cons in H as (x' & idx' & Q & Hx & Hi). injection Q as <- <-.
    rewrite app_nil_r. unfold bidx. cbn [rev]. rewrite <- (map_rev (fun _ : nat => 1%nat) ds).
    rewrite bidx_ones; [|rewrite !rev_length; apply (inb_length _ _ Hi)|exact Hx].
    rewrite rev_app_distr. cbn [rev app hd skipn].
    rewrite (skipn_all2 (rev (map (fun _ : nat => 0%nat) (rev ds)))); [reflexivity|].
    rewrite rev_length, map_length, rev_length. auto.
Qed.

Lemma hier_embed_spec ls (EX : exact_solver ls) hk cur k Z v n h X b noise name kw m dists ds fn :
  pointwise_kernel (feature_count Z) (hk_diffs hk cur) k ->
  dataset Z n -> knots_ok v name n kw ->
  hier_init hk cur Z v = Ok h -> dataset X b -> ndim X = ndim Z -> feature_count X = feature_count Z ->
  (forall i j, kcov k Z Z i j = kcov k Z Z j i) ->
  nonsingular n (plus_diag (kcov k Z Z) (fun _ => noise)) ->
  shape dists = (b :: ds)%list ->
  exists (len : nat -> R) t, hier_embed ls m cur noise h fn dists (Some X) kw = fn t (snd (vec_filter v cur kw)) /\
    (forall x, (x < b)%nat -> knot_mean k noise Z n (knot_value v cur kw) X x (len x)) /\
    shape t = shape dists /\
    forall x idx, inb (shape dists) (x :: idx) -> at_ t (x :: idx) = scale_entry m (len x) (at_ dists (x :: idx)).
Proof.
  intros P DZ KO I DX N F SY NS SD.
  destruct (knots_params v cur name n kw KO) as (LV & KO' & _ & VV).
  destruct (hier_init_ok hk cur k Z v n P DZ LV) as (K & EI & SK & AK).
  destruct (hier_kriging ls EX hk cur k Z v n h X b noise name (fst (vec_filter v cur kw)) P DZ KO' I DX N F SY NS) as (y & EY & SY' & VY).
  destruct (isotropy_array_spec m dists y b ds SD SY') as (t & Et & St & At).
  exists (fun x => at_ y (batch_idx b x)), t.
  assert (HP : h_params h = v) by (rewrite EI in I; injection I as <-; reflexivity).
  split; [|split; [|split]].
  - unfold hier_embed, hier_filter. rewrite HP. destruct (vec_filter v cur kw) as [ps rest]. cbn [fst snd] in *.
    rewrite EY. cbn [bind fst snd]. rewrite Et. reflexivity.
  - intros x Hx. specialize (VY x Hx). unfold knot_mean in *.
    destruct VY as (w & W1 & W2). exists w. split; auto. rewrite W2. unfold dot. apply rsum_ext. intros i Hi. f_equal.
    unfold knot_value. f_equal. apply map_ext_in. auto.
  - congruence.
  - intros x idx H. rewrite SD in H. auto.
Qed.

(** ** Kernels with a hierarchical length scale *)
Lemma hier_rbf_spec ls (EX : exact_solver ls) hk cur k Z v n h X b noise kw dists ds :
  pointwise_kernel (feature_count Z) (hk_diffs hk cur) k ->
  dataset Z n -> knots_ok v "length_scale" n kw ->
  hier_init hk cur Z v = Ok h -> dataset X b -> ndim X = ndim Z -> feature_count X = feature_count Z ->
  (forall i j, kcov k Z Z i j = kcov k Z Z j i) ->
  nonsingular n (plus_diag (kcov k Z Z) (fun _ => noise)) ->
  shape dists = (b :: ds)%list ->
  exists (len : nat -> R) K, hier_rbf ls F2 cur noise h dists (Some X) kw = Ok K /\ shape K = shape dists /\
    (forall x, (x < b)%nat -> knot_mean k noise Z n (knot_value v cur kw) X x (len x)) /\
    forall x idx, inb (shape dists) (x :: idx) -> at_ K (x :: idx) = exp (- (at_ dists (x :: idx) / len x ^ 2) / 2).
Proof.
  intros P DZ KO I DX N F SY NS SD.
  destruct (hier_embed_spec ls EX hk cur k Z v n h X b noise "length_scale" kw F2 dists ds
              (fun x _ => Ok (ndmap rbf_entry x)) P DZ KO I DX N F SY NS SD) as (len & t & E & KM & S & A).
  exists len, (ndmap rbf_entry t). split; [exact E|]. split; [exact S|]. split; [exact KM|].
  intros x idx H. cbn [ndmap at_]. rewrite A by auto. reflexivity.
Qed.
Lemma hier_matern_spec ls (EX : exact_solver ls) gamma kv sm p hk cur k Z v n h X b noise kw dists ds :
  nm_name sm = "smoothness"%string ->
  pointwise_kernel (feature_count Z) (hk_diffs hk cur) k ->
  dataset Z n -> knots_ok v "length_scale" n kw ->
  hier_init hk cur Z v = Ok h -> dataset X b -> ndim X = ndim Z -> feature_count X = feature_count Z ->
  (forall i j, kcov k Z Z i j = kcov k Z Z j i) ->
  nonsingular n (plus_diag (kcov k Z Z) (fun _ => noise)) ->
  shape dists = (b :: ds)%list ->
  exists (len : nat -> R) K,
    hier_matern gamma kv ls L2 sm (set_matern_fn p) cur noise h dists (Some X) kw = Ok K /\ shape K = shape dists /\
    (forall x, (x < b)%nat -> knot_mean k noise Z n (knot_value v cur kw) X x (len x)) /\
    forall x idx, inb (shape dists) (x :: idx) -> at_ K (x :: idx) =
      matern_value gamma kv (formula_for p) (kw_or kw "smoothness" (cur (nm_loc sm))) (at_ dists (x :: idx) / len x).
Proof.
  intros SN P DZ KO I DX N F SY NS SD.
  destruct (hier_embed_spec ls EX hk cur k Z v n h X b noise "length_scale" kw L2 dists ds
              (fun x rest => named_apply_fn sm (matern_backend gamma kv (set_matern_fn p) x) cur rest)
              P DZ KO I DX N F SY NS SD) as (len & t & E & KM & S & A).
  assert (R0 : dget (snd (vec_filter v cur kw)) "smoothness" = dget kw "smoothness").
  { rewrite vec_filter_rest. destruct KO as (s0 & srcs & j & Hv & _).
    destruct (vec_init_elems s0 "length_scale" srcs) as [E1 _]. rewrite <- Hv in E1. rewrite E1. reflexivity. }
  destruct (matern_apply gamma kv p sm cur (snd (vec_filter v cur kw)) kw t SN R0) as (K & E2 & S2 & A2).
  exists len, K. split; [unfold hier_matern; rewrite E; exact E2|]. split; [congruence|]. split; [exact KM|].
  intros x idx H. rewrite A2, A by auto. reflexivity.
Qed.

(** ** Gaussian higher-level kernel *)
Lemma rbf_kcov_ns d F cur kw X n noise : 0 < noise ->
  nonsingular n (plus_diag (kcov (rbf_cov d F cur kw) X X) (fun _ => noise)).
Proof.
  intros HN. apply pd_nonsingular, plus_diag_pd; auto. apply (rbf_kcov_psd d F cur kw X n (fun i => i)).
Qed.
Lemma rbf_hk_pointwise d F cur : deformation_ok d F [] -> (0 < F)%nat -> positive_scales d F cur [] -> metric_of d = F2 ->
  pointwise_kernel F (hk_diffs (mkHK d (fun cur D => rbf_call d cur D [])) cur) (rbf_cov d F cur []).
Proof. intros. unfold hk_diffs. cbn [hk_def hk_call]. apply rbf_pointwise; auto. Qed.
Lemma hier_rbf_knots ls (EX : exact_solver ls) d cur Z v n X b noise name kw :
  deformation_ok d (feature_count Z) [] -> (0 < feature_count Z)%nat -> positive_scales d (feature_count Z) cur [] -> metric_of d = F2 ->
  dataset Z n -> knots_ok v name n kw -> dataset X b -> ndim X = ndim Z -> feature_count X = feature_count Z -> 0 < noise ->
  exists h y, hier_init (mkHK d (fun cur D => rbf_call d cur D [])) cur Z v = Ok h /\
    hier_call ls cur noise h X kw = Ok y /\ shape y = (if (b =? 1)%nat then [] else [b]) /\
    forall x, (x < b)%nat -> knot_mean (rbf_cov d (feature_count Z) cur []) noise Z n (knot_value v cur kw) X x (at_ y (batch_idx b x)).
Proof.
  intros OK HF POS M DZ KO DX N F HN.
  pose proof (rbf_hk_pointwise d (feature_count Z) cur OK HF POS M) as P.
  destruct (knots_params v cur name n kw KO) as (LV & _).
  destruct (hier_init_ok _ cur _ Z v n P DZ LV) as (K & EI & _).
  destruct (hier_kriging ls EX _ cur _ Z v n _ X b noise name kw P DZ KO EI DX N F (fun i j => rbf_kcov_sym d _ cur [] Z i j)
              (rbf_kcov_ns d _ cur [] Z n noise HN)) as (y & E & S & V).
  eexists; exists y. split; [exact EI|]. auto.
Qed.
