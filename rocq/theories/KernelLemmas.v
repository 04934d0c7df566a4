(** Kernels on data sets: lemmas in the form of the property theorems C25-C28 and their cases. *)
From Coq Require Import Lia Lra.
From Verif Require Import Base BaseFacts NdModel NdFacts RSum HyperModel NamedModel NamedSpec NamedProofs
  HyperLemmas TensorModel TensorSpec TensorProofs TensorLemmas KernelModel KernelSpec KernelProofs LinAlgSpec
  LinAlgFacts GPSpec.
Local Open Scope R_scope.

(** The length-scale array an anisotropic deformation receives through the embedding. *)
Lemma aniso_array (v : nvec) (cur : nat -> R) kw F m :
  deformation_ok (Aniso m v) F kw ->
  List.length (v_elems v) = F /\
  vec_call v cur (fst (vec_filter v cur kw)) =
  map (fun e => kw_or kw (nm_name e) (cur (nm_loc e))) (v_elems v).
Proof.
  intros (s0 & srcs & j & Hv & HF & OK & Hj & E).
  destruct (vec_init_elems s0 "length_scale" srcs) as [E1 [E2 E3]]. rewrite <- Hv in *.
  split; [congruence|].
  assert (ND : NoDup (map nm_name (v_elems v))) by (rewrite E2; apply vec_names_nodup, seq_NoDup).
  assert (PF : forall x, In x (v_elems v) -> String.prefix (v_name v) (nm_name x) = true).
  { intros x Hx. apply (in_map nm_name) in Hx. rewrite E2 in Hx. apply in_map_iff in Hx.
    destruct Hx as [i [<- _]]. rewrite E1. cbn. destruct (str_nat i); reflexivity. }
  set (P := fst (vec_filter v cur kw)).
  assert (KP : map fst P = map nm_name (v_elems v)).
  { unfold P, vec_filter, vec_defaults; cbn [fst].
    rewrite <- (firstn_skipn j (v_elems v)) at 1.
    rewrite vec_defaults_prefix.
    - rewrite map_app, map_map. cbn [fst]. rewrite E1, E.
      rewrite <- (firstn_skipn j (v_elems v)) at 2. rewrite map_app. f_equal.
      rewrite <- firstn_map, E2, firstn_map. f_equal.
      clear -Hj HF. subst F. revert j Hj. generalize 0%nat. induction (List.length srcs); intros k [|j] Hj; cbn; auto; try lia.
      f_equal. apply IHn; lia.
    - rewrite firstn_skipn; auto.
    - rewrite E1, E. rewrite <- firstn_map, E2, firstn_map. f_equal.
      clear -Hj HF. subst F. revert j Hj. generalize 0%nat. induction (List.length srcs); intros k [|j] Hj; cbn; auto; try lia.
      f_equal. apply IHn; lia. }
  assert (FP : filter (fun kv => String.prefix (v_name v) (fst kv)) P = P).
  { clear -KP PF. assert (H : forall e, In e P -> String.prefix (v_name v) (fst e) = true).
    { intros e He. apply (in_map fst) in He. rewrite KP in He. apply in_map_iff in He.
      destruct He as [x [<- Hx]]. auto. }
    clear KP. induction P as [|e P IH]; cbn [filter]; auto.
    rewrite (H e) by (left; auto). f_equal. apply IH. intros; apply H; right; auto. }
  rewrite (vec_call_in_order v cur P (List.length (v_elems v))); auto.
  - apply map_ext_in. intros e He. unfold kw_or at 1. unfold P.
    rewrite (vec_filter_content v cur kw e ND PF He). reflexivity.
  - unfold dict_ok. rewrite KP. exact ND.
  - rewrite FP, KP, firstn_all. reflexivity.
Qed.


Lemma metric_mdist m F (x y : nat -> R) l : 0 < l ->
  scale_entry m l (mdist m F x y) = deformed m F (fun _ => l) x y.
Proof.
  intros Hl. unfold deformed, scaled_sqdist, mdist, euclid, sqdist. destruct m; cbn [scale_entry].
  - rewrite (l2_scale F (fun f => x f - y f) l Hl). reflexivity.
  - rewrite (F2_scale F (fun f => x f - y f) l) by lra. reflexivity.
Qed.

Lemma deformed_ext m F l l' x x' y y' :
  (forall f, (f < F)%nat -> (x f - y f) / l f = (x' f - y' f) / l' f) ->
  deformed m F l x y = deformed m F l' x' y'.
Proof.
  intros H. unfold deformed, scaled_sqdist.
  assert (E : rsum F (fun f => ((x f - y f) / l f) ^ 2) = rsum F (fun f => ((x' f - y' f) / l' f) ^ 2)).
  { apply rsum_ext. intros f Hf. rewrite H; auto. }
  rewrite E. reflexivity.
Qed.

(** Evaluation on a tensor of metric distances (Iso) or differences (others) whose entry at [idx]
    belongs to the pair of points [P idx], [Q idx]. *)
Lemma embed_spec d F cur kw D sh (P Q : list nat -> nat -> R) :
  deformation_ok d F kw -> (0 < F)%nat -> positive_scales d F cur kw ->
  match d with
  | Iso m _ => shape D = sh /\ forall idx, inb sh idx -> at_ D idx = mdist m F (P idx) (Q idx)
  | _ => shape D = (sh ++ [F])%list /\
         forall idx f, inb sh idx -> (f < F)%nat -> at_ D (idx ++ [f])%list = P idx f - Q idx f
  end ->
  exists t rest,
    (forall fn, embed d fn cur D kw = fn t rest) /\ shape t = sh /\
    (forall idx, inb sh idx -> at_ t idx = deformed (metric_of d) F (scale_of d cur kw) (P idx) (Q idx)) /\
    dget rest "smoothness" = dget kw "smoothness".
Proof.
  intros OK HF POS H. destruct d as [m n|m n|m v]; cbn [metric_of].
  - destruct H as [S A]. cbn in OK.
    exists (apply_length_scale m D (scale_of (Iso m n) cur kw 0)), (snd (named_filter n cur kw)).
    assert (Hl : 0 < scale_of (Iso m n) cur kw 0) by (apply POS; auto).
    split; [|split; [exact S|split]].
    + intros fn. cbn [embed deform_call]. unfold named_embed.
      pose proof (named_filter_params n cur kw "length_scale") as G. rewrite OK in G.
      destruct (named_filter n cur kw) as [ps rest]. cbn [fst snd] in *.
      unfold isotropy_call. rewrite G. reflexivity.
    + intros idx Hi. cbn [apply_length_scale ndmap at_]. rewrite A by auto.
      rewrite metric_mdist by auto. reflexivity.
    + rewrite named_filter_rest, OK. reflexivity.
  - destruct H as [S A]. cbn in OK.
    assert (Hl : 0 < scale_of (DiffIso m n) cur kw 0) by (apply POS; auto).
    set (l := scale_of (DiffIso m n) cur kw 0) in *.
    destruct (metric_spec m (ndmap (fun x => x / l) D) sh F S) as [t [Et [St At]]].
    exists t, (snd (named_filter n cur kw)).
    split; [|split; [exact St|split]].
    + intros fn. cbn [embed deform_call]. unfold named_embed.
      pose proof (named_filter_params n cur kw "length_scale") as G. rewrite OK in G.
      destruct (named_filter n cur kw) as [ps rest]. cbn [fst snd] in *.
      rewrite String.eqb_refl in G.
      unfold diff_isotropy_call. rewrite G.
      change (kw_or kw "length_scale" (cur (nm_loc n))) with l.
      rewrite Et. reflexivity.
    + intros idx Hi. rewrite At. unfold deformed, scaled_sqdist.
      assert (E : rsum F (fun k => at_ (ndmap (fun x => x / l) D) (idx ++ [k])%list ^ 2) =
                  rsum F (fun f => ((P idx f - Q idx f) / scale_of (DiffIso m n) cur kw f) ^ 2)).
      { apply rsum_ext. intros f Hf. cbn [ndmap at_]. rewrite A by auto. reflexivity. }
      rewrite E. reflexivity.
    + rewrite named_filter_rest, OK. reflexivity.
  - destruct H as [S A].
    destruct (aniso_array v cur kw F m OK) as [HL HA].
    set (params := fst (vec_filter v cur kw)) in *.
    destruct (anisotropy_spec m v cur params D sh) as [t [Et [St At]]].
    { rewrite S, HL. reflexivity. }
    { rewrite HA, map_length. reflexivity. }
    exists t, (snd (vec_filter v cur kw)). split; [|split; [exact St|split]].
    + intros fn. cbn [embed deform_call]. unfold vec_embed.
      unfold params in Et. destruct (vec_filter v cur kw) as [ps rest]. cbn [fst snd] in *.
      rewrite Et. reflexivity.
    + intros idx Hi. rewrite At by auto. unfold deformed, scaled_sqdist. rewrite HL, HA.
      assert (E : rsum F (fun f => (at_ D (idx ++ [f])%list /
                    nth f (map (fun e => kw_or kw (nm_name e) (cur (nm_loc e))) (v_elems v)) 0) ^ 2) =
                  rsum F (fun f => ((P idx f - Q idx f) / scale_of (Aniso m v) cur kw f) ^ 2)).
      { apply rsum_ext. intros f Hf. rewrite A by auto. reflexivity. }
      rewrite E. reflexivity.
    + rewrite vec_filter_rest. destruct OK as (s0 & srcs & j & Hv & _).
      destruct (vec_init_elems s0 "length_scale" srcs) as [E1 _]. rewrite <- Hv in E1. rewrite E1.
      reflexivity.
Qed.

(** The row an in-range index selects (used to name points in specifications of tensors). *)
Definition row_of (n : nat) (i : Z) : nat := match norm_index n i with Some r => r | None => O end.

Lemma row_of_selects n i : ~ out_of_range n i -> selects n i (row_of n i).
Proof.
  intros H. unfold row_of. destruct (norm_index n i) eqn:E; [apply norm_index_some; auto|].
  apply norm_index_none in E. contradiction.
Qed.
Lemma selects_row_of n i r : selects n i r -> row_of n i = r.
Proof. intros H. apply norm_index_some in H. unfold row_of. rewrite H. reflexivity. Qed.

Lemma pairwise_embed d data nix n b k cur kw :
  dataset data n -> shape nix = [b; k]%nat ->
  (forall x i, (x < b)%nat -> (i < k)%nat -> ~ out_of_range n (at_ nix [x; i])) ->
  deformation_ok d (feature_count data) kw -> (0 < feature_count data)%nat ->
  positive_scales d (feature_count data) cur kw ->
  exists D t rest, deform_pairwise d data nix = Ok D /\
    (forall fn, embed d fn cur D kw = fn t rest) /\ shape t = [b; k; k]%nat /\
    (forall x i j r r', (x < b)%nat -> (i < k)%nat -> (j < k)%nat ->
      selects n (at_ nix [x; i]) r -> selects n (at_ nix [x; j]) r' ->
      at_ t [x; i; j] = deformed (metric_of d) (feature_count data) (scale_of d cur kw)
                          (feature data r) (feature data r')) /\
    dget rest "smoothness" = dget kw "smoothness".
Proof.
  intros Hd Sn Hr OK HF POS.
  set (F := feature_count data) in *.
  set (P := fun idx : list nat => match idx with [x; i; j] => feature data (row_of n (at_ nix [x; i])) | _ => fun _ => 0 end).
  set (Q := fun idx : list nat => match idx with [x; i; j] => feature data (row_of n (at_ nix [x; j])) | _ => fun _ => 0 end).
  assert (X : exists D, deform_pairwise d data nix = Ok D /\
    match d with
    | Iso m _ => shape D = [b; k; k]%nat /\ forall idx, inb [b; k; k]%nat idx -> at_ D idx = mdist m F (P idx) (Q idx)
    | _ => shape D = ([b; k; k]%nat ++ [F])%list /\
         forall idx f, inb [b; k; k]%nat idx -> (f < F)%nat -> at_ D (idx ++ [f])%list = P idx f - Q idx f
    end).
  { destruct d as [m nn|m nn|m v].
    - destruct (pairwise_distances_spec m data nix n b k Hd Sn Hr) as [D [ED [SD AD]]].
      exists D. split; [exact ED|]. split; [exact SD|]. intros idx Hi. apply inb_inv3 in Hi.
      destruct Hi as (x & i & j & -> & Hx & Hi & Hj). cbn. apply AD; auto; apply row_of_selects; auto.
    - destruct (pairwise_spec data nix n b k Hd Sn Hr) as [D [ED [SD AD]]].
      exists D. split; [exact ED|]. split; [exact SD|]. intros idx f Hi Hf. apply inb_inv3 in Hi.
      destruct Hi as (x & i & j & -> & Hx & Hi & Hj). cbn. apply AD; auto; apply row_of_selects; auto.
    - destruct (pairwise_spec data nix n b k Hd Sn Hr) as [D [ED [SD AD]]].
      exists D. split; [exact ED|]. split; [exact SD|]. intros idx f Hi Hf. apply inb_inv3 in Hi.
      destruct Hi as (x & i & j & -> & Hx & Hi & Hj). cbn. apply AD; auto; apply row_of_selects; auto. }
  destruct X as [D [ED X]].
  destruct (embed_spec d F cur kw D [b; k; k]%nat P Q OK HF POS X) as (t & rest & Et & St & At & Hs).
  exists D, t, rest. split; auto. split; auto. split; auto. split; auto.
  intros x i j r r' Hx Hi Hj R R'. rewrite At by (apply inb3; auto). unfold P, Q.
  rewrite (selects_row_of _ _ _ R), (selects_row_of _ _ _ R'). reflexivity.
Qed.

Lemma crosswise_embed d data nn_data ix nix n n' b k cur kw :
  dataset data n -> dataset nn_data n' -> ndim data = ndim nn_data ->
  feature_count data = feature_count nn_data ->
  shape ix = [b] -> shape nix = [b; k]%nat ->
  (forall x, (x < b)%nat -> ~ out_of_range n (at_ ix [x])) ->
  (forall x i, (x < b)%nat -> (i < k)%nat -> ~ out_of_range n' (at_ nix [x; i])) ->
  deformation_ok d (feature_count data) kw -> (0 < feature_count data)%nat ->
  positive_scales d (feature_count data) cur kw ->
  exists D t rest, deform_crosswise d data nn_data ix nix = Ok D /\
    (forall fn, embed d fn cur D kw = fn t rest) /\ shape t = [b; k]%nat /\
    (forall x i r r', (x < b)%nat -> (i < k)%nat ->
      selects n (at_ ix [x]) r -> selects n' (at_ nix [x; i]) r' ->
      at_ t [x; i] = deformed (metric_of d) (feature_count data) (scale_of d cur kw)
                          (feature data r) (feature nn_data r')) /\
    dget rest "smoothness" = dget kw "smoothness".
Proof.
  intros Hd Hn En Ef Si Sn Hi Hr OK HF POS.
  set (F := feature_count data) in *.
  set (P := fun idx : list nat => match idx with [x; i] => feature data (row_of n (at_ ix [x])) | _ => fun _ => 0 end).
  set (Q := fun idx : list nat => match idx with [x; i] => feature nn_data (row_of n' (at_ nix [x; i])) | _ => fun _ => 0 end).
  assert (X : exists D, deform_crosswise d data nn_data ix nix = Ok D /\
    match d with
    | Iso m _ => shape D = [b; k]%nat /\ forall idx, inb [b; k]%nat idx -> at_ D idx = mdist m F (P idx) (Q idx)
    | _ => shape D = ([b; k]%nat ++ [F])%list /\
         forall idx f, inb [b; k]%nat idx -> (f < F)%nat -> at_ D (idx ++ [f])%list = P idx f - Q idx f
    end).
  { destruct d as [m nn|m nn|m v].
    - destruct (crosswise_distances_spec m data nn_data ix nix n n' b k Hd Hn En Ef Si Sn Hi Hr) as [D [ED [SD AD]]].
      exists D. split; [exact ED|]. split; [exact SD|]. intros idx H. apply inb_inv2 in H.
      destruct H as (x & i & -> & Hx & Hii). cbn. apply AD; auto; apply row_of_selects; auto.
    - destruct (crosswise_spec data nn_data ix nix n n' b k Hd Hn En Ef Si Sn Hi Hr) as [D [ED [SD AD]]].
      exists D. split; [exact ED|]. split; [exact SD|]. intros idx f H Hf. apply inb_inv2 in H.
      destruct H as (x & i & -> & Hx & Hii). cbn. apply AD; auto; apply row_of_selects; auto.
    - destruct (crosswise_spec data nn_data ix nix n n' b k Hd Hn En Ef Si Sn Hi Hr) as [D [ED [SD AD]]].
      exists D. split; [exact ED|]. split; [exact SD|]. intros idx f H Hf. apply inb_inv2 in H.
      destruct H as (x & i & -> & Hx & Hii). cbn. apply AD; auto; apply row_of_selects; auto. }
  destruct X as [D [ED X]].
  destruct (embed_spec d F cur kw D [b; k]%nat P Q OK HF POS X) as (t & rest & Et & St & At & Hs).
  exists D, t, rest. split; auto. split; auto. split; auto. split; auto.
  intros x i r r' Hx Hii R R'. rewrite At by (apply inb2; auto). unfold P, Q.
  rewrite (selects_row_of _ _ _ R), (selects_row_of _ _ _ R'). reflexivity.
Qed.

(** ** Kernel values on data *)

Lemma rbf_pairwise d data nix n b k cur kw :
  dataset data n -> shape nix = [b; k]%nat ->
  (forall x i, (x < b)%nat -> (i < k)%nat -> ~ out_of_range n (at_ nix [x; i])) ->
  deformation_ok d (feature_count data) kw -> (0 < feature_count data)%nat ->
  positive_scales d (feature_count data) cur kw -> metric_of d = F2 ->
  exists D K, deform_pairwise d data nix = Ok D /\ rbf_call d cur D kw = Ok K /\ shape K = [b; k; k]%nat /\
    forall x i j r r', (x < b)%nat -> (i < k)%nat -> (j < k)%nat ->
      selects n (at_ nix [x; i]) r -> selects n (at_ nix [x; j]) r' ->
      at_ K [x; i; j] = exp (- scaled_sqdist (feature_count data) (scale_of d cur kw) (feature data r) (feature data r') / 2).
Proof.
  intros Hd Sn Hr OK HF POS M.
  destruct (pairwise_embed d data nix n b k cur kw Hd Sn Hr OK HF POS) as (D & t & rest & ED & Et & St & At & _).
  exists D, (ndmap rbf_entry t). split; auto. split; [|split; [exact St|]].
  - unfold rbf_call. rewrite Et. reflexivity.
  - intros x i j r r' Hx Hi Hj R R'. cbn [ndmap at_]. rewrite (At x i j r r') by auto. rewrite M. reflexivity.
Qed.

Lemma rbf_crosswise d data nn_data ix nix n n' b k cur kw :
  dataset data n -> dataset nn_data n' -> ndim data = ndim nn_data ->
  feature_count data = feature_count nn_data ->
  shape ix = [b] -> shape nix = [b; k]%nat ->
  (forall x, (x < b)%nat -> ~ out_of_range n (at_ ix [x])) ->
  (forall x i, (x < b)%nat -> (i < k)%nat -> ~ out_of_range n' (at_ nix [x; i])) ->
  deformation_ok d (feature_count data) kw -> (0 < feature_count data)%nat ->
  positive_scales d (feature_count data) cur kw -> metric_of d = F2 ->
  exists D K, deform_crosswise d data nn_data ix nix = Ok D /\ rbf_call d cur D kw = Ok K /\ shape K = [b; k]%nat /\
    forall x i r r', (x < b)%nat -> (i < k)%nat ->
      selects n (at_ ix [x]) r -> selects n' (at_ nix [x; i]) r' ->
      at_ K [x; i] = exp (- scaled_sqdist (feature_count data) (scale_of d cur kw) (feature data r) (feature nn_data r') / 2).
Proof.
  intros Hd Hn En Ef Si Sn Hi Hr OK HF POS M.
  destruct (crosswise_embed d data nn_data ix nix n n' b k cur kw Hd Hn En Ef Si Sn Hi Hr OK HF POS)
    as (D & t & rest & ED & Et & St & At & _).
  exists D, (ndmap rbf_entry t). split; auto. split; [|split; [exact St|]].
  - unfold rbf_call. rewrite Et. reflexivity.
  - intros x i r r' Hx Hii R R'. cbn [ndmap at_]. rewrite (At x i r r') by auto. rewrite M. reflexivity.
Qed.

(** The backend a Matern kernel is bound to computes the documented formula. *)
Lemma set_matern_fn_value gamma kv p nu x kw :
  dget kw "smoothness" = Some nu ->
  exists t, matern_backend gamma kv (set_matern_fn p) x kw = Ok t /\ shape t = shape x /\
    forall idx, at_ t idx = matern_value gamma kv (formula_for p) nu (at_ x idx).
Proof.
  intros Hnu. unfold set_matern_fn, formula_for. destruct (p_fixed p).
  2:{ cbn [matern_backend]. rewrite Hnu. eexists; split; [reflexivity|]. split; [reflexivity|].
      intros idx. cbn [ndmap at_]. unfold gen_entry, matern_value, matern_bessel, eps64, Reqb.
      destruct (Req_EM_T (at_ x idx) 0) as [->|]; rewrite ?Rplus_0_l; reflexivity. }
  assert (GEN : forall f, f = General -> exists t, matern_backend gamma kv MGen x kw = Ok t /\ shape t = shape x /\
    forall idx, at_ t idx = matern_value gamma kv f nu (at_ x idx)).
  { intros f ->. cbn [matern_backend]. rewrite Hnu. eexists; split; [reflexivity|]. split; [reflexivity|].
      intros idx. cbn [ndmap at_]. unfold gen_entry, matern_value, matern_bessel, eps64, Reqb.
      destruct (Req_EM_T (at_ x idx) 0) as [->|]; rewrite ?Rplus_0_l; reflexivity. }
  destruct (p_val p) as [| | |r]; cbn [num_eqb]; try (apply GEN; reflexivity).
  - eexists; split; [reflexivity|]. split; reflexivity.
  - unfold Reqb. destruct (Req_EM_T r (1/2)).
    { eexists; split; [reflexivity|]. split; reflexivity. }
    destruct (Req_EM_T r (3/2)).
    { eexists; split; [reflexivity|]. split; [reflexivity|]. intros; cbn [ndmap at_ matern_value]; apply m15_closed. }
    destruct (Req_EM_T r (5/2)).
    { eexists; split; [reflexivity|]. split; [reflexivity|]. intros; cbn [ndmap at_ matern_value]; apply m25_closed. }
    apply GEN; reflexivity.
Qed.

Lemma matern_apply gamma kv p (sm : named) cur rest kw x :
  nm_name sm = "smoothness"%string ->
  dget rest "smoothness" = dget kw "smoothness" ->
  exists t, named_apply_fn sm (matern_backend gamma kv (set_matern_fn p) x) cur rest = Ok t /\
    shape t = shape x /\
    forall idx, at_ t idx = matern_value gamma kv (formula_for p) (kw_or kw "smoothness" (cur (nm_loc sm))) (at_ x idx).
Proof.
  intros Hs Hr. unfold named_apply_fn. rewrite Hs.
  apply set_matern_fn_value.
  pose proof (apply_fn_lookup sm cur rest "smoothness") as G. rewrite Hs, String.eqb_refl in G.
  rewrite G. unfold kw_or. rewrite Hr. reflexivity.
Qed.

Lemma matern_pairwise gamma kv d sm p data nix n b k cur kw :
  dataset data n -> shape nix = [b; k]%nat ->
  (forall x i, (x < b)%nat -> (i < k)%nat -> ~ out_of_range n (at_ nix [x; i])) ->
  deformation_ok d (feature_count data) kw -> (0 < feature_count data)%nat ->
  positive_scales d (feature_count data) cur kw -> nm_name sm = "smoothness"%string ->
  exists D K, deform_pairwise d data nix = Ok D /\
    matern_call gamma kv d sm (set_matern_fn p) cur D kw = Ok K /\ shape K = [b; k; k]%nat /\
    forall x i j r r', (x < b)%nat -> (i < k)%nat -> (j < k)%nat ->
      selects n (at_ nix [x; i]) r -> selects n (at_ nix [x; j]) r' ->
      at_ K [x; i; j] = matern_value gamma kv (formula_for p) (kw_or kw "smoothness" (cur (nm_loc sm)))
        (deformed (metric_of d) (feature_count data) (scale_of d cur kw) (feature data r) (feature data r')).
Proof.
  intros Hd Sn Hr OK HF POS Hsm.
  destruct (pairwise_embed d data nix n b k cur kw Hd Sn Hr OK HF POS) as (D & t & rest & ED & Et & St & At & Hs).
  destruct (matern_apply gamma kv p sm cur rest kw t Hsm Hs) as (K & EK & SK & AK).
  exists D, K. split; auto. split; [|split; [congruence|]].
  - unfold matern_call. rewrite Et. exact EK.
  - intros x i j r r' Hx Hi Hj R R'. rewrite AK, (At x i j r r') by auto. reflexivity.
Qed.

Lemma matern_crosswise gamma kv d sm p data nn_data ix nix n n' b k cur kw :
  dataset data n -> dataset nn_data n' -> ndim data = ndim nn_data ->
  feature_count data = feature_count nn_data ->
  shape ix = [b] -> shape nix = [b; k]%nat ->
  (forall x, (x < b)%nat -> ~ out_of_range n (at_ ix [x])) ->
  (forall x i, (x < b)%nat -> (i < k)%nat -> ~ out_of_range n' (at_ nix [x; i])) ->
  deformation_ok d (feature_count data) kw -> (0 < feature_count data)%nat ->
  positive_scales d (feature_count data) cur kw -> nm_name sm = "smoothness"%string ->
  exists D K, deform_crosswise d data nn_data ix nix = Ok D /\
    matern_call gamma kv d sm (set_matern_fn p) cur D kw = Ok K /\ shape K = [b; k]%nat /\
    forall x i r r', (x < b)%nat -> (i < k)%nat ->
      selects n (at_ ix [x]) r -> selects n' (at_ nix [x; i]) r' ->
      at_ K [x; i] = matern_value gamma kv (formula_for p) (kw_or kw "smoothness" (cur (nm_loc sm)))
        (deformed (metric_of d) (feature_count data) (scale_of d cur kw) (feature data r) (feature nn_data r')).
Proof.
  intros Hd Hn En Ef Si Sn Hi Hr OK HF POS Hsm.
  destruct (crosswise_embed d data nn_data ix nix n n' b k cur kw Hd Hn En Ef Si Sn Hi Hr OK HF POS)
    as (D & t & rest & ED & Et & St & At & Hs).
  destruct (matern_apply gamma kv p sm cur rest kw t Hsm Hs) as (K & EK & SK & AK).
  exists D, K. split; auto. split; [|split; [congruence|]].
  - unfold matern_call. rewrite Et. exact EK.
  - intros x i r r' Hx Hii R R'. rewrite AK, (At x i r r') by auto. reflexivity.
Qed.

(** ** Positive semidefiniteness through the API *)

Lemma psd_ext n A B : (forall i j, (i < n)%nat -> (j < n)%nat -> A i j = B i j) -> psd n A -> psd n B.
Proof. intros H P x. rewrite <- (quad_ext n A B x x); auto. Qed.

Lemma scaled_as_sqdist F l x y :
  scaled_sqdist F l x y = sqdist F (fun f => x f / l f) (fun f => y f / l f).
Proof. unfold scaled_sqdist, sqdist. apply rsum_ext. intros. unfold Rdiv. f_equal. ring. Qed.

Lemma scaled_sqdist_refl F l x : scaled_sqdist F l x x = 0.
Proof. rewrite scaled_as_sqdist. apply sqdist_refl. Qed.
Lemma scaled_sqdist_sym F l x y : scaled_sqdist F l x y = scaled_sqdist F l y x.
Proof. rewrite !scaled_as_sqdist. apply sqdist_sym. Qed.
Lemma scaled_sqdist_nonneg F l x y : 0 <= scaled_sqdist F l x y.
Proof. rewrite scaled_as_sqdist. apply sqdist_nonneg. Qed.

Lemma rbf_gram d data nix n b k cur kw :
  dataset data n -> shape nix = [b; k]%nat ->
  (forall x i, (x < b)%nat -> (i < k)%nat -> ~ out_of_range n (at_ nix [x; i])) ->
  deformation_ok d (feature_count data) kw -> (0 < feature_count data)%nat ->
  positive_scales d (feature_count data) cur kw -> metric_of d = F2 ->
  exists D K, deform_pairwise d data nix = Ok D /\ rbf_call d cur D kw = Ok K /\ shape K = [b; k; k]%nat /\
    forall x, (x < b)%nat ->
      symmetric k (rowmat K x) /\ psd k (rowmat K x) /\ forall i, (i < k)%nat -> rowmat K x i i = 1.
Proof.
  intros Hd Sn Hr OK HF POS M.
  destruct (rbf_pairwise d data nix n b k cur kw Hd Sn Hr OK HF POS M) as (D & K & ED & EK & SK & AK).
  exists D, K. repeat (split; [assumption|]). intros x Hx.
  set (pt := fun i f => feature data (row_of n (at_ nix [x; i])) f / scale_of d cur kw f).
  assert (E : forall i j, (i < k)%nat -> (j < k)%nat ->
    rowmat K x i j = exp (- sqdist (feature_count data) (pt i) (pt j) / 2)).
  { intros i j Hi Hj. unfold rowmat.
    rewrite (AK x i j (row_of n (at_ nix [x; i])) (row_of n (at_ nix [x; j]))) by (auto; apply row_of_selects; auto).
    rewrite scaled_as_sqdist. reflexivity. }
  split; [|split].
  - intros i j Hi Hj. rewrite !E by auto. rewrite sqdist_sym. reflexivity.
  - apply (psd_ext k (fun i j => exp (- sqdist (feature_count data) (pt i) (pt j) / 2))).
    + intros i j Hi Hj. symmetry. auto.
    + apply gauss_gram_psd.
  - intros i Hi. rewrite E by auto. rewrite sqdist_refl.
    replace (- 0 / 2) with 0 by field. apply exp_0.
Qed.

(** The joint covariance of a test point and its neighbours. *)
Lemma rbf_joint d test train ix nix n n' b k cur kw :
  dataset test n -> dataset train n' -> ndim test = ndim train ->
  feature_count test = feature_count train ->
  shape ix = [b] -> shape nix = [b; k]%nat ->
  (forall x, (x < b)%nat -> ~ out_of_range n (at_ ix [x])) ->
  (forall x i, (x < b)%nat -> (i < k)%nat -> ~ out_of_range n' (at_ nix [x; i])) ->
  deformation_ok d (feature_count test) kw -> (0 < feature_count test)%nat ->
  positive_scales d (feature_count test) cur kw -> metric_of d = F2 ->
  exists Dc Dp Kcross Kin,
    deform_crosswise d test train ix nix = Ok Dc /\ deform_pairwise d train nix = Ok Dp /\
    rbf_call d cur Dc kw = Ok Kcross /\ rbf_call d cur Dp kw = Ok Kin /\
    shape Kcross = [b; k]%nat /\ shape Kin = [b; k; k]%nat /\
    forall x, (x < b)%nat ->
      symmetric k (rowmat Kin x) /\ psd k (rowmat Kin x) /\
      psd (S k) (joint 1 (rowvec Kcross x) (rowmat Kin x)).
Proof.
  intros Hd Hn En Ef Si Sn Hi Hr OK HF POS M.
  destruct (rbf_crosswise d test train ix nix n n' b k cur kw Hd Hn En Ef Si Sn Hi Hr OK HF POS M)
    as (Dc & Kc & EDc & EKc & SKc & AKc).
  assert (OK' : deformation_ok d (feature_count train) kw) by (rewrite <- Ef; exact OK).
  assert (HF' : (0 < feature_count train)%nat) by (rewrite <- Ef; exact HF).
  assert (POS' : positive_scales d (feature_count train) cur kw) by (rewrite <- Ef; exact POS).
  destruct (rbf_pairwise d train nix n' b k cur kw Hn Sn Hr OK' HF' POS' M) as (Dp & Kp & EDp & EKp & SKp & AKp).
  destruct (rbf_gram d train nix n' b k cur kw Hn Sn Hr OK' HF' POS' M) as (Dp2 & Kp2 & EDp2 & EKp2 & _ & G).
  assert (Dp2 = Dp) by congruence. subst Dp2. assert (Kp2 = Kp) by congruence. subst Kp2.
  exists Dc, Dp, Kc, Kp. repeat (split; [assumption|]). intros x Hx.
  destruct (G x Hx) as (G1 & G2 & _). split; auto. split; auto.
  set (F := feature_count test) in *.
  set (pt := fun i f => match i with
    | O => feature test (row_of n (at_ ix [x])) f / scale_of d cur kw f
    | S i' => feature train (row_of n' (at_ nix [x; i'])) f / scale_of d cur kw f end).
  apply (psd_ext (S k) (fun i j => exp (- sqdist F (pt i) (pt j) / 2))); [|apply gauss_gram_psd].
  intros i j Hii Hj. destruct i as [|i], j as [|j]; cbn [joint].
  - rewrite sqdist_refl. replace (- 0 / 2) with 0 by field. apply exp_0.
  - unfold rowvec. rewrite (AKc x j (row_of n (at_ ix [x])) (row_of n' (at_ nix [x; j]))) by
      (try lia; apply row_of_selects; auto with arith). rewrite scaled_as_sqdist. reflexivity.
  - unfold rowvec. rewrite (AKc x i (row_of n (at_ ix [x])) (row_of n' (at_ nix [x; i]))) by
      (try lia; apply row_of_selects; auto with arith). rewrite scaled_as_sqdist, sqdist_sym. reflexivity.
  - unfold rowmat. rewrite (AKp x i j (row_of n' (at_ nix [x; i])) (row_of n' (at_ nix [x; j]))) by
      (try lia; apply row_of_selects; auto with arith). rewrite scaled_as_sqdist, <- Ef. reflexivity.
Qed.

(** ** Closed forms agree with the general formula at half integers *)
Lemma Rpower_half y : 0 < y -> Rpower y (1/2) = sqrt y.
Proof. intros. rewrite <- Rpower_sqrt by auto. f_equal. lra. Qed.
Lemma Rpower_3half y : 0 < y -> Rpower y (3/2) = y * sqrt y.
Proof. intros. replace (3/2) with (1 + /2) by lra. rewrite Rpower_plus, Rpower_1, Rpower_sqrt by auto. reflexivity. Qed.
Lemma Rpower_5half y : 0 < y -> Rpower y (5/2) = y * y * sqrt y.
Proof. intros. replace (5/2) with (1 + (1 + /2)) by lra. rewrite !Rpower_plus, Rpower_1, Rpower_sqrt by auto. ring. Qed.

Lemma sqrt_kv y : 0 < y -> sqrt y * sqrt (PI / (2 * y)) = sqrt PI / sqrt 2.
Proof.
  intros H. pose proof PI_RGT_0. rewrite <- sqrt_mult_alt by lra.
  replace (y * (PI / (2 * y))) with (PI / 2) by (field; lra). apply sqrt_div_alt. lra.
Qed.

Lemma bessel_half gamma kv d : half_integer_facts gamma kv -> 0 < d ->
  matern_bessel gamma kv (1/2) d = matern_half d.
Proof.
  intros (G & _ & _ & K) Hd. unfold matern_bessel, matern_half.
  replace (2 * (1/2)) with 1 by lra. rewrite sqrt_1, Rmult_1_l.
  replace (1 - 1/2) with (1/2) by lra. rewrite !Rpower_half by lra. rewrite G.
  destruct (K d Hd) as (-> & _). pose proof (sqrt_lt_R0 PI PI_RGT_0). pose proof (sqrt_lt_R0 2 ltac:(lra)).
  replace (sqrt 2 / sqrt PI * sqrt d * (sqrt (PI / (2 * d)) * exp (- d))) with
    (sqrt 2 / sqrt PI * (sqrt d * sqrt (PI / (2 * d))) * exp (- d)) by ring.
  rewrite sqrt_kv by auto. field. split; lra.
Qed.

Lemma Rpower2_neg_half : Rpower 2 (1 - 3/2) = / sqrt 2.
Proof. replace (1 - 3/2) with (- (/2)) by lra. rewrite Rpower_Ropp, Rpower_sqrt by lra. reflexivity. Qed.
Lemma Rpower2_neg_3half : Rpower 2 (1 - 5/2) = / (2 * sqrt 2).
Proof. replace (1 - 5/2) with (- (3/2)) by lra. rewrite Rpower_Ropp, Rpower_3half by lra. reflexivity. Qed.

Lemma bessel_three_halves gamma kv d : half_integer_facts gamma kv -> 0 < d ->
  matern_bessel gamma kv (3/2) d = matern_three_halves d.
Proof.
  intros (_ & G & _ & K) Hd. unfold matern_bessel, matern_three_halves.
  replace (2 * (3/2)) with 3 by lra. pose proof (sqrt_lt_R0 3 ltac:(lra)).
  set (y := sqrt 3 * d). assert (Hy : 0 < y) by (unfold y; nra).
  rewrite Rpower_3half by auto. rewrite Rpower2_neg_half. rewrite G.
  destruct (K y Hy) as (_ & -> & _). pose proof (sqrt_lt_R0 PI PI_RGT_0). pose proof (sqrt_lt_R0 2 ltac:(lra)).
  replace (/ sqrt 2 / (sqrt PI / 2) * (y * sqrt y) * (sqrt (PI / (2 * y)) * exp (- y) * (1 + 1 / y))) with
    (/ sqrt 2 / (sqrt PI / 2) * (sqrt y * sqrt (PI / (2 * y))) * exp (- y) * (y * (1 + 1 / y))) by ring.
  rewrite sqrt_kv by auto.
  replace (y * (1 + 1 / y)) with (1 + y) by (field; lra).
  replace (/ sqrt 2 / (sqrt PI / 2) * (sqrt PI / sqrt 2)) with (2 / (sqrt 2 * sqrt 2)) by (field; lra).
  rewrite sqrt_sqrt by lra. field.
Qed.

Lemma bessel_five_halves gamma kv d : half_integer_facts gamma kv -> 0 < d ->
  matern_bessel gamma kv (5/2) d = matern_five_halves d.
Proof.
  intros (_ & _ & G & K) Hd. unfold matern_bessel, matern_five_halves.
  replace (2 * (5/2)) with 5 by lra. pose proof (sqrt_lt_R0 5 ltac:(lra)).
  assert (S5 : 5 * d ^ 2 = (sqrt 5 * d) ^ 2).
  { rewrite Rpow_mult_distr. f_equal. simpl. rewrite Rmult_1_r, sqrt_sqrt; lra. }
  rewrite S5. set (y := sqrt 5 * d) in *. assert (Hy : 0 < y) by (unfold y; nra).
  rewrite Rpower_5half by auto. rewrite Rpower2_neg_3half. rewrite G.
  destruct (K y Hy) as (_ & _ & ->). pose proof (sqrt_lt_R0 PI PI_RGT_0). pose proof (sqrt_lt_R0 2 ltac:(lra)).
  replace (/ (2 * sqrt 2) / (3 * sqrt PI / 4) * (y * y * sqrt y) *
     (sqrt (PI / (2 * y)) * exp (- y) * (1 + 3 / y + 3 / y ^ 2))) with
    (/ (2 * sqrt 2) / (3 * sqrt PI / 4) * (sqrt y * sqrt (PI / (2 * y))) * exp (- y) *
     (y * y * (1 + 3 / y + 3 / y ^ 2))) by ring.
  rewrite sqrt_kv by auto.
  replace (y * y * (1 + 3 / y + 3 / y ^ 2)) with (y ^ 2 + 3 * y + 3) by (field; lra).
  replace (/ (2 * sqrt 2) / (3 * sqrt PI / 4) * (sqrt PI / sqrt 2)) with (2 / (3 * (sqrt 2 * sqrt 2))) by (field; lra).
  rewrite sqrt_sqrt by lra. field.
Qed.

(** ** Calling a deformation directly *)
Lemma deform_call_embed d F cur kw D :
  deformation_ok d F kw -> deform_call d cur D kw = embed d (fun x _ => Ok x) cur D kw.
Proof.
  intros OK. destruct d as [m n|m n|m v]; cbn [embed deform_call].
  - cbn in OK. unfold named_embed. pose proof (named_filter_params n cur kw "length_scale") as G.
    rewrite OK, String.eqb_refl in G. destruct (named_filter n cur kw) as [ps rest]. cbn [fst] in G.
    unfold isotropy_call. rewrite G. reflexivity.
  - cbn in OK. unfold named_embed. pose proof (named_filter_params n cur kw "length_scale") as G.
    rewrite OK, String.eqb_refl in G. destruct (named_filter n cur kw) as [ps rest]. cbn [fst] in G.
    unfold diff_isotropy_call. rewrite G. unfold kw_or.
    destruct (metric_call m _); reflexivity.
  - destruct (aniso_array v cur kw F m OK) as [HL HA].
    destruct OK as (s0 & srcs & j & Hv & HF & OKk & Hj & E).
    assert (HA' : vec_call v cur kw = map (fun e => kw_or kw (nm_name e) (cur (nm_loc e))) (v_elems v))
      by (apply (vec_call_built s0 "length_scale" srcs cur kw j); auto; lia).
    unfold vec_embed. destruct (vec_filter v cur kw) as [ps rest]. cbn [fst] in HA.
    unfold anisotropy_call. rewrite HA, HA'.
    destruct (rev (shape D)); [reflexivity|]. destruct (negb _); [reflexivity|].
    destruct (bop _ _ _); [cbn [bind]; destruct (metric_call m _); reflexivity|reflexivity].
Qed.

Lemma deform_pairwise_call d data nix n b k cur kw :
  dataset data n -> shape nix = [b; k]%nat ->
  (forall x i, (x < b)%nat -> (i < k)%nat -> ~ out_of_range n (at_ nix [x; i])) ->
  deformation_ok d (feature_count data) kw -> (0 < feature_count data)%nat ->
  positive_scales d (feature_count data) cur kw ->
  exists D t, deform_pairwise d data nix = Ok D /\ deform_call d cur D kw = Ok t /\ shape t = [b; k; k]%nat /\
    forall x i j r r', (x < b)%nat -> (i < k)%nat -> (j < k)%nat ->
      selects n (at_ nix [x; i]) r -> selects n (at_ nix [x; j]) r' ->
      at_ t [x; i; j] = deformed (metric_of d) (feature_count data) (scale_of d cur kw)
                          (feature data r) (feature data r').
Proof.
  intros Hd Sn Hr OK HF POS.
  destruct (pairwise_embed d data nix n b k cur kw Hd Sn Hr OK HF POS) as (D & t & rest & ED & Et & St & At & _).
  exists D, t. split; auto. split; auto. rewrite (deform_call_embed d _ cur kw D OK), Et. reflexivity.
Qed.

Lemma deform_crosswise_call d data nn_data ix nix n n' b k cur kw :
  dataset data n -> dataset nn_data n' -> ndim data = ndim nn_data ->
  feature_count data = feature_count nn_data ->
  shape ix = [b] -> shape nix = [b; k]%nat ->
  (forall x, (x < b)%nat -> ~ out_of_range n (at_ ix [x])) ->
  (forall x i, (x < b)%nat -> (i < k)%nat -> ~ out_of_range n' (at_ nix [x; i])) ->
  deformation_ok d (feature_count data) kw -> (0 < feature_count data)%nat ->
  positive_scales d (feature_count data) cur kw ->
  exists D t, deform_crosswise d data nn_data ix nix = Ok D /\ deform_call d cur D kw = Ok t /\ shape t = [b; k]%nat /\
    forall x i r r', (x < b)%nat -> (i < k)%nat ->
      selects n (at_ ix [x]) r -> selects n' (at_ nix [x; i]) r' ->
      at_ t [x; i] = deformed (metric_of d) (feature_count data) (scale_of d cur kw)
                          (feature data r) (feature nn_data r').
Proof.
  intros Hd Hn En Ef Si Sn Hi Hr OK HF POS.
  destruct (crosswise_embed d data nn_data ix nix n n' b k cur kw Hd Hn En Ef Si Sn Hi Hr OK HF POS)
    as (D & t & rest & ED & Et & St & At & _).
  exists D, t. split; auto. split; auto. rewrite (deform_call_embed d _ cur kw D OK), Et. reflexivity.
Qed.

(** Two deformations with one metric, data and scales both multiplied by [c]: same distances. *)
Lemma joint_scaling d d' data data' nix n b k cur cur' kw kw' c :
  dataset data n -> shape data' = shape data -> shape nix = [b; k]%nat ->
  (forall x i, (x < b)%nat -> (i < k)%nat -> ~ out_of_range n (at_ nix [x; i])) ->
  metric_of d = metric_of d' -> 0 < c ->
  deformation_ok d (feature_count data) kw -> deformation_ok d' (feature_count data) kw' ->
  (0 < feature_count data)%nat -> positive_scales d (feature_count data) cur kw ->
  (forall r f, (r < n)%nat -> (f < feature_count data)%nat -> feature data' r f = c * feature data r f) ->
  (forall f, (f < feature_count data)%nat -> scale_of d' cur' kw' f = c * scale_of d cur kw f) ->
  exists D D' t t', deform_pairwise d data nix = Ok D /\ deform_pairwise d' data' nix = Ok D' /\
    deform_call d cur D kw = Ok t /\ deform_call d' cur' D' kw' = Ok t' /\ nd_eq t t'.
Proof.
  intros Hd Hs Sn Hr M Hc OK OK' HF POS Hfe Hsc.
  assert (Efc : feature_count data' = feature_count data) by (apply feature_count_shape; auto).
  assert (POS' : positive_scales d' (feature_count data') cur' kw').
  { rewrite Efc. intros f Hf. rewrite Hsc by auto. apply Rmult_lt_0_compat; auto. }
  destruct (deform_pairwise_call d data nix n b k cur kw Hd Sn Hr OK HF POS) as (D & t & ED & Et & St & At).
  destruct (deform_pairwise_call d' data' nix n b k cur' kw') as (D' & t' & ED' & Et' & St' & At'); auto.
  { eapply dataset_shape_eq; eauto. } { rewrite Efc; auto. } { rewrite Efc; auto. }
  exists D, D', t, t'. repeat (split; [assumption|]). split; [congruence|].
  intros idx H. rewrite St in H. apply inb_inv3 in H. destruct H as (x & i & j & -> & Hx & Hi & Hj).
  destruct (in_range_selects n _ (Hr x i Hx Hi)) as [ri Ri].
  destruct (in_range_selects n _ (Hr x j Hx Hj)) as [rj Rj].
  rewrite (At x i j ri rj), (At' x i j ri rj) by auto. rewrite Efc, M.
  apply deformed_ext. intros f Hf. rewrite !Hfe by (auto; try apply Ri; try apply Rj).
  rewrite Hsc by auto. specialize (POS f Hf). field. lra.
Qed.

(** The same for cross-distances. *)
Lemma joint_scaling_cross d d' test test' train train' ix nix n n' b k cur cur' kw kw' c :
  dataset test n -> dataset train n' -> ndim test = ndim train ->
  feature_count test = feature_count train ->
  shape test' = shape test -> shape train' = shape train ->
  shape ix = [b] -> shape nix = [b; k]%nat ->
  (forall x, (x < b)%nat -> ~ out_of_range n (at_ ix [x])) ->
  (forall x i, (x < b)%nat -> (i < k)%nat -> ~ out_of_range n' (at_ nix [x; i])) ->
  metric_of d = metric_of d' -> 0 < c ->
  deformation_ok d (feature_count test) kw -> deformation_ok d' (feature_count test) kw' ->
  (0 < feature_count test)%nat -> positive_scales d (feature_count test) cur kw ->
  (forall r f, (r < n)%nat -> (f < feature_count test)%nat -> feature test' r f = c * feature test r f) ->
  (forall r f, (r < n')%nat -> (f < feature_count test)%nat -> feature train' r f = c * feature train r f) ->
  (forall f, (f < feature_count test)%nat -> scale_of d' cur' kw' f = c * scale_of d cur kw f) ->
  exists D D' t t', deform_crosswise d test train ix nix = Ok D /\ deform_crosswise d' test' train' ix nix = Ok D' /\
    deform_call d cur D kw = Ok t /\ deform_call d' cur' D' kw' = Ok t' /\ nd_eq t t'.
Proof.
  intros Hd Hn En Ef Hs Hs' Si Sn Hi Hr M Hc OK OK' HF POS Hfe Hfe' Hsc.
  assert (Efc : feature_count test' = feature_count test) by (apply feature_count_shape; auto).
  assert (Efc' : feature_count train' = feature_count train) by (apply feature_count_shape; auto).
  assert (POS' : positive_scales d' (feature_count test') cur' kw').
  { rewrite Efc. intros f Hf. rewrite Hsc by auto. apply Rmult_lt_0_compat; auto. }
  destruct (deform_crosswise_call d test train ix nix n n' b k cur kw Hd Hn En Ef Si Sn Hi Hr OK HF POS)
    as (D & t & ED & Et & St & At).
  destruct (deform_crosswise_call d' test' train' ix nix n n' b k cur' kw') as (D' & t' & ED' & Et' & St' & At'); auto.
  { eapply dataset_shape_eq; eauto. } { eapply dataset_shape_eq; eauto. }
  { unfold ndim in *. rewrite Hs, Hs'. auto. } { congruence. } { rewrite Efc; auto. } { rewrite Efc; auto. }
  exists D, D', t, t'. repeat (split; [assumption|]). split; [congruence|].
  intros idx H. rewrite St in H. apply inb_inv2 in H. destruct H as (x & i & -> & Hx & Hii).
  destruct (in_range_selects n _ (Hi x Hx)) as [r Rr].
  destruct (in_range_selects n' _ (Hr x i Hx Hii)) as [ri Ri].
  rewrite (At x i r ri), (At' x i r ri) by auto. rewrite Efc, M.
  apply deformed_ext. intros f Hf. rewrite Hfe, Hfe' by (auto; try apply Ri; try apply Rr).
  rewrite Hsc by auto. specialize (POS f Hf). field. lra.
Qed.

(** ** Kernel objects *)
Definition ls_deformation (m : metric) (ls : length_scale) : option deformation :=
  match ls with LSScalar n => Some (Iso m n) | LSVector v => Some (Aniso m v) | LSHier _ => None end.

Lemma matern_object gamma kv m ls d sm c0 s data nix n b k kw :
  ls_deformation m ls = Some d ->
  dataset data n -> shape nix = [b; k]%nat ->
  (forall x i, (x < b)%nat -> (i < k)%nat -> ~ out_of_range n (at_ nix [x; i])) ->
  deformation_ok d (feature_count data) kw -> (0 < feature_count data)%nat ->
  positive_scales d (feature_count data) (reals s) kw -> nm_name sm = "smoothness"%string ->
  exists D K, deform_pairwise d data nix = Ok D /\
    kernel_call gamma kv m (kernel_make s (KMatern ls sm c0)) s D kw = Ok K /\ shape K = [b; k; k]%nat /\
    forall x i j r r', (x < b)%nat -> (i < k)%nat -> (j < k)%nat ->
      selects n (at_ nix [x; i]) r -> selects n (at_ nix [x; j]) r' ->
      at_ K [x; i; j] =
        matern_value gamma kv (formula_for (st_cell s (nm_loc sm)))
          (kw_or kw "smoothness" (reals s (nm_loc sm)))
          (deformed m (feature_count data) (scale_of d (reals s) kw) (feature data r) (feature data r')).
Proof.
  intros L Hd Sn Hr OK HF POS Hsm.
  destruct (matern_pairwise gamma kv d sm (st_cell s (nm_loc sm)) data nix n b k (reals s) kw Hd Sn Hr OK HF POS Hsm)
    as (D & K & ED & EK & SK & AK).
  exists D, K. split; auto. split; [|split; auto].
  - destruct ls; cbn in L; inversion L; subst; exact EK.
  - intros. assert (M : metric_of d = m) by (destruct ls; cbn in L; inversion L; subst; reflexivity).
    rewrite <- M. apply AK; auto.
Qed.

(** Stale formula: smoothness fixed at 1/2, then set_params(smoothness = 3/2). *)
Definition ex_ls_named : named := mkNamed "length_scale" 0.
Definition fixed_param (x : R) : param := mkParam (Fin x) (Fin 0, Fin 0) true.
Definition half_store : store := st_new (st_new empty_store (fixed_param 1)) (fixed_param (1/2)).
Definition half_matern : store * kernel := matern_init half_store 1 (LSScalar ex_ls_named).

Lemma half_neq_three : matern_half (1/2) <> matern_three_halves (1/2).
Proof.
  unfold matern_half, matern_three_halves.
  set (s := sqrt 3). assert (S2 : s * s = 3) by (apply sqrt_sqrt; lra).
  assert (S0 : 0 < s) by (apply sqrt_lt_R0; lra). assert (S1 : s < 2) by nra. assert (S1' : 1 < s) by nra.
  set (y := (s - 1) / 2). assert (Y : 0 < y < 1) by (unfold y; lra).
  assert (E : exp (- (s * (1/2))) = exp (- (1/2)) * exp (- y)) by (rewrite <- exp_plus; f_equal; unfold y; lra).
  rewrite E. intros H.
  assert (P : 0 < exp (- (1/2))) by apply exp_pos.
  assert (Q : 1 = (1 + s * (1/2)) * exp (- y)).
  { apply (Rmult_eq_reg_l (exp (- (1/2)))); [|lra]. rewrite H at 1. ring. }
  assert (B : 1 - y < exp (- y)). { pose proof (exp_ineq1 (- y) ltac:(lra)). lra. }
  assert ((1 + s * (1/2)) * (1 - y) > 1) by (unfold y; nra).
  assert (0 < 1 + s * (1/2)) by lra.
  nra.
Qed.

Lemma stale_formula gamma kv : exists s k s',
  (s, k) = half_matern /\
  set_params s k [("smoothness"%string, fixed_param (3/2))] = Ok s' /\
  p_val (st_cell s' 2) = Fin (3/2) /\ formula_for (st_cell s' 2) = ThreeHalves /\
  forall dists kw, dget kw "length_scale" = None ->
    exists t, kernel_call gamma kv L2 k s' dists kw = Ok t /\ shape t = shape dists /\
      forall idx, at_ t idx = matern_half (at_ dists idx / 1).
Proof.
  eexists _, _, _. split; [reflexivity|]. split; [reflexivity|]. split; [reflexivity|].
  split.
  { cbn. destruct (Req_EM_T (3/2) (1/2)); [lra|]. destruct (Req_EM_T (3/2) (3/2)); [reflexivity|lra]. }
  intros dists kw Hk.
  cbn [fst snd half_matern]. unfold half_matern, matern_init, named_init. cbn [kernel_make].
  match goal with |- context [set_matern_fn ?p] => assert (E : set_matern_fn p = M05) end.
  { unfold set_matern_fn. cbn. unfold Reqb. destruct (Req_EM_T (1/2) (1/2)); [reflexivity|lra]. }
  rewrite E. cbn [kernel_call]. unfold matern_call. cbn [embed]. unfold named_embed.
  pose proof (named_filter_params ex_ls_named (reals (st_put (st_new half_store
     (param_set (mkParam (Fin 0) (Fin 0, Fin 0) true) (st_cell half_store 1))) 2
     (param_set (st_cell (st_new half_store
        (param_set (mkParam (Fin 0) (Fin 0, Fin 0) true) (st_cell half_store 1))) 2) (fixed_param (3/2))))) kw "length_scale") as G.
  cbn in G. unfold kw_or in G. rewrite Hk in G. cbn in G.
  eexists. split; [|split].
  - cbn [deform_call]. unfold isotropy_call.
    cbn [named_filter] in *. cbv beta iota. cbn [bind].
    reflexivity.
  - reflexivity.
  - intros idx. cbn. 
    match goal with |- m05_entry (?a / ?l) = _ => assert (El : l = 1) end.
    { cbn in G. rewrite G. reflexivity. }
    rewrite El. reflexivity.
Qed.
