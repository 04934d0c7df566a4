(** Remaining lemmas and concrete cases for KernelProps. *)
From Coq Require Import Lia Lra.
From Verif Require Import Base BaseFacts NdModel NdFacts RSum HyperModel NamedModel NamedSpec NamedProofs TensorModel TensorSpec
  TensorProofs TensorLemmas KernelModel KernelSpec KernelProofs LinAlgSpec LinAlgModel LinAlgFacts GPModel NoiseModel
  MuyGPSModel GPSpec GPTheorems WellPosedProofs ScaleProofs HyperLemmas KernelLemmas Gauss.
Local Open Scope R_scope.
Local Open Scope string_scope.

Lemma nth_map_pos v kw (cur : nat -> R) F :
  List.length (v_elems v) = F ->
  (forall e, In e (v_elems v) -> 0 < kw_or kw (nm_name e) (cur (nm_loc e))) ->
  forall f, (f < F)%nat -> 0 < nth f (map (fun e => kw_or kw (nm_name e) (cur (nm_loc e))) (v_elems v)) 0.
Proof.
  intros L H f Hf.
  assert (I : In (nth f (map (fun e => kw_or kw (nm_name e) (cur (nm_loc e))) (v_elems v)) 0)
                 (map (fun e => kw_or kw (nm_name e) (cur (nm_loc e))) (v_elems v)))
    by (apply nth_In; rewrite map_length; lia).
  apply in_map_iff in I. destruct I as [e [<- He]]. auto.
Qed.

Lemma c08_deformation m v data nix n b k cur kw :
  dataset data n -> shape nix = [b; k]%nat ->
  (forall x i, (x < b)%nat -> (i < k)%nat -> ~ out_of_range n (at_ nix [x; i])) ->
  deformation_ok (Aniso m v) (feature_count data) kw -> (0 < feature_count data)%nat ->
  (forall e, In e (v_elems v) -> 0 < kw_or kw (nm_name e) (cur (nm_loc e))) ->
  exists D t, pairwise_tensor data nix = Ok D /\ anisotropy_call m v cur D kw = Ok t /\
    forall x i j r r', (x < b)%nat -> (i < k)%nat -> (j < k)%nat ->
      selects n (at_ nix [x; i]) r -> selects n (at_ nix [x; j]) r' ->
      let total := rsum (feature_count data) (fun f =>
        ((feature data r f - feature data r' f) /
         nth f (map (fun e => kw_or kw (nm_name e) (cur (nm_loc e))) (v_elems v)) 0) ^ 2) in
      at_ t [x; i; j] = match m with L2 => sqrt total | F2 => total end.
Proof.
  intros Hd Sn Hr OK HF POS.
  destruct (aniso_array v cur kw _ m OK) as [HL _].
  destruct (deform_pairwise_call (Aniso m v) data nix n b k cur kw Hd Sn Hr OK HF) as (D & t & ED & Et & St & At).
  { intros f Hf. cbn [scale_of]. apply (nth_map_pos v kw cur (feature_count data)); auto. }
  exists D, t. split; auto.
Qed.

Lemma c08_swapped cur a b : (forall l, cur l = 1) ->
  let v := snd (vec_init empty_store "length_scale" [0; 0]%nat) in
  map nm_name (v_elems v) = ["length_scale0"; "length_scale1"] /\
  exists t, anisotropy_call F2 v cur (mkNd [1; 2]%nat (fun idx => match idx with [_; O] => a | _ => b end))
              [("length_scale1", 2)] = Ok t /\
            at_ t [0]%nat = (a / 2) ^ 2 + (b / 1) ^ 2.
Proof.
  intros Hc v. split; [reflexivity|]. eexists. split; [reflexivity|]. cbn. rewrite Hc. ring.
Qed.

Definition ex_vec2 : nvec := snd (vec_init empty_store "length_scale" [0; 0]%nat).

Lemma ex_vec2_ok : deformation_ok (Aniso F2 ex_vec2) 2 [("length_scale0", 3)] /\
  feature_count ex_data = 2%nat /\ dataset ex_data 4 /\
  forall e, In e (v_elems ex_vec2) -> 0 < kw_or [("length_scale0", 3)] (nm_name e) 1.
Proof.
  split.
  { exists empty_store, [0; 0]%nat, 1%nat. repeat split; auto.
    constructor; [simpl; tauto|constructor]. }
  split; [reflexivity|]. split; [right; exists 2%nat; reflexivity|].
  intros e [<-|[<-|[]]]; cbn; lra.
Qed.

Lemma c25_correlations :
  correlation rbf_entry /\ correlation m05_entry /\ correlation m15_entry /\ correlation m25_entry /\
  correlation minf_entry.
Proof.
  split; [apply rbf_entry_corr|]. split; [apply matern_half_corr|].
  split.
  { destruct matern_three_halves_corr as (A & B & C & D). repeat split; intros; rewrite ?m15_closed in *; auto.
    apply B; auto. apply B; auto. }
  split.
  { destruct matern_five_halves_corr as (A & B & C & D). repeat split; intros; rewrite ?m25_closed in *; auto.
    apply B; auto. apply B; auto. }
  apply gaussian_corr.
Qed.

Lemma c25_closed d :
  rbf_entry (d ^ 2) = gaussian d /\ m05_entry d = matern_half d /\ m15_entry d = matern_three_halves d /\
  m25_entry d = matern_five_halves d /\ minf_entry d = gaussian d.
Proof.
  exact (conj (rbf_closed d) (conj (m05_closed d) (conj (m15_closed d) (conj (m25_closed d) (minf_closed d))))).
Qed.

Lemma scaled_zero F l x y : (forall f, (f < F)%nat -> 0 < l f) ->
  (scaled_sqdist F l x y = 0 <-> forall f, (f < F)%nat -> x f = y f).
Proof.
  intros Hl. rewrite scaled_as_sqdist. split.
  - intros H f Hf. assert (E : euclid F (fun f => x f / l f) (fun f => y f / l f) = 0)
      by (unfold euclid; rewrite H; apply sqrt_0).
    rewrite euclid_zero in E. specialize (E f Hf). specialize (Hl f Hf).
    apply (Rmult_eq_compat_r (l f)) in E. field_simplify in E; lra.
  - intros H. rewrite <- (sqdist_refl F (fun f => y f / l f)). unfold sqdist. apply rsum_ext.
    intros f Hf. rewrite H; auto.
Qed.

Lemma corr_iff k d : correlation k -> 0 <= d -> (0 < k d <= 1) /\ (k d = 1 <-> d = 0).
Proof. intros (A & B & C & _) Hd. split; [apply B; auto|]. split; [apply C; auto|intros ->; auto]. Qed.

Lemma c25_rbf_entries d data nix n b k cur kw :
  dataset data n -> shape nix = [b; k]%nat ->
  (forall x i, (x < b)%nat -> (i < k)%nat -> ~ out_of_range n (at_ nix [x; i])) ->
  deformation_ok d (feature_count data) kw -> (0 < feature_count data)%nat ->
  positive_scales d (feature_count data) cur kw -> metric_of d = F2 ->
  exists D K, deform_pairwise d data nix = Ok D /\ rbf_call d cur D kw = Ok K /\ shape K = [b; k; k]%nat /\
    forall x i j r r', (x < b)%nat -> (i < k)%nat -> (j < k)%nat ->
      selects n (at_ nix [x; i]) r -> selects n (at_ nix [x; j]) r' ->
      0 < at_ K [x; i; j] <= 1 /\
      (at_ K [x; i; j] = 1 <-> forall f, (f < feature_count data)%nat -> feature data r f = feature data r' f).
Proof.
  intros Hd Sn Hr OK HF POS M.
  destruct (rbf_pairwise d data nix n b k cur kw Hd Sn Hr OK HF POS M) as (D & K & ED & EK & SK & AK).
  exists D, K. repeat (split; [assumption|]). intros x i j r r' Hx Hi Hj R R'.
  rewrite (AK x i j r r') by auto.
  set (q := scaled_sqdist _ _ _ _).
  destruct (corr_iff rbf_entry q rbf_entry_corr (scaled_sqdist_nonneg _ _ _ _)) as [A B].
  split; [exact A|]. etransitivity; [exact B|]. apply scaled_zero. exact POS.
Qed.

Lemma matern_value_corr gamma kv f nu : f <> General -> correlation (matern_value gamma kv f nu).
Proof.
  destruct f; intros H; try contradiction.
  - exact matern_half_corr. - exact matern_three_halves_corr. - exact matern_five_halves_corr.
  - exact gaussian_corr.
Qed.

Lemma c25_matern_entries gamma kv d sm p data nix n b k cur kw :
  dataset data n -> shape nix = [b; k]%nat ->
  (forall x i, (x < b)%nat -> (i < k)%nat -> ~ out_of_range n (at_ nix [x; i])) ->
  deformation_ok d (feature_count data) kw -> (0 < feature_count data)%nat ->
  positive_scales d (feature_count data) cur kw -> metric_of d = L2 ->
  nm_name sm = "smoothness" -> formula_for p <> General ->
  exists D K, deform_pairwise d data nix = Ok D /\
    matern_call gamma kv d sm (set_matern_fn p) cur D kw = Ok K /\ shape K = [b; k; k]%nat /\
    forall x i j r r', (x < b)%nat -> (i < k)%nat -> (j < k)%nat ->
      selects n (at_ nix [x; i]) r -> selects n (at_ nix [x; j]) r' ->
      0 < at_ K [x; i; j] <= 1 /\
      (at_ K [x; i; j] = 1 <-> forall f, (f < feature_count data)%nat -> feature data r f = feature data r' f).
Proof.
  intros Hd Sn Hr OK HF POS M Hsm Hf.
  destruct (matern_pairwise gamma kv d sm p data nix n b k cur kw Hd Sn Hr OK HF POS Hsm) as (D & K & ED & EK & SK & AK).
  exists D, K. repeat (split; [assumption|]). intros x i j r r' Hx Hi Hj R R'.
  rewrite (AK x i j r r') by auto. rewrite M. unfold deformed.
  set (q := scaled_sqdist _ _ _ _).
  destruct (corr_iff (matern_value gamma kv (formula_for p) (kw_or kw "smoothness" (cur (nm_loc sm)))) (sqrt q)
              (matern_value_corr gamma kv _ _ Hf) (sqrt_pos _)) as [A B].
  split; [exact A|]. etransitivity; [exact B|].
  etransitivity; [|apply scaled_zero; exact POS].
  split; [apply sqrt_eq_0, scaled_sqdist_nonneg|intros E; unfold q in *; rewrite E; apply sqrt_0].
Qed.

Lemma ex_iso_pos cur m : (forall l, 0 < cur l) -> positive_scales (Iso m ex_ls_named) 2 cur [].
Proof. intros H f Hf. cbn. apply H. Qed.

Lemma ex_iso_ok : deformation_ok (Iso L2 ex_ls_named) 2 [] /\
  positive_scales (Iso L2 ex_ls_named) 2 (fun _ => 3) [] /\
  formula_for (fixed_param (3/2)) = ThreeHalves.
Proof.
  split; [reflexivity|]. split; [apply ex_iso_pos; intros; lra|].
  unfold formula_for, fixed_param. cbn. destruct (Req_EM_T (3/2) (1/2)); [lra|].
  destruct (Req_EM_T (3/2) (3/2)); [reflexivity|lra].
Qed.

Lemma ex_vec2_pos : positive_scales (Aniso F2 ex_vec2) 2 (fun _ => 1) [("length_scale0", 3)].
Proof. intros f Hf. destruct f as [|[|f]]; cbn; lra || lia. Qed.

Lemma ex_c26 : deformation_ok (Aniso F2 ex_vec2) 2 [("length_scale0", 3)] /\
  positive_scales (Aniso F2 ex_vec2) 2 (fun _ => 1) [("length_scale0", 3)] /\
  deformation_ok (Iso F2 ex_ls_named) 2 [] /\ positive_scales (Iso F2 ex_ls_named) 2 (fun _ => 3) [].
Proof.
  split; [apply ex_vec2_ok|]. split; [exact ex_vec2_pos|]. split; [reflexivity|]. apply ex_iso_pos; intros; lra.
Qed.

Lemma kernel_Kout_value : shape kernel_Kout = [] /\ at_ kernel_Kout [] = 1.
Proof. split; reflexivity. Qed.

Lemma c12_rbf_model ls : exact_solver ls ->
  forall d test train ix nix n n' b k cur kw g T ex,
  dataset test n -> dataset train n' -> ndim test = ndim train ->
  feature_count test = feature_count train ->
  shape ix = [b] -> shape nix = [b; k]%nat ->
  (forall x, (x < b)%nat -> ~ out_of_range n (at_ ix [x])) ->
  (forall x i, (x < b)%nat -> (i < k)%nat -> ~ out_of_range n' (at_ nix [x; i])) ->
  deformation_ok d (feature_count test) kw -> (0 < feature_count test)%nat ->
  positive_scales d (feature_count test) cur kw -> metric_of d = F2 ->
  gp_Kout g = kernel_Kout -> noise_fits (gp_noise g) b k ->
  (forall x i, (x < b)%nat -> (i < k)%nat -> 0 < noise_at (gp_noise g) None x i) ->
  shape T = (b :: k :: ex)%list -> no_coincidence ex [k] ->
  exists Dc Dp Kcross Kin t v,
    deform_crosswise d test train ix nix = Ok Dc /\ deform_pairwise d train nix = Ok Dp /\
    rbf_call d cur Dc kw = Ok Kcross /\ rbf_call d cur Dp kw = Ok Kin /\
    gp_posterior_mean ls g Kin Kcross T None = Ok t /\ gp_posterior_variance ls g Kin Kcross = Ok v.
Proof.
  intros LS d test train ix nix n n' b k cur kw g T ex Hd Hn En Ef Si Sn Hi Hr OK HF POS M KO NF NP ST NC.
  destruct (rbf_joint d test train ix nix n n' b k cur kw Hd Hn En Ef Si Sn Hi Hr OK HF POS M)
    as (Dc & Dp & Kc & Ki & E1 & E2 & E3 & E4 & Sc & Sk & P).
  destruct (c12_predict ls LS g None Ki Kc T b k ex NF Sk Sc ST NC) as ((t & Et) & (v & Ev) & _); auto.
  { rewrite KO. reflexivity. }
  { intros x Hx. apply (P x Hx). }
  exists Dc, Dp, Kc, Ki, t, (ndmap (Rmult (gp_var_scale g)) v). repeat (split; [assumption|]).
  unfold gp_posterior_variance. rewrite Ev. reflexivity.
Qed.

Lemma c21_rbf_model ls : exact_solver ls ->
  forall d test train ix nix n n' b k cur kw g,
  dataset test n -> dataset train n' -> ndim test = ndim train ->
  feature_count test = feature_count train ->
  shape ix = [b] -> shape nix = [b; k]%nat ->
  (forall x, (x < b)%nat -> ~ out_of_range n (at_ ix [x])) ->
  (forall x i, (x < b)%nat -> (i < k)%nat -> ~ out_of_range n' (at_ nix [x; i])) ->
  deformation_ok d (feature_count test) kw -> (0 < feature_count test)%nat ->
  positive_scales d (feature_count test) cur kw -> metric_of d = F2 ->
  gp_Kout g = kernel_Kout -> noise_fits (gp_noise g) b k -> 0 <= gp_var_scale g ->
  (forall x i, (x < b)%nat -> (i < k)%nat -> 0 <= noise_at (gp_noise g) None x i) ->
  exists Dc Dp Kcross Kin,
    deform_crosswise d test train ix nix = Ok Dc /\ deform_pairwise d train nix = Ok Dp /\
    rbf_call d cur Dc kw = Ok Kcross /\ rbf_call d cur Dp kw = Ok Kin /\
    forall v, gp_posterior_variance ls g Kin Kcross = Ok v ->
      shape v = [b] /\ forall x, (x < b)%nat -> 0 <= at_ v [x] <= gp_var_scale g.
Proof.
  intros LS d test train ix nix n n' b k cur kw g Hd Hn En Ef Si Sn Hi Hr OK HF POS M KO NF SC NP.
  destruct (rbf_joint d test train ix nix n n' b k cur kw Hd Hn En Ef Si Sn Hi Hr OK HF POS M)
    as (Dc & Dp & Kc & Ki & E1 & E2 & E3 & E4 & Sc & Sk & P).
  exists Dc, Dp, Kc, Ki. repeat (split; [assumption|]). intros v Ev.
  destruct (c21_variance ls LS g Ki Kc b k v NF Sk Sc) as [Sv B]; auto.
  { rewrite KO. reflexivity. }
  { rewrite KO. intros x Hx. apply (P x Hx). }
  split; auto. intros x Hx. specialize (B x Hx). rewrite KO in B. cbn in B. lra.
Qed.

Lemma ex_rbf_model : exists d cur g, gp_Kout g = kernel_Kout /\
  noise_fits (gp_noise g) 2 2 /\ (forall x i, 0 < noise_at (gp_noise g) None x i) /\ 0 < gp_var_scale g /\
  deformation_ok d (feature_count ex_data) [] /\ positive_scales d (feature_count ex_data) cur [] /\
  metric_of d = F2 /\ no_coincidence [3%nat] [2%nat].
Proof.
  exists (Iso F2 ex_ls_named), (fun _ => 3), (mkGp (HomoscedasticNoise 1) FixedScale 2 2 kernel_Kout).
  split; [reflexivity|]. split; [exact I|]. split; [intros; cbn; lra|]. split; [cbn; lra|].
  split; [reflexivity|]. split; [apply ex_iso_pos; intros; lra|]. split; [reflexivity|].
  split; [simpl; lia|]. intros [|j] Hj; simpl in *; lia.
Qed.

Lemma c27_stale gamma kv : exists s k s',
  (s, k) = half_matern /\
  set_params s k [("smoothness", fixed_param (3/2))] = Ok s' /\
  p_val (st_cell s' 2) = Fin (3/2) /\ formula_for (st_cell s' 2) = ThreeHalves /\
  (forall dists kw, dget kw "length_scale" = None ->
    exists t, kernel_call gamma kv L2 k s' dists kw = Ok t /\ shape t = shape dists /\
      forall idx, at_ t idx = matern_half (at_ dists idx / 1)) /\
  matern_half (1/2) <> matern_three_halves (1/2).
Proof.
  destruct (stale_formula gamma kv) as (s & k & s' & A & B & C & D & E).
  exists s, k, s'. do 5 (split; [assumption|]). exact half_neq_three.
Qed.

Lemma ex_c27 : exists s ls sm, ls_deformation L2 ls = Some (Iso L2 ex_ls_named) /\
  nm_name sm = "smoothness" /\ formula_for (st_cell s (nm_loc sm)) = Half /\
  positive_scales (Iso L2 ex_ls_named) 2 (reals s) [] /\ deformation_ok (Iso L2 ex_ls_named) 2 [] /\
  exists gamma kv, half_integer_facts gamma kv.
Proof.
  exists half_store, (LSScalar ex_ls_named), (mkNamed "smoothness" 1).
  split; [reflexivity|]. split; [reflexivity|]. split.
  { unfold formula_for. cbn. destruct (Req_EM_T (1/2) (1/2)); [reflexivity|lra]. }
  split. { intros f Hf. cbn. unfold reals, real_of. cbn. lra. }
  split; [reflexivity|].
  exists (fun nu => if Req_EM_T nu (1/2) then sqrt PI else if Req_EM_T nu (3/2) then sqrt PI / 2 else 3 * sqrt PI / 4),
    (fun nu x => if Req_EM_T nu (1/2) then sqrt (PI / (2 * x)) * exp (- x)
       else if Req_EM_T nu (3/2) then sqrt (PI / (2 * x)) * exp (- x) * (1 + 1 / x)
       else sqrt (PI / (2 * x)) * exp (- x) * (1 + 3 / x + 3 / x ^ 2)).
  unfold half_integer_facts.
  repeat match goal with |- context [Req_EM_T ?a ?b] => destruct (Req_EM_T a b); [try lra|try lra] end.
  repeat split; reflexivity.
Qed.

Lemma c28_equal m v n l data nix N b k cur kw cur' kw' :
  dataset data N -> shape nix = [b; k]%nat ->
  (forall x i, (x < b)%nat -> (i < k)%nat -> ~ out_of_range N (at_ nix [x; i])) ->
  deformation_ok (Aniso m v) (feature_count data) kw -> nm_name n = "length_scale" ->
  (0 < feature_count data)%nat -> 0 < l ->
  (forall f, (f < feature_count data)%nat -> scale_of (Aniso m v) cur kw f = l) ->
  kw_or kw' "length_scale" (cur' (nm_loc n)) = l ->
  exists D D' t t', pairwise_tensor data nix = Ok D /\ pairwise_distances m data nix = Ok D' /\
    anisotropy_call m v cur D kw = Ok t /\ isotropy_call m n cur' D' kw' = Ok t' /\ nd_eq t t'.
Proof.
  intros Hd Sn Hr OK Hn HF Hl Hs Hs'.
  apply (joint_scaling (Aniso m v) (Iso m n) data data nix N b k cur cur' kw kw' 1); auto; try lra.
  - intros f Hf. rewrite Hs; auto.
  - intros. ring.
  - intros f Hf. rewrite Hs by auto. cbn [scale_of]. rewrite Hs'. ring.
Qed.

Lemma ex_c28 : deformation_ok (Aniso F2 ex_vec2) (feature_count ex_data) [] /\
  (forall f, (f < feature_count ex_data)%nat -> scale_of (Aniso F2 ex_vec2) (fun _ => 3) [] f = 3) /\
  scale_of (Iso F2 ex_ls_named) (fun _ => 3) [] 0 = 3.
Proof.
  split.
  { exists empty_store, [0; 0]%nat, 0%nat. split; [reflexivity|]. split; [reflexivity|].
    split; [constructor|]. split; [lia|reflexivity]. }
  split; [|reflexivity]. intros f Hf. change (feature_count ex_data) with 2%nat in Hf.
  destruct f as [|[|f]]; cbn; try lra; lia.
Qed.
