(** Property theorems C08 (deformation), C12 and C21 (RBF models end to end), C25-C28. *)
From Coq Require Import Lia Lra.
From Verif Require Import Base NdModel NdFacts RSum HyperModel NamedModel NamedSpec TensorModel TensorSpec
  TensorLemmas KernelModel KernelSpec KernelProofs LinAlgSpec LinAlgModel GPModel NoiseModel MuyGPSModel GPSpec
  HyperLemmas KernelLemmas KernelCases Gauss.
Local Open Scope R_scope.
Local Open Scope string_scope.

(** * C08: feature [f] of every difference is divided by length_scale<f>: the keyword if given,
    else the current value.  Proved for keywords naming an initial segment of the dimensions, in
    order; refuted otherwise. *)
Theorem C08_deformation_partial : forall m v data nix n b k cur kw,
  dataset data n -> shape nix = [b; k]%nat ->
  (forall x i, (x < b)%nat -> (i < k)%nat -> ~ out_of_range n (at_ nix [x; i])) ->
  deformation_ok (Aniso m v) (feature_count data) kw -> (0 < feature_count data)%nat ->
  (forall e, In e (v_elems v) -> 0 < kw_or kw (nm_name e) (cur (nm_loc e))) ->
  exists D t, pairwise_tensor data nix = Ok D /\ anisotropy_call m v cur D kw = Ok t /\
    forall x i j r r', (x < b)%nat -> (i < k)%nat -> (j < k)%nat ->
      selects n (at_ nix [x; i]) r -> selects n (at_ nix [x; j]) r' ->
      let total := rsum (feature_count data) (fun f =>
        ((feature data r f - feature data r' f) /
         nth f (map (fun e => kw_or kw (nm_name e) (cur (nm_loc e))) (v_elems v)) 0) ^ 2) in
      at_ t [x; i; j] = match m with L2 => sqrt total | F2 => total end.
Proof. exact c08_deformation. Qed.
Print Assumptions C08_deformation_partial.

Theorem C08_deformation_swapped_refuted :
  forall cur a b, (forall l, cur l = 1) ->
  let v := snd (vec_init empty_store "length_scale" [0; 0]%nat) in
  map nm_name (v_elems v) = ["length_scale0"; "length_scale1"] /\
  exists t, anisotropy_call F2 v cur (mkNd [1; 2]%nat (fun idx => match idx with [_; O] => a | _ => b end))
              [("length_scale1", 2)] = Ok t /\
            at_ t [0]%nat = (a / 2) ^ 2 + (b / 1) ^ 2.
Proof. exact c08_swapped. Qed.
Print Assumptions C08_deformation_swapped_refuted.

Example C08_deformation_sat : deformation_ok (Aniso F2 ex_vec2) 2 [("length_scale0", 3)] /\
  feature_count ex_data = 2%nat /\ dataset ex_data 4 /\
  forall e, In e (v_elems ex_vec2) -> 0 < kw_or [("length_scale0", 3)] (nm_name e) 1.
Proof. exact ex_vec2_ok. Qed.

(** * C25 *)
Theorem C25_correlations :
  correlation rbf_entry /\ correlation m05_entry /\ correlation m15_entry /\ correlation m25_entry /\
  correlation minf_entry.
Proof. exact c25_correlations. Qed.
Print Assumptions C25_correlations.

Theorem C25_closed_forms : forall d,
  rbf_entry (d ^ 2) = gaussian d /\ m05_entry d = matern_half d /\ m15_entry d = matern_three_halves d /\
  m25_entry d = matern_five_halves d /\ minf_entry d = gaussian d.
Proof. exact c25_closed. Qed.
Print Assumptions C25_closed_forms.

(** Through the API: every entry of an RBF kernel tensor of a data set lies in (0, 1] and equals 1
    exactly when the two points coincide. *)
Theorem C25_rbf_entries : forall d data nix n b k cur kw,
  dataset data n -> shape nix = [b; k]%nat ->
  (forall x i, (x < b)%nat -> (i < k)%nat -> ~ out_of_range n (at_ nix [x; i])) ->
  deformation_ok d (feature_count data) kw -> (0 < feature_count data)%nat ->
  positive_scales d (feature_count data) cur kw -> metric_of d = F2 ->
  exists D K, deform_pairwise d data nix = Ok D /\ rbf_call d cur D kw = Ok K /\ shape K = [b; k; k]%nat /\
    forall x i j r r', (x < b)%nat -> (i < k)%nat -> (j < k)%nat ->
      selects n (at_ nix [x; i]) r -> selects n (at_ nix [x; j]) r' ->
      0 < at_ K [x; i; j] <= 1 /\
      (at_ K [x; i; j] = 1 <-> forall f, (f < feature_count data)%nat -> feature data r f = feature data r' f).
Proof. exact c25_rbf_entries. Qed.
Print Assumptions C25_rbf_entries.

Theorem C25_matern_entries : forall gamma kv d sm p data nix n b k cur kw,
  dataset data n -> shape nix = [b; k]%nat ->
  (forall x i, (x < b)%nat -> (i < k)%nat -> ~ out_of_range n (at_ nix [x; i])) ->
  deformation_ok d (feature_count data) kw -> (0 < feature_count data)%nat ->
  positive_scales d (feature_count data) cur kw -> metric_of d = L2 ->
  nm_name sm = "smoothness" -> formula_for p <> General ->
  exists D K, deform_pairwise d data nix = Ok D /\
    matern_call gamma kv d sm (set_matern_fn p) cur D kw = Ok K /\ shape K = [b; k; k]%nat /\
    forall x i j r r', (x < b)%nat -> (i < k)%nat -> (j < k)%nat ->
      selects n (at_ nix [x; i]) r -> selects n (at_ nix [x; j]) r' ->
      0 < at_ K [x; i; j] <= 1 /\
      (at_ K [x; i; j] = 1 <-> forall f, (f < feature_count data)%nat -> feature data r f = feature data r' f).
Proof. exact c25_matern_entries. Qed.
Print Assumptions C25_matern_entries.

Example C25_sat : deformation_ok (Iso L2 ex_ls_named) 2 [] /\
  positive_scales (Iso L2 ex_ls_named) 2 (fun _ => 3) [] /\
  formula_for (fixed_param (3/2)) = ThreeHalves.
Proof. exact ex_iso_ok. Qed.

(** * C26 *)
Theorem C26_rbf_gram : forall d data nix n b k cur kw,
  dataset data n -> shape nix = [b; k]%nat ->
  (forall x i, (x < b)%nat -> (i < k)%nat -> ~ out_of_range n (at_ nix [x; i])) ->
  deformation_ok d (feature_count data) kw -> (0 < feature_count data)%nat ->
  positive_scales d (feature_count data) cur kw -> metric_of d = F2 ->
  exists D K, deform_pairwise d data nix = Ok D /\ rbf_call d cur D kw = Ok K /\ shape K = [b; k; k]%nat /\
    forall x, (x < b)%nat ->
      symmetric k (rowmat K x) /\ psd k (rowmat K x) /\ forall i, (i < k)%nat -> rowmat K x i i = 1.
Proof. exact rbf_gram. Qed.
Print Assumptions C26_rbf_gram.

Theorem C26_rbf_joint : forall d test train ix nix n n' b k cur kw,
  dataset test n -> dataset train n' -> ndim test = ndim train ->
  feature_count test = feature_count train ->
  shape ix = [b] -> shape nix = [b; k]%nat ->
  (forall x, (x < b)%nat -> ~ out_of_range n (at_ ix [x])) ->
  (forall x i, (x < b)%nat -> (i < k)%nat -> ~ out_of_range n' (at_ nix [x; i])) ->
  deformation_ok d (feature_count test) kw -> (0 < feature_count test)%nat ->
  positive_scales d (feature_count test) cur kw -> metric_of d = F2 ->
  exists Dc Dp Kcross Kin,
    deform_crosswise d test train ix nix = Ok Dc /\ deform_pairwise d train nix = Ok Dp /\
    rbf_call d cur Dc kw = Ok Kcross /\ rbf_call d cur Dp kw = Ok Kin /\
    shape Kcross = [b; k]%nat /\ shape Kin = [b; k; k]%nat /\
    forall x, (x < b)%nat ->
      symmetric k (rowmat Kin x) /\ psd k (rowmat Kin x) /\
      psd (S k) (joint 1 (rowvec Kcross x) (rowmat Kin x)).
Proof. exact rbf_joint. Qed.
Print Assumptions C26_rbf_joint.

Example C26_sat : deformation_ok (Aniso F2 ex_vec2) 2 [("length_scale0", 3)] /\
  positive_scales (Aniso F2 ex_vec2) 2 (fun _ => 1) [("length_scale0", 3)] /\
  deformation_ok (Iso F2 ex_ls_named) 2 [] /\ positive_scales (Iso F2 ex_ls_named) 2 (fun _ => 3) [].
Proof. exact ex_c26. Qed.

(** * C12 and C21 for an RBF model, from features to prediction *)
Theorem C12_rbf_model_never_singular : forall ls, exact_solver ls ->
  forall d test train ix nix n n' b k cur kw g T ex,
  dataset test n -> dataset train n' -> ndim test = ndim train ->
  feature_count test = feature_count train ->
  shape ix = [b] -> shape nix = [b; k]%nat ->
  (forall x, (x < b)%nat -> ~ out_of_range n (at_ ix [x])) ->
  (forall x i, (x < b)%nat -> (i < k)%nat -> ~ out_of_range n' (at_ nix [x; i])) ->
  deformation_ok d (feature_count test) kw -> (0 < feature_count test)%nat ->
  positive_scales d (feature_count test) cur kw -> metric_of d = F2 ->
  gp_Kout g = kernel_Kout -> noise_fits (gp_noise g) b k ->
  (forall x i, (x < b)%nat -> (i < k)%nat -> 0 < noise_at (gp_noise g) None x i) ->
  shape T = (b :: k :: ex)%list -> no_coincidence ex [k] ->
  exists Dc Dp Kcross Kin t v,
    deform_crosswise d test train ix nix = Ok Dc /\ deform_pairwise d train nix = Ok Dp /\
    rbf_call d cur Dc kw = Ok Kcross /\ rbf_call d cur Dp kw = Ok Kin /\
    gp_posterior_mean ls g Kin Kcross T None = Ok t /\ gp_posterior_variance ls g Kin Kcross = Ok v.
Proof. exact c12_rbf_model. Qed.
Print Assumptions C12_rbf_model_never_singular.

Theorem C21_rbf_model_variance : forall ls, exact_solver ls ->
  forall d test train ix nix n n' b k cur kw g,
  dataset test n -> dataset train n' -> ndim test = ndim train ->
  feature_count test = feature_count train ->
  shape ix = [b] -> shape nix = [b; k]%nat ->
  (forall x, (x < b)%nat -> ~ out_of_range n (at_ ix [x])) ->
  (forall x i, (x < b)%nat -> (i < k)%nat -> ~ out_of_range n' (at_ nix [x; i])) ->
  deformation_ok d (feature_count test) kw -> (0 < feature_count test)%nat ->
  positive_scales d (feature_count test) cur kw -> metric_of d = F2 ->
  gp_Kout g = kernel_Kout -> noise_fits (gp_noise g) b k -> 0 <= gp_var_scale g ->
  (forall x i, (x < b)%nat -> (i < k)%nat -> 0 <= noise_at (gp_noise g) None x i) ->
  exists Dc Dp Kcross Kin,
    deform_crosswise d test train ix nix = Ok Dc /\ deform_pairwise d train nix = Ok Dp /\
    rbf_call d cur Dc kw = Ok Kcross /\ rbf_call d cur Dp kw = Ok Kin /\
    forall v, gp_posterior_variance ls g Kin Kcross = Ok v ->
      shape v = [b] /\ forall x, (x < b)%nat -> 0 <= at_ v [x] <= gp_var_scale g.
Proof. exact c21_rbf_model. Qed.
Print Assumptions C21_rbf_model_variance.

Example C21_rbf_sat : exists d cur g, gp_Kout g = kernel_Kout /\
  noise_fits (gp_noise g) 2 2 /\ (forall x i, 0 < noise_at (gp_noise g) None x i) /\ 0 < gp_var_scale g /\
  deformation_ok d (feature_count ex_data) [] /\ positive_scales d (feature_count ex_data) cur [] /\
  metric_of d = F2 /\ no_coincidence [3%nat] [2%nat].
Proof. exact ex_rbf_model. Qed.

(** * C27: a kernel evaluates the formula of the smoothness it held when last made *)
Theorem C27_formula_after_make : forall gamma kv m ls d sm c0 s data nix n b k kw,
  ls_deformation m ls = Some d ->
  dataset data n -> shape nix = [b; k]%nat ->
  (forall x i, (x < b)%nat -> (i < k)%nat -> ~ out_of_range n (at_ nix [x; i])) ->
  deformation_ok d (feature_count data) kw -> (0 < feature_count data)%nat ->
  positive_scales d (feature_count data) (reals s) kw -> nm_name sm = "smoothness" ->
  exists D K, deform_pairwise d data nix = Ok D /\
    kernel_call gamma kv m (kernel_make s (KMatern ls sm c0)) s D kw = Ok K /\ shape K = [b; k; k]%nat /\
    forall x i j r r', (x < b)%nat -> (i < k)%nat -> (j < k)%nat ->
      selects n (at_ nix [x; i]) r -> selects n (at_ nix [x; j]) r' ->
      at_ K [x; i; j] =
        matern_value gamma kv (formula_for (st_cell s (nm_loc sm)))
          (kw_or kw "smoothness" (reals s (nm_loc sm)))
          (deformed m (feature_count data) (scale_of d (reals s) kw) (feature data r) (feature data r')).
Proof. exact matern_object. Qed.
Print Assumptions C27_formula_after_make.

(** Wherever both apply, the general formula and the closed forms agree, for the true Gamma and
    Bessel functions; so freezing a smoothness at a half integer does not change the kernel. *)
Theorem C27_general_agrees_with_closed : forall gamma kv d, half_integer_facts gamma kv -> 0 < d ->
  matern_bessel gamma kv (1/2) d = matern_half d /\
  matern_bessel gamma kv (3/2) d = matern_three_halves d /\
  matern_bessel gamma kv (5/2) d = matern_five_halves d.
Proof.
  intros gamma kv d H Hd.
  exact (conj (bessel_half _ _ _ H Hd) (conj (bessel_three_halves _ _ _ H Hd) (bessel_five_halves _ _ _ H Hd))).
Qed.
Print Assumptions C27_general_agrees_with_closed.

(** set_params does not rebuild the kernel: fixed 1/2, then set to 3/2, still evaluates exp(-d). *)
Theorem C27_after_set_params_refuted : forall gamma kv, exists s k s',
  (s, k) = half_matern /\
  set_params s k [("smoothness", fixed_param (3/2))] = Ok s' /\
  p_val (st_cell s' 2) = Fin (3/2) /\ formula_for (st_cell s' 2) = ThreeHalves /\
  (forall dists kw, dget kw "length_scale" = None ->
    exists t, kernel_call gamma kv L2 k s' dists kw = Ok t /\ shape t = shape dists /\
      forall idx, at_ t idx = matern_half (at_ dists idx / 1)) /\
  matern_half (1/2) <> matern_three_halves (1/2).
Proof. exact c27_stale. Qed.
Print Assumptions C27_after_set_params_refuted.

Example C27_sat : exists s ls sm, ls_deformation L2 ls = Some (Iso L2 ex_ls_named) /\
  nm_name sm = "smoothness" /\ formula_for (st_cell s (nm_loc sm)) = Half /\
  positive_scales (Iso L2 ex_ls_named) 2 (reals s) [] /\ deformation_ok (Iso L2 ex_ls_named) 2 [] /\
  exists gamma kv, half_integer_facts gamma kv.
Proof. exact ex_c27. Qed.

(** * C28 *)
Theorem C28_equal_scales : forall m v n l data nix N b k cur kw cur' kw',
  dataset data N -> shape nix = [b; k]%nat ->
  (forall x i, (x < b)%nat -> (i < k)%nat -> ~ out_of_range N (at_ nix [x; i])) ->
  deformation_ok (Aniso m v) (feature_count data) kw -> nm_name n = "length_scale" ->
  (0 < feature_count data)%nat -> 0 < l ->
  (forall f, (f < feature_count data)%nat -> scale_of (Aniso m v) cur kw f = l) ->
  kw_or kw' "length_scale" (cur' (nm_loc n)) = l ->
  exists D D' t t', pairwise_tensor data nix = Ok D /\ pairwise_distances m data nix = Ok D' /\
    anisotropy_call m v cur D kw = Ok t /\ isotropy_call m n cur' D' kw' = Ok t' /\ nd_eq t t'.
Proof. exact c28_equal. Qed.
Print Assumptions C28_equal_scales.

(** Scaling features and length scales together, within or across deformation classes. *)
Theorem C28_joint_scaling : forall d d' data data' nix n b k cur cur' kw kw' c,
  dataset data n -> shape data' = shape data -> shape nix = [b; k]%nat ->
  (forall x i, (x < b)%nat -> (i < k)%nat -> ~ out_of_range n (at_ nix [x; i])) ->
  metric_of d = metric_of d' -> 0 < c ->
  deformation_ok d (feature_count data) kw -> deformation_ok d' (feature_count data) kw' ->
  (0 < feature_count data)%nat -> positive_scales d (feature_count data) cur kw ->
  (forall r f, (r < n)%nat -> (f < feature_count data)%nat -> feature data' r f = c * feature data r f) ->
  (forall f, (f < feature_count data)%nat -> scale_of d' cur' kw' f = c * scale_of d cur kw f) ->
  exists D D' t t', deform_pairwise d data nix = Ok D /\ deform_pairwise d' data' nix = Ok D' /\
    deform_call d cur D kw = Ok t /\ deform_call d' cur' D' kw' = Ok t' /\ nd_eq t t'.
Proof. exact joint_scaling. Qed.
Print Assumptions C28_joint_scaling.

Theorem C28_joint_scaling_crosswise : forall d d' test test' train train' ix nix n n' b k cur cur' kw kw' c,
  dataset test n -> dataset train n' -> ndim test = ndim train ->
  feature_count test = feature_count train ->
  shape test' = shape test -> shape train' = shape train ->
  shape ix = [b] -> shape nix = [b; k]%nat ->
  (forall x, (x < b)%nat -> ~ out_of_range n (at_ ix [x])) ->
  (forall x i, (x < b)%nat -> (i < k)%nat -> ~ out_of_range n' (at_ nix [x; i])) ->
  metric_of d = metric_of d' -> 0 < c ->
  deformation_ok d (feature_count test) kw -> deformation_ok d' (feature_count test) kw' ->
  (0 < feature_count test)%nat -> positive_scales d (feature_count test) cur kw ->
  (forall r f, (r < n)%nat -> (f < feature_count test)%nat -> feature test' r f = c * feature test r f) ->
  (forall r f, (r < n')%nat -> (f < feature_count test)%nat -> feature train' r f = c * feature train r f) ->
  (forall f, (f < feature_count test)%nat -> scale_of d' cur' kw' f = c * scale_of d cur kw f) ->
  exists D D' t t', deform_crosswise d test train ix nix = Ok D /\ deform_crosswise d' test' train' ix nix = Ok D' /\
    deform_call d cur D kw = Ok t /\ deform_call d' cur' D' kw' = Ok t' /\ nd_eq t t'.
Proof. exact joint_scaling_cross. Qed.
Print Assumptions C28_joint_scaling_crosswise.

(** A feature count different from the number of length scales is rejected. *)
Theorem C28_feature_count_checked : forall m v cur kw diffs sh f,
  shape diffs = (sh ++ [f])%list -> f <> List.length (v_elems v) ->
  anisotropy_call m v cur diffs kw = Err ValueError.
Proof. exact anisotropy_shape_error. Qed.
Print Assumptions C28_feature_count_checked.

Example C28_sat : deformation_ok (Aniso F2 ex_vec2) (feature_count ex_data) [] /\
  (forall f, (f < feature_count ex_data)%nat -> scale_of (Aniso F2 ex_vec2) (fun _ => 3) [] f = 3) /\
  scale_of (Iso F2 ex_ls_named) (fun _ => 3) [] 0 = 3.
Proof. exact ex_c28. Qed.
