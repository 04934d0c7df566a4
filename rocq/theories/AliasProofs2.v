(** Effects of the updates on the model they are addressed to (C45). *)
From Coq Require Import Lia.
From Verif Require Import Base BaseFacts HyperModel NamedModel NamedProofs EqProofs AliasModel AliasSpec AliasProofs.
Local Open Scope string_scope.
Local Open Scope list_scope.

(** ** optimize_scale *)
Lemma opt_scale_effect o m mm sc v : reachable o -> nth_error (o_models o) m = Some mm -> nth_error (o_scales o) (mo_scale mm) = Some sc ->
  let used := if sc_fixed sc then sc_val sc else v in
  exists mm', nth_error (o_models (astep o (UOptScale m v))) m = Some mm' /\ mo_bscale mm' = used /\
    mo_scale mm' = mo_scale mm /\
    nth_error (o_scales (astep o (UOptScale m v))) (mo_scale mm) = Some (mkS used true (sc_fixed sc)).
Proof.
  intros R Em Es used. destruct (reachable_inv _ R) as [own I].
  destruct (i_models _ _ I m mm Em) as [(Lk & _) _]. destruct (nth_error_ex _ _ Lk) as [k Ek]. cbn [astep]. rewrite Em, Es.
  unfold make_model. cbn [o_models o_kernels o_scales]. rewrite Em, Ek, (set_nth_same _ _ _ _ Es).
  cbn [o_models o_scales sc_val]. eexists. split; [apply (set_nth_same _ _ _ _ Em)|]. cbn [mo_bscale mo_scale].
  split; [reflexivity|]. split; [reflexivity|]. apply (set_nth_same _ _ _ _ Es).
Qed.

(** ** Parameter names and objects of a kernel are distinct *)
Definition def_good (ls : list named) : Prop :=
  NoDup (map nm_name ls) /\ NoDup (map nm_loc ls) /\ forall n, In n ls -> String.prefix "length_scale" (nm_name n) = true.
Definition good (o : objs) : Prop :=
  (forall d ls, nth_error (o_defs o) d = Some ls -> def_good ls) /\
  (forall i k n, nth_error (o_kernels o) i = Some k -> k_smooth k = Some n -> nm_name n = "smoothness").

Lemma make_model_kernel_smooth o i j k : nth_error (o_kernels (make_model o i)) j = Some k ->
  exists k0, nth_error (o_kernels o) j = Some k0 /\ k_smooth k = k_smooth k0.
Proof.
  unfold make_model. destruct (nth_error (o_models o) i) as [m|]; [|eauto].
  destruct (nth_error (o_kernels o) (mo_kernel m)) as [kk|] eqn:E; [|eauto].
  destruct (nth_error (o_scales o) (mo_scale m)); [|eauto]. cbn [o_kernels].
  destruct (Nat.eq_dec j (mo_kernel m)) as [->|N].
  - rewrite (set_nth_same _ _ _ _ E). intros H. injection H as <-. exists kk. split; [exact E|apply make_kernel_def].
  - rewrite set_nth_other by exact N. eauto.
Qed.
Lemma make_model_defs o i : o_defs (make_model o i) = o_defs o.
Proof.
  unfold make_model. destruct (nth_error (o_models o) i) as [m|]; [|reflexivity].
  destruct (nth_error (o_kernels o) (mo_kernel m)); [|reflexivity]. destruct (nth_error (o_scales o) (mo_scale m)); reflexivity.
Qed.
Lemma good_make o i : good o -> good (make_model o i).
Proof.
  intros [G1 G2]. split.
  - rewrite make_model_defs. exact G1.
  - intros j k n H S0. destruct (make_model_kernel_smooth o i j k H) as (k0 & E & Es). rewrite Es in S0. eauto.
Qed.
Lemma good_parts o o' : o_defs o' = o_defs o -> o_kernels o' = o_kernels o -> good o -> good o'.
Proof. intros E1 E2 [G1 G2]. split; [rewrite E1; exact G1|rewrite E2; exact G2]. Qed.
Lemma good_add_def o s ls : good o -> def_good ls ->
  good (mkO s (o_arrays o) (o_defs o ++ [ls]) (o_kernels o) (o_noises o) (o_scales o) (o_models o)).
Proof.
  intros [G1 G2] D. split; [|exact G2]. cbn [o_defs]. intros d l H. apply nth_error_snoc in H as [H|[_ ->]]; eauto.
Qed.
Lemma good_add_kernel o k : good o -> (forall n, k_smooth k = Some n -> nm_name n = "smoothness") -> good (with_kernels o (o_kernels o ++ [k])).
Proof.
  intros [G1 G2] K. split; [exact G1|]. cbn [with_kernels o_kernels]. intros i k' n H S0. apply nth_error_snoc in H as [H|[_ ->]]; eauto.
Qed.

Lemma vec_init_from_nodup name srcs : forall s i s' l, vec_init_from s name i srcs = (s', l) -> NoDup (map nm_loc l).
Proof.
  induction srcs as [|src srcs IH]; intros s i s' l H; cbn [vec_init_from] in H.
  - injection H as <- <-. constructor.
  - unfold named_init in H.
    destruct (vec_init_from (st_new s (param_set (mkParam (Fin 0) (Fin 0, Fin 0) true) (st_cell s src))) name (S i) srcs) as [s2 r] eqn:E.
    injection H as <- <-. cbn [map nm_loc]. constructor; [|eapply IH; eauto].
    intros C. apply in_map_iff in C as (n & E1 & Hn). apply vec_init_from_locs in E as (_ & B & _). apply B in Hn. cbn in Hn. lia.
Qed.
Lemma copy_named_good l : forall s s' r, copy_named s l = (s', r) -> map nm_name r = map nm_name l /\ NoDup (map nm_loc r).
Proof.
  induction l as [|x l IH]; intros s s' r H; cbn [copy_named] in H.
  - injection H as <- <-. split; [reflexivity|constructor].
  - destruct (copy_named (st_new s (st_cell s (nm_loc x))) l) as [s2 q] eqn:E. injection H as <- <-.
    destruct (IH _ _ _ E) as [A B]. cbn [map nm_name nm_loc]. split; [rewrite A; reflexivity|]. constructor; [|exact B].
    intros C. apply in_map_iff in C as (n & E1 & Hn). apply copy_named_locs in E as (_ & L & _). apply L in Hn. cbn in Hn. lia.
Qed.
Lemma copy_def_good s l s' r : def_good l -> copy_named s l = (s', r) -> def_good r.
Proof.
  intros (A & B & C) H. apply copy_named_good in H as [E N]. split; [rewrite E; exact A|]. split; [exact N|].
  intros n Hn. assert (In (nm_name n) (map nm_name l)) as Hi by (rewrite <- E; apply in_map; exact Hn).
  apply in_map_iff in Hi as (n0 & <- & H0). auto.
Qed.

Lemma good_step own o op : inv own o -> good o -> good (astep o op).
Proof.
  intros I G. destruct op; cbn [astep].
  - destruct (param_init e v b); [|exact G]. apply (good_parts o); auto.
  - apply (good_parts o); auto.
  - destruct (Nat.ltb src (st_next (o_params o))); [|exact G]. cbn [named_init]. apply good_add_def; auto.
    split; [repeat constructor; auto|]. split; [repeat constructor; auto|]. intros n [<-|[]]. reflexivity.
  - destruct (forallb _ srcs); [|exact G]. destruct (vec_init (o_params o) "length_scale" srcs) as [s v] eqn:E.
    apply good_add_def; auto. unfold vec_init in E. pose proof (vec_init_elems (o_params o) "length_scale" srcs) as (_ & EN & _).
    unfold vec_init in EN. destruct (vec_init_from (o_params o) "length_scale" 0 srcs) as [s1 l] eqn:E1. injection E as <- <-.
    cbn [v_elems snd] in *. split; [rewrite EN; apply vec_names_nodup, seq_NoDup|]. split; [eapply vec_init_from_nodup; eauto|].
    intros n Hn. assert (Hi : In (nm_name n) (map nm_name l)) by (apply in_map; exact Hn). rewrite EN in Hi.
    apply in_map_iff in Hi as (j & <- & _). apply prefix_append.
  - destruct (Nat.ltb _ _); [|exact G]. apply good_add_kernel; auto. cbn [make_kernel k_smooth]. discriminate.
  - destruct (Nat.ltb _ _ && Nat.ltb _ _); [|exact G]. cbn [named_init].
    apply good_add_kernel; [apply (good_parts o); auto|]. cbn [make_kernel k_smooth]. intros n H. injection H as <-. reflexivity.
  - destruct (homoscedastic_init e v b); [|exact G]. apply (good_parts o); auto.
  - destruct (Nat.ltb a (List.length (o_arrays o))); [|exact G]. apply (good_parts o); auto.
  - apply (good_parts o); auto.
  - apply (good_parts o); auto.
  - destruct (Nat.ltb k _ && Nat.ltb _ _ && Nat.ltb _ _); [|exact G]. apply good_make. apply (good_parts o); auto.
  - destruct (nth_error (o_kernels o) k); [|exact G]. apply (good_parts o); auto.
  - destruct (nth_error (o_models o) m) as [mm|]; [|exact G]. destruct (nth_error (o_scales o) (mo_scale mm)); [|exact G].
    apply good_make. apply (good_parts o); auto.
  - destruct (Nat.ltb a (List.length (o_arrays o))); [|exact G]. apply (good_parts o); auto.
  - destruct (nth_error (o_models o) m) as [mm|] eqn:Em; [|exact G]. destruct (deepcopy_model o mm) as [o1|] eqn:Ed; [|exact G].
    assert (G1 : good o1).
    { unfold deepcopy_model in Ed.
      destruct (nth_error (o_kernels o) (mo_kernel mm)) as [k|] eqn:Ek; [|discriminate].
      destruct (nth_error (o_noises o) (mo_noise mm)) as [z|]; [|discriminate].
      destruct (nth_error (o_scales o) (mo_scale mm)) as [sc|]; [|discriminate].
      destruct (copy_named (o_params o) (nth (k_def k) (o_defs o) [])) as [s1 ls] eqn:E1.
      assert (DG : def_good ls).
      { apply (copy_def_good _ _ _ _) in E1; auto. destruct (nth_error_ex _ _ (i_kdef _ _ I _ _ Ek)) as [l0 E0].
        rewrite (nth_nth_error _ _ _ E0). apply (proj1 G _ _ E0). }
      destruct (match k_smooth k with None => _ | Some n => _ end) as [s2 sm] eqn:E2.
      destruct (match z with ZHomo l => _ | ZHetero a => _ | ZNull => _ end) as [[s3 arrays] z'] eqn:E3.
      injection Ed as <-. destruct G as [Ga Gb]. split; cbn [o_defs o_kernels].
      - intros d l H. apply nth_error_snoc in H as [H|[_ ->]]; eauto.
      - intros i k' n H S0. apply nth_error_snoc in H as [H|[_ ->]]; [eauto|]. cbn [k_smooth] in S0. subst sm.
        destruct (k_smooth k) as [n0|] eqn:E0; [|discriminate E2]. injection E2 as _ <-. cbn [nm_name]. eapply Gb; eauto. }
    destruct (nth_error (o_kernels o1) (List.length (o_kernels o))) as [k'|]; [|exact G].
    destruct (nth_error (o_noises o1) (List.length (o_noises o))) as [z'|]; [|exact G].
    destruct (put_optimized e (o_params o1) (kobj_dict o1 k') z' vals) as [s|]; [|exact G].
    apply good_make. apply (good_parts o1); auto.
Qed.
Lemma good_import : good import_objs.
Proof.
  split.
  - intros [|[|d]] ls H; cbn in H; try (injection H as <-); try (destruct d; discriminate H);
      (split; [repeat constructor; auto|]; split; [repeat constructor; auto|]; intros n [<-|[]]; reflexivity).
  - intros [|i] k n H; discriminate H.
Qed.
Lemma good_run ops : forall own o, inv own o -> good o -> good (arun ops o).
Proof.
  induction ops as [|op ops IH]; intros own o I G; [exact G|]. cbn [arun fold_left]. fold (arun ops (astep o op)).
  destruct (step_inv own o op I) as (own' & I' & _). apply (IH own'); auto. apply (good_step own); auto.
Qed.
Lemma reachable_good o : reachable o -> good o.
Proof. intros [ops ->]. eapply good_run; [apply import_inv|apply good_import]. Qed.

Lemma NoDup_app_intro {A} (l1 l2 : list A) : NoDup l1 -> NoDup l2 -> (forall x, In x l1 -> ~ In x l2) -> NoDup (l1 ++ l2).
Proof.
  induction l1 as [|a l1 IH]; cbn [app]; auto. intros H1 H2 D. inversion H1; subst. constructor.
  - intros C. apply in_app_iff in C as [C|C]; [auto|]. apply (D a); [left; reflexivity|exact C].
  - apply IH; auto. intros x Hx. apply D. right. exact Hx.
Qed.
Lemma reachable_params_nodup o i k : reachable o -> nth_error (o_kernels o) i = Some k ->
  NoDup (map nm_name (kobj_params o k)) /\ NoDup (map nm_loc (kobj_params o k)).
Proof.
  intros R E. destruct (reachable_inv _ R) as [own I]. destruct (reachable_good _ R) as [G1 G2].
  destruct (nth_error_ex _ _ (i_kdef _ _ I _ _ E)) as [ls El]. destruct (G1 _ _ El) as (A & B & C).
  unfold kobj_params. rewrite (nth_nth_error _ _ _ El). destruct (k_smooth k) as [n|] eqn:S0; [|rewrite app_nil_r; auto].
  rewrite !map_app. cbn [map]. split.
  - apply NoDup_app_intro; auto; [repeat constructor; auto|]. intros x Hx [<-|[]].
    apply in_map_iff in Hx as (n0 & E0 & H0). apply C in H0. rewrite E0, (G2 _ _ _ E S0) in H0. discriminate.
  - apply NoDup_app_intro; auto; [repeat constructor; auto|]. intros x Hx [<-|[]].
    apply in_map_iff in Hx as (n0 & E0 & H0). pose proof (i_defs _ _ I _ _ _ El H0) as [T1 _]. pose proof (i_smooth _ _ I _ _ _ E S0) as [T2 _].
    rewrite E0, T2 in T1. discriminate.
Qed.

(** ** set_params *)
Lemma put_params_effect (l : list named) kw pre rest n : NoDup (map nm_name l) -> NoDup (map nm_loc l) -> NoDup (map fst kw) ->
  In n l -> kw = pre ++ rest -> (forall name, In name (map fst pre) -> In name (map nm_name l)) ->
  (forall name rhs rest', rest = (name, rhs) :: rest' -> ~ In name (map nm_name l)) ->
  forall s, st_cell (put_params s (map (fun n => (nm_name n, n)) l) kw) (nm_loc n) =
    match dget pre (nm_name n) with Some rhs => rhs | None => st_cell s (nm_loc n) end.
Proof.
  intros N1 N2 N3 Hn -> Kn Un. induction pre as [|[name rhs] pre IH]; intros s.
  - cbn [app dget]. destruct rest as [|[name rhs] rest]; [reflexivity|]. cbn [put_params].
    specialize (Un _ _ _ eq_refl). apply dget_names_none in Un. rewrite Un. reflexivity.
  - cbn [app put_params]. assert (Hk : In name (map nm_name l)) by (apply Kn; left; reflexivity).
    apply in_map_iff in Hk as (x & Ex & Hx). assert (Ed : dget (map (fun n => (nm_name n, n)) l) name = Some x) by (apply dget_names; auto).
    rewrite Ed. cbn [app map fst] in N3. inversion N3; subst. rewrite IH; auto; [|intros nm H; apply Kn; right; exact H].
    cbn [dget]. destruct (String.eqb_spec (nm_name x) (nm_name n)) as [E|E].
    + assert (x = n) as ->. { assert (A : dget (map (fun n => (nm_name n, n)) l) (nm_name n) = Some n) by (apply dget_names; auto).
        rewrite E in Ed. congruence. }
      assert (D : dget pre (nm_name n) = None).
      { apply dget_none. intros C. apply H1. rewrite map_app. apply in_app_iff. left. exact C. }
      rewrite D. cbn [st_put st_cell]. rewrite Nat.eqb_refl. destruct rhs; reflexivity.
    + destruct (dget pre (nm_name n)); [reflexivity|]. cbn [st_put st_cell].
      destruct (Nat.eqb (nm_loc n) (nm_loc x)) eqn:F; [|reflexivity]. apply Nat.eqb_eq in F. exfalso. apply E.
      assert (x = n) as ->; [|reflexivity]. clear -N2 Hx Hn F. induction l as [|y l IH]; [destruct Hx|]. cbn [map] in N2. inversion N2; subst.
      destruct Hx as [->|Hx], Hn as [->|Hn]; auto; exfalso; apply H1; [rewrite <- F|rewrite F]; apply in_map; assumption.
Qed.
Lemma set_params_effect o i k kw pre rest : reachable o -> nth_error (o_kernels o) i = Some k ->
  NoDup (map fst kw) -> kw = pre ++ rest ->
  (forall name, In name (map fst pre) -> In name (map nm_name (kobj_params o k))) ->
  (forall name rhs rest', rest = (name, rhs) :: rest' -> ~ In name (map nm_name (kobj_params o k))) ->
  let o' := astep o (USetParams i kw) in
  nth_error (o_kernels o') i = Some k /\ kobj_params o' k = kobj_params o k /\
  forall n, In n (kobj_params o k) -> st_cell (o_params o') (nm_loc n) =
    match dget pre (nm_name n) with Some rhs => rhs | None => st_cell (o_params o) (nm_loc n) end.
Proof.
  intros R E ND Ekw Kn Un o'. destruct (reachable_params_nodup o i k R E) as [N1 N2]. unfold o'. cbn [astep]. rewrite E.
  split; [exact E|]. split; [reflexivity|]. intros n Hn. cbn [with_params o_params]. unfold kobj_dict.
  rewrite fold_dset_nodup by exact N1. cbn [app]. apply (put_params_effect _ kw pre rest n); auto.
Qed.

(** ** Default arguments *)
Lemma defs_step o op : (List.length (o_defs o) <= List.length (o_defs (astep o op)))%nat.
Proof.
  destruct op; cbn [astep].
  - destruct (param_init e v b); auto.
  - auto.
  - destruct (Nat.ltb src (st_next (o_params o))); auto. cbn. rewrite app_length. lia.
  - destruct (forallb _ srcs); auto. destruct (vec_init (o_params o) "length_scale" srcs). cbn. rewrite app_length. lia.
  - destruct (Nat.ltb _ _); auto.
  - destruct (Nat.ltb _ _ && Nat.ltb _ _); auto.
  - destruct (homoscedastic_init e v b); auto.
  - destruct (Nat.ltb a (List.length (o_arrays o))); auto.
  - auto.
  - auto.
  - destruct (Nat.ltb k _ && Nat.ltb _ _ && Nat.ltb _ _); auto. rewrite make_model_defs. auto.
  - destruct (nth_error (o_kernels o) k); auto.
  - destruct (nth_error (o_models o) m) as [mm|]; auto. destruct (nth_error (o_scales o) (mo_scale mm)); auto. rewrite make_model_defs. auto.
  - destruct (Nat.ltb a (List.length (o_arrays o))); auto.
  - destruct (nth_error (o_models o) m) as [mm|] eqn:Em; auto. destruct (deepcopy_model o mm) as [o1|] eqn:Ed; auto.
    assert (L : (List.length (o_defs o) <= List.length (o_defs o1))%nat).
    { unfold deepcopy_model in Ed.
      destruct (nth_error (o_kernels o) (mo_kernel mm)) as [k|]; [|discriminate].
      destruct (nth_error (o_noises o) (mo_noise mm)) as [z|]; [|discriminate].
      destruct (nth_error (o_scales o) (mo_scale mm)) as [sc|]; [|discriminate].
      destruct (copy_named (o_params o) (nth (k_def k) (o_defs o) [])) as [s1 ls].
      destruct (match k_smooth k with None => _ | Some n => _ end) as [s2 sm].
      destruct (match z with ZHomo l => _ | ZHetero a => _ | ZNull => _ end) as [[s3 arrays] z'].
      injection Ed as <-. cbn. rewrite app_length. lia. }
    destruct (nth_error (o_kernels o1) (List.length (o_kernels o))) as [k'|]; auto.
    destruct (nth_error (o_noises o1) (List.length (o_noises o))) as [z'|]; auto.
    destruct (put_optimized e (o_params o1) (kobj_dict o1 k') z' vals) as [s|]; auto.
    rewrite make_model_defs. exact L.
Qed.
Lemma arun_size ops : forall own o, inv own o ->
  (List.length (o_defs o) <= List.length (o_defs (arun ops o)))%nat /\ (st_next (o_params o) <= st_next (o_params (arun ops o)))%nat.
Proof.
  induction ops as [|op ops IH]; intros own o I; [split; apply le_n|]. destruct (step_inv own o op I) as (own' & I' & [G _]).
  destruct (IH own' _ I') as [A B]. pose proof (defs_step o op) as D.
  change (arun (op :: ops) o) with (arun ops (astep o op)). split; lia.
Qed.
Lemma reachable_size o : reachable o -> (2 <= List.length (o_defs o))%nat /\ (6 <= st_next (o_params o))%nat.
Proof. intros (ops & ->). destruct (arun_size ops _ _ import_inv) as [A B]. split; [exact A|exact B]. Qed.

(** [set_params] on one kernel leaves a kernel with another deformation alone. *)
Lemma set_params_other own o i j ki kj kw : inv own o -> nth_error (o_kernels o) i = Some ki -> nth_error (o_kernels o) j = Some kj ->
  i <> j -> k_def ki <> k_def kj -> kernel_obs (astep o (USetParams i kw)) j = kernel_obs o j.
Proof.
  intros I Ei Ej NE ND. cbn [astep]. rewrite Ei. apply (kernel_obs_frame own o _ j kj); auto.
  intros l Hl. cbn. apply put_params_frame. intros name n Hn <-.
  apply kobj_dict_in in Hn. pose proof (kobj_params_in _ _ _ _ _ I Ei Hn) as Hk. unfold live in *. intuition congruence.
Qed.
Lemma default_kernels o sm : reachable o -> (match sm with Some l => l < st_next (o_params o) | None => True end)%nat ->
  let n := List.length (o_kernels o) in let o' := arun [NMatern sm None; NRbf None] o in
  exists km kr, nth_error (o_kernels o') n = Some km /\ nth_error (o_kernels o') (S n) = Some kr /\
    k_def km = default_matern_def /\ k_def kr = default_rbf_def.
Proof.
  intros R Hs n o'. destruct (reachable_size o R) as [L1 L2]. subst o'. unfold arun. cbn [fold_left astep].
  replace (Nat.ltb default_matern_def (List.length (o_defs o))) with true by (symmetry; apply Nat.ltb_lt; unfold default_matern_def; lia).
  replace (Nat.ltb (match sm with Some l => l | None => default_smoothness end) (st_next (o_params o))) with true
    by (symmetry; apply Nat.ltb_lt; destruct sm; [exact Hs|unfold default_smoothness; lia]).
  cbn [andb named_init with_kernels with_params o_params o_defs o_kernels].
  replace (Nat.ltb default_rbf_def (List.length (o_defs o))) with true by (symmetry; apply Nat.ltb_lt; unfold default_rbf_def; lia).
  cbn [with_kernels o_kernels]. eexists _, _. split; [apply nth_error_snoc_old, nth_error_snoc_new|]. split.
  - pose proof (nth_error_snoc_new (o_kernels o ++ [make_kernel (with_params o (fst (named_init (o_params o) "smoothness" (match sm with Some l => l | None => default_smoothness end)))) (mkK default_matern_def (Some (snd (named_init (o_params o) "smoothness" (match sm with Some l => l | None => default_smoothness end)))) [] None)])) as X.
    rewrite app_length in X. cbn [List.length] in X. fold n in X. rewrite Nat.add_1_r in X. apply X.
  - split; [apply make_kernel_def|apply make_kernel_def].
Qed.

Lemma default_kernels_separate o sm kw : reachable o -> (match sm with Some l => l < st_next (o_params o) | None => True end)%nat ->
  let n := List.length (o_kernels o) in let o' := arun [NMatern sm None; NRbf None] o in
  List.length (o_kernels o') = (n + 2)%nat /\
  kernel_obs (astep o' (USetParams n kw)) (S n) = kernel_obs o' (S n) /\
  kernel_obs (astep o' (USetParams (S n) kw)) n = kernel_obs o' n.
Proof.
  intros R Hs n o'. destruct (default_kernels o sm R Hs) as (km & kr & EM & ER & DM & DR). fold o' n in EM, ER.
  assert (R' : reachable o').
  { destruct R as (ops & ->). exists (ops ++ [NMatern sm None; NRbf None]). unfold o', arun. rewrite fold_left_app. reflexivity. }
  destruct (reachable_inv _ R') as [own I].
  assert (ND : k_def km <> k_def kr) by (rewrite DM, DR; discriminate).
  split; [|split].
  - destruct (reachable_size o R) as [L1 L2]. unfold o', arun. cbn [fold_left astep].
    replace (Nat.ltb default_matern_def (List.length (o_defs o))) with true by (symmetry; apply Nat.ltb_lt; unfold default_matern_def; lia).
    replace (Nat.ltb (match sm with Some l => l | None => default_smoothness end) (st_next (o_params o))) with true
      by (symmetry; apply Nat.ltb_lt; destruct sm; [exact Hs|unfold default_smoothness; lia]).
    cbn [andb named_init with_kernels with_params o_params o_defs o_kernels].
    replace (Nat.ltb default_rbf_def (List.length (o_defs o))) with true by (symmetry; apply Nat.ltb_lt; unfold default_rbf_def; lia).
    cbn [with_kernels o_kernels]. rewrite !app_length. cbn [List.length]. fold n. lia.
  - apply (set_params_other own o' n (S n) km kr kw); auto.
  - apply (set_params_other own o' (S n) n kr km kw); auto.
Qed.
