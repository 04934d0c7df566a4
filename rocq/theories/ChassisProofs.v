(** Proofs about the optimization chassis. *)
From Coq Require Import Lia Lra Ascii.
From Verif Require Import Base BaseFacts NdModel RSum LinAlgModel GPModel NoiseModel MuyGPSModel HyperModel
  HyperSpec HyperProofs NamedModel NamedSpec NamedProofs TensorModel KernelModel LossModel
  ChassisModel ChassisSpec.
Local Open Scope string_scope.

(** ** "_knot" never occurs in a built name *)
Fixpoint no_k (s : string) : bool :=
  match s with
  | EmptyString => true
  | String c s' => negb (Ascii.eqb c "k"%char) && no_k s'
  end.

Lemma no_k_app a b : no_k (a ++ b) = no_k a && no_k b.
Proof. induction a; simpl; auto. rewrite IHa, andb_assoc. reflexivity. Qed.

Lemma no_k_uint u : no_k (DecimalString.NilEmpty.string_of_uint u) = true.
Proof. induction u; simpl; auto. Qed.

Lemma no_k_substring s : forall n m, no_k s = true -> no_k (String.substring n m s) = true.
Proof.
  induction s as [|c s IH]; intros n m H; simpl.
  - destruct n, m; reflexivity.
  - simpl in H. apply andb_prop in H. destruct H as [Hc Hs]. destruct n as [|n].
    + destruct m as [|m]; [reflexivity|]. simpl. rewrite Hc. simpl. apply IH. assumption.
    + apply IH. assumption.
Qed.

Lemma no_knot s : no_k s = true -> String.index 0 "_knot" s = None.
Proof.
  intros H. destruct (String.index 0 "_knot" s) as [m|] eqn:E; [|reflexivity].
  apply String.index_correct1 in E. pose proof (no_k_substring s m (String.length "_knot") H) as N.
  rewrite E in N. discriminate.
Qed.

Lemma built_name m n : built m -> In n (declared m) ->
  (In n (kernel_params (m_kernel m)) /\ nm_name n <> "noise" /\ no_k (nm_name n) = true) \/
  (m_noise m = NHomo n /\ nm_name n = "noise").
Proof.
  intros [Hl [Hk Hn]] Hin. unfold declared in Hin. apply in_app_iff in Hin. destruct Hin as [Hin|Hin].
  - left.
    assert (Hls : In n (ls_elems (k_ls (m_kernel m))) -> nm_name n <> "noise" /\ no_k (nm_name n) = true).
    { intros Hi. destruct Hl as [n0 E|v Ev En|v Ev En]; simpl in Hi.
      - destruct Hi as [<-|[]]. rewrite E. split; [discriminate|reflexivity].
      - assert (Hx : In (nm_name n) (map nm_name (v_elems v))) by (apply in_map; assumption).
        rewrite En in Hx. apply in_map_iff in Hx. destruct Hx as [i [<- _]].
        split; [discriminate|]. rewrite no_k_app. unfold str_nat. rewrite no_k_uint. reflexivity.
      - assert (Hx : In (nm_name n) (map nm_name (v_elems v))) by (apply in_map; assumption).
        rewrite En in Hx. apply in_map_iff in Hx. destruct Hx as [i [<- _]].
        split; [discriminate|]. rewrite no_k_app. unfold str_nat. rewrite no_k_uint. reflexivity. }
    destruct (m_kernel m) as [ls|ls sm c]; simpl in *.
    + auto.
    + split; [assumption|]. apply in_app_iff in Hin. destruct Hin as [Hin|[<-|[]]]; [auto|].
      rewrite Hk. split; [discriminate|reflexivity].
  - right. destruct (m_noise m) as [n0| |]; simpl in Hin; try tauto.
    destruct Hin as [<-|[]]. auto.
Qed.

Lemma dget_map_name (l : list named) n : NoDup (map nm_name l) -> In n l ->
  dget (map (fun n => (nm_name n, n)) l) (nm_name n) = Some n.
Proof.
  induction l as [|x l IH]; simpl; [tauto|]. intros ND [->|Hin].
  - rewrite String.eqb_refl. reflexivity.
  - inversion ND; subst. destruct (String.eqb (nm_name x) (nm_name n)) eqn:E.
    + apply String.eqb_eq in E. exfalso. apply H1. rewrite E. apply in_map. assumption.
    + auto.
Qed.

Lemma assign_one_declared s m n v : built m -> In n (declared m) ->
  assign_one s m (nm_name n) v = assign_param s n v.
Proof.
  intros Hb Hin. unfold assign_one.
  destruct (built_name m n Hb Hin) as [[Hk [Hne Hnk]]|[Hn ->]].
  - apply String.eqb_neq in Hne. rewrite Hne. rewrite (no_knot _ Hnk).
    rewrite (kernel_dict_eq m Hb). rewrite dget_map_name; [reflexivity| |assumption].
    pose proof (built_nodup m Hb) as ND. unfold declared in ND. rewrite map_app in ND.
    apply NoDup_app_l in ND. destruct (m_kernel m); exact ND.
  - rewrite String.eqb_refl, Hn. reflexivity.
Qed.

(** ** Clamping *)
Lemma nlt_irrefl a : ~ nlt a a.
Proof. intros H. inversion H; subst; lra. Qed.
Lemma nlt_trans a b c : nlt a b -> nlt b c -> nlt a c.
Proof. intros H1 H2. inversion H1; subst; inversion H2; subst; constructor. lra. Qed.
Lemma nlt_tri a b : a <> NaN -> b <> NaN -> nlt a b \/ a = b \/ nlt b a.
Proof.
  intros Ha Hb. destruct a, b; try congruence; auto; try (left; constructor; fail); try (right; right; constructor; fail).
  destruct (Rtotal_order r r0) as [|[->|]]; [left; constructor; assumption|auto|right; right; constructor; assumption].
Qed.

Lemma clamp_spec lo hi v : clamped lo hi v (clamp lo hi v).
Proof.
  unfold clamp, clamped, num_gtb. destruct (num_ltb v lo) eqn:E1.
  - left. apply nlt_iff in E1. auto.
  - apply nlt_false in E1. destruct (num_ltb hi v) eqn:E2.
    + right; left. apply nlt_iff in E2. auto.
    + right; right. apply nlt_false in E2. auto.
Qed.

Lemma clamp_in lo hi v : ~ nlt hi lo ->
  ~ nlt (clamp lo hi v) lo /\ ~ nlt hi (clamp lo hi v).
Proof.
  intros Hb. destruct (clamp_spec lo hi v) as [[H ->]|[[H [H' ->]]|[H [H' ->]]]]; split; auto;
    apply nlt_irrefl.
Qed.

Lemma in_bounds_tol lo hi x : lo <> NaN -> hi <> NaN -> ~ nlt x lo -> ~ nlt hi x ->
  in_range (Some (lo, hi)) x.
Proof.
  intros Hlo Hhi H1 H2. split; intros H.
  - apply H1. destruct lo; simpl in H; inversion H; subst; try congruence; constructor. lra.
  - apply H2. destruct hi; simpl in H; inversion H; subst; try congruence; constructor. lra.
Qed.

Lemma assign_param_ok s n v :
  let p := st_cell s (nm_loc n) in
  p_fixed p = false -> in_range (Some (p_bounds p)) v ->
  assign_param s n v = Ok (st_put s (nm_loc n) (mkParam v (p_bounds p) false)).
Proof.
  intros p Hf Hr. unfold assign_param, param_set_val, set_val. cbn [has_len py_float bind].
  fold p. rewrite Hf. cbn [has_len].
  assert (E : check_range (p_bounds p) false v = Ok v).
  { apply check_range_ok. split; [reflexivity|]. exact Hr. }
  rewrite E. reflexivity.
Qed.

(** ** The assignment loop *)
Lemma assign_all_spec opt m L : forall s,
  built m -> (forall n, In n L -> In n (declared m)) -> NoDup (map nm_loc L) ->
  (forall n, In n L -> p_fixed (st_cell s (nm_loc n)) = false /\
     let b := p_bounds (st_cell s (nm_loc n)) in
     fst b <> NaN /\ snd b <> NaN /\ ~ nlt (snd b) (fst b)) ->
  (forall n, In n L -> exists v, dget opt (nm_name n) = Some v) ->
  exists s', assign_all s m (map nm_name L) (map (fun n => p_bounds (st_cell s (nm_loc n))) L) opt = Ok s' /\
    st_next s' = st_next s /\
    (forall l, ~ In l (map nm_loc L) -> st_cell s' l = st_cell s l) /\
    (forall n, In n L -> exists v, dget opt (nm_name n) = Some v /\
       st_cell s' (nm_loc n) =
         mkParam (clamp (fst (p_bounds (st_cell s (nm_loc n)))) (snd (p_bounds (st_cell s (nm_loc n)))) v)
                 (p_bounds (st_cell s (nm_loc n))) false).
Proof.
  induction L as [|n L IH]; intros s Hb Hd ND Hf Ho; cbn [map assign_all].
  - exists s. repeat split; auto. intros n [].
  - destruct (Hf n (or_introl eq_refl)) as [Hfn [Hlo [Hhi Hlh]]].
    destruct (Ho n (or_introl eq_refl)) as [v Hv]. rewrite Hv.
    destruct (p_bounds (st_cell s (nm_loc n))) as [lo hi] eqn:EB. cbn [fst snd] in *.
    rewrite assign_one_declared by (auto; apply Hd; left; reflexivity).
    destruct (clamp_in lo hi v Hlh) as [C1 C2].
    rewrite assign_param_ok; [|assumption|rewrite EB; apply in_bounds_tol; assumption].
    cbn [bind]. rewrite EB. inversion ND as [|? ? Hnin ND']; subst.
    set (s1 := st_put s (nm_loc n) (mkParam (clamp lo hi v) (lo, hi) false)).
    assert (Hsame : forall n', In n' L -> st_cell s1 (nm_loc n') = st_cell s (nm_loc n')).
    { intros n' Hin. unfold s1, st_put. cbn [st_cell].
      destruct (Nat.eqb (nm_loc n') (nm_loc n)) eqn:E; [|reflexivity].
      apply Nat.eqb_eq in E. exfalso. apply Hnin. rewrite <- E. apply in_map. assumption. }
    assert (Hbs : map (fun n => p_bounds (st_cell s (nm_loc n))) L =
                  map (fun n => p_bounds (st_cell s1 (nm_loc n))) L).
    { apply map_ext_in. intros n' Hin. rewrite Hsame by assumption. reflexivity. }
    rewrite Hbs.
    destruct (IH s1 Hb) as [s' [E [N [Hout Hin']]]].
    + intros. apply Hd. right. assumption.
    + assumption.
    + intros n' Hin. rewrite Hsame by assumption. apply Hf. right. assumption.
    + intros. apply Ho. right. assumption.
    + exists s'. split; [exact E|]. split; [exact N|]. split.
      * intros l Hl. cbn [map] in Hl. rewrite Hout by (intros C; apply Hl; right; assumption).
        unfold s1, st_put. cbn [st_cell]. destruct (Nat.eqb l (nm_loc n)) eqn:E'; [|reflexivity].
        apply Nat.eqb_eq in E'. exfalso. apply Hl. left. auto.
      * intros n' [<-|Hn'].
        -- exists v. split; [assumption|]. rewrite Hout by assumption. rewrite EB. cbn [fst snd].
           unfold s1, st_put. cbn [st_cell]. rewrite Nat.eqb_refl. reflexivity.
        -- destruct (Hin' n' Hn') as [v' [Hv' Hc]]. exists v'. split; [assumption|].
           rewrite Hsame in Hc by assumption. exact Hc.
Qed.

(** ** Deep copies *)
Lemma declared_move k m : declared (move_model k m) = map (move_named k) (declared m).
Proof.
  unfold declared. rewrite map_app. f_equal.
  - cbn [move_model m_kernel]. destruct (m_kernel m) as [ls|ls n c]; cbn [move_kernel].
    + destruct ls; reflexivity.
    + rewrite map_app. destruct ls; reflexivity.
  - cbn [move_model m_noise]. destruct (m_noise m); reflexivity.
Qed.

Lemma built_move k m : built m -> built (move_model k m).
Proof.
  intros [Hl [Hk Hn]]. unfold built. cbn [move_model m_kernel m_noise]. split; [|split].
  - destruct (m_kernel m) as [ls|ls n c]; cbn [move_kernel k_ls] in *;
      destruct Hl as [n0 E|v Ev En|v Ev En]; cbn [move_ls]; constructor; cbn [move_vec v_name v_elems];
      try assumption; rewrite map_map, map_length; cbn [nm_name move_named]; assumption.
  - destruct (m_kernel m); cbn [move_kernel]; assumption.
  - destruct (m_noise m); cbn [move_noise]; assumption.
Qed.

Lemma copy_old s l : (l < st_next s)%nat -> st_cell (copy_store s) l = st_cell s l.
Proof. intros H. unfold copy_store. cbn [st_cell]. apply Nat.ltb_lt in H. rewrite H. reflexivity. Qed.

Lemma copy_new s l : st_cell (copy_store s) (l + st_next s) = st_cell s l.
Proof.
  unfold copy_store. cbn [st_cell]. destruct (Nat.ltb_spec (l + st_next s) (st_next s)); [lia|].
  f_equal. lia.
Qed.

Lemma declared_make s m : declared (model_make s m) = declared m.
Proof. unfold declared, model_make. cbn [m_kernel m_noise]. destruct (m_kernel m); reflexivity. Qed.

Lemma new_muygps_spec s F names x0 bounds opt :
  model_ok s F -> bounds_ok s F ->
  get_opt_params s (f_attr F) = Ok (names, x0, bounds) ->
  (forall k, In k names -> exists v, dget opt k = Some v) ->
  exists s' F', new_muygps s F names bounds opt = Ok (s', F') /\ optimized_model s F opt s' F'.
Proof.
  intros [Hb [Hn [Hlt ND]]] Hbo Ho Hv. rewrite get_opt_params_eq in Ho by assumption.
  unfold listed in Ho. injection Ho as <- <- <-.
  set (L := filter (free s) (declared (f_attr F))) in *.
  set (k := st_next s). set (m' := move_model k (f_attr F)).
  set (L' := map (move_named k) L).
  assert (HL : forall n, In n L -> In n (declared (f_attr F)) /\ p_fixed (st_cell s (nm_loc n)) = false).
  { intros n Hin. unfold L in Hin. apply filter_In in Hin. destruct Hin as [H1 H2]. split; [assumption|].
    unfold free in H2. destruct (p_fixed _); [discriminate|reflexivity]. }
  assert (E1 : map nm_name L = map nm_name L') by (unfold L'; rewrite map_map; reflexivity).
  assert (E2 : map (fun n => p_bounds (st_cell s (nm_loc n))) L =
               map (fun n => p_bounds (st_cell (copy_store s) (nm_loc n))) L').
  { unfold L'. rewrite map_map. apply map_ext. intros n. cbn [nm_loc move_named].
    unfold k. rewrite copy_new. reflexivity. }
  assert (NDL : NoDup (map nm_loc L)).
  { clear - ND. unfold L. induction (declared (f_attr F)) as [|n l IH]; simpl; [constructor|].
    inversion ND; subst. destruct (free s n); [|auto]. simpl. constructor; [|auto].
    intros C. apply H1. apply in_map_iff in C. destruct C as [n' [<- Hin]]. apply filter_In in Hin.
    apply in_map. tauto. }
  unfold new_muygps. cbn [deepcopy]. cbn [f_attr]. fold k. fold m'. rewrite E1, E2.
  destruct (assign_all_spec opt m' L' (copy_store s)) as [s' [E [N [Hout Hin]]]].
  - apply built_move. assumption.
  - intros n Hi. unfold L' in Hi. apply in_map_iff in Hi. destruct Hi as [n0 [<- Hi]].
    unfold m'. rewrite declared_move. apply in_map. apply HL. assumption.
  - unfold L'. rewrite map_map. cbn [nm_loc move_named].
    clear - NDL. induction L as [|n l IH]; simpl in *; [constructor|]. inversion NDL; subst.
    constructor; [|auto]. intros C. apply H1. apply in_map_iff in C. destruct C as [n' [E Hin]].
    assert (nm_loc n' = nm_loc n) as <- by lia. apply in_map. assumption.
  - intros n Hi. unfold L' in Hi. apply in_map_iff in Hi. destruct Hi as [n0 [<- Hi]].
    cbn [nm_loc move_named]. unfold k. rewrite copy_new. destruct (HL n0 Hi) as [Hd Hf].
    split; [assumption|]. apply (Hbo n0 Hd Hf).
  - intros n Hi. apply Hv. rewrite E1. apply in_map. assumption.
  - rewrite E. cbn [bind]. exists s'. eexists. split; [reflexivity|].
    unfold optimized_model. cbn [full_make f_attr f_bound f_metric f_hetero f_kind f_scale].
    split; [|split; [|repeat split]].
    + intros l Hl. rewrite Hout; [apply copy_old; assumption|]. intros C. unfold L' in C.
      rewrite map_map in C. apply in_map_iff in C. destruct C as [n [<- _]].
      cbn [nm_loc move_named] in Hl. unfold k in Hl. lia.
    + rewrite declared_make. unfold m'. rewrite declared_move.
      assert (G : forall D, (forall n, In n D -> In n (declared (f_attr F))) ->
        Forall2 (optimized s s' opt) D (map (move_named k) D)).
      { induction D as [|n D IH]; intros HD; simpl; constructor.
        - specialize (HD n (or_introl eq_refl)). unfold optimized. cbn [nm_name nm_loc move_named].
          split; [reflexivity|]. split; [unfold k; lia|].
          destruct (p_fixed (st_cell s (nm_loc n))) eqn:Hfx.
          + assert (Ec : st_cell s' (nm_loc n + k) = st_cell s (nm_loc n)).
            { rewrite Hout; [unfold k; apply copy_new|]. intros C. unfold L' in C. rewrite map_map in C.
              apply in_map_iff in C. destruct C as [n' [En Hin']]. cbn [nm_loc move_named] in En.
              destruct (HL n' Hin') as [Hd' Hf']. assert (nm_loc n' = nm_loc n) as El by lia.
              rewrite El in Hf'. congruence. }
            rewrite Ec. auto.
          + assert (HnL : In n L) by (apply filter_In; split; [assumption|unfold free; rewrite Hfx; reflexivity]).
            destruct (Hin (move_named k n)) as [v [Hv' Hc]]; [apply in_map; assumption|].
            cbn [nm_name nm_loc move_named] in Hv', Hc.
            assert (Ecp : st_cell (copy_store s) (nm_loc n + k) = st_cell s (nm_loc n)) by (apply copy_new).
            rewrite Ecp in Hc. rewrite Hc. cbn [p_fixed p_bounds p_val].
            split; [reflexivity|]. split; [reflexivity|]. exists v. split; [assumption|].
            split; [apply clamp_spec|]. apply clamp_in. apply (Hbo n HD Hfx).
        - apply IH. intros. apply HD. right. assumption. }
      apply G. auto.
Qed.

(** ** Scipy and Bayes wrappers *)
Lemma dget_combine_some (names : list string) (x : list num) k :
  (List.length names <= List.length x)%nat -> In k names -> exists v, dget (combine names x) k = Some v.
Proof.
  revert x. induction names as [|n names IH]; intros x Hl Hin; [destruct Hin|].
  destruct x as [|y x]; simpl in *; [lia|]. destruct Hin as [->|Hin].
  - rewrite String.eqb_refl. eauto.
  - destruct (String.eqb n k); [eauto|]. apply IH; [lia|assumption].
Qed.

Lemma scipy_spec minimize s F f s' F' :
  model_ok s F -> bounds_ok s F -> scipy_optimize minimize s F f = Ok (s', F') ->
  exists opt, optimized_model s F opt s' F'.
Proof.
  intros Hm Hb H. unfold scipy_optimize in H.
  destruct (get_opt_params s (f_attr F)) as [[[names x0] bounds]|] eqn:Eo; cbn [bind] in H; [|discriminate].
  destruct (minimize _ _ _) as [x|] eqn:Ex; cbn [bind] in H; [|discriminate].
  destruct (Nat.ltb_spec (List.length x) (List.length names)); [discriminate|].
  destruct (new_muygps_spec s F names x0 bounds (combine names x) Hm Hb Eo) as [s1 [F1 [E1 O1]]].
  - intros k Hk. apply dget_combine_some; assumption.
  - rewrite E1 in H. injection H as <- <-. eauto.
Qed.

Lemma scipy_total minimize s F f names x0 bounds x :
  model_ok s F -> bounds_ok s F -> get_opt_params s (f_attr F) = Ok (names, x0, bounds) ->
  minimize (obj_fn_adapter f names) x0 bounds = Ok x -> List.length x = List.length names ->
  exists s' F', scipy_optimize minimize s F f = Ok (s', F').
Proof.
  intros Hm Hb Eo Ex Hl. unfold scipy_optimize. rewrite Eo. cbn [bind]. rewrite Ex. cbn [bind].
  rewrite Hl, Nat.ltb_irrefl.
  destruct (new_muygps_spec s F names x0 bounds (combine names x) Hm Hb Eo) as [s1 [F1 [E1 O1]]].
  - intros k Hk. apply dget_combine_some; [lia|assumption].
  - eauto.
Qed.

Lemma bayes_spec maximize s F f verbose kw s' F' :
  model_ok s F -> bounds_ok s F ->
  (forall names x0 bounds plan b, get_opt_params s (f_attr F) = Ok (names, x0, bounds) ->
     maximize f plan = Ok b -> forall k, In k names -> exists v, dget b k = Some v) ->
  bayes_optimize maximize s F f verbose kw = Ok (s', F') ->
  exists opt, optimized_model s F opt s' F'.
Proof.
  intros Hm Hb Hk H. unfold bayes_optimize in H.
  destruct (get_opt_params s (f_attr F)) as [[[names x0] bounds]|] eqn:Eo; cbn [bind] in H; [|discriminate].
  destruct (bayes_plan s F verbose kw) as [plan|]; cbn [bind] in H; [|discriminate].
  destruct (maximize f plan) as [b|] eqn:Eb; cbn [bind] in H; [|discriminate].
  destruct (new_muygps_spec s F names x0 bounds b Hm Hb Eo) as [s1 [F1 [E1 O1]]].
  - eapply Hk; eauto.
  - rewrite E1 in H. injection H as <- <-. eauto.
Qed.
