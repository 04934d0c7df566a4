(** The objective evaluated at a hyperparameter dictionary is the score of the rebuilt model. *)
From Coq Require Import Lia Lra.
From Verif Require Import Base BaseFacts NdModel RSum LinAlgModel GPModel NoiseModel MuyGPSModel HyperModel
  HyperSpec HyperProofs NamedModel NamedSpec NamedProofs TensorModel KernelModel LossModel
  ChassisModel ChassisSpec ChassisProofs.
Local Open Scope string_scope.

Lemma vec_array_gen (v : nvec) (cur : nat -> R) kw j :
  dict_ok kw -> NoDup (map nm_name (v_elems v)) ->
  (forall x, In x (v_elems v) -> String.prefix (v_name v) (nm_name x) = true) ->
  map fst (filter (fun kv => String.prefix (v_name v) (fst kv)) kw) = map nm_name (firstn j (v_elems v)) ->
  vec_call v cur (fst (vec_filter v cur kw)) =
  map (fun e => kw_or kw (nm_name e) (cur (nm_loc e))) (v_elems v).
Proof.
  intros OK ND PF E. set (P := fst (vec_filter v cur kw)).
  assert (KP : map fst P = map nm_name (v_elems v)).
  { unfold P, vec_filter, vec_defaults; cbn [fst].
    rewrite <- (firstn_skipn j (v_elems v)) at 1.
    rewrite vec_defaults_prefix.
    - rewrite map_app, map_map. cbn [fst]. rewrite E.
      rewrite <- (firstn_skipn j (v_elems v)) at 3. rewrite map_app. reflexivity.
    - rewrite firstn_skipn; auto.
    - exact E. }
  assert (FP : filter (fun kv => String.prefix (v_name v) (fst kv)) P = P).
  { clear -KP PF. assert (H : forall e, In e P -> String.prefix (v_name v) (fst e) = true).
    { intros e He. apply (in_map fst) in He. rewrite KP in He. apply in_map_iff in He.
      destruct He as [x [<- Hx]]. auto. }
    clear KP. induction P as [|e P IH]; cbn [filter]; auto.
    rewrite (H e) by (left; auto). f_equal. apply IH. intros; apply H; right; auto. }
  rewrite (vec_call_in_order v cur P (List.length (v_elems v))); auto.
  - apply map_ext_in. intros e He. unfold kw_or at 1. unfold P.
    rewrite (vec_filter_content v cur kw e ND PF He). reflexivity.
  - unfold dict_ok. rewrite KP. exact ND.
  - rewrite FP, KP, firstn_all. reflexivity.
Qed.

(** Corresponding parameters read the same value. *)
Definition agrees (s s' : store) (kw : dict R) (n n' : named) : Prop :=
  nm_name n' = nm_name n /\ kw_or kw (nm_name n) (reals s (nm_loc n)) = reals s' (nm_loc n').

Section K.
Variables (gamma : R -> R) (kv : R -> R -> R).

(** Embeddings: the deformed tensor is the same, only the leftover keywords differ. *)
Lemma iso_embed m s s' kw n n' D : nm_name n = "length_scale" -> agrees s s' kw n n' ->
  forall fn fn' : nd R -> dict R -> result (nd R),
  (forall x, fn x (snd (named_filter n (reals s) kw)) = fn' x []) ->
  embed (Iso m n) fn (reals s) D kw = embed (Iso m n') fn' (reals s') D [].
Proof.
  intros Hn [Hn' Ha] fn fn' Hfn. unfold embed, named_embed.
  pose proof (named_filter_params n (reals s) kw "length_scale") as E1.
  pose proof (named_filter_params n' (reals s') [] "length_scale") as E2.
  rewrite Hn', Hn, String.eqb_refl in E2. rewrite Hn, String.eqb_refl in E1. rewrite Hn in Ha.
  assert (R2 : snd (named_filter n' (reals s') []) = []) by reflexivity.
  destruct (named_filter n (reals s) kw) as [p r] eqn:EF.
  destruct (named_filter n' (reals s') []) as [p' r'] eqn:EF'. cbn [fst snd] in *. subst r'.
  unfold deform_call, isotropy_call. rewrite E1, E2. cbn [bind].
  unfold kw_or at 2. cbn [dget]. rewrite Ha. apply Hfn.
Qed.

Lemma aniso_embed m s s' kw v v' j D :
  dict_ok kw -> NoDup (map nm_name (v_elems v)) ->
  (forall x, In x (v_elems v) -> String.prefix (v_name v) (nm_name x) = true) ->
  map fst (filter (fun kv => String.prefix (v_name v) (fst kv)) kw) = map nm_name (firstn j (v_elems v)) ->
  v_name v' = v_name v -> Forall2 (agrees s s' kw) (v_elems v) (v_elems v') ->
  forall fn fn' : nd R -> dict R -> result (nd R),
  (forall x, fn x (snd (vec_filter v (reals s) kw)) = fn' x []) ->
  embed (Aniso m v) fn (reals s) D kw = embed (Aniso m v') fn' (reals s') D [].
Proof.
  intros OK ND PF E Hv HA fn fn' Hfn. unfold embed, vec_embed.
  assert (Hnames : map nm_name (v_elems v') = map nm_name (v_elems v)).
  { clear -HA. induction HA as [|a b l l' [H _] _ IH]; simpl; congruence. }
  assert (A1 := vec_array_gen v (reals s) kw j OK ND PF E).
  assert (A2 : vec_call v' (reals s') (fst (vec_filter v' (reals s') [])) =
     map (fun e => kw_or [] (nm_name e) (reals s' (nm_loc e))) (v_elems v')).
  { apply (vec_array_gen v' (reals s') [] 0); try (constructor; fail); try reflexivity.
    - rewrite Hnames. assumption.
    - intros x Hx. apply (in_map nm_name) in Hx. rewrite Hnames in Hx. apply in_map_iff in Hx.
      destruct Hx as [y [<- Hy]]. rewrite Hv. auto. }
  assert (EQ : map (fun e => kw_or kw (nm_name e) (reals s (nm_loc e))) (v_elems v) =
               map (fun e => kw_or [] (nm_name e) (reals s' (nm_loc e))) (v_elems v')).
  { clear -HA. induction HA as [|a b l l' [H H'] _ IH]; simpl; [reflexivity|]. rewrite H', IH. reflexivity. }
  assert (HL : List.length (v_elems v) = List.length (v_elems v')).
  { clear -HA. induction HA; simpl; congruence. }
  assert (R2 : snd (vec_filter v' (reals s') []) = []) by reflexivity.
  destruct (vec_filter v (reals s) kw) as [p r] eqn:EF.
  destruct (vec_filter v' (reals s') []) as [p' r'] eqn:EF'. cbn [fst snd] in *. subst r'.
  unfold deform_call, anisotropy_call. rewrite A1, A2, EQ, HL.
  destruct (rev (shape D)) as [|f ?]; [reflexivity|].
  destruct (negb _); [reflexivity|].
  destruct (bop Rdiv D _) as [t|]; cbn [bind]; [|reflexivity].
  destruct (metric_call m t); cbn [bind]; [apply Hfn|reflexivity].
Qed.

Lemma matern_rest s s' kw sm sm' c x rest :
  agrees s s' kw sm sm' -> nm_name sm = "smoothness" -> dget rest "smoothness" = dget kw "smoothness" ->
  named_apply_fn sm (matern_backend gamma kv c x) (reals s) rest =
  named_apply_fn sm' (matern_backend gamma kv c x) (reals s') [].
Proof.
  intros [Hn Ha] Hs Hr. unfold named_apply_fn.
  assert (E : dget (setdefault rest (nm_name sm) (reals s (nm_loc sm))) "smoothness" =
              dget (setdefault [] (nm_name sm') (reals s' (nm_loc sm'))) "smoothness").
  { rewrite !apply_fn_lookup, Hn, Hs, String.eqb_refl. unfold kw_or at 1. rewrite Hr.
    rewrite Hs in Ha. unfold kw_or in Ha. rewrite Ha. reflexivity. }
  destruct c; cbn [matern_backend]; try reflexivity. rewrite E. reflexivity.
Qed.
End K.

(** ** The keyword dictionary of an optimizer point *)
Lemma dget_combine_in (names : list string) : forall (x : list R) k r, NoDup names ->
  dget (combine names x) k = Some r -> In k names.
Proof.
  induction names as [|n names IH]; intros [|y x] k r ND H; simpl in *; try discriminate.
  inversion ND; subst. destruct (String.eqb n k) eqn:E; [left; apply String.eqb_eq; assumption|].
  right. eapply IH; eauto.
Qed.

Lemma map_fst_combine {A B} (l : list A) : forall (x : list B), List.length x = List.length l ->
  map fst (combine l x) = l.
Proof. induction l; intros [|y x] H; simpl in *; try discriminate; auto. f_equal. apply IHl. lia. Qed.

Lemma filter_fst_combine {B} (p : string -> bool) (l : list string) : forall (x : list B),
  List.length x = List.length l ->
  map fst (filter (fun kv => p (fst kv)) (combine l x)) = filter p l.
Proof.
  induction l as [|a l IH]; intros [|y x] H; simpl in *; try discriminate; auto.
  destruct (p a); simpl; [f_equal|]; apply IH; lia.
Qed.

Lemma dget_combine_fin (names : list string) : forall (x : list R) k,
  dget (combine names (map Fin x)) k = option_map Fin (dget (combine names x) k).
Proof.
  induction names as [|n names IH]; intros [|y x] k; simpl; auto.
  destruct (String.eqb n k); simpl; auto.
Qed.

(** The value proposed for a free parameter, with its bounds. *)
Lemma box_lookup s (L : list named) : forall x n r,
  in_box x (map (fun n => p_bounds (st_cell s (nm_loc n))) L) -> NoDup (map nm_name L) -> In n L ->
  dget (combine (map nm_name L) x) (nm_name n) = Some r ->
  ~ nlt (Fin r) (fst (p_bounds (st_cell s (nm_loc n)))) /\
  ~ nlt (snd (p_bounds (st_cell s (nm_loc n)))) (Fin r).
Proof.
  induction L as [|a L IH]; intros x n r HB ND Hin H; [destruct Hin|].
  inversion HB as [|? ? ? ? Hb HB']; subst. simpl in H. inversion ND; subst.
  destruct Hin as [->|Hin].
  - rewrite String.eqb_refl in H. injection H as <-. assumption.
  - destruct (String.eqb (nm_name a) (nm_name n)) eqn:E.
    + apply String.eqb_eq in E. exfalso. apply H2. rewrite E. apply in_map. assumption.
    + eapply IH; eauto.
Qed.

Lemma clamped_inside lo hi v x : clamped lo hi v x -> ~ nlt v lo -> ~ nlt hi v -> x = v.
Proof. intros [[H _]|[[H _]|[_ [_ H]]]] H1 H2; tauto. Qed.

Lemma optimized_agrees s s' F names x0 bounds x n n' :
  built (f_attr F) -> m_noise (f_attr F) <> NNull ->
  get_opt_params s (f_attr F) = Ok (names, x0, bounds) -> in_box x bounds ->
  In n (declared (f_attr F)) -> optimized s s' (combine names (map Fin x)) n n' ->
  agrees s s' (combine names x) n n'.
Proof.
  intros Hb Hn Eo HB Hin [En [_ [_ [_ Hv]]]]. split; [assumption|].
  rewrite get_opt_params_eq in Eo by assumption. injection Eo as <- <- <-.
  set (L := filter (free s) (declared (f_attr F))) in *.
  assert (NDn : NoDup (map nm_name L)).
  { pose proof (built_nodup _ Hb) as ND. clear -ND. unfold L.
    induction (declared (f_attr F)) as [|a l IH]; simpl in *; [constructor|]. inversion ND; subst.
    destruct (free s a); simpl; auto. constructor; auto. intros C. apply H1.
    apply in_map_iff in C. destruct C as [y [<- Hy]]. apply filter_In in Hy. apply in_map. tauto. }
  destruct (p_fixed (st_cell s (nm_loc n))) eqn:Hf.
  - unfold kw_or. destruct (dget (combine (map nm_name L) x) (nm_name n)) as [r|] eqn:E.
    + exfalso. apply dget_combine_in in E; [|assumption]. apply in_map_iff in E.
      destruct E as [y [Ey Hy]]. unfold L in Hy. apply filter_In in Hy. destruct Hy as [Hy Hfy].
      assert (y = n).
      { pose proof (find_name _ n (built_nodup _ Hb) Hin) as F1.
        pose proof (find_name _ y (built_nodup _ Hb) Hy) as F2. rewrite Ey in F2. congruence. }
      subst y. unfold free in Hfy. rewrite Hf in Hfy. discriminate.
    + unfold reals. rewrite Hv. reflexivity.
  - destruct Hv as [v [Hd [Hc _]]]. rewrite dget_combine_fin in Hd.
    unfold kw_or. destruct (dget (combine (map nm_name L) x) (nm_name n)) as [r|] eqn:E; [|discriminate].
    simpl in Hd. injection Hd as <-.
    assert (HnL : In n L) by (apply filter_In; split; [assumption|unfold free; rewrite Hf; reflexivity]).
    destruct (box_lookup s L x n r HB NDn HnL E) as [B1 B2].
    unfold reals. rewrite (clamped_inside _ _ _ _ Hc B1 B2). reflexivity.
Qed.

(** ** Kernels *)
Lemma kernel_call_same gamma kv m s s' kw (K K' : kernel) j D :
  dict_ok kw -> built_ls (k_ls K) ->
  (match K with KMatern _ sm _ => nm_name sm = "smoothness" | _ => True end) ->
  match k_ls K with
  | LSScalar _ => True
  | LSVector v => map fst (filter (fun kv => String.prefix (v_name v) (fst kv)) kw) =
                  map nm_name (firstn j (v_elems v))
  | LSHier _ => False
  end ->
  match K, K' with
  | KRbf (LSScalar n), KRbf (LSScalar n') => agrees s s' kw n n'
  | KRbf (LSVector v), KRbf (LSVector v') => v_name v' = v_name v /\ Forall2 (agrees s s' kw) (v_elems v) (v_elems v')
  | KMatern (LSScalar n) sm c, KMatern (LSScalar n') sm' c' =>
      agrees s s' kw n n' /\ agrees s s' kw sm sm' /\ c = c'
  | KMatern (LSVector v) sm c, KMatern (LSVector v') sm' c' =>
      (v_name v' = v_name v /\ Forall2 (agrees s s' kw) (v_elems v) (v_elems v')) /\
      agrees s s' kw sm sm' /\ c = c'
  | _, _ => False
  end ->
  kernel_call gamma kv m K s D kw = kernel_call gamma kv m K' s' D [].
Proof.
  intros OK Hb Hsm Hord HA.
  assert (PFX : forall v, built_ls (LSVector v) -> NoDup (map nm_name (v_elems v)) /\ v_name v = "length_scale" /\
     forall x, In x (v_elems v) -> String.prefix (v_name v) (nm_name x) = true).
  { intros v H. inversion H as [|v0 Hn Hnames|]; subst. split; [|split].
    - rewrite Hnames. apply vec_names_nodup, seq_NoDup.
    - assumption.
    - intros x Hx. apply (in_map nm_name) in Hx. rewrite Hnames in Hx. apply in_map_iff in Hx.
      destruct Hx as [i [<- _]]. rewrite Hn. apply prefix_append. }
  destruct K as [[n|v|v]|[n|v|v] sm c]; destruct K' as [[n'|v'|v']|[n'|v'|v'] sm' c']; try contradiction;
    cbn [kernel_call k_ls] in *.
  - inversion Hb; subst. apply iso_embed; auto.
  - destruct (PFX v Hb) as [ND [_ PF]]. destruct HA as [Hv HA].
    eapply aniso_embed; eauto.
  - destruct HA as [H1 [H2 <-]]. inversion Hb; subst. apply iso_embed; auto.
    intros x. refine (matern_rest gamma kv s s' kw sm sm' c x _ H2 Hsm _).
    rewrite named_filter_rest. rewrite H0. reflexivity.
  - destruct HA as [[Hv HA] [H2 <-]]. destruct (PFX v Hb) as [ND [Hvn PF]].
    eapply aniso_embed; eauto. intros x. refine (matern_rest gamma kv s s' kw sm sm' c x _ H2 Hsm _).
    rewrite vec_filter_rest, Hvn. reflexivity.
Qed.

(** ** Noise and scale *)
Lemma analytic_loop_noise ls g g' Kin T k : gp_noise g = gp_noise g' -> forall s,
  analytic_loop ls g Kin T k s = analytic_loop ls g' Kin T k s.
Proof.
  intros E. induction k as [|k IH]; intros s; simpl; [reflexivity|].
  unfold analytic_step. rewrite E. destruct (perturb (gp_noise g') Kin None); cbn [bind]; [|reflexivity].
  destruct (analytic_scale ls _ T); cbn [bind]; auto.
Qed.

Lemma scale_opt_dep ls g g' draws Kin T : gp_kind g = gp_kind g' -> gp_scale g = gp_scale g' ->
  (gp_kind g = FixedScale \/ gp_noise g = gp_noise g') ->
  scale_opt ls g draws Kin T = scale_opt ls g' draws Kin T.
Proof.
  intros E1 E2 H. unfold scale_opt. rewrite <- E1. destruct (gp_kind g) as [|it|d it] eqn:K.
  - rewrite E2. reflexivity.
  - destruct H as [H|H]; [discriminate|]. unfold analytic_scale_opt. rewrite H.
    destruct (perturb (gp_noise g') Kin None) as [pK|]; cbn [bind]; [|reflexivity].
    destruct (analytic_scale ls pK T) as [v|]; cbn [bind]; [|reflexivity].
    rewrite (analytic_loop_noise ls g g' Kin T _ H). reflexivity.
  - destruct H as [H|H]; [discriminate|]. unfold downsample_scale_opt. rewrite H. reflexivity.
Qed.

(** ** The objective *)
Lemma new_muygps_form s F names bounds opt s' F' :
  new_muygps s F names bounds opt = Ok (s', F') -> F' = full_make s' (snd (deepcopy s F)).
Proof.
  unfold new_muygps. cbn [deepcopy snd f_attr]. destruct (assign_all _ _ _ _ _); cbn [bind]; [|discriminate].
  intros H. injection H as <- <-. reflexivity.
Qed.

Lemma Forall2_map_in {A} (P : A -> A -> Prop) (f : A -> A) l : Forall2 P l (map f l) ->
  forall x, In x l -> P x (f x).
Proof.
  induction l as [|a l IH]; simpl; intros H x Hx; [destruct Hx|].
  inversion H; subst. destruct Hx as [->|Hx]; auto.
Qed.

Lemma Forall2_map_intro {A} (P : A -> A -> Prop) (f : A -> A) l :
  (forall x, In x l -> P x (f x)) -> Forall2 P l (map f l).
Proof. induction l; simpl; intros H; constructor; auto. Qed.

Lemma set_matern_same s s' opt n n' : optimized s s' opt n n' ->
  set_matern_fn (st_cell s' (nm_loc n')) = set_matern_fn (st_cell s (nm_loc n)).
Proof.
  intros [_ [_ [Hf [_ Hv]]]]. unfold set_matern_fn. rewrite Hf.
  destruct (p_fixed (st_cell s (nm_loc n))); [rewrite Hv|]; reflexivity.
Qed.

Lemma filter_app_s {A} (p : A -> bool) l l' : filter p (l ++ l')%list = (filter p l ++ filter p l')%list.
Proof. induction l; simpl; auto. destruct (p a); simpl; rewrite IHl; auto. Qed.

Lemma filter_all {A} (p : A -> bool) l : (forall x, In x l -> p x = true) -> filter p l = l.
Proof. induction l; simpl; intros H; auto. rewrite H by auto. f_equal. auto. Qed.

Lemma filter_none {A} (p : A -> bool) l : (forall x, In x l -> p x = false) -> filter p l = [].
Proof. induction l; simpl; intros H; auto. rewrite H by auto. auto. Qed.

(** The optimizable elements of a vector length scale are the optimizer's names starting with
    [length_scale]. *)
Lemma prefix_names s m v j : built m -> k_ls (m_kernel m) = LSVector v ->
  filter (free s) (v_elems v) = firstn j (v_elems v) ->
  filter (String.prefix (v_name v)) (map nm_name (filter (free s) (declared m))) =
  map nm_name (firstn j (v_elems v)).
Proof.
  intros [Hb [Hk Hn]] Hv Hj. rewrite Hv in Hb. inversion Hb as [|v0 Hvn Hnames|]; subst.
  rewrite Hvn.
  assert (PF : forall x, In x (v_elems v) -> String.prefix "length_scale" (nm_name x) = true).
  { intros x Hx. apply (in_map nm_name) in Hx. rewrite Hnames in Hx. apply in_map_iff in Hx.
    destruct Hx as [i [<- _]]. apply prefix_append. }
  unfold declared. rewrite !filter_app_s, !map_app, !filter_app_s.
  assert (E2 : filter (String.prefix "length_scale") (map nm_name (filter (free s)
     match m_noise m with NHomo n => [n] | _ => [] end)) = []).
  { apply filter_none. intros x Hx. apply in_map_iff in Hx. destruct Hx as [n [<- Hx]].
    apply filter_In in Hx. destruct Hx as [Hx _]. destruct (m_noise m) as [n0| |]; simpl in Hx; try tauto.
    destruct Hx as [<-|[]]. rewrite Hn. reflexivity. }
  rewrite E2, app_nil_r.
  assert (E1 : filter (String.prefix "length_scale") (map nm_name (filter (free s) (v_elems v))) =
    map nm_name (firstn j (v_elems v))).
  { rewrite filter_all; [rewrite Hj; reflexivity|]. intros x Hx. apply in_map_iff in Hx.
    destruct Hx as [n [<- Hx]]. apply PF. apply filter_In in Hx. tauto. }
  destruct (m_kernel m) as [ls|ls n c]; cbn [k_ls] in Hv; subst ls; cbn [ls_elems].
  - exact E1.
  - rewrite filter_app_s, map_app, filter_app_s, E1.
    assert (E3 : filter (String.prefix "length_scale") (map nm_name (filter (free s) [n])) = []).
    { apply filter_none. intros x Hx. apply in_map_iff in Hx. destruct Hx as [n' [<- Hx]].
      apply filter_In in Hx. destruct Hx as [[<-|[]] _]. rewrite Hk. reflexivity. }
    rewrite E3, app_nil_r. reflexivity.
Qed.

Lemma objective_is_score ls slogdet eps gamma kv s F names x0 bounds x :
  model_ok s F -> bounds_ok s F -> f_bound F = model_make s (f_attr F) ->
  leading_free s (k_ls (m_kernel (f_attr F))) ->
  get_opt_params s (f_attr F) = Ok (names, x0, bounds) ->
  List.length x = List.length names -> in_box x bounds ->
  (f_kind F = FixedScale \/ ~ In "noise" names) ->
  exists s' F', new_muygps s F names bounds (combine names (map Fin x)) = Ok (s', F') /\
    optimized_model s F (combine names (map Fin x)) s' F' /\
    forall l lkw draws P C T B,
      obj_fn ls slogdet eps gamma kv s F l lkw None draws P C T B (combine names x) =
      loo_score ls slogdet eps gamma kv s' F' l lkw draws P C T B.
Proof.
  intros Hm Hbo Hbd Hlead Eo Hlen Hbox Hscale.
  destruct (new_muygps_spec s F names x0 bounds (combine names (map Fin x)) Hm Hbo Eo) as [s' [F' [E O]]].
  { intros k Hk. apply dget_combine_some; [rewrite map_length; lia|assumption]. }
  exists s', F'. split; [exact E|]. split; [exact O|].
  pose proof (new_muygps_form _ _ _ _ _ _ _ E) as EF.
  destruct Hm as [Hb [Hnn [Hlt ND]]].
  destruct O as [_ [HO _]].
  assert (AT : f_attr F' = model_make s' (move_model (st_next s) (f_attr F))) by (subst F'; reflexivity).
  assert (BD : f_bound F' = model_make s' (move_model (st_next s) (f_attr F))) by (subst F'; reflexivity).
  rewrite AT, declared_make, declared_move in HO.
  pose proof (Forall2_map_in _ _ _ HO) as HO'. clear HO.
  assert (AG : forall n, In n (declared (f_attr F)) -> agrees s s' (combine names x) n (move_named (st_next s) n)).
  { intros n Hn. eapply optimized_agrees; eauto. }
  assert (Enames : names = map nm_name (filter (free s) (declared (f_attr F)))).
  { rewrite get_opt_params_eq in Eo by assumption. injection Eo as <- _ _. reflexivity. }
  assert (DOK : dict_ok (combine names x)).
  { unfold dict_ok. rewrite map_fst_combine by assumption. rewrite Enames.
    pose proof (built_nodup _ Hb) as NDn. clear -NDn.
    induction (declared (f_attr F)) as [|a l IH]; simpl in *; [constructor|]. inversion NDn; subst.
    destruct (free s a); simpl; auto. constructor; auto. intros C. apply H1.
    apply in_map_iff in C. destruct C as [y [<- Hy]]. apply filter_In in Hy. apply in_map. tauto. }
  (* kernels *)
  assert (EK : forall D, call_kernel gamma kv s F D (combine names x) = call_kernel gamma kv s' F' D []).
  { intros D. unfold call_kernel. rewrite Hbd, BD.
    assert (EM : f_metric F' = f_metric F) by (subst F'; reflexivity). rewrite EM.
    cbn [model_make m_kernel].
    assert (J : exists j, match k_ls (m_kernel (f_attr F)) with
      | LSScalar _ => True
      | LSVector v => map fst (filter (fun kv => String.prefix (v_name v) (fst kv)) (combine names x)) =
                      map nm_name (firstn j (v_elems v))
      | LSHier _ => False end).
    { destruct (k_ls (m_kernel (f_attr F))) as [n|v|v] eqn:EL; cbn [leading_free] in Hlead.
      - exists O. exact I.
      - destruct Hlead as [j Hj]. exists j. rewrite filter_fst_combine by assumption.
        rewrite Enames. apply prefix_names; assumption.
      - destruct Hlead. }
    destruct J as [j J].
    assert (Dk : forall n, In n (kernel_params (m_kernel (f_attr F))) -> In n (declared (f_attr F))).
    { intros n Hn. unfold declared. apply in_app_iff. left. destruct (m_kernel (f_attr F)); exact Hn. }
    destruct Hb as [Hbl [Hks _]].
    apply (kernel_call_same gamma kv (f_metric F) s s' (combine names x) _ _ j D DOK).
    - destruct (m_kernel (f_attr F)); exact Hbl.
    - destruct (m_kernel (f_attr F)); exact Hks.
    - destruct (m_kernel (f_attr F)); exact J.
    - cbn [move_model m_kernel]. 
      destruct (m_kernel (f_attr F)) as [[n|v|v]|[n|v|v] sm c];
        cbn [kernel_make move_kernel move_ls k_ls kernel_params ls_elems] in *.
      + apply AG, Dk. left. reflexivity.
      + split; [reflexivity|]. apply Forall2_map_intro. intros y Hy. apply AG, Dk. exact Hy.
      + destruct Hlead.
      + split; [apply AG, Dk; apply in_app_iff; left; left; reflexivity|].
        split; [apply AG, Dk; apply in_app_iff; right; left; reflexivity|].
        symmetry. eapply set_matern_same. apply HO', Dk. apply in_app_iff. right. left. reflexivity.
      + split; [|split].
        * split; [reflexivity|]. apply Forall2_map_intro. intros y Hy. apply AG, Dk.
          apply in_app_iff. left. exact Hy.
        * apply AG, Dk; apply in_app_iff; right; left; reflexivity.
        * symmetry. eapply set_matern_same. apply HO', Dk. apply in_app_iff. right. left. reflexivity.
      + destruct Hlead. }
  (* noise *)
  assert (EN : forall K, perturb (gp_noise (gp_bound s F)) K (dget (combine names x) "noise") =
                         perturb (gp_noise (gp_bound s' F')) K None).
  { intros K. unfold gp_bound. cbn [gp_noise]. rewrite Hbd, BD. cbn [model_make move_model m_noise].
    destruct Hb as [_ [_ Hbn]].
    destruct (m_noise (f_attr F)) as [n| |] eqn:En; cbn [move_noise noise_of perturb].
    - assert (Hin : In n (declared (f_attr F))).
      { unfold declared. rewrite En. apply in_app_iff. right. left. reflexivity. }
      destruct (AG n Hin) as [_ Ha]. rewrite Hbn in Ha. unfold kw_or in Ha. rewrite <- Ha.
      destruct (dget (combine names x) "noise"); reflexivity.
    - subst F'. reflexivity.
    - contradiction Hnn; reflexivity. }
  (* scale *)
  assert (ES : forall draws K T, scale_value ls s F draws K T = scale_value ls s' F' draws K T).
  { intros draws K T. unfold scale_value.
    rewrite (scale_opt_dep ls (gp_attr s F) (gp_attr s' F')); [reflexivity| | |].
    - subst F'; reflexivity.
    - subst F'; reflexivity.
    - destruct Hscale as [H|H]; [left; exact H|right].
      unfold gp_attr. cbn [gp_noise]. rewrite AT. cbn [model_make move_model m_noise].
      destruct Hb as [_ [_ Hbn]].
      destruct (m_noise (f_attr F)) as [n| |] eqn:En; cbn [move_noise noise_of].
      + assert (Hin : In n (declared (f_attr F))).
        { unfold declared. rewrite En. apply in_app_iff. right. left. reflexivity. }
        destruct (AG n Hin) as [_ Ha]. rewrite Hbn in Ha. unfold kw_or in Ha.
        destruct (dget (combine names x) "noise") eqn:Ed; [|rewrite Ha; reflexivity].
        exfalso. apply H. rewrite <- (map_fst_combine names x) by assumption.
        apply dget_some_in in Ed. apply (in_map fst) in Ed. exact Ed.
      + subst F'. reflexivity.
      + contradiction Hnn; reflexivity. }
  intros l lkw draws P C T B. unfold obj_fn, loo_score.
  rewrite !EK. destruct (call_kernel gamma kv s' F' P []) as [Kin|]; cbn [bind]; [|reflexivity].
  destruct (call_kernel gamma kv s' F' C []) as [Kc|]; cbn [bind]; [|reflexivity].
  assert (EMn : gp_posterior_mean ls (gp_bound s F) Kin Kc T (dget (combine names x) "noise") =
                gp_posterior_mean ls (gp_bound s' F') Kin Kc T None).
  { unfold gp_posterior_mean. rewrite EN. reflexivity. }
  assert (EV : gp_opt_variance ls (gp_bound s F) Kin Kc (dget (combine names x) "noise") =
               gp_opt_variance ls (gp_bound s' F') Kin Kc None).
  { unfold gp_opt_variance. rewrite EN. reflexivity. }
  rewrite EMn, EV, ES. unfold predict_and_loss.
  destruct l; cbn [loss_wrapper];
    destruct (gp_posterior_mean ls (gp_bound s' F') Kin Kc T None); cbn [bind]; try reflexivity;
    destruct (scale_value ls s' F' draws Kin T); cbn [bind]; try reflexivity;
    destruct (gp_opt_variance ls (gp_bound s' F') Kin Kc None); cbn [bind]; reflexivity.
Qed.
