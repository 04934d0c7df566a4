From Coq Require Import Lia Lra DecimalString DecimalNat.
From Verif Require Import Base BaseFacts HyperModel HyperSpec HyperProofs NamedModel NamedSpec.
Local Open Scope string_scope.

(** ** Names *)

Lemma str_nat_inj i j : str_nat i = str_nat j -> i = j.
Proof.
  unfold str_nat. intros H.
  assert (E : NilEmpty.uint_of_string (NilEmpty.string_of_uint (Nat.to_uint i)) =
              NilEmpty.uint_of_string (NilEmpty.string_of_uint (Nat.to_uint j))) by (rewrite H; auto).
  rewrite !NilEmpty.usu in E. inversion E as [E'].
  rewrite <- (Unsigned.of_to i), <- (Unsigned.of_to j), E'. reflexivity.
Qed.

Lemma append_inj_l a b c : a ++ b = a ++ c -> b = c.
Proof. induction a; simpl; intros H; auto. inversion H; auto. Qed.

Lemma append_assoc_s a b c : (a ++ b) ++ c = a ++ (b ++ c).
Proof. induction a; simpl; auto. rewrite IHa; auto. Qed.

Lemma vec_names_nodup name (l : list nat) :
  NoDup l -> NoDup (map (fun i => name ++ str_nat i) l).
Proof.
  induction l as [|i l IH]; simpl; [constructor|]. intros H; inversion H; subst.
  constructor; auto. rewrite in_map_iff. intros [j [Hj Hin]].
  apply append_inj_l in Hj. apply str_nat_inj in Hj. subst; auto.
Qed.

Lemma vec_init_from_names s name i srcs :
  map nm_name (snd (vec_init_from s name i srcs)) =
  map (fun j => name ++ str_nat j) (seq i (List.length srcs)).
Proof.
  revert s i. induction srcs as [|x srcs IH]; intros; simpl; auto.
  destruct (vec_init_from _ name (S i) srcs) as [s2 l] eqn:E. simpl.
  f_equal. specialize (IH (st_new s (param_set (mkParam (Fin 0) (Fin 0, Fin 0) true) (st_cell s x))) (S i)).
  rewrite E in IH. auto.
Qed.

Lemma vec_init_elems s name srcs :
  v_name (snd (vec_init s name srcs)) = name /\
  map nm_name (v_elems (snd (vec_init s name srcs))) =
  map (fun j => name ++ str_nat j) (seq 0 (List.length srcs)) /\
  List.length (v_elems (snd (vec_init s name srcs))) = List.length srcs.
Proof.
  unfold vec_init. pose proof (vec_init_from_names s name 0 srcs) as H.
  destruct (vec_init_from s name 0 srcs) as [s' l]; simpl in *.
  repeat split; auto.
  assert (E : List.length (map nm_name l) = List.length (map (fun j => name ++ str_nat j) (seq 0 (List.length srcs))))
    by (rewrite H; auto).
  rewrite !map_length, seq_length in E. auto.
Qed.

(** Single-digit dimensions leave hierarchical names unambiguous. *)
Lemma str_nat_digit i : (i < 10)%nat -> String.length (str_nat i) = 1%nat.
Proof.
  intros H. do 10 (destruct i as [|i]; [reflexivity|]). lia.
Qed.

Lemma append_len a b : String.length (a ++ b) = (String.length a + String.length b)%nat.
Proof. induction a; simpl; auto. Qed.

Lemma append_split a a' b b' :
  String.length a = String.length a' -> a ++ b = a' ++ b' -> a = a' /\ b = b'.
Proof.
  revert a'. induction a; intros [|c a'] HL H; simpl in *; try discriminate; auto.
  inversion H; subst. destruct (IHa a') as [-> ->]; auto.
Qed.

Lemma hier_vec_name_inj name i j i' j' :
  (i < 10)%nat -> (i' < 10)%nat ->
  hier_vec_name name i j = hier_vec_name name i' j' -> i = i' /\ j = j'.
Proof.
  unfold hier_vec_name. intros Hi Hi' H. rewrite !append_assoc_s in H.
  apply append_inj_l in H. apply append_split in H.
  - destruct H as [H1 H2]. split; apply str_nat_inj; auto.
  - rewrite !str_nat_digit; auto.
Qed.

(** ** Optimizer lists *)

Definition listed (s : store) (l : list named) : opt_lists :=
  (map nm_name l, map (fun n => p_val (st_cell s (nm_loc n))) l,
   map (fun n => p_bounds (st_cell s (nm_loc n))) l).

Lemma named_append_fold s l acc :
  fold_left (named_append s) l (listed s acc) = listed s (acc ++ filter (free s) l).
Proof.
  revert acc. induction l as [|n l IH]; intros acc; simpl; [rewrite app_nil_r; auto|].
  unfold free at 1. destruct (p_fixed (st_cell s (nm_loc n))) eqn:E; simpl.
  - apply IH.
  - replace (map nm_name acc ++ [nm_name n], map (fun n => p_val (st_cell s (nm_loc n))) acc ++ [p_val (st_cell s (nm_loc n))],
      map (fun n => p_bounds (st_cell s (nm_loc n))) acc ++ [p_bounds (st_cell s (nm_loc n))])%list
      with (listed s (acc ++ [n])%list).
    + rewrite IH. rewrite <- app_assoc. reflexivity.
    + unfold listed. rewrite !map_app. reflexivity.
Qed.

Lemma get_opt_params_eq s m :
  m_noise m <> NNull ->
  get_opt_params s m = Ok (listed s (filter (free s) (declared m))).
Proof.
  intros Hn. unfold get_opt_params, declared.
  assert (K : kernel_opt_params s (m_kernel m) =
    listed s (filter (free s) (kernel_params (m_kernel m)))).
  { destruct (m_kernel m) as [ls|ls n c]; simpl; unfold ls_append.
    - change ([], [], []) with (listed s []). rewrite named_append_fold. reflexivity.
    - change ([], [], []) with (listed s []).
      change (named_append s ?a n) with (fold_left (named_append s) [n] a).
      rewrite !named_append_fold, filter_app. reflexivity. }
  rewrite K, filter_app.
  destruct (m_noise m) as [n| |]; cbn [noise_append filter]; [|rewrite app_nil_r; destruct (m_kernel m); reflexivity|congruence].
  change (named_append s ?a n) with (fold_left (named_append s) [n] a).
  rewrite named_append_fold. destruct (m_kernel m); reflexivity.
Qed.

Lemma prefix_append a b : String.prefix a (a ++ b) = true.
Proof. induction a; simpl; [destruct b; auto|]. destruct (Ascii.ascii_dec a a); auto; congruence. Qed.

Lemma built_nodup m : built m -> NoDup (map nm_name (declared m)).
Proof.
  intros [Hls [Hk Hn]]. unfold declared.
  assert (Hls' : NoDup (map nm_name (ls_elems (k_ls (m_kernel m)))) /\
     forall x, In x (map nm_name (ls_elems (k_ls (m_kernel m)))) -> String.prefix "length_scale" x = true).
  { inversion Hls as [n E Eq|v E1 E2 Eq|v E1 E2 Eq]; simpl.
    - split; [repeat constructor; auto|]. intros x [<-|[]]. rewrite E. reflexivity.
    - split; [rewrite E2; apply vec_names_nodup, seq_NoDup|].
      intros x. rewrite E2, in_map_iff. intros [i [<- _]]. apply prefix_append.
    - split; [rewrite E2; apply vec_names_nodup, seq_NoDup|].
      intros x. rewrite E2, in_map_iff. intros [i [<- _]]. apply prefix_append. }
  destruct Hls' as [ND PF].
  assert (AP : forall (l : list string) x, NoDup l -> ~ In x l -> NoDup (l ++ [x])).
  { intros l x H1 H2. induction l; simpl; [repeat constructor; auto|].
    inversion H1; subst. constructor.
    - rewrite in_app_iff; simpl. intros [H|[H|[]]]; [auto|subst; apply H2; left; auto].
    - apply IHl; auto. intros H; apply H2; right; auto. }
  assert (NDk : NoDup (map nm_name (match m_kernel m with KRbf ls => ls_elems ls | KMatern ls n _ => (ls_elems ls ++ [n])%list end))
     /\ ~ In "noise" (map nm_name (match m_kernel m with KRbf ls => ls_elems ls | KMatern ls n _ => (ls_elems ls ++ [n])%list end))).
  { destruct (m_kernel m) as [ls|ls n c]; simpl in *.
    - split; auto. intros H. apply PF in H. discriminate.
    - rewrite map_app; simpl. rewrite Hk. split.
      + apply AP; auto. intros H. apply PF in H. discriminate.
      + rewrite in_app_iff; simpl. intros [H|[H|[]]]; [apply PF in H|]; discriminate. }
  destruct NDk as [NDk Nn]. rewrite map_app.
  destruct (m_noise m) as [n| |]; simpl; [|rewrite app_nil_r; auto|rewrite app_nil_r; auto].
  rewrite Hn. apply AP; auto.
Qed.

Lemma fold_dset_nodup (l : list named) (d : dict named) :
  NoDup (map fst d ++ map nm_name l) ->
  fold_left (fun d n => dset d (nm_name n) n) l d = (d ++ map (fun n => (nm_name n, n)) l)%list.
Proof.
  revert d. induction l as [|n l IH]; intros d H; simpl; [rewrite app_nil_r; auto|].
  assert (E : dset d (nm_name n) n = (d ++ [(nm_name n, n)])%list).
  { simpl in H. apply NoDup_remove_2 in H.
    assert (H' : ~ In (nm_name n) (map fst d)) by (intros Hx; apply H; apply in_app_iff; auto).
    clear -H'. induction d as [|[k v] d IHd]; simpl; auto.
    destruct (String.eqb_spec k (nm_name n)).
    - exfalso; apply H'; simpl; auto.
    - rewrite IHd; auto. intros Hx; apply H'; right; auto. }
  rewrite E. rewrite IH.
  - rewrite <- app_assoc. reflexivity.
  - rewrite map_app; simpl. rewrite <- app_assoc. exact H.
Qed.

Lemma NoDup_app_l {A} (l1 l2 : list A) : NoDup (l1 ++ l2) -> NoDup l1.
Proof.
  induction l1; simpl; [constructor|]. intros H; inversion H; subst.
  constructor; auto. intros Hx. apply H2. apply in_app_iff; auto.
Qed.

Lemma kernel_dict_eq m :
  built m -> kernel_dict (m_kernel m) = map (fun n => (nm_name n, n)) (kernel_params (m_kernel m)).
Proof.
  intros H. apply built_nodup in H. unfold declared in H. rewrite map_app in H. apply NoDup_app_l in H.
  unfold kernel_dict. rewrite fold_dset_nodup; [reflexivity|]. simpl.
  destruct (m_kernel m); exact H.
Qed.

Lemma filter_nil {A} (f : A -> bool) l : filter f l = [] <-> forallb (fun x => negb (f x)) l = true.
Proof.
  induction l as [|x l IH]; simpl; [tauto|].
  destruct (f x); simpl; [split; discriminate|exact IH].
Qed.

Lemma model_fixed_iff s m :
  built m -> m_noise m <> NNull ->
  exists b, model_fixed s m = Ok b /\
    (b = true <-> get_opt_params s m = Ok ([], [], [])).
Proof.
  intros Hb Hn. rewrite get_opt_params_eq by auto. unfold model_fixed. rewrite kernel_dict_eq by auto.
  assert (E : forallb (fun kv : string * named => p_fixed (st_cell s (nm_loc (snd kv))))
             (map (fun n => (nm_name n, n)) (kernel_params (m_kernel m))) =
             forallb (fun n => negb (free s n)) (kernel_params (m_kernel m))).
  { generalize (kernel_params (m_kernel m)). induction l; simpl; auto.
    unfold free at 1. rewrite negb_involutive. f_equal; auto. }
  rewrite E.
  assert (D : declared m = (kernel_params (m_kernel m) ++
     match m_noise m with NHomo n => [n] | _ => [] end)%list)
    by (unfold declared; destruct (m_kernel m); reflexivity).
  assert (L : Ok (listed s (filter (free s) (declared m))) = Ok ([], [], []) <->
              forallb (fun n => negb (free s n)) (declared m) = true).
  { rewrite <- filter_nil. destruct (filter (free s) (declared m)); unfold listed; simpl;
    split; intros H; auto; try discriminate H. }
  rewrite D, forallb_app in L.
  destruct (forallb (fun n => negb (free s n)) (kernel_params (m_kernel m))) eqn:F; simpl in *.
  - destruct (m_noise m) as [n| |]; simpl in *; [| |congruence].
    + eexists; split; [reflexivity|]. rewrite D, L. unfold free. rewrite negb_involutive, andb_true_r. tauto.
    + eexists; split; [reflexivity|]. rewrite D, L. tauto.
  - eexists; split; [reflexivity|]. rewrite D, L. split; discriminate.
Qed.

(** ** Keywords *)

Section Kw.
Context {V : Type}.

Lemma dget_filter (f : string -> bool) (kw : dict V) k :
  dget (filter (fun kv => f (fst kv)) kw) k = if f k then dget kw k else None.
Proof.
  induction kw as [|[k' v] kw IH]; simpl; [destruct (f k); auto|].
  destruct (f k') eqn:F; simpl.
  - destruct (String.eqb_spec k' k); subst; [rewrite F; auto|auto].
  - rewrite IH. destruct (String.eqb_spec k' k); subst; [rewrite F; auto|auto].
Qed.

Lemma filter_dict_ok (f : string * V -> bool) (kw : dict V) : dict_ok kw -> dict_ok (filter f kw).
Proof.
  unfold dict_ok. induction kw as [|[k v] kw IH]; simpl; auto.
  intros H; inversion H; subst. destruct (f (k, v)); simpl; auto.
  constructor; auto. intros Hx. apply H2. apply in_map_iff in Hx. destruct Hx as [[k' v'] [E Hin]].
  simpl in E; subst. apply filter_In in Hin. apply in_map_iff. exists (k, v'); tauto.
Qed.

Lemma apply_fn_lookup (n : named) (cur : nat -> V) (kw : dict V) k :
  dget (setdefault kw (nm_name n) (cur (nm_loc n))) k =
  if String.eqb k (nm_name n) then Some (kw_or kw (nm_name n) (cur (nm_loc n))) else dget kw k.
Proof.
  rewrite setdefault_get. unfold kw_or.
  destruct (String.eqb_spec k (nm_name n)) as [->|N].
  - rewrite String.eqb_refl. destruct (dget kw (nm_name n)); auto.
  - destruct (dget kw k); auto. destruct (String.eqb_spec (nm_name n) k); congruence.
Qed.

Lemma named_filter_params (n : named) (cur : nat -> V) (kw : dict V) k :
  dget (fst (named_filter n cur kw)) k =
  if String.eqb k (nm_name n) then Some (kw_or kw (nm_name n) (cur (nm_loc n))) else None.
Proof.
  unfold named_filter; simpl. rewrite setdefault_get.
  rewrite (dget_filter (fun k => String.eqb k (nm_name n))). unfold kw_or.
  destruct (String.eqb_spec k (nm_name n)) as [->|N].
  - destruct (dget kw (nm_name n)); auto. rewrite String.eqb_refl; auto.
  - destruct (String.eqb_spec (nm_name n) k); congruence.
Qed.

Lemma named_filter_rest (n : named) (cur : nat -> V) (kw : dict V) k :
  dget (snd (named_filter n cur kw)) k =
  if String.eqb k (nm_name n) then None else dget kw k.
Proof.
  unfold named_filter; simpl.
  rewrite (dget_filter (fun k => negb (String.eqb k (nm_name n)))).
  destruct (String.eqb k (nm_name n)); auto.
Qed.

Lemma vec_defaults_get (l : list named) (cur : nat -> V) (d : dict V) k :
  NoDup (map nm_name l) ->
  dget (fold_left (fun d n => setdefault d (nm_name n) (cur (nm_loc n))) l d) k =
  match dget d k with
  | Some v => Some v
  | None => match find (fun n => String.eqb (nm_name n) k) l with
            | Some n => Some (cur (nm_loc n)) | None => None end
  end.
Proof.
  revert d. induction l as [|n l IH]; intros d ND; simpl; [destruct (dget d k); auto|].
  inversion ND; subst. rewrite IH by auto. rewrite setdefault_get.
  destruct (dget d k); auto. destruct (String.eqb (nm_name n) k); auto.
Qed.

Lemma find_name (l : list named) n :
  NoDup (map nm_name l) -> In n l -> find (fun x => String.eqb (nm_name x) (nm_name n)) l = Some n.
Proof.
  induction l as [|x l IH]; simpl; [tauto|]. intros ND [->|Hin].
  - rewrite String.eqb_refl; auto.
  - inversion ND; subst. destruct (String.eqb_spec (nm_name x) (nm_name n)) as [E|E]; auto.
    exfalso; apply H1. rewrite E. apply in_map; auto.
Qed.

Lemma vec_filter_content (v : nvec) (cur : nat -> V) (kw : dict V) n :
  NoDup (map nm_name (v_elems v)) ->
  (forall x, In x (v_elems v) -> String.prefix (v_name v) (nm_name x) = true) ->
  In n (v_elems v) ->
  dget (fst (vec_filter v cur kw)) (nm_name n) = Some (kw_or kw (nm_name n) (cur (nm_loc n))).
Proof.
  intros ND PF Hin. unfold vec_filter, vec_defaults; simpl.
  rewrite vec_defaults_get by auto.
  rewrite (dget_filter (String.prefix (v_name v))). rewrite PF by auto.
  rewrite find_name by auto. unfold kw_or. destruct (dget kw (nm_name n)); auto.
Qed.

Lemma vec_filter_rest (v : nvec) (cur : nat -> V) (kw : dict V) k :
  dget (snd (vec_filter v cur kw)) k =
  if String.prefix (v_name v) k then None else dget kw k.
Proof.
  unfold vec_filter; simpl.
  rewrite (dget_filter (fun k => negb (String.prefix (v_name v) k))).
  destruct (String.prefix (v_name v) k); auto.
Qed.

(** When the keywords given are an initial segment of the names, in order. *)
Lemma vec_defaults_prefix (done todo : list named) (cur : nat -> V) (d : dict V) :
  NoDup (map nm_name (done ++ todo)) -> map fst d = map nm_name done ->
  fold_left (fun d n => setdefault d (nm_name n) (cur (nm_loc n))) (done ++ todo) d =
  (d ++ map (fun n => (nm_name n, cur (nm_loc n))) todo)%list.
Proof.
  intros ND E. rewrite fold_left_app.
  assert (S1 : forall l, incl l done ->
    fold_left (fun d n => setdefault d (nm_name n) (cur (nm_loc n))) l d = d).
  { induction l as [|x l IH]; simpl; auto. intros Hi.
    assert (H : setdefault d (nm_name x) (cur (nm_loc x)) = d).
    { unfold setdefault. destruct (dget d (nm_name x)) eqn:G; auto.
      apply dget_none in G. exfalso; apply G. rewrite E. apply in_map. apply Hi; left; auto. }
    rewrite H. apply IH. intros y Hy; apply Hi; right; auto. }
  rewrite S1 by apply incl_refl.
  clear S1. revert done d ND E. induction todo as [|x todo IH]; intros; simpl; [rewrite app_nil_r; auto|].
  assert (H : setdefault d (nm_name x) (cur (nm_loc x)) = (d ++ [(nm_name x, cur (nm_loc x))])%list).
  { unfold setdefault. destruct (dget d (nm_name x)) eqn:G; auto.
    apply dget_some_in in G. assert (In (nm_name x) (map fst d)) by (apply in_map_iff; eexists; split; [|eauto]; auto).
    rewrite E in H. rewrite map_app in ND. simpl in ND. apply NoDup_remove_2 in ND.
    exfalso; apply ND, in_app_iff; auto. }
  rewrite H. rewrite (IH (done ++ [x])%list).
  - rewrite <- app_assoc. reflexivity.
  - rewrite <- app_assoc. exact ND.
  - rewrite !map_app, E. reflexivity.
Qed.

Lemma vec_call_in_order (v : nvec) (cur : nat -> V) (kw : dict V) (m : nat) :
  dict_ok kw ->
  NoDup (map nm_name (v_elems v)) ->
  map fst (filter (fun kv => String.prefix (v_name v) (fst kv)) kw) =
    map nm_name (firstn m (v_elems v)) ->
  (forall x, In x (v_elems v) -> String.prefix (v_name v) (nm_name x) = true) ->
  vec_call v cur kw = map (fun n => kw_or kw (nm_name n) (cur (nm_loc n))) (v_elems v).
Proof.
  intros OK ND E PF. unfold vec_call, vec_filter, vec_defaults; simpl.
  set (d := filter (fun kv => String.prefix (v_name v) (fst kv)) kw) in *.
  rewrite <- (firstn_skipn m (v_elems v)) at 1.
  rewrite vec_defaults_prefix by (rewrite ?firstn_skipn; auto).
  rewrite map_app, map_map; simpl.
  rewrite <- (firstn_skipn m (v_elems v)) at 2. rewrite map_app. f_equal.
  - assert (OKd : dict_ok d) by (apply filter_dict_ok; auto).
    assert (G : forall k, In k (map fst d) -> dget d k = dget kw k).
    { intros k Hk. unfold d. rewrite (dget_filter (String.prefix (v_name v))).
      rewrite E in Hk. apply in_map_iff in Hk. destruct Hk as [x [<- Hx]].
      rewrite PF; auto. rewrite <- (firstn_skipn m (v_elems v)). apply in_app_iff; auto. }
    clearbody d. revert E OKd G. generalize (firstn m (v_elems v)).
    induction d as [|[k x] d IH]; intros [|n l] E OKd G; simpl in E; try discriminate; auto.
    inversion E; subst. simpl. f_equal.
    + unfold kw_or. rewrite <- G by (simpl; auto). simpl. rewrite String.eqb_refl. auto.
    + apply IH; auto.
      * inversion OKd; auto.
      * intros k Hk. rewrite <- G by (simpl; auto). simpl.
        inversion OKd; subst. destruct (String.eqb_spec (nm_name n) k); auto. subst; tauto.
  - apply map_ext_in. intros n Hn. unfold kw_or.
    assert (Hin : In n (v_elems v)) by (rewrite <- (firstn_skipn m (v_elems v)); apply in_app_iff; auto).
    destruct (dget kw (nm_name n)) eqn:G; auto.
    assert (Hx : In (nm_name n) (map fst d)).
    { apply in_map_iff. exists (nm_name n, v0). split; auto. unfold d. apply filter_In.
      split; [apply dget_some_in; auto|]. simpl. apply PF; auto. }
    rewrite E in Hx. exfalso.
    rewrite <- (firstn_skipn m (v_elems v)) in ND. rewrite map_app in ND.
    clear -ND Hx Hn. revert ND Hx. generalize (firstn m (v_elems v)). intros l ND Hx.
    induction l; simpl in *; [tauto|]. inversion ND; subst.
    destruct Hx as [Hx|Hx]; [|auto]. apply H1. rewrite Hx. apply in_app_iff; right. apply in_map; auto.
Qed.
End Kw.

(** ** Noise constructors *)
Local Open Scope R_scope.

Lemma homoscedastic_free_nonneg e v b p :
  homoscedastic_init e v b = Ok p -> p_fixed p = false ->
  ~ nlt (fst (p_bounds p)) (Fin 0) /\ ~ nlt (snd (p_bounds p)) (Fin 0) /\
  (fst (p_bounds p) <> NaN -> ~ nlt (p_val p) (Fin (- / 100000))).
Proof.
  unfold homoscedastic_init. intros H Hf. apply bind_ok in H. destruct H as [q [Hq H]].
  destruct (negb (p_fixed q) && (num_ltb (fst (p_bounds q)) (Fin 0) || num_ltb (snd (p_bounds q)) (Fin 0))) eqn:E;
    [discriminate|]. inversion H; subst.
  rewrite Hf in E. simpl in E. apply orb_false_iff in E. destruct E as [E1 E2].
  apply nlt_false in E1. apply nlt_false in E2. split; [|split]; auto.
  intros NN. destruct (param_init_within2 _ _ _ _ Hq Hf) as [_ [W _]].
  intros L. apply W. clear -L E1 NN. destruct (fst (p_bounds p)) as [| | |lo]; try congruence.
  - inversion L; subst; simpl; constructor.
  - exfalso; apply E1; constructor.
  - assert (0 <= lo). { destruct (Rlt_dec lo 0); [exfalso; apply E1; constructor; auto|lra]. }
    inversion L; subst; simpl; constructor. lra.
Qed.

Lemma heteroscedastic_init_ok l r :
  heteroscedastic_init (TArr l) = r ->
  (r = Ok l /\ (forall x, In x l -> ~ nlt x (Fin 0))) \/
  (r = Err ValueError /\ exists x, In x l /\ nlt x (Fin 0)).
Proof.
  intros <-. simpl. destruct (existsb _ l) eqn:E; [right|left]; split; auto.
  - apply existsb_exists in E. destruct E as [x [Hx L]]. exists x; split; auto. apply nlt_iff; auto.
  - intros x Hx L. apply nlt_iff in L.
    assert (existsb (fun x => num_ltb x (Fin 0)) l = true) by (apply existsb_exists; eauto). congruence.
Qed.
