(** Proofs about sharing between kernels and models. *)
From Coq Require Import Lia.
From Verif Require Import Base BaseFacts HyperModel NamedModel AliasModel AliasSpec.
Local Open Scope list_scope.

(** ** Lists *)
Lemma set_nth_from {A} (l : list A) i x k j :
  nth_error (map (fun jy : nat * A => if Nat.eqb (fst jy) i then x else snd jy) (combine (seq k (List.length l)) l)) j =
  match nth_error l j with None => None | Some y => Some (if Nat.eqb (k + j) i then x else y) end.
Proof.
  revert k j. induction l as [|y l IH]; intros k j; [destruct j; reflexivity|].
  destruct j; cbn [List.length seq combine map nth_error fst snd].
  - rewrite Nat.add_0_r. reflexivity.
  - rewrite IH. rewrite Nat.add_succ_r. reflexivity.
Qed.
Lemma set_nth_get {A} (l : list A) i x j :
  nth_error (set_nth l i x) j = match nth_error l j with None => None | Some y => Some (if Nat.eqb j i then x else y) end.
Proof. apply (set_nth_from l i x 0 j). Qed.
Lemma set_nth_other {A} (l : list A) i x j : j <> i -> nth_error (set_nth l i x) j = nth_error l j.
Proof. intros H. rewrite set_nth_get. apply Nat.eqb_neq in H. rewrite H. destruct (nth_error l j); reflexivity. Qed.
Lemma set_nth_same {A} (l : list A) i x y : nth_error l i = Some y -> nth_error (set_nth l i x) i = Some x.
Proof. intros H. rewrite set_nth_get, H, Nat.eqb_refl. reflexivity. Qed.
Lemma set_nth_length {A} (l : list A) i (x : A) : List.length (set_nth l i x) = List.length l.
Proof. unfold set_nth. rewrite map_length, combine_length, seq_length. apply Nat.min_id. Qed.
Lemma nth_error_lt {A} (l : list A) i x : nth_error l i = Some x -> (i < List.length l)%nat.
Proof. intros H. apply nth_error_Some. congruence. Qed.
Lemma nth_error_ex {A} (l : list A) i : (i < List.length l)%nat -> exists x, nth_error l i = Some x.
Proof. intros H. apply nth_error_Some in H. destruct (nth_error l i) eqn:E; [eauto|congruence]. Qed.
Lemma nth_error_snoc {A} (l : list A) x i y : nth_error (l ++ [x]) i = Some y ->
  nth_error l i = Some y \/ (i = List.length l /\ y = x).
Proof.
  intros H. destruct (Nat.lt_ge_cases i (List.length l)).
  - rewrite nth_error_app1 in H by auto. auto.
  - rewrite nth_error_app2 in H by auto. destruct (i - List.length l)%nat eqn:E.
    + injection H as <-. right. split; [lia|reflexivity].
    + destruct n; discriminate.
Qed.
Lemma nth_error_snoc_old {A} (l : list A) x i y : nth_error l i = Some y -> nth_error (l ++ [x]) i = Some y.
Proof. intros H. rewrite nth_error_app1; auto. eapply nth_error_lt; eauto. Qed.
Lemma nth_error_snoc_new {A} (l : list A) x : nth_error (l ++ [x]) (List.length l) = Some x.
Proof. rewrite nth_error_app2, Nat.sub_diag by lia. reflexivity. Qed.
Lemma nth_nth_error {A} (l : list (list A)) i x : nth_error l i = Some x -> nth i l [] = x.
Proof. intros H. apply nth_error_nth with (1 := H). Qed.

(** ** Invariant *)
Inductive tag := ODef (d : nat) | OKernel (k : nat) | ONoise (z : nat) | OFree.

Definition live (own : nat -> tag) (s : store) (t : tag) (l : nat) : Prop := own l = t /\ (l < st_next s)%nat.

Record inv (own : nat -> tag) (o : objs) : Prop := mkInv {
  i_defs : forall d ls n, nth_error (o_defs o) d = Some ls -> In n ls -> live own (o_params o) (ODef d) (nm_loc n);
  i_kdef : forall i k, nth_error (o_kernels o) i = Some k -> (k_def k < List.length (o_defs o))%nat;
  i_smooth : forall i k n, nth_error (o_kernels o) i = Some k -> k_smooth k = Some n -> live own (o_params o) (OKernel i) (nm_loc n);
  i_bound : forall i k l, nth_error (o_kernels o) i = Some k -> In l (k_bound k) ->
     live own (o_params o) (ODef (k_def k)) l \/ live own (o_params o) (OKernel i) l;
  i_homo : forall z l, nth_error (o_noises o) z = Some (ZHomo l) -> live own (o_params o) (ONoise z) l;
  i_hetero : forall z a, nth_error (o_noises o) z = Some (ZHetero a) -> (a < List.length (o_arrays o))%nat;
  i_models : forall m mm, nth_error (o_models o) m = Some mm ->
     (mo_kernel mm < List.length (o_kernels o) /\ mo_noise mm < List.length (o_noises o) /\
      mo_scale mm < List.length (o_scales o))%nat /\ mo_bnoise mm = mo_noise mm
}.

(** Only the size of the store and the numbering matter to the invariant. *)
Definition grown (own own' : nat -> tag) (s s' : store) : Prop :=
  (st_next s <= st_next s')%nat /\ forall l, (l < st_next s)%nat -> own' l = own l.
Lemma grown_live own own' s s' t l : grown own own' s s' -> live own s t l -> live own' s' t l.
Proof. intros [H1 H2] [H3 H4]. split; [rewrite H2; auto|lia]. Qed.
Lemma grown_refl own s : grown own own s s.
Proof. split; auto. Qed.

Lemma inv_store own o s : st_next s = st_next (o_params o) -> inv own o -> inv own (with_params o s).
Proof.
  intros E [H1 H2 H3 H4 H5 H6 H7]. constructor; unfold live in *; cbn; rewrite ?E; auto.
Qed.

Lemma inv_grow own own' o s : grown own own' (o_params o) s -> inv own o -> inv own' (with_params o s).
Proof.
  intros G [H1 H2 H3 H4 H5 H6 H7]. constructor; cbn; auto.
  - intros d ls n A B. eapply grown_live; eauto.
  - intros. eapply grown_live; eauto.
  - intros i k l A B. destruct (H4 i k l A B); [left|right]; eapply grown_live; eauto.
  - intros. eapply grown_live; eauto.
Qed.

Definition ext_own (own : nat -> tag) (s : store) (t : tag) : nat -> tag :=
  fun l => if Nat.ltb l (st_next s) then own l else t.
Lemma ext_own_old own s t l : (l < st_next s)%nat -> ext_own own s t l = own l.
Proof. intros H. unfold ext_own. apply Nat.ltb_lt in H. rewrite H. reflexivity. Qed.
Lemma ext_own_new own s t l : (st_next s <= l)%nat -> ext_own own s t l = t.
Proof. intros H. unfold ext_own. apply Nat.ltb_ge in H. rewrite H. reflexivity. Qed.
Lemma ext_own_grown own s s' t : (st_next s <= st_next s')%nat -> grown own (ext_own own s t) s s'.
Proof. intros H. split; auto. intros l Hl. apply ext_own_old; auto. Qed.

(** Making a kernel keeps the invariant of its place. *)
Lemma make_kernel_def o k : k_def (make_kernel o k) = k_def k /\ k_smooth (make_kernel o k) = k_smooth k.
Proof. unfold make_kernel. destruct (k_smooth k) eqn:E; cbn; auto. Qed.
Lemma make_kernel_bound o k l : In l (k_bound (make_kernel o k)) ->
  (exists n, In n (nth (k_def k) (o_defs o) []) /\ nm_loc n = l) \/ (exists n, k_smooth k = Some n /\ nm_loc n = l).
Proof.
  unfold make_kernel. destruct (k_smooth k) eqn:E; cbn [k_bound]; intros H.
  - apply in_app_iff in H as [H|[H|[]]]; [|right; eauto].
    apply in_map_iff in H as [x [<- Hx]]. left; eauto.
  - apply in_map_iff in H as [x [<- Hx]]. left; eauto.
Qed.

(** A kernel whose parameters are correctly owned. *)
Definition kernel_ok (own : nat -> tag) (o : objs) (i : nat) (k : kobj) : Prop :=
  (k_def k < List.length (o_defs o))%nat /\
  (forall n, k_smooth k = Some n -> live own (o_params o) (OKernel i) (nm_loc n)).

Lemma make_kernel_bound_ok own o i k l :
  (forall d ls n, nth_error (o_defs o) d = Some ls -> In n ls -> live own (o_params o) (ODef d) (nm_loc n)) ->
  kernel_ok own o i k -> In l (k_bound (make_kernel o k)) ->
  live own (o_params o) (ODef (k_def k)) l \/ live own (o_params o) (OKernel i) l.
Proof.
  intros H1 [H2 H3] Hl. apply make_kernel_bound in Hl as [[n [A <-]]|[n [A <-]]]; [|right; auto].
  left. destruct (nth_error_ex _ _ H2) as [ls E]. apply H1 with (ls := ls); auto.
  rewrite (nth_nth_error _ _ _ E) in A. exact A.
Qed.

Lemma add_kernel_inv own o k : inv own o -> kernel_ok own o (List.length (o_kernels o)) k ->
  inv own (with_kernels o (o_kernels o ++ [make_kernel o k])).
Proof.
  intros [H1 H2 H3 H4 H5 H6 H7] K. destruct (make_kernel_def o k) as [E1 E2].
  constructor; cbn; auto.
  - intros i kk A. apply nth_error_snoc in A as [A|[-> ->]]; [eauto|]. rewrite E1. apply K.
  - intros i kk n A B. apply nth_error_snoc in A as [A|[-> ->]]; [eauto|]. rewrite E2 in B. apply K; auto.
  - intros i kk l A B. apply nth_error_snoc in A as [A|[-> ->]]; [eauto|]. rewrite E1.
    eapply make_kernel_bound_ok; eauto.
  - intros m mm A. destruct (H7 m mm A) as [[? [? ?]] ?]. rewrite app_length. cbn. repeat split; auto; lia.
Qed.

(** What [make_model] requires: everything but the freshness of the bound functions of that model. *)
Record pre (own : nat -> tag) (o : objs) (i : nat) (mm : mobj) : Prop := mkPre {
  p_defs : forall d ls n, nth_error (o_defs o) d = Some ls -> In n ls -> live own (o_params o) (ODef d) (nm_loc n);
  p_kernel : forall j k, nth_error (o_kernels o) j = Some k -> kernel_ok own o j k;
  p_bound : forall j k l, nth_error (o_kernels o) j = Some k -> j <> mo_kernel mm -> In l (k_bound k) ->
     live own (o_params o) (ODef (k_def k)) l \/ live own (o_params o) (OKernel j) l;
  p_homo : forall z l, nth_error (o_noises o) z = Some (ZHomo l) -> live own (o_params o) (ONoise z) l;
  p_hetero : forall z a, nth_error (o_noises o) z = Some (ZHetero a) -> (a < List.length (o_arrays o))%nat;
  p_model : nth_error (o_models o) i = Some mm;
  p_models : forall m mm, nth_error (o_models o) m = Some mm ->
     (mo_kernel mm < List.length (o_kernels o) /\ mo_noise mm < List.length (o_noises o) /\
      mo_scale mm < List.length (o_scales o))%nat /\ (m <> i -> mo_bnoise mm = mo_noise mm)
}.

Lemma inv_pre own o i mm : inv own o -> nth_error (o_models o) i = Some mm -> pre own o i mm.
Proof.
  intros [H1 H2 H3 H4 H5 H6 H7] E. constructor; auto.
  - intros j k A. split; eauto.
  - intros m mm' A. destruct (H7 m mm' A). auto.
Qed.

Lemma make_model_inv own o i mm : pre own o i mm -> inv own (make_model o i).
Proof.
  intros [H1 H2 H4 H5 H6 H7 H8]. unfold make_model. rewrite H7.
  destruct (H8 _ _ H7) as [[A [B C]] _].
  destruct (nth_error_ex _ _ A) as [k Ek]. destruct (nth_error_ex _ _ C) as [sc Es]. rewrite Ek, Es.
  destruct (make_kernel_def o k) as [E1 E2].
  assert (Hk : forall j kk, nth_error (set_nth (o_kernels o) (mo_kernel mm) (make_kernel o k)) j = Some kk ->
     (j <> mo_kernel mm /\ nth_error (o_kernels o) j = Some kk) \/ (j = mo_kernel mm /\ kk = make_kernel o k)).
  { intros j kk D. destruct (Nat.eq_dec j (mo_kernel mm)) as [->|N].
    - rewrite (set_nth_same _ _ _ _ Ek) in D. injection D as <-. auto.
    - rewrite set_nth_other in D by auto. auto. }
  constructor; cbn; auto.
  - intros j kk D. apply Hk in D as [[N D]|[-> ->]]; [apply (H2 _ _ D)|rewrite E1; apply (H2 _ _ Ek)].
  - intros j kk n D F. apply Hk in D as [[N D]|[-> ->]]; [apply (H2 _ _ D); auto|rewrite E2 in F; apply (H2 _ _ Ek); auto].
  - intros j kk l D F. apply Hk in D as [[N D]|[-> ->]]; [eapply H4; eauto|].
    rewrite E1. eapply make_kernel_bound_ok; eauto.
  - intros m mm' D. rewrite !set_nth_length. destruct (Nat.eq_dec m i) as [->|N].
    + rewrite (set_nth_same _ _ _ _ H7) in D. injection D as <-. cbn. auto.
    + rewrite set_nth_other in D by auto. destruct (H8 _ _ D). auto.
Qed.

(** ** Stores *)
Lemma put_params_next s d kw : st_next (put_params s d kw) = st_next s.
Proof.
  revert s. induction kw as [|[name rhs] kw IH]; intros s; cbn; auto.
  destruct (dget d name); auto. rewrite IH. reflexivity.
Qed.
Lemma put_params_frame s (d : dict named) kw l : (forall name n, dget d name = Some n -> nm_loc n <> l) ->
  st_cell (put_params s d kw) l = st_cell s l.
Proof.
  intros H. revert s. induction kw as [|[name rhs] kw IH]; intros s; cbn [put_params]; auto.
  destruct (dget d name) as [n|] eqn:E; auto. rewrite IH. cbn. specialize (H _ _ E).
  destruct (Nat.eqb l (nm_loc n)) eqn:F; auto. apply Nat.eqb_eq in F. congruence.
Qed.
Lemma fold_dset_in (l : list named) : forall (d : dict named) name n,
  dget (fold_left (fun d n => dset d (nm_name n) n) l d) name = Some n -> In n l \/ dget d name = Some n.
Proof.
  induction l as [|x l IH]; intros d name n H; cbn [fold_left] in H; auto.
  apply IH in H as [H|H]; [left; right; auto|].
  rewrite dget_dset in H. destruct (String.eqb _ _); [injection H as <-; left; left; reflexivity|auto].
Qed.
Lemma kobj_dict_in o k name n : dget (kobj_dict o k) name = Some n -> In n (kobj_params o k).
Proof. intros H. apply fold_dset_in in H as [H|H]; auto. discriminate. Qed.
Lemma kobj_params_in own o i k n : inv own o -> nth_error (o_kernels o) i = Some k -> In n (kobj_params o k) ->
  live own (o_params o) (ODef (k_def k)) (nm_loc n) \/ live own (o_params o) (OKernel i) (nm_loc n).
Proof.
  intros [H1 H2 H3 _ _ _ _] E H. apply in_app_iff in H as [H|H].
  - left. destruct (nth_error_ex _ _ (H2 _ _ E)) as [ls F]. rewrite (nth_nth_error _ _ _ F) in H. eapply H1; eauto.
  - right. destruct (k_smooth k) as [x|] eqn:F; [|destruct H]. destruct H as [<-|[]]. eapply H3; eauto.
Qed.

Lemma vec_init_from_locs name srcs : forall s i s' l, vec_init_from s name i srcs = (s', l) ->
  (st_next s <= st_next s')%nat /\ (forall n, In n l -> (st_next s <= nm_loc n < st_next s')%nat) /\
  forall j, (j < st_next s)%nat -> st_cell s' j = st_cell s j.
Proof.
  induction srcs as [|src srcs IH]; intros s i s' l H; cbn [vec_init_from] in H.
  - injection H as <- <-. (split; [auto|split; [intros x0 []|auto]]).
  - unfold named_init in H.
    destruct (vec_init_from (st_new s (param_set (mkParam (Fin 0) (Fin 0, Fin 0) true) (st_cell s src))) name (S i) srcs) as [s2 r] eqn:E.
    injection H as <- <-. apply IH in E as [A [B C]]. cbn in A, B, C. split; [lia|]. split.
    + intros n [<-|Hn]; cbn; [lia|]. specialize (B n Hn). lia.
    + intros j Hj. rewrite C by lia. destruct (Nat.eqb j (st_next s)) eqn:F; auto. apply Nat.eqb_eq in F. lia.
Qed.
Lemma copy_named_locs l : forall s s' r, copy_named s l = (s', r) ->
  (st_next s <= st_next s')%nat /\ (forall n, In n r -> (st_next s <= nm_loc n < st_next s')%nat) /\
  (forall j, (j < st_next s)%nat -> st_cell s' j = st_cell s j).
Proof.
  induction l as [|x l IH]; intros s s' r H; cbn [copy_named] in H.
  - injection H as <- <-. (split; [auto|split; [intros x0 []|auto]]).
  - destruct (copy_named (st_new s (st_cell s (nm_loc x))) l) as [s2 q] eqn:E. injection H as <- <-.
    apply IH in E as [A [B C]]. cbn in A, B, C. split; [lia|]. split.
    + intros n [<-|Hn]; cbn; [lia|]. specialize (B n Hn). lia.
    + intros j Hj. rewrite C by lia. destruct (Nat.eqb j (st_next s)) eqn:F; auto. apply Nat.eqb_eq in F. lia.
Qed.
Lemma put_optimized_next e d z vals : forall s s', put_optimized e s d z vals = Some s' -> st_next s' = st_next s.
Proof.
  induction vals as [|[key v] vals IH]; intros s s' H; cbn [put_optimized] in H.
  - injection H as <-. reflexivity.
  - destruct (if String.eqb key "noise" then _ else _) as [l|]; [|discriminate].
    destruct (param_set_val e (st_cell s l) (PNum v)) as [p|]; [|discriminate].
    apply IH in H. exact H.
Qed.
Lemma put_optimized_frame e (d : dict named) z vals j :
  (forall name n, dget d name = Some n -> nm_loc n <> j) -> (forall l, z = ZHomo l -> l <> j) ->
  forall s s', put_optimized e s d z vals = Some s' -> st_cell s' j = st_cell s j.
Proof.
  intros Hd Hz. induction vals as [|[key v] vals IH]; intros s s' H; cbn [put_optimized] in H.
  - injection H as <-. reflexivity.
  - destruct (if String.eqb key "noise" then _ else _) as [l|] eqn:E; [|discriminate].
    destruct (param_set_val e (st_cell s l) (PNum v)) as [p|]; [|discriminate].
    rewrite (IH _ _ H). cbn. assert (l <> j).
    { destruct (String.eqb key "noise").
      - destruct z; try discriminate. injection E as <-. auto.
      - destruct (dget d key) eqn:F; [|discriminate]. injection E as <-. eauto. }
    destruct (Nat.eqb j l) eqn:F; auto. apply Nat.eqb_eq in F. congruence.
Qed.

(** ** The observation of a model does not change when nothing it is built from changes. *)
Lemma kernel_obs_frame own o o' i k : inv own o -> nth_error (o_kernels o) i = Some k ->
  nth_error (o_kernels o') i = Some k -> nth_error (o_defs o') (k_def k) = nth_error (o_defs o) (k_def k) ->
  (forall l, live own (o_params o) (ODef (k_def k)) l \/ live own (o_params o) (OKernel i) l ->
     st_cell (o_params o') l = st_cell (o_params o) l) ->
  kernel_obs o' i = kernel_obs o i.
Proof.
  intros I A B C D. unfold kernel_obs. rewrite A, B.
  assert (E : nth (k_def k) (o_defs o') [] = nth (k_def k) (o_defs o) []).
  { destruct (nth_error (o_defs o) (k_def k)) eqn:F; [rewrite !(nth_nth_error _ _ _ F), (nth_nth_error _ _ _ C); reflexivity|].
    apply nth_error_None in F. pose proof (i_kdef _ _ I _ _ A). lia. }
  rewrite E. do 3 f_equal.
  - apply map_ext_in. intros n Hn. f_equal. apply D. eapply kobj_params_in; eauto.
  - apply map_ext_in. intros l Hl. apply D. eapply (i_bound _ _ I); eauto.
Qed.

Lemma model_obs_frame own o o' m mm k : inv own o ->
  nth_error (o_models o) m = Some mm -> nth_error (o_models o') m = Some mm ->
  nth_error (o_kernels o) (mo_kernel mm) = Some k -> nth_error (o_kernels o') (mo_kernel mm) = Some k ->
  nth_error (o_defs o') (k_def k) = nth_error (o_defs o) (k_def k) ->
  nth_error (o_noises o') (mo_noise mm) = nth_error (o_noises o) (mo_noise mm) ->
  (forall a, nth_error (o_noises o) (mo_noise mm) = Some (ZHetero a) -> nth_error (o_arrays o') a = nth_error (o_arrays o) a) ->
  nth_error (o_scales o') (mo_scale mm) = nth_error (o_scales o) (mo_scale mm) ->
  (forall l, live own (o_params o) (ODef (k_def k)) l \/ live own (o_params o) (OKernel (mo_kernel mm)) l \/
      live own (o_params o) (ONoise (mo_noise mm)) l -> st_cell (o_params o') l = st_cell (o_params o) l) ->
  model_obs o' m = model_obs o m.
Proof.
  intros I A A' B B' C D E F G. unfold model_obs. rewrite A, A'.
  assert (N : noise_obs o' (mo_noise mm) = noise_obs o (mo_noise mm)).
  { unfold noise_obs. rewrite D. destruct (nth_error (o_noises o) (mo_noise mm)) as [[l|a|]|] eqn:Z; auto.
    - rewrite G; auto. right; right. eapply (i_homo _ _ I); eauto.
    - rewrite E; auto. }
  rewrite (proj2 (i_models _ _ I _ _ A)), N, F.
  rewrite (kernel_obs_frame own o o' (mo_kernel mm) k); auto. intros l [H|H]; apply G; auto.
Qed.

(** ** One step *)
Lemma make_model_frame own o i mm m : pre own o i mm -> inv own o \/ True ->
  forall mk, nth_error (o_models o) m = Some mk -> m <> i -> mo_kernel mk <> mo_kernel mm ->
  nth_error (o_models (make_model o i)) m = Some mk /\
  nth_error (o_kernels (make_model o i)) (mo_kernel mk) = nth_error (o_kernels o) (mo_kernel mk) /\
  o_params (make_model o i) = o_params o /\ o_arrays (make_model o i) = o_arrays o /\ o_defs (make_model o i) = o_defs o /\
  o_noises (make_model o i) = o_noises o /\ o_scales (make_model o i) = o_scales o.
Proof.
  intros P _ mk E N1 N2. unfold make_model. rewrite (p_model _ _ _ _ P).
  destruct (nth_error (o_kernels o) (mo_kernel mm)); [|repeat split; auto].
  destruct (nth_error (o_scales o) (mo_scale mm)); [|repeat split; auto].
  cbn. rewrite !set_nth_other by auto. repeat split; auto.
Qed.

(** Adding a model. *)
Lemma add_model_pre own o k z s b : inv own o -> (k < List.length (o_kernels o))%nat -> (z < List.length (o_noises o))%nat ->
  (s < List.length (o_scales o))%nat ->
  pre own (mkO (o_params o) (o_arrays o) (o_defs o) (o_kernels o) (o_noises o) (o_scales o) (o_models o ++ [mkM k z s z b]))
      (List.length (o_models o)) (mkM k z s z b).
Proof.
  intros [H1 H2 H3 H4 H5 H6 H7] A B C. constructor; cbn; auto.
  - intros j kk D. split; cbn; eauto.
  - apply nth_error_snoc_new.
  - intros m mm D. apply nth_error_snoc in D as [D|[-> ->]]; [destruct (H7 _ _ D); auto|cbn; auto].
Qed.

(** The deep copy. *)
Lemma deepcopy_ok own o mi m o1 : inv own o -> nth_error (o_models o) mi = Some m -> deepcopy_model o m = Some o1 ->
  exists own' m1 k1, grown own own' (o_params o) (o_params o1) /\ pre own' o1 (List.length (o_models o)) m1 /\
    mo_kernel m1 = List.length (o_kernels o) /\ mo_noise m1 = List.length (o_noises o) /\ mo_scale m1 = List.length (o_scales o) /\
    o_models o1 = o_models o ++ [m1] /\ o_kernels o1 = o_kernels o ++ [k1] /\ k_def k1 = List.length (o_defs o) /\
    (exists ls, o_defs o1 = o_defs o ++ [ls]) /\ (exists z, o_noises o1 = o_noises o ++ [z]) /\
    (exists s, o_scales o1 = o_scales o ++ [s]) /\ (exists x, o_arrays o1 = o_arrays o ++ x) /\
    (forall l, (l < st_next (o_params o))%nat -> st_cell (o_params o1) l = st_cell (o_params o) l) /\
    (forall n, In n (kobj_params o1 k1) -> (st_next (o_params o) <= nm_loc n)%nat) /\
    (forall l, nth_error (o_noises o1) (mo_noise m1) = Some (ZHomo l) -> (st_next (o_params o) <= l)%nat) /\
    (forall a, nth_error (o_noises o1) (mo_noise m1) = Some (ZHetero a) -> (List.length (o_arrays o) <= a)%nat).
Proof.
  intros I Hm H. unfold deepcopy_model in H.
  destruct (nth_error (o_kernels o) (mo_kernel m)) as [k|] eqn:Ek; [|discriminate].
  destruct (nth_error (o_noises o) (mo_noise m)) as [z|] eqn:Ez; [|discriminate].
  destruct (nth_error (o_scales o) (mo_scale m)) as [sc|] eqn:Es; [|discriminate].
  destruct (copy_named (o_params o) (nth (k_def k) (o_defs o) [])) as [s1 ls] eqn:E1.
  destruct (copy_named_locs _ _ _ _ E1) as [L1 [L2 L3]].
  set (s2 := match k_smooth k with None => s1 | Some n => st_new s1 (st_cell s1 (nm_loc n)) end).
  set (sm := match k_smooth k with None => None | Some n => Some (mkNamed (nm_name n) (st_next s1)) end).
  assert (E2 : match k_smooth k with
               | None => (s1, None)
               | Some n => (st_new s1 (st_cell s1 (nm_loc n)), Some (mkNamed (nm_name n) (st_next s1)))
               end = (s2, sm)) by (unfold s2, sm; destruct (k_smooth k); reflexivity).
  rewrite E2 in H.
  assert (N2 : (st_next s1 <= st_next s2)%nat) by (unfold s2; destruct (k_smooth k); cbn; lia).
  assert (C2 : forall l, (l < st_next s1)%nat -> st_cell s2 l = st_cell s1 l).
  { unfold s2. destruct (k_smooth k); auto. intros l Hl. cbn. destruct (Nat.eqb l (st_next s1)) eqn:F; auto. apply Nat.eqb_eq in F. lia. }
  assert (S2 : forall n, sm = Some n -> (st_next s1 <= nm_loc n < st_next s2)%nat).
  { unfold s2, sm. destruct (k_smooth k); [|discriminate]. intros n' Hn. injection Hn as <-. cbn. lia. }
  set (s3 := match z with ZHomo l => st_new s2 (st_cell s2 l) | _ => s2 end).
  set (ar := match z with ZHetero a => o_arrays o ++ [nth a (o_arrays o) []] | _ => o_arrays o end).
  set (z' := match z with ZHomo l => ZHomo (st_next s2) | ZHetero a => ZHetero (List.length (o_arrays o)) | ZNull => ZNull end).
  assert (E3 : match z with
               | ZHomo l => (st_new s2 (st_cell s2 l), o_arrays o, ZHomo (st_next s2))
               | ZHetero a => (s2, o_arrays o ++ [nth a (o_arrays o) []], ZHetero (List.length (o_arrays o)))
               | ZNull => (s2, o_arrays o, ZNull)
               end = (s3, ar, z')) by (unfold s3, ar, z'; destruct z; reflexivity).
  rewrite E3 in H. injection H as <-.
  assert (N3 : (st_next s2 <= st_next s3)%nat) by (unfold s3; destruct z; cbn; lia).
  assert (C3 : forall l, (l < st_next s2)%nat -> st_cell s3 l = st_cell s2 l).
  { unfold s3. destruct z; auto. intros l Hl. cbn. destruct (Nat.eqb l (st_next s2)) eqn:F; auto. apply Nat.eqb_eq in F. lia. }
  assert (S3 : forall l, z' = ZHomo l -> (st_next s2 <= l < st_next s3)%nat).
  { unfold s3, z'. destruct z; try discriminate. intros l Hl. injection Hl as <-. cbn. lia. }
  assert (A3 : (List.length (o_arrays o) <= List.length ar)%nat) by (unfold ar; destruct z; rewrite ?app_length; lia).
  assert (A4 : forall a, z' = ZHetero a -> (List.length (o_arrays o) <= a < List.length ar)%nat).
  { unfold ar, z'. destruct z; try discriminate. intros b Hb. injection Hb as <-. rewrite app_length. cbn. lia. }
  set (own' := fun l => if Nat.ltb l (st_next (o_params o)) then own l else if Nat.ltb l (st_next s1) then ODef (List.length (o_defs o))
                        else if Nat.ltb l (st_next s2) then OKernel (List.length (o_kernels o)) else ONoise (List.length (o_noises o))).
  assert (G : grown own own' (o_params o) s3).
  { split; [lia|]. intros l Hl. unfold own'. apply Nat.ltb_lt in Hl. rewrite Hl. reflexivity. }
  assert (O1 : forall l, (st_next (o_params o) <= l < st_next s1)%nat -> live own' s3 (ODef (List.length (o_defs o))) l).
  { intros l Hl. split; [|lia]. unfold own'. rewrite (proj2 (Nat.ltb_ge _ _)), (proj2 (Nat.ltb_lt _ _)) by lia. reflexivity. }
  assert (O2 : forall l, (st_next s1 <= l < st_next s2)%nat -> live own' s3 (OKernel (List.length (o_kernels o))) l).
  { intros l Hl. split; [|lia]. unfold own'. rewrite (proj2 (Nat.ltb_ge l _)), (proj2 (Nat.ltb_ge _ _)), (proj2 (Nat.ltb_lt _ _)) by lia. reflexivity. }
  assert (O3 : forall l, (st_next s2 <= l < st_next s3)%nat -> live own' s3 (ONoise (List.length (o_noises o))) l).
  { intros l Hl. split; [|lia]. unfold own'. rewrite (proj2 (Nat.ltb_ge l _)), (proj2 (Nat.ltb_ge _ _)), (proj2 (Nat.ltb_ge _ _)) by lia. reflexivity. }
  exists own', (mkM (List.length (o_kernels o)) (List.length (o_noises o)) (List.length (o_scales o)) (mo_bnoise m) (mo_bscale m)),
    (mkK (List.length (o_defs o)) sm (k_bound k) (k_fn k)). cbn [o_params o_models o_kernels o_defs o_noises o_scales o_arrays].
  split; [exact G|]. split; [|do 6 (split; [reflexivity|]); do 3 (split; [eexists; reflexivity|])].
  2:{ split; [unfold ar; destruct z; [exists []; rewrite app_nil_r; reflexivity|eexists; reflexivity|exists []; rewrite app_nil_r; reflexivity]|].
      split; [intros l Hl; rewrite C3, C2, L3 by lia; reflexivity|].
      split; [|split].
      - intros n Hn. unfold kobj_params in Hn. cbn [k_def k_smooth o_defs] in Hn.
        rewrite (nth_nth_error _ _ _ (nth_error_snoc_new (o_defs o) ls)) in Hn. apply in_app_iff in Hn as [Hn|Hn].
        + specialize (L2 n Hn). lia.
        + destruct sm as [x|] eqn:F; [|destruct Hn]. destruct Hn as [<-|[]]. specialize (S2 _ eq_refl). lia.
      - intros l Hl. cbn [mo_noise] in Hl. rewrite nth_error_snoc_new in Hl. injection Hl as Hl. specialize (S3 _ Hl). lia.
      - intros a Ha. cbn [mo_noise] in Ha. rewrite nth_error_snoc_new in Ha. injection Ha as Ha. specialize (A4 _ Ha). lia. }
  destruct I as [H1 H2 H3 H4 H5 H6 H7]. constructor; cbn.
  - intros d ls' n A B. apply nth_error_snoc in A as [A|[-> ->]].
    + eapply grown_live; eauto.
    + apply O1. specialize (L2 n B). lia.
  - intros j kk A. unfold kernel_ok. cbn. rewrite app_length. cbn. apply nth_error_snoc in A as [A|[-> ->]].
    + split; [specialize (H2 _ _ A); lia|]. intros n Hn. eapply grown_live; eauto.
    + cbn. split; [lia|]. intros n Hn. apply O2. apply S2; auto.
  - intros j kk l A N B. apply nth_error_snoc in A as [A|[-> ->]]; [|congruence].
    destruct (H4 _ _ _ A B); [left|right]; eapply grown_live; eauto.
  - intros w l A. apply nth_error_snoc in A as [A|[-> A]].
    + eapply grown_live; eauto.
    + apply O3, S3. auto.
  - intros w a A. apply nth_error_snoc in A as [A|[-> A]].
    + specialize (H6 _ _ A). lia.
    + symmetry in A. specialize (A4 _ A). lia.
  - apply nth_error_snoc_new.
  - intros w mm A. rewrite !app_length. cbn. apply nth_error_snoc in A as [A|[-> ->]].
    + destruct (H7 _ _ A) as [[? [? ?]] ?]. split; [lia|auto].
    + cbn. split; [lia|]. congruence.
Qed.

Lemma pre_store own o i mm s : st_next s = st_next (o_params o) -> pre own o i mm -> pre own (with_params o s) i mm.
Proof.
  intros E [H1 H2 H3 H4 H5 H6 H7]. constructor; unfold kernel_ok, live in *; cbn; rewrite ?E; auto.
Qed.

Lemma step_inv own o op : inv own o -> exists own', inv own' (astep o op) /\ grown own own' (o_params o) (o_params (astep o op)).
Proof.
  intros I.
  assert (Same : exists own', inv own' o /\ grown own own' (o_params o) (o_params o)) by (exists own; split; [auto|apply grown_refl]).
  destruct op; cbn [astep].
  - destruct (param_init e v b) as [p|]; auto. exists (ext_own own (o_params o) OFree).
    assert (G : grown own (ext_own own (o_params o) OFree) (o_params o) (st_new (o_params o) p)) by (apply ext_own_grown; cbn; lia).
    split; auto. apply (inv_grow own _ o _ G I).
  - exists own. split; [|apply grown_refl]. destruct I as [H1 H2 H3 H4 H5 H6 H7]. constructor; cbn; auto.
    intros z a A. rewrite app_length. specialize (H6 _ _ A). lia.
  - destruct (Nat.ltb src (st_next (o_params o))); auto. unfold named_init.
    set (s := st_new _ _). assert (G : grown own (ext_own own (o_params o) (ODef (List.length (o_defs o)))) (o_params o) s) by (apply ext_own_grown; cbn; lia).
    eexists. split; [|exact G].
    pose proof (inv_grow own _ o _ G I) as [H1 H2 H3 H4 H5 H6 H7]. cbn in *. constructor; cbn; auto.
    + intros d ls n A B. apply nth_error_snoc in A as [A|[-> ->]]; [eauto|]. destruct B as [<-|[]]. cbn.
      split; [apply ext_own_new; auto|cbn; lia].
    + intros i k A. rewrite app_length. specialize (H2 _ _ A). lia.
  - destruct (forallb _ srcs); auto. unfold vec_init.
    destruct (vec_init_from (o_params o) "length_scale" 0 srcs) as [s l] eqn:E.
    destruct (vec_init_from_locs _ _ _ _ _ _ E) as [A1 [A2 A3]].
    assert (G : grown own (ext_own own (o_params o) (ODef (List.length (o_defs o)))) (o_params o) s) by (apply ext_own_grown; auto).
    eexists. split; [|exact G].
    pose proof (inv_grow own _ o _ G I) as [H1 H2 H3 H4 H5 H6 H7]. cbn in *. constructor; cbn; auto.
    + intros d ls n A B. apply nth_error_snoc in A as [A|[-> ->]]; [eauto|]. specialize (A2 n B).
      split; [apply ext_own_new; lia|lia].
    + intros i k A. rewrite app_length. specialize (H2 _ _ A). lia.
  - match goal with |- context [Nat.ltb ?a ?b] => destruct (Nat.ltb a b) eqn:L end; auto. apply Nat.ltb_lt in L.
    exists own. split; [|apply grown_refl]. apply add_kernel_inv; auto. split; cbn; [auto|discriminate].
  - match goal with |- context [Nat.ltb ?a ?b && _] => destruct (Nat.ltb a b) eqn:L end; auto. apply Nat.ltb_lt in L.
    match goal with |- context [true && ?b] => destruct b end; auto. cbn [andb]. unfold named_init.
    set (s := st_new _ _). assert (G : grown own (ext_own own (o_params o) (OKernel (List.length (o_kernels o)))) (o_params o) s) by (apply ext_own_grown; cbn; lia).
    eexists. split; [|exact G].
    apply (add_kernel_inv _ (with_params o s)); [exact (inv_grow own _ o _ G I)|].
    split; cbn; auto. intros n Hn. injection Hn as <-. cbn. split; [apply ext_own_new; auto|cbn; lia].
  - destruct (homoscedastic_init e v b) as [p|]; auto.
    set (s := st_new _ _). assert (G : grown own (ext_own own (o_params o) (ONoise (List.length (o_noises o)))) (o_params o) s) by (apply ext_own_grown; cbn; lia).
    eexists. split; [|exact G].
    pose proof (inv_grow own _ o _ G I) as [H1 H2 H3 H4 H5 H6 H7]. cbn in *. constructor; cbn; auto.
    + intros z l A. apply nth_error_snoc in A as [A|[-> A]]; [eauto|]. injection A as ->.
      split; [apply ext_own_new; auto|cbn; lia].
    + intros z a A. apply nth_error_snoc in A as [A|[-> A]]; [eauto|discriminate].
    + intros m mm A. rewrite app_length. destruct (H7 _ _ A) as [[? [? ?]] ?]. repeat split; auto; lia.
  - destruct (Nat.ltb a (List.length (o_arrays o))) eqn:L; auto. apply Nat.ltb_lt in L.
    exists own. split; [|apply grown_refl]. destruct I as [H1 H2 H3 H4 H5 H6 H7]. constructor; cbn; auto.
    + intros z l A. apply nth_error_snoc in A as [A|[-> A]]; [eauto|discriminate].
    + intros z b A. apply nth_error_snoc in A as [A|[-> A]]; [eauto|]. injection A as ->. auto.
    + intros m mm A. rewrite app_length. destruct (H7 _ _ A) as [[? [? ?]] ?]. repeat split; auto; lia.
  - exists own. split; [|apply grown_refl]. destruct I as [H1 H2 H3 H4 H5 H6 H7]. constructor; cbn; auto.
    + intros z l A. apply nth_error_snoc in A as [A|[-> A]]; [eauto|discriminate].
    + intros z b A. apply nth_error_snoc in A as [A|[-> A]]; [eauto|discriminate].
    + intros m mm A. rewrite app_length. destruct (H7 _ _ A) as [[? [? ?]] ?]. repeat split; auto; lia.
  - exists own. split; [|apply grown_refl]. destruct I as [H1 H2 H3 H4 H5 H6 H7]. constructor; cbn; auto.
    intros m mm A. rewrite app_length. destruct (H7 _ _ A) as [[? [? ?]] ?]. repeat split; auto; lia.
  - match goal with |- context [if ?b then _ else _] => destruct b eqn:L end; auto.
    apply andb_prop in L as [L L3]. apply andb_prop in L as [L1 L2]. apply Nat.ltb_lt in L1, L2, L3.
    exists own. pose proof (add_model_pre own o k _ _ (Fin 0) I L1 L2 L3) as P. split; [eapply make_model_inv; eauto|].
    unfold make_model. cbn [o_models o_kernels o_scales]. rewrite nth_error_snoc_new. cbn [mo_kernel mo_scale].
    destruct (nth_error (o_kernels o) k); [|apply grown_refl]. destruct (nth_error (o_scales o) _); apply grown_refl.
  - destruct (nth_error (o_kernels o) k) as [kk|]; auto. exists own. split.
    + apply inv_store; auto. apply put_params_next.
    + split; cbn; [rewrite put_params_next|]; auto.
  - destruct (nth_error (o_models o) m) as [mm|] eqn:E; auto. destruct (nth_error (o_scales o) (mo_scale mm)) as [sc|] eqn:F; auto.
    set (o1 := mkO _ _ _ _ _ _ _). exists own.
    assert (I1 : inv own o1).
    { destruct I as [H1 H2 H3 H4 H5 H6 H7]. constructor; cbn; auto. rewrite set_nth_length. auto. }
    split.
    + eapply make_model_inv. eapply inv_pre; [exact I1|]. exact E.
    + unfold make_model. cbn [o1 o_models o_kernels o_scales]. rewrite E.
      destruct (nth_error (o_kernels o) (mo_kernel mm)); [|apply grown_refl]. destruct (nth_error (set_nth _ _ _) _); apply grown_refl.
  - destruct (Nat.ltb a (List.length (o_arrays o))) eqn:L; auto.
    exists own. split; [|apply grown_refl]. destruct I as [H1 H2 H3 H4 H5 H6 H7]. constructor; cbn; auto. rewrite set_nth_length. auto.
  - destruct (nth_error (o_models o) m) as [mm|] eqn:E; auto. destruct (deepcopy_model o mm) as [o1|] eqn:D; auto.
    destruct (nth_error (o_kernels o1) (List.length (o_kernels o))) as [k'|] eqn:Ek; auto.
    destruct (nth_error (o_noises o1) (List.length (o_noises o))) as [z'|] eqn:Ez; auto.
    destruct (put_optimized e (o_params o1) (kobj_dict o1 k') z' vals) as [s|] eqn:Eo; auto.
    destruct (deepcopy_ok _ _ _ _ _ I E D) as (own' & m1 & k1 & G & P & _).
    apply put_optimized_next in Eo. exists own'. split.
    + eapply make_model_inv. eapply pre_store; eauto.
    + assert (o_params (make_model (with_params o1 s) (List.length (o_models o))) = s) as ->.
      { unfold make_model. destruct (nth_error (o_models (with_params o1 s)) _); [|reflexivity].
        destruct (nth_error _ (mo_kernel _)); [|reflexivity]. destruct (nth_error _ (mo_scale _)); reflexivity. }
      destruct G as [G1 G2]. split; [lia|auto].
Qed.

(** A model whose parts are untouched lists. *)
Lemma ext_frame own o o' m mm : inv own o -> nth_error (o_models o) m = Some mm ->
  (forall i x, nth_error (o_models o) i = Some x -> nth_error (o_models o') i = Some x) ->
  (forall i x, nth_error (o_kernels o) i = Some x -> nth_error (o_kernels o') i = Some x) ->
  (forall i x, nth_error (o_defs o) i = Some x -> nth_error (o_defs o') i = Some x) ->
  (forall i x, nth_error (o_noises o) i = Some x -> nth_error (o_noises o') i = Some x) ->
  (forall i x, nth_error (o_scales o) i = Some x -> nth_error (o_scales o') i = Some x) ->
  (forall i x, nth_error (o_arrays o) i = Some x -> nth_error (o_arrays o') i = Some x) ->
  (forall l, (l < st_next (o_params o))%nat -> st_cell (o_params o') l = st_cell (o_params o) l) ->
  model_obs o' m = model_obs o m.
Proof.
  intros I E H1 H2 H3 H4 H5 H6 H7. destruct (i_models _ _ I _ _ E) as [[A [B C]] D].
  destruct (nth_error_ex _ _ A) as [k Ek]. destruct (nth_error_ex _ _ B) as [z Ez]. destruct (nth_error_ex _ _ C) as [s Es].
  destruct (nth_error_ex _ _ (i_kdef _ _ I _ _ Ek)) as [ls El].
  apply (model_obs_frame own o o' m mm k); auto.
  - rewrite El. auto.
  - rewrite Ez. auto.
  - intros a Ha. destruct (nth_error_ex _ _ (i_hetero _ _ I _ _ Ha)) as [x Ex]. rewrite Ex. auto.
  - rewrite Es. auto.
  - intros l Hl. apply H7. unfold live in Hl. tauto.
Qed.

Lemma st_new_old s p l : (l < st_next s)%nat -> st_cell (st_new s p) l = st_cell s l.
Proof. intros H. cbn. destruct (Nat.eqb l (st_next s)) eqn:F; auto. apply Nat.eqb_eq in F. lia. Qed.

Lemma make_model_models o i m : m <> i -> nth_error (o_models (make_model o i)) m = nth_error (o_models o) m.
Proof.
  intros N. unfold make_model. destruct (nth_error (o_models o) i) as [x|]; auto.
  destruct (nth_error (o_kernels o) (mo_kernel x)); auto. destruct (nth_error (o_scales o) (mo_scale x)); auto.
  cbn. apply set_nth_other. auto.
Qed.
Lemma make_model_kernels o i mm k : nth_error (o_models o) i = Some mm -> k <> mo_kernel mm ->
  nth_error (o_kernels (make_model o i)) k = nth_error (o_kernels o) k.
Proof.
  intros E N. unfold make_model. rewrite E.
  destruct (nth_error (o_kernels o) (mo_kernel mm)); auto. destruct (nth_error (o_scales o) (mo_scale mm)); auto.
  cbn. apply set_nth_other. auto.
Qed.
Lemma make_model_rest o i : o_params (make_model o i) = o_params o /\ o_arrays (make_model o i) = o_arrays o /\
  o_defs (make_model o i) = o_defs o /\ o_noises (make_model o i) = o_noises o /\ o_scales (make_model o i) = o_scales o.
Proof.
  unfold make_model. destruct (nth_error (o_models o) i) as [x|]; auto 10.
  destruct (nth_error (o_kernels o) (mo_kernel x)); auto 10. destruct (nth_error (o_scales o) (mo_scale x)); auto 10.
Qed.

Lemma step_frame own o op m mm : inv own o -> nth_error (o_models o) m = Some mm -> ~ addresses o op m ->
  model_obs (astep o op) m = model_obs o m.
Proof.
  intros I E NA. destruct op; cbn [astep].
  - destruct (param_init e v b) as [p|]; auto. eapply ext_frame; eauto. intros; apply st_new_old; auto.
  - eapply ext_frame; eauto. cbn. intros. apply nth_error_snoc_old; auto.
  - destruct (Nat.ltb src (st_next (o_params o))); auto. unfold named_init.
    eapply ext_frame; eauto; cbn [o_defs o_params]; intros; [apply nth_error_snoc_old; auto|apply st_new_old; auto].
  - destruct (forallb _ srcs); auto. unfold vec_init.
    destruct (vec_init_from (o_params o) "length_scale" 0 srcs) as [s l] eqn:Ev.
    destruct (vec_init_from_locs _ _ _ _ _ _ Ev) as [A1 [A2 A3]].
    eapply ext_frame; eauto; cbn [o_defs o_params]; intros; apply nth_error_snoc_old; auto.
  - match goal with |- context [Nat.ltb ?a ?b] => destruct (Nat.ltb a b) eqn:L end; auto.
    eapply ext_frame; eauto; cbn; intros; apply nth_error_snoc_old; auto.
  - match goal with |- context [Nat.ltb ?a ?b && _] => destruct (Nat.ltb a b) eqn:L end; auto.
    match goal with |- context [true && ?b] => destruct b end; auto. cbn [andb]. unfold named_init.
    eapply ext_frame; eauto; cbn [o_kernels o_params with_kernels with_params]; intros; [apply nth_error_snoc_old; auto|apply st_new_old; auto].
  - destruct (homoscedastic_init e v b) as [p|]; auto.
    eapply ext_frame; eauto; cbn [o_noises o_params]; intros; [apply nth_error_snoc_old; auto|apply st_new_old; auto].
  - destruct (Nat.ltb a (List.length (o_arrays o))) eqn:L; auto.
    eapply ext_frame; eauto; cbn [o_noises o_params]; intros; apply nth_error_snoc_old; auto.
  - eapply ext_frame; eauto; cbn [o_noises o_params]; intros; apply nth_error_snoc_old; auto.
  - eapply ext_frame; eauto; cbn [o_scales o_params]; intros; apply nth_error_snoc_old; auto.
  - match goal with |- context [if ?b then _ else _] => destruct b eqn:L end; auto.
    set (o1 := mkO _ _ _ _ _ _ _).
    assert (Hm : nth_error (o_models o1) m = Some mm) by (apply nth_error_snoc_old; auto).
    destruct (i_models _ _ I _ _ E) as [[A _] _]. destruct (nth_error_ex _ _ A) as [kk Ek].
    assert (NE : m <> List.length (o_models o)) by (apply nth_error_lt in E; lia).
    assert (NK : mo_kernel mm <> k) by (intros X; apply NA; exists mm; auto).
    destruct (make_model_rest o1 (List.length (o_models o))) as (R1 & R2 & R3 & R4 & R5).
    apply (model_obs_frame own o _ m mm kk); auto.
    + rewrite make_model_models; auto.
    + erewrite make_model_kernels; [exact Ek|apply nth_error_snoc_new|exact NK].
    + rewrite R3. reflexivity.
    + rewrite R4. reflexivity.
    + intros a _. rewrite R2. reflexivity.
    + rewrite R5. reflexivity.
    + intros l _. rewrite R1. reflexivity.
  - destruct (nth_error (o_kernels o) k) as [kk|] eqn:Ek; auto.
    destruct (i_models _ _ I _ _ E) as [[A _] _]. destruct (nth_error_ex _ _ A) as [km Em].
    apply (model_obs_frame own o _ m mm km); auto.
    intros l Hl. cbn. apply put_params_frame. intros name n Hn <-.
    apply kobj_dict_in in Hn. pose proof (kobj_params_in _ _ _ _ _ I Ek Hn) as Hk. unfold live in *.
    assert (N1 : mo_kernel mm <> k) by (intros X; apply NA; left; exists mm; auto).
    assert (N2 : k_def km <> k_def kk) by (intros X; apply NA; right; exists kk; split; auto; exists mm, km; auto).
    intuition congruence.
  - destruct (nth_error (o_models o) m0) as [m'|] eqn:Em; auto. destruct (nth_error (o_scales o) (mo_scale m')) as [sc|] eqn:F; auto.
    set (o1 := mkO _ _ _ _ _ _ _).
    destruct (i_models _ _ I _ _ E) as [[A _] _]. destruct (nth_error_ex _ _ A) as [kk Ek].
    assert (NK : mo_kernel mm <> mo_kernel m').
    { intros X. apply NA. left. exists (mo_kernel mm). split; [exists mm; auto|exists m'; auto]. }
    assert (NS : mo_scale mm <> mo_scale m').
    { intros X. apply NA. right. exists (mo_scale mm). split; [exists mm; auto|exists m'; auto]. }
    assert (NE : m <> m0) by (intros ->; congruence).
    destruct (make_model_rest o1 m0) as (R1 & R2 & R3 & R4 & R5).
    apply (model_obs_frame own o _ m mm kk); auto.
    + rewrite make_model_models; auto.
    + erewrite make_model_kernels; [exact Ek|exact Em|exact NK].
    + rewrite R3. reflexivity.
    + rewrite R4. reflexivity.
    + intros a _. rewrite R2. reflexivity.
    + rewrite R5. cbn. apply set_nth_other. auto.
    + intros l _. rewrite R1. reflexivity.
  - destruct (Nat.ltb a (List.length (o_arrays o))) eqn:L; auto.
    destruct (i_models _ _ I _ _ E) as [[A _] _]. destruct (nth_error_ex _ _ A) as [kk Ek].
    apply (model_obs_frame own o _ m mm kk); auto.
    intros b Hb. cbn. apply set_nth_other. intros ->. apply NA. exists (mo_noise mm). split; auto. exists mm; auto.
  - destruct (nth_error (o_models o) m0) as [m'|] eqn:Em; auto. destruct (deepcopy_model o m') as [o1|] eqn:D; auto.
    destruct (nth_error (o_kernels o1) (List.length (o_kernels o))) as [k'|] eqn:Ek; auto.
    destruct (nth_error (o_noises o1) (List.length (o_noises o))) as [z'|] eqn:Ez; auto.
    destruct (put_optimized e (o_params o1) (kobj_dict o1 k') z' vals) as [s|] eqn:Eo; auto.
    destruct (deepcopy_ok _ _ _ _ _ I Em D) as (own' & m1 & k1 & G & P & M1 & M2 & M3 & C1 & C2 & C3 & [ls C4] & [z C5] & [sc C6] & [x C7] & C8 & C9 & C10 & C11).
    set (o2 := with_params o1 s).
    assert (Hm : nth_error (o_models o2) m = Some mm) by (unfold o2; cbn; rewrite C1; apply nth_error_snoc_old; auto).
    assert (Hn : nth_error (o_models o2) (List.length (o_models o)) = Some m1) by (unfold o2; cbn; rewrite C1; apply nth_error_snoc_new).
    destruct (i_models _ _ I _ _ E) as [[A [A' A'']] _]. destruct (nth_error_ex _ _ A) as [kk Ekk].
    destruct (nth_error_ex _ _ A') as [zz Ezz]. destruct (nth_error_ex _ _ A'') as [ss Ess].
    destruct (nth_error_ex _ _ (i_kdef _ _ I _ _ Ekk)) as [ll Ell].
    assert (NE : m <> List.length (o_models o)) by (apply nth_error_lt in E; lia).
    assert (k' = k1) as -> by (rewrite C2, nth_error_snoc_new in Ek; congruence).
    destruct (make_model_rest o2 (List.length (o_models o))) as (R1 & R2 & R3 & R4 & R5).
    apply (model_obs_frame own o _ m mm kk); auto.
    + rewrite make_model_models; auto.
    + erewrite make_model_kernels; [|exact Hn|lia]. unfold o2. cbn. rewrite C2. apply nth_error_snoc_old; auto.
    + rewrite R3. unfold o2. cbn. rewrite C4, Ell. apply nth_error_snoc_old; auto.
    + rewrite R4. unfold o2. cbn. rewrite C5, Ezz. apply nth_error_snoc_old; auto.
    + intros a Ha. rewrite R2. unfold o2. cbn. rewrite C7. apply nth_error_app1. eapply (i_hetero _ _ I); eauto.
    + rewrite R5. unfold o2. cbn. rewrite C6, Ess. apply nth_error_snoc_old; auto.
    + intros l Hl. rewrite R1. unfold o2. cbn. assert (Lt : (l < st_next (o_params o))%nat) by (unfold live in Hl; tauto).
      erewrite (put_optimized_frame e (kobj_dict o1 k1) z' vals l); [apply C8; auto| | |exact Eo].
      * intros name n Hd. apply kobj_dict_in in Hd. specialize (C9 _ Hd). lia.
      * intros j ->. specialize (C10 j). rewrite M2 in C10. specialize (C10 Ez). lia.
Qed.

(** ** Histories *)
Lemma import_inv : inv (fun l => match l with 2 => ODef 0 | 4 => ODef 1 | 5 => ONoise 0 | _ => OFree end) import_objs.
Proof.
  unfold import_objs, named_init. constructor; cbn [o_defs o_kernels o_noises o_models o_scales o_arrays o_params].
  - intros [|[|d]] ls n H Hn; [| |destruct d; discriminate]; injection H as <-; destruct Hn as [<-|[]]; split; cbn; auto.
  - intros [|i]; discriminate.
  - intros [|i]; discriminate.
  - intros [|i]; discriminate.
  - intros [|z] l H; [|destruct z; discriminate]. injection H as <-. split; cbn; auto.
  - intros [|z] l H; [|destruct z; discriminate]. discriminate.
  - intros [|i]; discriminate.
Qed.
Lemma arun_inv ops : forall own o, inv own o -> exists own', inv own' (arun ops o).
Proof.
  induction ops as [|op ops IH]; intros own o I; [exists own; exact I|].
  destruct (step_inv own o op I) as [own' [I' _]]. exact (IH _ _ I').
Qed.
Lemma reachable_inv o : reachable o -> exists own, inv own o.
Proof. intros [ops ->]. eapply arun_inv. apply import_inv. Qed.
Lemma reachable_step o op : reachable o -> reachable (astep o op).
Proof. intros [ops ->]. exists (ops ++ [op]). unfold arun. rewrite fold_left_app. reflexivity. Qed.

(** A model keeps its kernel, noise and scale objects, a kernel its deformation. *)
Definition same_parts (o o' : objs) : Prop :=
  (forall m mm, nth_error (o_models o) m = Some mm -> exists mm', nth_error (o_models o') m = Some mm' /\
     mo_kernel mm' = mo_kernel mm /\ mo_noise mm' = mo_noise mm /\ mo_scale mm' = mo_scale mm) /\
  (forall k kk, nth_error (o_kernels o) k = Some kk -> exists kk', nth_error (o_kernels o') k = Some kk' /\
     k_def kk' = k_def kk /\ k_smooth kk' = k_smooth kk).
Lemma same_parts_ext o o' : (forall i x, nth_error (o_models o) i = Some x -> nth_error (o_models o') i = Some x) ->
  (forall i x, nth_error (o_kernels o) i = Some x -> nth_error (o_kernels o') i = Some x) -> same_parts o o'.
Proof. intros A B. split; intros i x E; exists x; auto. Qed.
Lemma same_parts_make o i : same_parts o (make_model o i).
Proof.
  assert (R : same_parts o o) by (apply same_parts_ext; auto).
  unfold make_model. destruct (nth_error (o_models o) i) as [x|] eqn:E; auto.
  destruct (nth_error (o_kernels o) (mo_kernel x)) as [k|] eqn:F; auto. destruct (nth_error (o_scales o) (mo_scale x)); auto.
  split; cbn.
  - intros m mm Hm. rewrite set_nth_get, Hm. destruct (Nat.eqb m i) eqn:G; eexists; split; eauto.
    apply Nat.eqb_eq in G as ->. rewrite E in Hm. injection Hm as <-. auto.
  - intros j kk Hj. rewrite set_nth_get, Hj. destruct (Nat.eqb j (mo_kernel x)) eqn:G; eexists; split; eauto.
    apply Nat.eqb_eq in G as ->. rewrite F in Hj. injection Hj as <-. apply make_kernel_def.
Qed.
Lemma same_parts_trans o1 o2 o3 : same_parts o1 o2 -> same_parts o2 o3 -> same_parts o1 o3.
Proof.
  intros [A B] [C D]. split.
  - intros m mm H. destruct (A _ _ H) as (m' & H' & ? & ? & ?). destruct (C _ _ H') as (m'' & H'' & ? & ? & ?).
    exists m''. repeat split; congruence.
  - intros m mm H. destruct (B _ _ H) as (m' & H' & ? & ?). destruct (D _ _ H') as (m'' & H'' & ? & ?).
    exists m''. repeat split; congruence.
Qed.
Lemma step_parts own o op : inv own o -> same_parts o (astep o op).
Proof.
  intros I. assert (R : same_parts o o) by (apply same_parts_ext; auto).
  destruct op; cbn [astep].
  - destruct (param_init e v b); auto; apply same_parts_ext; auto.
  - apply same_parts_ext; auto.
  - destruct (Nat.ltb src (st_next (o_params o))); auto; apply same_parts_ext; auto.
  - destruct (forallb _ srcs); auto. unfold vec_init. destruct (vec_init_from (o_params o) "length_scale" 0 srcs). apply same_parts_ext; auto.
  - match goal with |- context [Nat.ltb ?a ?b] => destruct (Nat.ltb a b) end; auto.
    apply same_parts_ext; cbn; intros; auto; apply nth_error_snoc_old; auto.
  - match goal with |- context [if ?b then _ else _] => destruct b end; auto.
    apply same_parts_ext; cbn; intros; auto; apply nth_error_snoc_old; auto.
  - destruct (homoscedastic_init e v b); auto; apply same_parts_ext; auto.
  - destruct (Nat.ltb a (List.length (o_arrays o))); auto; apply same_parts_ext; auto.
  - apply same_parts_ext; auto.
  - apply same_parts_ext; auto.
  - match goal with |- context [if ?b then _ else _] => destruct b end; auto.
    eapply same_parts_trans; [|apply same_parts_make]. apply same_parts_ext; cbn; intros; auto; apply nth_error_snoc_old; auto.
  - destruct (nth_error (o_kernels o) k); auto; apply same_parts_ext; auto.
  - destruct (nth_error (o_models o) m) as [m'|] eqn:Em; auto. destruct (nth_error (o_scales o) (mo_scale m')) as [sc|] eqn:F; auto.
    eapply same_parts_trans; [|apply same_parts_make]. apply same_parts_ext; auto.
  - destruct (Nat.ltb a (List.length (o_arrays o))); auto; apply same_parts_ext; auto.
  - destruct (nth_error (o_models o) m) as [m'|] eqn:Em; auto. destruct (deepcopy_model o m') as [o1|] eqn:D; auto.
    destruct (nth_error (o_kernels o1) (List.length (o_kernels o))) as [k'|] eqn:Ek; auto.
    destruct (nth_error (o_noises o1) (List.length (o_noises o))) as [z'|] eqn:Ez; auto.
    destruct (put_optimized e (o_params o1) (kobj_dict o1 k') z' vals) as [s|] eqn:Eo; auto.
    destruct (deepcopy_ok _ _ _ _ _ I Em D) as (own' & m1 & k1 & G & P & M1 & M2 & M3 & C1 & C2 & _).
    eapply same_parts_trans; [|apply same_parts_make].
    apply same_parts_ext; cbn; intros; rewrite ?C1, ?C2; apply nth_error_snoc_old; auto.
Qed.

Lemma uses_kernel_step own o op m k : inv own o -> (m < List.length (o_models o))%nat ->
  uses_kernel (astep o op) m k <-> uses_kernel o m k.
Proof.
  intros I Hm. destruct (nth_error_ex _ _ Hm) as [mm E]. destruct (step_parts own o op I) as [A _].
  destruct (A _ _ E) as (m' & E' & H1 & H2 & H3). split; intros [x [F G]].
  - exists mm. split; auto. congruence.
  - exists m'. split; auto. congruence.
Qed.
Lemma uses_scale_step own o op m k : inv own o -> (m < List.length (o_models o))%nat ->
  uses_scale (astep o op) m k <-> uses_scale o m k.
Proof.
  intros I Hm. destruct (nth_error_ex _ _ Hm) as [mm E]. destruct (step_parts own o op I) as [A _].
  destruct (A _ _ E) as (m' & E' & H1 & H2 & H3). split; intros [x [F G]].
  - exists mm. split; auto. congruence.
  - exists m'. split; auto. congruence.
Qed.
Lemma uses_deformation_step own o op m d : inv own o -> (m < List.length (o_models o))%nat ->
  uses_deformation (astep o op) m d <-> uses_deformation o m d.
Proof.
  intros I Hm. destruct (nth_error_ex _ _ Hm) as [mm E]. destruct (step_parts own o op I) as [A B].
  destruct (A _ _ E) as (m' & E' & H1 & H2 & H3).
  destruct (nth_error_ex _ _ (proj1 (proj1 (i_models _ _ I _ _ E)))) as [kk Ek].
  destruct (B _ _ Ek) as (k' & Ek' & G1 & G2). split; intros (x & y & F & G & H).
  - exists mm, kk. repeat split; auto. rewrite E' in F. injection F as <-. rewrite H1, Ek' in G. congruence.
  - exists m', k'. rewrite H1. repeat split; auto. rewrite E in F. injection F as <-. rewrite Ek in G. congruence.
Qed.
Lemma separately_step own o op m1 m2 : inv own o -> (m1 < List.length (o_models o))%nat -> (m2 < List.length (o_models o))%nat ->
  separately_built o m1 m2 -> separately_built (astep o op) m1 m2.
Proof.
  intros I L1 L2 (A & B & C). split; [|split].
  - intros k H1 H2. apply (proj1 (uses_kernel_step own o op m1 k I L1)) in H1. apply (proj1 (uses_kernel_step own o op m2 k I L2)) in H2. eapply A; eauto.
  - intros k H1 H2. apply (proj1 (uses_deformation_step own o op m1 k I L1)) in H1. apply (proj1 (uses_deformation_step own o op m2 k I L2)) in H2. eapply B; eauto.
  - intros k H1 H2. apply (proj1 (uses_scale_step own o op m1 k I L1)) in H1. apply (proj1 (uses_scale_step own o op m2 k I L2)) in H2. eapply C; eauto.
Qed.

Lemma update_not_addressed o op m1 m2 : separately_built o m1 m2 -> update_of o op m1 -> (exists own, inv own o) -> ~ addresses o op m2.
Proof.
  intros (A & B & C) U [own I] H. destruct op; cbn in U, H; try contradiction.
  - destruct H as [H|[kk [E H]]]; [eapply A; eauto|]. destruct U as [mm [E' <-]].
    eapply B; [|exact H]. exists mm, kk. auto.
  - subst m. destruct H as [[k [H1 H2]]|[s [H1 H2]]]; [eapply A|eapply C]; eauto.
Qed.

Lemma step_models_len own o op m : inv own o -> (m < List.length (o_models o))%nat -> (m < List.length (o_models (astep o op)))%nat.
Proof.
  intros I L. destruct (nth_error_ex _ _ L) as [mm E]. destruct (step_parts own o op I) as [A _].
  destruct (A _ _ E) as (m' & E' & _). eapply nth_error_lt; eauto.
Qed.

Lemma history_frame ops : forall o m, reachable o -> (m < List.length (o_models o))%nat ->
  (forall done op rest, ops = done ++ op :: rest -> ~ addresses (arun done o) op m) ->
  model_obs (arun ops o) m = model_obs o m.
Proof.
  induction ops as [|op ops IH]; intros o m R L H; [reflexivity|].
  destruct (reachable_inv _ R) as [own I]. destruct (nth_error_ex _ _ L) as [mm E].
  change (arun (op :: ops) o) with (arun ops (astep o op)). rewrite IH.
  - apply (step_frame own o op m mm I E). apply (H [] op ops). reflexivity.
  - apply reachable_step; auto.
  - eapply step_models_len; eauto.
  - intros done op' rest ->. apply (H (op :: done) op' rest). reflexivity.
Qed.

Lemma separate_history ops : forall o m1 m2, reachable o -> (m1 < List.length (o_models o))%nat -> (m2 < List.length (o_models o))%nat ->
  separately_built o m1 m2 ->
  (forall done op rest, ops = done ++ op :: rest -> update_of (arun done o) op m1) ->
  model_obs (arun ops o) m2 = model_obs o m2.
Proof.
  induction ops as [|op ops IH]; intros o m1 m2 R L1 L2 S H; [reflexivity|].
  destruct (reachable_inv _ R) as [own I]. destruct (nth_error_ex _ _ L2) as [mm E].
  change (arun (op :: ops) o) with (arun ops (astep o op)). rewrite (IH (astep o op) m1 m2).
  - apply (step_frame own o op m2 mm I E). apply (update_not_addressed o op m1 m2 S); eauto. apply (H [] op ops). reflexivity.
  - apply reachable_step; auto.
  - eapply step_models_len; eauto.
  - eapply step_models_len; eauto.
  - eapply separately_step; eauto.
  - intros done op' rest ->. apply (H (op :: done) op' rest). reflexivity.
Qed.

(** ** The bound function reads the reported hyperparameters. *)
Definition bound_ok (o : objs) : Prop := forall i k, nth_error (o_kernels o) i = Some k -> k_bound k = map nm_loc (kobj_params o k).

Lemma make_kernel_bound_eq o k : k_bound (make_kernel o k) = map nm_loc (kobj_params o (make_kernel o k)).
Proof.
  unfold kobj_params. destruct (make_kernel_def o k) as [-> ->]. unfold make_kernel.
  destruct (k_smooth k); cbn [k_bound]; [rewrite map_app; reflexivity|rewrite app_nil_r; reflexivity].
Qed.
Lemma kobj_params_defs o o' k : (k_def k < List.length (o_defs o))%nat ->
  (forall i x, nth_error (o_defs o) i = Some x -> nth_error (o_defs o') i = Some x) -> kobj_params o' k = kobj_params o k.
Proof.
  intros L H. unfold kobj_params. destruct (nth_error_ex _ _ L) as [x E].
  rewrite (nth_nth_error _ _ _ E), (nth_nth_error _ _ _ (H _ _ E)). reflexivity.
Qed.
Lemma bound_ext own o o' : inv own o -> bound_ok o -> o_kernels o' = o_kernels o ->
  (forall i x, nth_error (o_defs o) i = Some x -> nth_error (o_defs o') i = Some x) -> bound_ok o'.
Proof.
  intros I B E H i k F. rewrite E in F. rewrite (B _ _ F). f_equal. symmetry. apply kobj_params_defs; auto. eapply (i_kdef _ _ I); eauto.
Qed.
Lemma bound_make o i mm : nth_error (o_models o) i = Some mm -> (mo_scale mm < List.length (o_scales o))%nat ->
  (forall j k, nth_error (o_kernels o) j = Some k -> j <> mo_kernel mm -> k_bound k = map nm_loc (kobj_params o k)) ->
  bound_ok (make_model o i).
Proof.
  intros E L H. unfold make_model. rewrite E. destruct (nth_error_ex _ _ L) as [sc Es]. rewrite Es.
  destruct (nth_error (o_kernels o) (mo_kernel mm)) as [k|] eqn:F.
  - intros j kk G. cbn in G. rewrite set_nth_get in G. destruct (nth_error (o_kernels o) j) as [y|] eqn:Y; [|discriminate].
    injection G as <-. destruct (Nat.eqb j (mo_kernel mm)) eqn:Z.
    + apply (make_kernel_bound_eq o k).
    + apply (H j y Y). intros ->. rewrite Nat.eqb_refl in Z. discriminate.
  - intros j kk G. apply (H j kk G). intros ->. congruence.
Qed.
Lemma step_bound own o op : inv own o -> bound_ok o -> bound_ok (astep o op).
Proof.
  intros I B. destruct op; cbn [astep].
  - destruct (param_init e v b); auto.
  - auto.
  - destruct (Nat.ltb src (st_next (o_params o))); auto. eapply bound_ext; eauto. cbn. intros. apply nth_error_snoc_old; auto.
  - destruct (forallb _ srcs); auto. unfold vec_init. destruct (vec_init_from (o_params o) "length_scale" 0 srcs).
    eapply bound_ext; eauto. cbn. intros. apply nth_error_snoc_old; auto.
  - match goal with |- context [Nat.ltb ?a ?b] => destruct (Nat.ltb a b) end; auto.
    intros i k H. apply nth_error_snoc in H as [H|[-> ->]]; [apply (B _ _ H)|apply (make_kernel_bound_eq o)].
  - match goal with |- context [if ?b then _ else _] => destruct b end; auto.
    unfold named_init. set (o1 := with_params o _).
    intros i k H. apply nth_error_snoc in H as [H|[-> ->]]; [apply (B _ _ H)|apply (make_kernel_bound_eq o1)].
  - destruct (homoscedastic_init e v b); auto.
  - destruct (Nat.ltb a (List.length (o_arrays o))); auto.
  - auto.
  - auto.
  - match goal with |- context [if ?b then _ else _] => destruct b eqn:L end; auto.
    apply andb_prop in L as [L L3]. apply Nat.ltb_lt in L3.
    eapply bound_make; [apply nth_error_snoc_new| |]; cbn [o_scales o_models o_kernels]; [exact L3|intros j kk H _; apply (B _ _ H)].
  - destruct (nth_error (o_kernels o) k); auto.
  - destruct (nth_error (o_models o) m) as [m'|] eqn:Em; auto. destruct (nth_error (o_scales o) (mo_scale m')) as [sc|] eqn:F; auto.
    eapply bound_make; [exact Em| |].
    + cbn. rewrite set_nth_length. eapply nth_error_lt; eauto.
    + cbn. intros j k H _. apply (B _ _ H).
  - destruct (Nat.ltb a (List.length (o_arrays o))); auto.
  - destruct (nth_error (o_models o) m) as [m'|] eqn:Em; auto. destruct (deepcopy_model o m') as [o1|] eqn:D; auto.
    destruct (nth_error (o_kernels o1) (List.length (o_kernels o))) as [k'|] eqn:Ek; auto.
    destruct (nth_error (o_noises o1) (List.length (o_noises o))) as [z'|] eqn:Ez; auto.
    destruct (put_optimized e (o_params o1) (kobj_dict o1 k') z' vals) as [s|] eqn:Eo; auto.
    destruct (deepcopy_ok _ _ _ _ _ I Em D) as (own' & m1 & k1 & G & P & M1 & M2 & M3 & C1 & C2 & C3 & [ls C4] & _ & [sc C6] & _).
    eapply bound_make.
    + cbn. rewrite C1. apply nth_error_snoc_new.
    + cbn. rewrite C6, app_length, M3. cbn. lia.
    + cbn. rewrite C2, M1. intros j k H N. apply nth_error_snoc in H as [H|[-> ->]]; [|congruence].
      rewrite (B _ _ H). f_equal. symmetry. apply (kobj_params_defs o); [eapply (i_kdef _ _ I); eauto|].
      cbn. rewrite C4. intros. apply nth_error_snoc_old; auto.
Qed.
Lemma reachable_bound o : reachable o -> bound_ok o.
Proof.
  intros [ops ->].
  assert (H : forall ops own o, inv own o -> bound_ok o -> bound_ok (arun ops o)).
  { clear. induction ops as [|op ops IH]; intros own o I B; auto.
    destruct (step_inv own o op I) as [own' [I' _]]. apply (IH own' (astep o op) I'). eapply step_bound; eauto. }
  eapply H; [apply import_inv|]. intros [|i] k E; discriminate.
Qed.

(** ** The optimized model *)
Lemma optimized_fresh o m e vals : reachable o ->
  let o' := astep o (NOptimized m e vals) in
  List.length (o_models o') <> List.length (o_models o) ->
  let new := List.length (o_models o) in
  List.length (o_models o') = S new /\
  forall m', (m' < new)%nat -> separately_built o' new m' /\ (forall z, uses_noise o' new z -> ~ uses_noise o' m' z) /\
    (forall z a, uses_noise o' new z -> nth_error (o_noises o') z = Some (ZHetero a) ->
       (List.length (o_arrays o) <= a)%nat /\ forall z', uses_noise o' m' z' -> nth_error (o_noises o') z' <> Some (ZHetero a)).
Proof.
  intros R. cbn zeta. cbn [astep]. destruct (reachable_inv _ R) as [own I].
  destruct (nth_error (o_models o) m) as [m0|] eqn:Em; [|congruence]. destruct (deepcopy_model o m0) as [o1|] eqn:D; [|congruence].
  destruct (nth_error (o_kernels o1) (List.length (o_kernels o))) as [k'|] eqn:Ek; [|congruence].
  destruct (nth_error (o_noises o1) (List.length (o_noises o))) as [z'|] eqn:Ez; [|congruence].
  destruct (put_optimized e (o_params o1) (kobj_dict o1 k') z' vals) as [s|] eqn:Eo; [|congruence].
  intros _.
  destruct (deepcopy_ok _ _ _ _ _ I Em D) as (own' & m1 & k1 & G & P & M1 & M2 & M3 & C1 & C2 & C3 & [ls C4] & [z C5] & [sc C6] & [x C7] & C8 & C9 & C10 & C11).
  set (o2 := with_params o1 s). set (n := List.length (o_models o)).
  destruct (make_model_rest o2 n) as (R1 & R2 & R3 & R4 & R5).
  destruct (same_parts_make o2 n) as [S1 S2].
  assert (Hn : nth_error (o_models o2) n = Some m1) by (unfold o2, n; cbn; rewrite C1; apply nth_error_snoc_new).
  destruct (S1 _ _ Hn) as (mn & En & N1 & N2 & N3).
  split.
  { unfold make_model. rewrite Hn. unfold o2. cbn [o_kernels o_scales with_params].
    rewrite C2, M1, nth_error_snoc_new, C6, M3, nth_error_snoc_new. cbn [o_models with_params].
    rewrite set_nth_length, C1, app_length. cbn. fold n. lia. }
  intros m' Hm'. destruct (nth_error_ex _ _ Hm') as [mm E].
  assert (E2 : nth_error (o_models o2) m' = Some mm) by (unfold o2; cbn; rewrite C1; apply nth_error_snoc_old; auto).
  destruct (S1 _ _ E2) as (me & Ee & F1 & F2 & F3).
  destruct (i_models _ _ I _ _ E) as [[L1 [L2 L3]] _].
  destruct (nth_error_ex _ _ L1) as [kk Ekk].
  assert (Ekk2 : nth_error (o_kernels o2) (mo_kernel mm) = Some kk) by (unfold o2; cbn; rewrite C2; apply nth_error_snoc_old; auto).
  assert (Ek1 : nth_error (o_kernels o2) (mo_kernel m1) = Some k1) by (unfold o2; cbn; rewrite C2, M1; apply nth_error_snoc_new).
  destruct (S2 _ _ Ekk2) as (ke & Eke & G1 & G2). destruct (S2 _ _ Ek1) as (kn & Ekn & G3 & G4).
  pose proof (i_kdef _ _ I _ _ Ekk) as Ld.
  assert (UN : forall z, uses_noise (make_model o2 n) n z -> z = List.length (o_noises o)).
  { intros w [y [Y1 <-]]. rewrite En in Y1. injection Y1 as <-. rewrite N2. exact M2. }
  assert (UM : forall z, uses_noise (make_model o2 n) m' z -> z = mo_noise mm).
  { intros w [y [Y1 <-]]. rewrite Ee in Y1. injection Y1 as <-. exact F2. }
  split; [split; [|split]|split].
  - intros k [y [Y1 Y2]] [w [W1 W2]]. rewrite En in Y1. injection Y1 as <-. rewrite Ee in W1. injection W1 as <-. lia.
  - intros d (y & v & Y1 & Y2 & Y3) (w & u & W1 & W2 & W3). rewrite En in Y1. injection Y1 as <-. rewrite Ee in W1. injection W1 as <-.
    rewrite N1, Ekn in Y2. injection Y2 as <-. rewrite F1, Eke in W2. injection W2 as <-. lia.
  - intros k [y [Y1 Y2]] [w [W1 W2]]. rewrite En in Y1. injection Y1 as <-. rewrite Ee in W1. injection W1 as <-. lia.
  - intros w A B. apply UN in A. apply UM in B. lia.
  - intros w a A Ha. apply UN in A. subst w. rewrite R4 in Ha. rewrite <- M2 in Ha.
    pose proof (C11 _ Ha) as La. split; auto. intros w' Hw Hw'. apply UM in Hw. subst w'.
    rewrite R4 in Hw'. unfold o2 in Hw'. cbn in Hw'. rewrite C5, nth_error_app1 in Hw' by auto.
    pose proof (i_hetero _ _ I _ _ Hw'). lia.
Qed.
