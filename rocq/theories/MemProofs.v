(** Proofs about memory effects: the in-place programs refine the pure models and write only memory they
    allocated themselves. *)
From Coq Require Import Lia Lra.
From Verif Require Import Base NdModel NdFacts RSum HyperModel NamedModel TensorModel KernelModel NoiseModel
  CongProofs MemModel MemSpec.
Local Open Scope R_scope.

Lemma untouched_refl h : untouched h h.
Proof. split; auto. Qed.
Lemma untouched_trans h1 h2 h3 : untouched h1 h2 -> untouched h2 h3 -> untouched h1 h3.
Proof.
  intros [N1 H1] [N2 H2]. split; [lia|]. intros a p Ha. rewrite H2 by lia. auto.
Qed.
Lemma read_untouched h h' t : untouched h h' -> lives h t -> nd_eq (read h' t) (read h t).
Proof. intros [N H] L. split; cbn; auto. Qed.
Lemma lives_mono h h' t : untouched h h' -> lives h t -> lives h' t.
Proof. intros [N _] L. unfold lives in *. lia. Qed.

(** A contiguous array. *)
Definition contig (t : tref) : Prop := t_pos t = ravel (t_shape t).

Lemma alloc_spec x h : exists h' t, alloc x h = (h', Ok t) /\ untouched h h' /\ t_addr t = h_next h /\ lives h' t /\
  contig t /\ nd_eq (read h' t) x.
Proof.
  eexists _, _. split; [reflexivity|]. split; [|split; [|split; [|split]]]; try reflexivity.
  - split; cbn; [lia|]. intros a p Ha. destruct (Nat.eqb_spec a (h_next h)); [lia|auto].
  - unfold lives. cbn. lia.
  - split; [reflexivity|]. intros idx Hi. cbn in *. rewrite Nat.eqb_refl. rewrite unravel_ravel; auto.
Qed.

Lemma new_spec f h : match new f h with
  | (h', Ok t) => exists x, f h = Ok x /\ untouched h h' /\ t_addr t = h_next h /\ lives h' t /\ contig t /\ nd_eq (read h' t) x
  | (h', Err e) => f h = Err e /\ h' = h end.
Proof.
  unfold new. destruct (f h) as [x|e]; auto.
  destruct (alloc_spec x h) as (h' & t & E & H). rewrite E. exists x. tauto.
Qed.

(** ** Stores *)
Lemma poke_at h a p v a' p' : h_buf (poke h a p v) a' p' = if Nat.eqb a' a && Nat.eqb p' p then v else h_buf h a' p'.
Proof.
  cbn. destruct (Nat.eqb_spec a' a); cbn; auto. subst. destruct (Nat.eqb p' p); auto.
Qed.

Section Store.
Variables (t : tref) (mask : list nat -> bool) (x : list nat -> R).
Let stepf := fun (h' : heap) (k : nat) => let idx := unravel (t_shape t) k in
  if mask idx then poke h' (t_addr t) (t_pos t idx) (x idx) else h'.

Lemma store_next ks h : h_next (fold_left stepf ks h) = h_next h.
Proof. revert h. induction ks as [|k ks IH]; intros h; cbn; auto. rewrite IH. unfold stepf. cbn. destruct (mask _); auto. Qed.
Lemma store_other ks h a p : a <> t_addr t -> h_buf (fold_left stepf ks h) a p = h_buf h a p.
Proof.
  intros N. revert h. induction ks as [|k ks IH]; intros h; cbn; auto. rewrite IH.
  unfold stepf. cbn. destruct (mask _); auto. rewrite poke_at. destruct (Nat.eqb_spec a (t_addr t)); [contradiction|auto].
Qed.
Hypothesis C : contig t.
Lemma store_contig ks h : NoDup ks -> (forall k, In k ks -> (k < nprod (t_shape t))%nat) ->
  forall p, (p < nprod (t_shape t))%nat ->
  h_buf (fold_left stepf ks h) (t_addr t) p =
  if in_dec Nat.eq_dec p ks then (if mask (unravel (t_shape t) p) then x (unravel (t_shape t) p) else h_buf h (t_addr t) p)
  else h_buf h (t_addr t) p.
Proof.
  revert h. induction ks as [|k ks IH]; intros h ND Hk p Hp; [reflexivity|]. inversion ND; subst.
  cbn [fold_left]. rewrite IH; auto; [|intros; apply Hk; right; auto].
  assert (P : h_buf (stepf h k) (t_addr t) p = if Nat.eq_dec p k then (if mask (unravel (t_shape t) p) then x (unravel (t_shape t) p) else h_buf h (t_addr t) p) else h_buf h (t_addr t) p).
  { unfold stepf. cbn zeta. destruct (mask (unravel (t_shape t) k)) eqn:Em.
    - rewrite poke_at, Nat.eqb_refl, C, ravel_unravel by (apply Hk; left; auto). cbn [andb].
      destruct (Nat.eqb_spec p k); destruct (Nat.eq_dec p k); try congruence. subst. rewrite Em. auto.
    - destruct (Nat.eq_dec p k); auto. subst. rewrite Em. auto. }
  rewrite P. destruct (in_dec Nat.eq_dec p (k :: ks)) as [I|I]; destruct (in_dec Nat.eq_dec p ks) as [J|J];
    destruct (Nat.eq_dec p k) as [E|E]; cbn in I; try tauto; try (subst; tauto).
  subst. destruct I; auto; try congruence.
Qed.

Lemma store_where_spec h : lives h t ->
  exists h', store_where t mask x h = (h', Ok tt) /\ h_next h' = h_next h /\
    (forall a p, a <> t_addr t -> h_buf h' a p = h_buf h a p) /\
    nd_eq (read h' t) (mkNd (t_shape t) (fun idx => if mask idx then x idx else at_ (read h t) idx)).
Proof.
  intros L. eexists. split; [reflexivity|]. fold stepf. split; [apply store_next|]. split; [intros; apply store_other; auto|].
  split; cbn; auto. intros idx Hi. rewrite C.
  pose proof (ravel_lt _ _ Hi) as Hr.
  rewrite store_contig; auto.
  - rewrite unravel_ravel by auto. destruct (in_dec _ _ _) as [_|N]; auto.
    exfalso. apply N. apply in_seq. lia.
  - apply seq_NoDup.
  - intros k Hk. apply in_seq in Hk. lia.
Qed.
End Store.

Section Bessel.
Variable gamma : R -> R.
Variable kv : R -> R -> R.

Lemma matern_gen_spec t nu h : lives h t -> contig t ->
  exists h', mem_matern_gen gamma kv t nu h = (h', Ok t) /\ (h_next h <= h_next h')%nat /\
    (forall a p, (a < h_next h)%nat -> a <> t_addr t -> h_buf h' a p = h_buf h a p) /\
    nd_eq (read h' t) (ndmap (gen_entry gamma kv nu) (read h t)).
Proof.
  intros L C. unfold mem_matern_gen, mbind. cbn [fst snd].
  (* K[K == 0] += eps *)
  destruct (store_where_spec t (fun idx => Reqb (at_ (read h t) idx) 0) (fun idx => at_ (read h t) idx + eps64) C h L)
    as (h1 & E1 & N1 & O1 & R1). rewrite E1. clear E1.
  (* tmp *)
  set (f := fun h0 : heap => Ok (ndmap (Rmult (sqrt (2 * nu))) (read h0 t))).
  pose proof (new_spec f h1) as S2. destruct (new f h1) as [h2 [tmp|e]]; [|destruct S2; discriminate].
  destruct S2 as (x2 & Ex & U2 & A2 & L2 & C2 & R2). injection Ex as <-.
  assert (L1 : lives h1 t) by (unfold lives in *; lia).
  assert (D : t_addr tmp <> t_addr t) by (unfold lives in L1; lia).
  assert (L2' : lives h2 t) by (eapply lives_mono; eauto).
  (* fill *)
  destruct (store_where_spec t (fun _ => true) (fun _ => Rpower 2 (1 - nu) / gamma nu) C h2 L2')
    as (h3 & E3 & N3 & O3 & R3). rewrite E3. clear E3.
  assert (L3 : lives h3 t) by (unfold lives in *; lia).
  (* K *= tmp ** nu *)
  destruct (store_where_spec t (fun _ => true) (fun idx => at_ (read h3 t) idx * Rpower (at_ (read h3 tmp) idx) nu) C h3 L3)
    as (h4 & E4 & N4 & O4 & R4). rewrite E4. clear E4.
  assert (L4 : lives h4 t) by (unfold lives in *; lia).
  (* K *= kv *)
  destruct (store_where_spec t (fun _ => true) (fun idx => at_ (read h4 t) idx * kv nu (at_ (read h4 tmp) idx)) C h4 L4)
    as (h5 & E5 & N5 & O5 & R5). rewrite E5. clear E5.
  exists h5. split; [reflexivity|]. split; [destruct U2; lia|]. split.
  - intros a p Ha Na. rewrite O5, O4, O3 by auto. destruct U2 as [_ U2]. rewrite U2 by lia. apply O1. auto.
  - split; [reflexivity|]. intros idx Hi. cbn [shape read] in Hi.
    destruct R5 as [_ R5]. rewrite R5 by auto. cbn [at_]. destruct R4 as [_ R4]. rewrite R4 by auto. cbn [at_].
    destruct R3 as [_ R3]. rewrite R3 by auto. cbn [at_].
    assert (T34 : forall i, at_ (read h4 tmp) i = at_ (read h3 tmp) i) by (intros; cbn; apply O4; auto).
    assert (T23 : forall i, at_ (read h3 tmp) i = at_ (read h2 tmp) i) by (intros; cbn; apply O3; auto).
    rewrite T34, T23. destruct R2 as [S2 R2]. rewrite R2 by (cbn in S2; cbn; rewrite S2; auto).
    cbn [ndmap at_ shape]. destruct R1 as [_ R1]. rewrite R1 by auto. cbn [at_]. unfold gen_entry. cbn zeta. reflexivity.
Qed.

Definition good (h : heap) (m : heap * result tref) (v : result (nd R)) : Prop :=
  untouched h (fst m) /\ same_outcome (contents (fst m) (snd m)) v /\ fresh_result h (snd m) /\
  match snd m with Ok t => lives (fst m) t /\ contig t | Err _ => True end.

Lemma good_new f h v : same_outcome (f h) v -> good h (new f h) v.
Proof.
  intros S. pose proof (new_spec f h) as H. destruct (new f h) as [h' [t|e]]; cbn in *.
  - destruct H as (x & Ex & U & A & L & C & Rd). rewrite Ex in S. unfold good, contents, fresh_result. cbn.
    repeat split; auto; try apply U; try lia.
    + destruct v as [y|]; [|destruct S]. eapply nd_eq_trans; eauto.
  - destruct H as [E ->]. rewrite E in S. unfold good, contents. cbn. repeat split; auto.
Qed.
Lemma good_fail h e : good h (mfail e h) (Err e).
Proof. unfold good, contents. cbn. repeat split; auto. Qed.

Lemma good_bind h (m : M tref) k v (kv' : nd R -> result (nd R)) :
  good h (m h) v ->
  (forall h1 t x, untouched h h1 -> lives h1 t -> contig t -> (h_next h <= t_addr t)%nat -> v = Ok x -> nd_eq (read h1 t) x ->
     (forall h2 r, k t h1 = (h2, r) -> good h (h2, r) (kv' x))) ->
  good h (mbind m k h) (bind v kv').
Proof.
  unfold mbind. intros (U & S & F & L) H. destruct (m h) as [h1 [t|e]]; cbn in *.
  - destruct v as [x|]; [|destruct S]. cbn [bind]. specialize (H h1 t x U (proj1 L) (proj2 L) F eq_refl S).
    destruct (k t h1) as [h2 r]. apply H. auto.
  - destruct v as [x|e']; [destruct S|]. subst. unfold good, contents. cbn. auto.
Qed.
Lemma good_mono h h1 m v : untouched h h1 -> good h1 m v -> good h m v.
Proof.
  intros U (U1 & S & F & L). split; [eapply untouched_trans; eauto|]. split; auto. split; auto.
  unfold fresh_result in *. destruct (snd m); auto. destruct U. lia.
Qed.

Lemma metric_cong m x y : nd_eq x y -> same_outcome (metric_call m x) (metric_call m y).
Proof.
  intros [S A].
  assert (F : same_outcome (F2_fn x) (F2_fn y)).
  { unfold F2_fn. rewrite <- S. destruct (rev (shape x)) as [|f r] eqn:E; cbn; auto.
    split; cbn; auto. intros idx Hi. apply rsum_ext. intros k Hk. rewrite A; auto.
    assert (Ex : shape x = rev r ++ [f]) by (rewrite <- (rev_involutive (shape x)), E; reflexivity).
    rewrite Ex. apply inb_app; auto. constructor; auto. }
  destruct m; cbn; auto. unfold l2_fn. apply so_bind; auto. intros t t' Ht. cbn. apply ndmap_cong. auto.
Qed.

Lemma bidx_rev_self s idx : inb s idx -> inb s (bidx_rev s idx).
Proof. intros H. rewrite bidx_rev_id; auto. Qed.
Lemma bidx_rev_inb s1 s2 sh idx : brev s1 s2 = Some sh -> inb sh idx -> inb s1 (bidx_rev s1 idx).
Proof.
  revert s2 sh idx. induction s1 as [|a s1 IH]; intros [|b s2] sh idx; cbn [brev].
  - intros _ _. destruct idx; constructor.
  - intros _ _. destruct idx; constructor.
  - intros E H. injection E as <-. rewrite bidx_rev_id; auto.
  - destruct (brev s1 s2) as [s|] eqn:B; [|discriminate]. intros E H.
    assert (Q : exists c, sh = c :: s /\ (c = a \/ a = 1%nat)).
    { destruct (Nat.eqb_spec a b); [injection E as <-; eauto|]. destruct (Nat.eqb_spec a 1); [injection E as <-; eauto|].
      destruct (Nat.eqb_spec b 1); [injection E as <-; eauto|discriminate]. }
    destruct Q as (c & -> & Hc). apply inb_inv_cons in H. destruct H as (i & idx' & -> & Hi & Hidx).
    cbn. constructor; [|eapply IH; eauto]. destruct (Nat.eqb_spec a 1); [lia|]. destruct Hc; lia.
Qed.
Lemma bidx_inb s1 s2 sh idx : bshape s1 s2 = Some sh -> inb sh idx -> inb s1 (bidx s1 idx).
Proof.
  unfold bshape, bidx. destruct (brev _ _) as [s|] eqn:B; [|discriminate]. cbn. intros E H. injection E as <-.
  apply inb_rev in H. rewrite rev_involutive in H. pose proof (bidx_rev_inb _ _ _ _ B H) as Q. apply inb_rev in Q.
  rewrite rev_involutive in Q. auto.
Qed.
Lemma bop_cong {A B C} (f : A -> B -> C) x x' y : nd_eq x x' -> same_outcome (bop f x y) (bop f x' y).
Proof.
  intros [S H]. unfold bop. rewrite <- S. destruct (bshape (shape x) (shape y)) as [sh|] eqn:E; cbn; auto.
  split; cbn; auto. intros idx Hi. f_equal. apply H. eapply bidx_inb; eauto.
Qed.

(** ** Deformations *)
Lemma mem_deform_good d cur x kw h X : lives h x -> nd_eq (read h x) X -> good h (mem_deform d cur x kw h) (deform_call d cur X kw).
Proof.
  intros L HX. pose proof (proj1 HX) as SX. cbn in SX.
  destruct d as [m n|m n|m v]; cbn [mem_deform deform_call].
  - apply good_new. cbn. apply ndmap_cong; auto.
  - unfold diff_isotropy_call. 
    set (l := match dget kw "length_scale" with Some v => v | None => cur (nm_loc n) end).
    change (metric_call m (ndmap (fun y => y / l) X)) with (bind (Ok (ndmap (fun y => y / l) X)) (metric_call m)).
    apply good_bind.
    + apply good_new. cbn. apply ndmap_cong; auto.
    + intros h1 t y U L1 C1 A1 Ey Ry h2 r Er. eapply good_mono; [exact U|]. rewrite <- Er. apply good_new. apply metric_cong. auto.
  - unfold anisotropy_call. rewrite <- SX. destruct (rev (t_shape x)) as [|f r]; [apply good_fail|].
    destruct (negb _); [apply good_fail|]. apply good_bind.
    + apply good_new. apply bop_cong. auto.
    + intros h1 t y U L1 C1 A1 Ey Ry h2 r' Er. eapply good_mono; [exact U|]. rewrite <- Er. apply good_new. apply metric_cong. auto.
Qed.

(** ** Kernels *)
Lemma good_gen t nu h0 h X : untouched h0 h -> lives h t -> contig t -> (h_next h0 <= t_addr t)%nat -> nd_eq (read h t) X ->
  good h0 (mem_matern_gen gamma kv t nu h) (Ok (ndmap (gen_entry gamma kv nu) X)).
Proof.
  intros U L C A HX. destruct (matern_gen_spec t nu h L C) as (h' & E & N & O & Rd). rewrite E.
  unfold good, contents, fresh_result. cbn. destruct U as [UN U].
  split; [split; [lia|]|split; [|split; [lia|split; [unfold lives in *; lia|auto]]]].
  - intros a p Ha. rewrite O by lia. apply U. auto.
  - eapply nd_eq_trans; [exact Rd|]. apply ndmap_cong. auto.
Qed.
Lemma good_matern_backend c t kw h0 h X : untouched h0 h -> lives h t -> contig t -> (h_next h0 <= t_addr t)%nat -> nd_eq (read h t) X ->
  good h0 (mem_matern_backend gamma kv c t kw h) (matern_backend gamma kv c X kw).
Proof.
  intros U L C A HX. destruct c; cbn [mem_matern_backend matern_backend];
    try (eapply good_mono; [exact U|]; apply good_new; cbn; apply ndmap_cong; auto).
  destruct (dget kw "smoothness") as [nu|]; [apply good_gen; auto|]. eapply good_mono; [exact U|]. apply good_fail.
Qed.
Lemma mem_embed_good d fn pfn cur x kw h :
  (forall h1 t X rest, untouched h h1 -> lives h1 t -> contig t -> (h_next h <= t_addr t)%nat -> nd_eq (read h1 t) X ->
     good h (fn t rest h1) (pfn X rest)) ->
  lives h x -> good h (mem_embed d fn cur x kw h) (embed d pfn cur (read h x) kw).
Proof.
  intros Hf L. unfold mem_embed, embed.
  destruct d as [m n|m n|m v]; unfold named_embed, vec_embed;
    [destruct (named_filter n cur kw) as [params rest]|destruct (named_filter n cur kw) as [params rest]|destruct (vec_filter v cur kw) as [params rest]];
    (apply good_bind; [apply mem_deform_good; [auto|apply nd_eq_refl]|
     intros h1 t y U L1 C1 A1 Ey Ry h2 r Er; rewrite <- Er; apply Hf; auto]).
Qed.
Lemma mem_kernel_good k cur x kw h : lives h x ->
  good h (mem_kernel_call gamma kv k cur x kw h) (kernel_value gamma kv k cur (read h x) kw).
Proof.
  intros L. destruct k as [d|d sm c]; cbn [mem_kernel_call kernel_value]; unfold rbf_call, matern_call; apply mem_embed_good; auto.
  - intros h1 t X rest U L1 C1 A1 HX. eapply good_mono; [exact U|]. unfold mem_rbf_backend. apply good_new. cbn. apply ndmap_cong. auto.
  - intros h1 t X rest U L1 C1 A1 HX. unfold named_apply_fn. apply good_matern_backend; auto.
Qed.

(** Kernel values depend on contents only. *)
Lemma kernel_value_cong k cur x y kw : nd_eq x y -> same_outcome (kernel_value gamma kv k cur x kw) (kernel_value gamma kv k cur y kw).
Proof.
  intros H. 
  assert (D : forall d params, same_outcome (deform_call d cur x params) (deform_call d cur y params)).
  { intros [m n|m n|m v] params; cbn.
    - apply ndmap_cong; auto.
    - apply metric_cong. apply ndmap_cong. auto.
    - unfold anisotropy_call. rewrite <- (proj1 H). destruct (rev (shape x)); [reflexivity|]. destruct (negb _); [reflexivity|].
      apply so_bind; [apply bop_cong; auto|]. intros. apply metric_cong; auto. }
  assert (E : forall d fn, (forall a b rest, nd_eq a b -> same_outcome (fn a rest) (fn b rest)) ->
              same_outcome (embed d fn cur x kw) (embed d fn cur y kw)).
  { intros d fn Hf. unfold embed. destruct d as [m n|m n|m v]; unfold named_embed, vec_embed.
    - destruct (named_filter n cur kw). apply so_bind; auto.
    - destruct (named_filter n cur kw). apply so_bind; auto.
    - destruct (vec_filter v cur kw). apply so_bind; auto. }
  destruct k as [d|d sm c]; cbn; apply E.
  - intros. cbn. apply ndmap_cong. auto.
  - intros a b rest Hab. unfold named_apply_fn, matern_backend. destruct c; try (cbn; apply ndmap_cong; auto).
    destruct (dget _ _); [cbn; apply ndmap_cong; auto|reflexivity].
Qed.
End Bessel.

(** ** Noise *)
(** Perturbation: nothing the caller had is written; the outcome is the pure one.  (The null model returns
    the caller's own array.) *)
Definition good_view (h : heap) (m : heap * result tref) (v : result (nd R)) : Prop :=
  untouched h (fst m) /\ same_outcome (contents (fst m) (snd m)) v /\
  match snd m with Ok t => lives (fst m) t | Err _ => True end.

Lemma good_good_view h m v : good h m v -> good_view h m v.
Proof. intros (U & S & F & L). split; auto. split; auto. destruct (snd m); tauto. Qed.

Definition fgood (h : heap) (m : heap * result tref) (v : result (nd R)) : Prop :=
  good_view h m v /\ fresh_result h (snd m).
Lemma good_fgood h m v : good h m v -> fgood h m v.
Proof. intros G. split; [apply good_good_view; auto|apply G]. Qed.
Lemma fgood_mono h h1 m v : untouched h h1 -> fgood h1 m v -> fgood h m v.
Proof.
  intros U ((U1 & S & L) & F). split; [split; [eapply untouched_trans; eauto|auto]|].
  unfold fresh_result in *. destruct (snd m); auto. destruct U. lia.
Qed.

Lemma reshape_view_good view t sh h X : lives h t -> nd_eq (read h t) X ->
  good_view h (mem_reshape view t sh h) (reshape X sh) /\
  match snd (mem_reshape view t sh h) with Ok t' => t_addr t' = t_addr t \/ (h_next h <= t_addr t')%nat | Err _ => True end.
Proof.
  intros L HX. unfold mem_reshape.
  assert (E : nprod (t_shape t) = nprod (shape X)) by (destruct HX as [S _]; cbn in S; congruence).
  destruct (Nat.eqb_spec (nprod sh) (nprod (t_shape t))) as [E1|N1]; cbn [negb].
  - destruct view.
    + split; [|cbn; auto]. unfold good_view, contents. cbn. split; [apply untouched_refl|]. split; [|exact L].
      unfold reshape. rewrite <- E. destruct (Nat.eqb_spec (nprod sh) (nprod (t_shape t))); [|contradiction].
      split; cbn; auto. intros idx Hi. destruct HX as [SX HX]. cbn in SX. rewrite <- SX.
      apply (HX (unravel (t_shape t) (ravel sh idx))). cbn. apply unravel_inb. rewrite <- E1. apply ravel_lt. auto.
    + assert (G : good h (new (fun h0 => reshape (read h0 t) sh) h) (reshape X sh)).
      { apply good_new. apply reshape_cong. auto. }
      split; [apply good_good_view; auto|]. destruct G as (_ & _ & F & _). unfold fresh_result in F. destruct (snd _); auto.
  - cbn. split; auto. unfold good_view, contents. cbn. split; [apply untouched_refl|]. split; auto.
    unfold reshape. rewrite <- E. destruct (Nat.eqb_spec (nprod sh) (nprod (t_shape t))); [contradiction|]. cbn. auto.
Qed.

Lemma eye_bop_cong (x y : nd R) z : nd_eq x y -> same_outcome (bop Rplus x z) (bop Rplus y z).
Proof. apply bop_cong. Qed.

Lemma flat_perturb_good v1 v2 Kin sh1 sh2 nugget h X : lives h Kin -> nd_eq (read h Kin) X ->
  fgood h ((do! flat := mem_reshape v1 Kin sh1 in
            do! flat' := new (fun h => bop Rplus (read h flat) nugget) in
            mem_reshape v2 flat' sh2) h)
         (let! flat := reshape X sh1 in let! flat' := bop Rplus flat nugget in reshape flat' sh2).
Proof.
  intros L HX. unfold mbind.
  destruct (reshape_view_good v1 Kin sh1 h X L HX) as [(U1 & S1 & L1) A1].
  destruct (mem_reshape v1 Kin sh1 h) as [h1 [f|e]]; cbn in *; unfold contents in S1; cbn in S1.
  2:{ destruct (reshape X sh1); [destruct S1|]. subst. cbn. split; [split; [auto|split; auto; reflexivity]|exact I]. }
  destruct (reshape X sh1) as [F|]; [|destruct S1]. cbn [bind].
  assert (G : good h1 (new (fun h => bop Rplus (read h f) nugget) h1) (bop Rplus F nugget)) by (apply good_new, bop_cong; auto).
  destruct G as (U2 & S2 & F2 & L2). destruct (new _ h1) as [h2 [g|e]]; cbn in *; unfold contents in S2; cbn in S2.
  2:{ destruct (bop Rplus F nugget); [destruct S2|]. subst. cbn. split; [split; [eapply untouched_trans; eauto|split; auto; reflexivity]|exact I]. }
  destruct (bop Rplus F nugget) as [W|]; [|destruct S2]. cbn [bind].
  destruct (reshape_view_good v2 g sh2 h2 W (proj1 L2) S2) as [(U3 & S3 & L3) A3].
  split; [split; [|split; auto]|].
  - eapply untouched_trans; [exact U1|]. eapply untouched_trans; eauto.
  - unfold fresh_result. destruct (snd (mem_reshape v2 g sh2 h2)); auto. destruct U1, U2. destruct A3 as [->|]; lia.
Qed.

Lemma mem_homoscedastic_good v1 v2 Kin noise h X : lives h Kin -> nd_eq (read h Kin) X ->
  fgood h (mem_homoscedastic v1 v2 Kin noise h) (homoscedastic_perturb X noise).
Proof.
  intros L HX. unfold mem_homoscedastic, homoscedastic_perturb. destruct HX as [SX HX]. cbn in SX. rewrite <- SX.
  destruct (t_shape Kin) as [|a [|b [|c [|d [|e [|]]]]]] eqn:E; try (apply good_fgood, good_fail).
  - apply good_fgood, good_new, bop_cong. split; auto. cbn. congruence.
  - destruct (negb _); [apply good_fgood, good_fail|]. destruct (negb _); [apply good_fgood, good_fail|].
    apply flat_perturb_good; auto. split; auto. cbn. congruence.
Qed.
Lemma mem_shear_good v1 v2 Kin noise h X : lives h Kin -> nd_eq (read h Kin) X ->
  fgood h (mem_shear33 v1 v2 Kin noise h) (shear_perturb33 X noise).
Proof.
  intros L HX. unfold mem_shear33, shear_perturb33. destruct HX as [SX HX]. cbn in SX. rewrite <- SX.
  destruct (t_shape Kin) as [|a [|b [|c [|d [|e [|]]]]]] eqn:E; try (apply good_fgood, good_fail).
  destruct (negb _); [apply good_fgood, good_fail|]. destruct (negb _); [apply good_fgood, good_fail|]. destruct (negb _); [apply good_fgood, good_fail|].
  apply flat_perturb_good; auto. split; auto. cbn. congruence.
Qed.

Lemma mem_hetero_good Kin noise h X N : lives h Kin -> lives h noise -> nd_eq (read h Kin) X -> nd_eq (read h noise) N ->
  fgood h (mem_heteroscedastic Kin noise h) (heteroscedastic_perturb X N).
Proof.
  intros L LN HX HN. unfold mem_heteroscedastic, heteroscedastic_perturb, mbind.
  pose proof (new_spec (fun h0 => Ok (read h0 Kin)) h) as S. destruct (new _ h) as [h1 [ret|e]]; [|destruct S; discriminate].
  destruct S as (x & Ex & U & A & L1 & C & Rd). injection Ex as <-.
  assert (RX : nd_eq (read h1 ret) X) by (eapply nd_eq_trans; eauto).
  assert (SR : t_shape ret = t_shape Kin) by (destruct Rd as [S _]; exact S).
  pose proof (proj1 HX) as SX. cbn in SX. pose proof (proj1 HN) as SN. cbn in SN. rewrite <- SX, <- SN.
  assert (Fail : forall e, fgood h (h1, Err e) (Err e)).
  { intros e. split; [split; [auto|split; reflexivity || exact I]|exact I]. }
  assert (Keep : fgood h (h1, Ok ret) (Ok X)).
  { split; [split; [auto|split; [exact RX|exact L1]]|]. unfold fresh_result. cbn. lia. }
  destruct (t_shape Kin) as [|b [|n [|n2 [|]]]] eqn:EK; try apply Fail.
  cbn zeta. destruct (Nat.eqb b 0); [apply Fail|]. destruct (Nat.eqb (b * n) 0) eqn:E0.
  { destruct (Nat.eqb _ 0 || Nat.eqb _ 1)%bool; [apply Keep|apply Fail]. }
  destruct (Nat.ltb n2 n) eqn:En; [apply Fail|].
  assert (Add : forall q, (forall bb ii, (bb < b)%nat -> (ii < n)%nat -> (q bb ii < nprod (t_shape noise))%nat) ->
    fgood h
     (match store_where ret (fun idx => match idx with [_; i; j] => Nat.eqb i j && Nat.ltb i n | _ => false end)
          (fun idx => match idx with [b; i; _] => at_ (read h1 ret) idx + at_ (read h1 noise) (unravel (t_shape noise) (q b i)) | _ => at_ (read h1 ret) idx end) h1 with
      | (h', Ok _) => mret ret h'
      | (h', Err e) => (h', Err e)
      end)
     (Ok (mkNd [b; n; n2] (fun idx => match idx with
        | [b; i; j] => if Nat.eqb i j && Nat.ltb i n then at_ X idx + at_ N (unravel (t_shape noise) (q b i)) else at_ X idx
        | _ => at_ X idx end)))).
  { intros q Hq.
    destruct (store_where_spec ret (fun idx => match idx with [_; i; j] => Nat.eqb i j && Nat.ltb i n | _ => false end)
          (fun idx => match idx with [b; i; _] => at_ (read h1 ret) idx + at_ (read h1 noise) (unravel (t_shape noise) (q b i)) | _ => at_ (read h1 ret) idx end) C h1 L1)
      as (h2 & E2 & N2 & O2 & R2). rewrite E2. clear E2. unfold mret.
    split; [split; [|split; [|unfold lives in *; cbn; lia]]|unfold fresh_result; cbn; lia].
    - destruct U as [UN U]. split; cbn [fst]; [lia|]. intros a p Ha. rewrite O2 by lia. apply U. auto.
    - unfold contents. cbn [fst snd rmap same_outcome]. destruct R2 as [_ R2]. split; [cbn; exact SR|].
      intros idx Hi. rewrite (R2 idx Hi). cbn [at_]. cbn in Hi. rewrite SR in Hi.
      apply inb_inv3 in Hi. destruct Hi as (bb & ii & jj & -> & Hb & Hi & Hj).
      destruct RX as [_ RX]. rewrite (RX [bb; ii; jj]) by (cbn; rewrite SR; apply inb3; auto).
      destruct (Nat.eqb ii jj && Nat.ltb ii n)%bool; auto. f_equal.
      assert (LN1 : nd_eq (read h1 noise) N) by (eapply nd_eq_trans; [apply read_untouched; eauto|auto]).
      apply (proj2 LN1). cbn. apply unravel_inb. apply Hq; auto. }
  destruct (Nat.eqb_spec (nprod (t_shape noise)) (b * n)) as [E1|N1].
  - refine (Add (fun bb ii => (bb * n + ii)%nat) _). intros. rewrite E1. nia.
  - destruct (Nat.eqb_spec (nprod (t_shape noise)) 1) as [E2|N2]; [|apply Fail].
    refine (Add (fun _ _ => O) _). intros. lia.
Qed.

Lemma mem_perturb_good v1 v2 z Kin noise h X : lives h Kin -> noise_lives h z -> nd_eq (read h Kin) X ->
  good_view h (mem_perturb v1 v2 z Kin noise h) (perturb (noise_contents h z) X noise) /\
  (z <> MNull -> fresh_result h (snd (mem_perturb v1 v2 z Kin noise h))).
Proof.
  intros L LZ HX. destruct z as [v|v|t|]; cbn [mem_perturb noise_contents perturb].
  - destruct (mem_homoscedastic_good v1 v2 Kin (match noise with None => v | Some x => x end) h X L HX). auto.
  - destruct (mem_shear_good v1 v2 Kin (match noise with None => v | Some x => x end) h X L HX). auto.
  - destruct (mem_hetero_good Kin t h X (read h t) L LZ HX (nd_eq_refl _)). auto.
  - split; [|congruence]. unfold mret, good_view, contents. cbn. split; [apply untouched_refl|]. auto.
Qed.

Lemma so_sym {A} (r r' : result (nd A)) : same_outcome r r' -> same_outcome r' r.
Proof. destruct r, r'; cbn; auto. apply nd_eq_sym. Qed.
Lemma so_trans {A} (a b c : result (nd A)) : same_outcome a b -> same_outcome b c -> same_outcome a c.
Proof. destruct a, b, c; cbn; try tauto; try congruence. apply nd_eq_trans. Qed.

(** A heap holding given arrays. *)
Lemma perturb_cong z z' X Y noise :
  match z, z' with
  | HeteroscedasticNoise t, HeteroscedasticNoise t' => nd_eq t t'
  | _, _ => z = z'
  end -> nd_eq X Y -> same_outcome (perturb z X noise) (perturb z' Y noise).
Proof.
  intros HZ H. set (h0 := mkHeap 0 (fun _ _ => 0)).
  destruct (alloc_spec X h0) as (h1 & tX & _ & U1 & _ & L1 & _ & R1).
  assert (RY : nd_eq (read h1 tX) Y) by (eapply nd_eq_trans; eauto).
  destruct z as [v|t|v|]; try (subst z').
  - pose proof (proj1 (proj2 (proj1 (mem_homoscedastic_good true true tX (match noise with None => v | Some x => x end) h1 X L1 R1)))) as A.
    pose proof (proj1 (proj2 (proj1 (mem_homoscedastic_good true true tX (match noise with None => v | Some x => x end) h1 Y L1 RY)))) as B.
    eapply so_trans; [apply so_sym; exact A|exact B].
  - destruct z' as [?|t'|?|]; try discriminate.
    destruct (alloc_spec t h1) as (h2 & tt & _ & U2 & _ & L2 & _ & R2).
    assert (L1' : lives h2 tX) by (eapply lives_mono; eauto).
    assert (RX2 : nd_eq (read h2 tX) X) by (eapply nd_eq_trans; [apply read_untouched; eauto|auto]).
    pose proof (proj1 (proj2 (proj1 (mem_hetero_good tX tt h2 X t L1' L2 RX2 R2)))) as A.
    pose proof (proj1 (proj2 (proj1 (mem_hetero_good tX tt h2 Y t' L1' L2 (nd_eq_trans _ _ _ RX2 H) (nd_eq_trans _ _ _ R2 HZ))))) as B.
    eapply so_trans; [apply so_sym; exact A|exact B].
  - pose proof (proj1 (proj2 (proj1 (mem_shear_good true true tX (match noise with None => v | Some x => x end) h1 X L1 R1)))) as A.
    pose proof (proj1 (proj2 (proj1 (mem_shear_good true true tX (match noise with None => v | Some x => x end) h1 Y L1 RY)))) as B.
    eapply so_trans; [apply so_sym; exact A|exact B].
  - cbn. auto.
Qed.
Lemma noise_contents_cong h h' z X Y noise : untouched h h' -> noise_lives h z -> nd_eq X Y ->
  same_outcome (perturb (noise_contents h' z) X noise) (perturb (noise_contents h z) Y noise).
Proof.
  intros U L H. apply perturb_cong; auto. destruct z; cbn; auto. apply read_untouched; auto.
Qed.

Section Objective.
Variables (gamma : R -> R) (kv : R -> R -> R).
Variable mean_f : nd R -> nd R -> nd R -> result (nd R).
Variable var_f : nd R -> nd R -> result (nd R).
Variable scale_f : nd R -> nd R -> result R.
Variable loss_f : nd R -> nd R -> nd R -> R -> result R.
Hypothesis mean_c : content_only3 same_outcome mean_f.
Hypothesis var_c : content_only2 same_outcome var_f.
Hypothesis scale_c : content_only2 eq scale_f.
Hypothesis loss_c : content_only3 eq (fun m t v => loss_f m t v).

Lemma obj_perturb v1 v2 z Kin noise h0 h X : untouched h0 h -> noise_lives h0 z -> lives h Kin -> nd_eq (read h Kin) X ->
  exists h' , untouched h h' /\
   ((exists t P, mem_perturb v1 v2 z Kin noise h = (h', Ok t) /\ lives h' t /\ perturb (noise_contents h0 z) X noise = Ok P /\ nd_eq (read h' t) P) \/
    (exists e, mem_perturb v1 v2 z Kin noise h = (h', Err e) /\ perturb (noise_contents h0 z) X noise = Err e)).
Proof.
  intros U LZ L HX.
  assert (LZ' : noise_lives h z) by (destruct z; cbn in *; auto; eapply lives_mono; eauto).
  destruct (mem_perturb_good v1 v2 z Kin noise h X L LZ' HX) as [(U1 & S & L1) _].
  pose proof (noise_contents_cong h0 h z X X noise U LZ (nd_eq_refl _)) as Q.
  pose proof (so_trans _ _ _ S Q) as S'.
  destruct (mem_perturb v1 v2 z Kin noise h) as [h' [t|e]]; cbn in *; exists h'; split; auto.
  - left. destruct (perturb (noise_contents h0 z) X noise) as [P|]; [|destruct S']. exists t, P. auto.
  - right. destruct (perturb (noise_contents h0 z) X noise) as [P|]; [destruct S'|]. exists e. split; congruence.
Qed.

Lemma objective_ok views k z cur pw cw nt tg kw h h' r :
  lives h pw -> lives h cw -> lives h nt -> lives h tg -> noise_lives h z ->
  mem_objective gamma kv mean_f var_f scale_f loss_f views k z cur pw cw nt tg kw h = (h', r) ->
  untouched h h' /\
  r = objective_value gamma kv mean_f var_f scale_f loss_f k (noise_contents h z) cur
        (read h pw) (read h cw) (read h nt) (read h tg) kw.
Proof.
  intros Lp Lc Ln Lt Lz. unfold mem_objective, objective_value, mbind.
  destruct (mem_kernel_good gamma kv k cur pw kw h Lp) as (U1 & S1 & _ & G1).
  destruct (mem_kernel_call gamma kv k cur pw kw h) as [h1 [Kin|e]]; cbn in S1, U1, G1; unfold contents in S1; cbn in S1.
  2:{ destruct (kernel_value _ _ _ _ (read h pw) _); [destruct S1|]. subst. intros E. injection E as <- <-. auto. }
  destruct (kernel_value _ _ _ _ (read h pw) _) as [K|]; [|destruct S1]. cbn [bind].
  assert (Lc1 : lives h1 cw) by (eapply lives_mono; eauto).
  destruct (mem_kernel_good gamma kv k cur cw kw h1 Lc1) as (U2 & S2 & _ & G2).
  assert (S2' := so_trans _ _ _ S2 (kernel_value_cong gamma kv k cur _ _ kw (read_untouched _ _ _ U1 Lc))). clear S2.
  destruct (mem_kernel_call gamma kv k cur cw kw h1) as [h2 [Kc|e]]; cbn in S2', U2, G2; unfold contents in S2'; cbn in S2'.
  2:{ destruct (kernel_value _ _ _ _ (read h cw) _); [destruct S2'|]. subst. intros E. injection E as <- <-. split; auto. eapply untouched_trans; eauto. }
  destruct (kernel_value _ _ _ _ (read h cw) _) as [C|]; [|destruct S2']. cbn [bind].
  assert (U02 : untouched h h2) by (eapply untouched_trans; eauto).
  assert (RK : nd_eq (read h2 Kin) K) by (eapply nd_eq_trans; [apply read_untouched; [exact U2|apply G1]|auto]).
  assert (LK : lives h2 Kin) by (eapply lives_mono; [exact U2|apply G1]).
  destruct (obj_perturb (views 0%nat) (views 1%nat) z Kin (dget kw "noise") h h2 K U02 Lz LK RK) as (h3 & U3 & [(P1 & P & E3 & L3 & EP & RP)|(e & E3 & EP)]);
    rewrite E3, EP; cbn [bind].
  2:{ intros E. injection E as <- <-. split; auto. eapply untouched_trans; eauto. }
  assert (U03 : untouched h h3) by (eapply untouched_trans; eauto).
  unfold peek at 1 2 3, call at 1. 
  assert (RC3 : nd_eq (read h3 Kc) C) by (eapply nd_eq_trans; [apply read_untouched; [exact U3|apply G2]|auto]).
  pose proof (mean_c _ _ _ _ _ _ RP RC3 (read_untouched _ _ _ U03 Ln)) as SM.
  destruct (mean_f (read h3 P1) (read h3 Kc) (read h3 nt)) as [m|em]; destruct (mean_f P C (read h nt)) as [m'|em']; cbn in SM; try contradiction; cbn [bind].
  2:{ intros E. injection E as <- <-. subst. split; auto. }
  assert (RK3 : nd_eq (read h3 Kin) K) by (eapply nd_eq_trans; [apply read_untouched; [exact U3|auto]|auto]).
  assert (LK3 : lives h3 Kin) by (eapply lives_mono; [exact U3|exact LK]).
  destruct (obj_perturb (views 2%nat) (views 3%nat) z Kin (dget kw "noise") h h3 K U03 Lz LK3 RK3) as (h4 & U4 & [(P2 & P' & E4 & L4 & EP' & RP')|(e & E4 & EP')]);
    (rewrite EP in EP'; try discriminate EP'). injection EP' as <-. rewrite E4.
  assert (U04 : untouched h h4) by (eapply untouched_trans; eauto).
  unfold peek at 1 2, call at 1.
  assert (RC4 : nd_eq (read h4 Kc) C) by (eapply nd_eq_trans; [apply read_untouched; [exact U4|eapply lives_mono; [exact U3|apply G2]]|auto]).
  pose proof (var_c _ _ _ _ RP' RC4) as SV.
  destruct (var_f (read h4 P2) (read h4 Kc)) as [v|ev]; destruct (var_f P C) as [v'|ev']; cbn in SV; try contradiction; cbn [bind].
  2:{ intros E. injection E as <- <-. subst. split; auto. }
  assert (RK4 : nd_eq (read h4 Kin) K) by (eapply nd_eq_trans; [apply read_untouched; [exact U4|auto]|auto]).
  assert (LK4 : lives h4 Kin) by (eapply lives_mono; [exact U4|exact LK3]).
  destruct (obj_perturb (views 4%nat) (views 5%nat) z Kin None h h4 K U04 Lz LK4 RK4) as (h5 & U5 & [(P3 & Q & E5 & L5 & EQ & RQ)|(e & E5 & EQ)]);
    rewrite E5, EQ; cbn [bind].
  2:{ intros E. injection E as <- <-. split; auto. eapply untouched_trans; eauto. }
  assert (U05 : untouched h h5) by (eapply untouched_trans; eauto).
  unfold peek at 1 2, call at 1.
  rewrite (scale_c _ _ _ _ RQ (read_untouched _ _ _ U05 Ln)).
  destruct (scale_f Q (read h nt)) as [s|es]; cbn [bind].
  2:{ intros E. injection E as <- <-. split; auto. }
  unfold peek, call. intros E. injection E as <- <-. split; auto.
  rewrite (loss_c _ _ _ _ _ _ SM (read_untouched _ _ _ U05 Lt) SV). auto.
Qed.

Lemma objective_value_untouched k z cur pw cw nt tg kw h h' :
  untouched h h' -> lives h pw -> lives h cw -> lives h nt -> lives h tg -> noise_lives h z ->
  objective_value gamma kv mean_f var_f scale_f loss_f k (noise_contents h' z) cur
        (read h' pw) (read h' cw) (read h' nt) (read h' tg) kw =
  objective_value gamma kv mean_f var_f scale_f loss_f k (noise_contents h z) cur
        (read h pw) (read h cw) (read h nt) (read h tg) kw.
Proof.
  intros U Lp Lc Ln Lt Lz. unfold objective_value.
  apply bind_so; [apply kernel_value_cong, read_untouched; auto|]. intros K K' HK.
  apply bind_so; [apply kernel_value_cong, read_untouched; auto|]. intros C C' HC.
  apply bind_so; [apply noise_contents_cong; auto|]. intros P P' HP.
  apply bind_so; [apply mean_c; auto; apply read_untouched; auto|]. intros m m' Hm.
  apply bind_so; [apply var_c; auto|]. intros v v' Hv.
  apply bind_so; [apply noise_contents_cong; auto|]. intros Q Q' HQ.
  rewrite (scale_c _ _ _ _ HQ (read_untouched _ _ _ U Ln)). destruct (scale_f Q' (read h nt)); cbn [bind]; auto.
  rewrite (loss_c _ _ _ _ _ _ Hm (read_untouched _ _ _ U Lt) Hv). auto.
Qed.

Lemma evaluate_ok kws views k z cur pw cw nt tg h h' rs :
  lives h pw -> lives h cw -> lives h nt -> lives h tg -> noise_lives h z ->
  mem_evaluate gamma kv mean_f var_f scale_f loss_f views k z cur pw cw nt tg kws h = (h', rs) ->
  untouched h h' /\
  rs = map (objective_value gamma kv mean_f var_f scale_f loss_f k (noise_contents h z) cur
        (read h pw) (read h cw) (read h nt) (read h tg)) kws.
Proof.
  revert h h' rs. induction kws as [|kw kws IH]; intros h h' rs Lp Lc Ln Lt Lz; cbn [mem_evaluate map].
  - intros E. injection E as <- <-. split; auto. apply untouched_refl.
  - destruct (mem_objective _ _ _ _ _ _ _ _ _ _ _ _ _ _ _ h) as [h1 r] eqn:E1.
    destruct (mem_evaluate _ _ _ _ _ _ _ _ _ _ _ _ _ _ _ h1) as [h2 rs'] eqn:E2.
    intros E. injection E as <- <-.
    destruct (objective_ok _ _ _ _ _ _ _ _ _ _ _ _ Lp Lc Ln Lt Lz E1) as [U1 ->].
    assert (Lz1 : noise_lives h1 z) by (destruct z; cbn in *; auto; eapply lives_mono; eauto).
    destruct (IH h1 h2 rs' (lives_mono _ _ _ U1 Lp) (lives_mono _ _ _ U1 Lc) (lives_mono _ _ _ U1 Ln) (lives_mono _ _ _ U1 Lt) Lz1 E2) as [U2 ->].
    split; [eapply untouched_trans; eauto|]. f_equal. apply map_ext. intros kw'. apply objective_value_untouched; auto.
Qed.
End Objective.
