(** Proofs about model equality. *)
From Coq Require Import Lia Lra.
From Verif Require Import Base BaseFacts NdModel HyperModel NamedModel NamedSpec NamedProofs EqModel EqSpec.
Local Open Scope string_scope.
Local Open Scope list_scope.

Lemma num_eqb_agree a b : num_eqb a b = true <-> agree a b.
Proof.
  unfold agree. destruct a, b; cbn; try (split; [discriminate|intros []; congruence]); try (split; [intros _; split; congruence|auto]).
  unfold Reqb. destruct (Req_EM_T r r0).
  - subst. split; auto. intros _. split; congruence.
  - split; [discriminate|]. intros [E _]. congruence.
Qed.
Lemma num_eqb_sym a b : num_eqb a b = num_eqb b a.
Proof.
  destruct a, b; cbn; auto. unfold Reqb.
  destruct (Req_EM_T r r0), (Req_EM_T r0 r); congruence.
Qed.
Lemma agree_sym a b : agree a b -> agree b a.
Proof. intros [-> N]. split; auto. Qed.
Lemma agree_trans a b c : agree a b -> agree b c -> agree a c.
Proof. intros [-> N] [-> _]. split; auto. Qed.

(** ** Classes *)
Lemma anc_refl c : is_ancestor c c = true.
Proof. induction c; cbn; auto. rewrite Nat.eqb_refl. auto. Qed.
Lemma anc_antisym c d : is_ancestor c d = true -> is_ancestor d c = true -> c = d.
Proof.
  revert d. induction c as [|x c IH]; intros [|y d]; cbn; auto; try discriminate.
  intros H1 H2. apply andb_prop in H1. apply andb_prop in H2. destruct H1 as [E H1], H2 as [_ H2].
  apply Nat.eqb_eq in E. subst. f_equal. auto.
Qed.

(** ** The hyperparameter dictionary *)
Lemma kdict m : built_eq m -> kernel_dict (e_kernel m) = map (fun n => (nm_name n, n)) (kernel_declares (e_kernel m)).
Proof.
  intros [H1 H2].
  pose proof (kernel_dict_eq (mkModel (e_kernel m) NNull)) as H. cbn in H. rewrite H.
  - destruct (e_kernel m); reflexivity.
  - split; [|split]; cbn; auto.
Qed.
Lemma knodup m : built_eq m -> NoDup (map nm_name (kernel_declares (e_kernel m))).
Proof.
  intros [H1 H2].
  pose proof (built_nodup (mkModel (e_kernel m) NNull)) as H.
  unfold declared in H. cbn in H. rewrite app_nil_r in H.
  destruct (e_kernel m); apply H; (split; [|split]; cbn; auto).
Qed.

Lemma dget_names l h n : NoDup (map nm_name l) ->
  (dget (map (fun n => (nm_name n, n)) l) h = Some n <-> In n l /\ nm_name n = h).
Proof.
  intros ND. split.
  - intros H. apply dget_some_in in H. apply in_map_iff in H. destruct H as (x & E & Hx).
    injection E as <- <-. auto.
  - intros [Hi <-]. induction l as [|x l IH]; [destruct Hi|]. cbn in *. inversion ND; subst.
    destruct Hi as [->|Hi]; [rewrite String.eqb_refl; auto|].
    destruct (String.eqb_spec (nm_name x) (nm_name n)) as [E|N]; [|auto].
    exfalso. apply H1. rewrite E. apply in_map. auto.
Qed.
Lemma dget_names_none l h : dget (map (fun n => (nm_name n, n)) l) h = None <-> ~ In h (map nm_name l).
Proof. rewrite dget_none. rewrite map_map. cbn. tauto. Qed.

Definition val_of (s : store) (n : named) := p_val (st_cell s (nm_loc n)).

Lemma all_hypers_true s la lb : NoDup (map nm_name lb) ->
  (all_hypers s (map (fun n => (nm_name n, n)) la) (map (fun n => (nm_name n, n)) lb) = Ok true <->
   (forall n, In n la -> exists n', In n' lb /\ nm_name n' = nm_name n /\ agree (val_of s n) (val_of s n'))).
Proof.
  intros ND. induction la as [|x la IH]; cbn.
  - split; auto. intros _ n [].
  - destruct (dget _ (nm_name x)) as [n'|] eqn:E.
    + apply (dget_names _ _ _ ND) in E. destruct E as [Hn' En'].
      destruct (num_eqb _ _) eqn:Q.
      * rewrite IH. split.
        -- intros H n [<-|Hi]; [|auto]. exists n'. repeat split; auto; apply num_eqb_agree in Q; apply Q.
        -- intros H n Hi. apply H. auto.
      * split; [discriminate|]. intros H. destruct (H x (or_introl eq_refl)) as (n2 & H2 & E2 & A).
        assert (n2 = n').
        { assert (D1 : dget (map (fun n => (nm_name n, n)) lb) (nm_name x) = Some n2) by (apply (dget_names _ _ _ ND); auto).
          assert (D2 : dget (map (fun n => (nm_name n, n)) lb) (nm_name x) = Some n') by (apply (dget_names _ _ _ ND); auto).
          congruence. }
        subst. apply num_eqb_agree in A. unfold val_of in A. congruence.
    + split; [discriminate|]. intros H. destruct (H x (or_introl eq_refl)) as (n2 & H2 & E2 & A).
      apply dget_names_none in E. exfalso. apply E. rewrite <- E2. apply in_map. auto.
Qed.
Lemma all_hypers_ok s la lb :
  (forall h, In h (map nm_name la) -> In h (map nm_name lb)) ->
  exists b, all_hypers s (map (fun n => (nm_name n, n)) la) (map (fun n => (nm_name n, n)) lb) = Ok b.
Proof.
  induction la as [|x la IH]; cbn; intros H; eauto.
  destruct (dget _ (nm_name x)) as [n'|] eqn:E.
  - destruct (num_eqb _ _); eauto.
  - apply dget_names_none in E. exfalso. apply E. apply H. auto.
Qed.

Lemma hyp_true_iff s a b : built_eq a -> built_eq b ->
  (all_hypers s (kernel_dict (e_kernel a)) (kernel_dict (e_kernel b)) = Ok true <->
   forall h v, hyper s a h v -> v <> NaN /\ hyper s b h v).
Proof.
  intros Ha Hb. rewrite (kdict a Ha), (kdict b Hb). rewrite all_hypers_true by (apply knodup; auto).
  unfold hyper, val_of. split.
  - intros H h v (n & Hn & <- & <-). destruct (H n Hn) as (n' & Hn' & E & [A N]). split; auto.
    exists n'. auto.
  - intros H n Hn. destruct (H (nm_name n) (val_of s n)) as (N & n' & Hn' & E & A).
    + exists n. auto.
    + exists n'. repeat split; auto.
Qed.

(** ** Broadcasting comparison *)
Lemma brev_comm s1 s2 : brev s1 s2 = brev s2 s1.
Proof.
  revert s2. induction s1 as [|a s1 IH]; intros [|b s2]; cbn; auto.
  rewrite IH. destruct (brev s2 s1); auto.
  destruct (Nat.eqb_spec a b); destruct (Nat.eqb_spec b a); destruct (Nat.eqb_spec a 1); destruct (Nat.eqb_spec b 1); subst; auto; try lia.
Qed.
Lemma bshape_comm s1 s2 : bshape s1 s2 = bshape s2 s1.
Proof. unfold bshape. rewrite brev_comm. auto. Qed.

Definition cmp (x y : nd num) : result bool := let! n := bop num_eqb x y in truth n.
Lemma cmp_comm x y : cmp x y = cmp y x.
Proof.
  unfold cmp, bop. rewrite (bshape_comm (shape y)). destruct (bshape _ _) as [sh|]; cbn; auto.
  unfold truth. cbn. destruct (nprod sh) as [|[|]]; auto. rewrite num_eqb_sym. auto.
Qed.
Lemma bop_ok_comm x y : (exists z, bop num_eqb x y = Ok z) <-> (exists z, bop num_eqb y x = Ok z).
Proof. unfold bop. rewrite (bshape_comm (shape y)). destruct (bshape _ _); split; intros [z Hz]; eauto; discriminate. Qed.

Lemma nprod_one l : nprod l = 1 -> l = repeat 1 (List.length l).
Proof.
  induction l as [|a l IH]; cbn; auto. change (nprod (a :: l)) with (a * nprod l).
  intros H. apply Nat.eq_mul_1 in H. destruct H as [-> H]. f_equal. auto.
Qed.
Lemma nprod_rep k : nprod (repeat 1 k) = 1.
Proof. induction k; cbn; auto. change (nprod (1 :: repeat 1 k)) with (1 * nprod (repeat 1 k)). lia. Qed.
Lemma rep_snoc {A} (x : A) k : repeat x k ++ [x] = x :: repeat x k.
Proof. induction k; cbn; congruence. Qed.
Lemma rev_rep {A} (x : A) k : rev (repeat x k) = repeat x k.
Proof. induction k; cbn; auto. rewrite IHk. apply rep_snoc. Qed.
Lemma brev_rep j k : brev (repeat 1 j) (repeat 1 k) = Some (repeat 1 (max j k)).
Proof. revert k. induction j; intros [|k]; cbn; auto. rewrite IHj. auto. Qed.
Lemma bshape_rep j k : bshape (repeat 1 j) (repeat 1 k) = Some (repeat 1 (max j k)).
Proof. unfold bshape. rewrite !rev_rep, brev_rep. cbn. rewrite rev_rep. auto. Qed.
Lemma brev_ones s1 s2 k : brev s1 s2 = Some (repeat 1 k) -> s1 = repeat 1 (List.length s1) /\ s2 = repeat 1 (List.length s2).
Proof.
  revert s2 k. induction s1 as [|a s1 IH]; intros [|b s2] k; cbn.
  - auto.
  - intros E. injection E as E. rewrite E. destruct k; [discriminate|]. cbn in E. injection E as -> E. cbn.
    subst. split; auto. rewrite repeat_length. auto.
  - intros E. injection E as E. rewrite E. destruct k; [discriminate|]. cbn in E. injection E as -> E. cbn.
    subst. split; auto. rewrite repeat_length. auto.
  - destruct (brev s1 s2) as [s|] eqn:B; [|discriminate].
    destruct (Nat.eqb_spec a b) as [->|N].
    + intros E. injection E as E. destruct k; [discriminate|]. cbn in E. injection E as -> E. subst s.
      destruct (IH _ _ B) as [H1 H2]. split; congruence.
    + destruct (Nat.eqb_spec a 1) as [->|N1].
      * intros E. injection E as E. destruct k; [discriminate|]. cbn in E. injection E as -> E. congruence.
      * destruct (Nat.eqb_spec b 1) as [->|]; [|discriminate]. intros E. injection E as E. destruct k; [discriminate|]. cbn in E. injection E as -> E. congruence.
Qed.
Lemma unravel_rep k : unravel (repeat 1 k) 0 = repeat 0 k.
Proof. induction k; cbn; auto. rewrite nprod_rep. cbn. rewrite IHk. auto. Qed.
Lemma bidx_rev_rep j k : j <= k -> bidx_rev (repeat 1 j) (repeat 0 k) = repeat 0 j.
Proof. revert k. induction j; intros [|k] H; cbn; auto; try lia. rewrite IHj; auto; lia. Qed.
Lemma bidx_rep j k : j <= k -> bidx (repeat 1 j) (repeat 0 k) = repeat 0 j.
Proof. intros H. unfold bidx. rewrite !rev_rep, bidx_rev_rep by auto. apply rev_rep. Qed.

Definition one_elem (x : nd num) (v : num) : Prop := exists k, shape x = repeat 1 k /\ at_ x (repeat 0 k) = v.
Lemma cmp_one x y v w : one_elem x v -> one_elem y w -> cmp x y = Ok (num_eqb v w).
Proof.
  intros (j & Sx & Ax) (k & Sy & Ay). unfold cmp, bop. rewrite Sx, Sy, bshape_rep. cbn [bind].
  unfold truth. cbn [shape at_]. rewrite nprod_rep, unravel_rep.
  rewrite !bidx_rep by lia. rewrite Ax, Ay. auto.
Qed.
Lemma cmp_true x y : cmp x y = Ok true -> exists v, v <> NaN /\ one_elem x v /\ one_elem y v.
Proof.
  unfold cmp, bop. destruct (bshape _ _) as [sh|] eqn:B; [|discriminate]. cbn [bind]. unfold truth. cbn [shape at_].
  destruct (nprod sh) as [|[|]] eqn:P; try discriminate. intros E. injection E as E.
  pose proof (nprod_one _ P) as R. rewrite R in B, E. clear R P.
  unfold bshape in B. destruct (brev _ _) as [r|] eqn:Br; [|discriminate]. cbn in B. injection B as B.
  assert (Hr : r = repeat 1 (List.length sh)) by (rewrite <- (rev_involutive r), B; apply rev_rep).
  rewrite Hr in Br. pose proof Br as Br2. apply brev_ones in Br. rewrite !rev_length in Br. destruct Br as [H1 H2].
  assert (S1 : shape x = repeat 1 (List.length (shape x))) by (rewrite <- (rev_involutive (shape x)) at 1; rewrite H1; apply rev_rep).
  assert (S2 : shape y = repeat 1 (List.length (shape y))) by (rewrite <- (rev_involutive (shape y)) at 1; rewrite H2; apply rev_rep).
  rewrite H1, H2 in Br2. rewrite brev_rep in Br2. injection Br2 as Br2. apply (f_equal (@List.length nat)) in Br2. rewrite !repeat_length in Br2.
  rewrite unravel_rep in E. rewrite S1, S2 in E. rewrite !bidx_rep in E by lia.
  apply num_eqb_agree in E. destruct E as [E N].
  exists (at_ x (repeat 0 (List.length (shape x)))). split; [auto|]. split; eexists; split; eauto.
Qed.

Lemma one_noise_elem s m v : one_noise s m v <-> one_elem (noise_value s (e_noise m)) v.
Proof.
  unfold one_noise, one_elem, noise_value. destruct (e_noise m); cbn.
  - split; [intros <-; exists 0; auto|]. intros (k & Hk & E). destruct k; [auto|discriminate].
  - tauto.
  - split; [intros ->; exists 0; auto|]. intros (k & Hk & E). destruct k; [auto|discriminate].
Qed.
Lemma one_elem_fun x v w : one_elem x v -> one_elem x w -> v = w.
Proof.
  intros (j & S1 & A1) (k & S2 & A2). assert (j = k) by (rewrite S1 in S2; apply (f_equal (@List.length nat)) in S2; now rewrite !repeat_length in S2).
  subst. congruence.
Qed.

(** ** Equality *)
Lemma model_eq_alt s a b : model_eq s a b =
  if is_ancestor (e_class a) (e_class b) then
    let! h := all_hypers s (kernel_dict (e_kernel a)) (kernel_dict (e_kernel b)) in
    match bop num_eqb (noise_value s (e_noise a)) (noise_value s (e_noise b)) with
    | Err e => Err e
    | Ok _ => if h then let! tn := cmp (noise_value s (e_noise a)) (noise_value s (e_noise b)) in
                Ok (if tn then num_eqb (e_scale a) (e_scale b) else false)
              else Ok false
    end
  else Ok false.
Proof.
  unfold model_eq. destruct (is_ancestor _ _); auto. destruct (all_hypers _ _ _) as [h|]; cbn [bind]; auto.
  unfold cmp. destruct (bop _ _ _); cbn [bind]; auto.
Qed.
Lemma cmp_bop x y b : cmp x y = Ok b -> exists z, bop num_eqb x y = Ok z.
Proof. unfold cmp. destruct (bop _ _ _); eauto. discriminate. Qed.

Lemma model_eq_true s a b : built_eq a -> built_eq b ->
  (model_eq s a b = Ok true <->
   is_ancestor (e_class a) (e_class b) = true /\
   (forall h v, hyper s a h v -> v <> NaN /\ hyper s b h v) /\
   (exists v, v <> NaN /\ one_noise s a v /\ one_noise s b v) /\
   agree (e_scale a) (e_scale b)).
Proof.
  intros Ha Hb. rewrite model_eq_alt. split.
  - destruct (is_ancestor _ _); [|discriminate]. intros E. split; auto.
    destruct (all_hypers _ _ _) as [h|] eqn:Eh; [|discriminate]. cbn [bind] in E.
    destruct (bop _ _ _) eqn:Eb; [|discriminate]. destruct h; [|discriminate].
    destruct (cmp _ _) as [tn|] eqn:Ec; [|discriminate]. cbn [bind] in E. destruct tn; [|discriminate].
    injection E as E. apply num_eqb_agree in E. pose proof (proj1 (hyp_true_iff s a b Ha Hb) Eh) as TMP; clear Eh; rename TMP into Eh.
    apply cmp_true in Ec. destruct Ec as (v & N & H1 & H2).
    split; [auto|]. split; [|auto]. exists v. rewrite !one_noise_elem. auto.
  - intros (-> & Hh & (v & N & H1 & H2) & Hs).
    pose proof (proj2 (hyp_true_iff s a b Ha Hb) Hh) as TMP; clear Hh; rename TMP into Hh. rewrite Hh. cbn [bind].
    rewrite one_noise_elem in H1, H2. pose proof (cmp_one _ _ _ _ H1 H2) as C.
    destruct (cmp_bop _ _ _ C) as [z Hz]. rewrite Hz, C. cbn [bind].
    assert (Q : num_eqb v v = true) by (apply num_eqb_agree; split; auto). rewrite Q.
    apply num_eqb_agree in Hs. rewrite Hs. auto.
Qed.

Lemma py_eq_same s a b : e_class a = e_class b -> py_eq s a b = model_eq s a b.
Proof. intros E. unfold py_eq. rewrite E, anc_refl. auto. Qed.
Lemma py_eq_other s a b : e_class a <> e_class b -> py_eq s a b = Ok false.
Proof.
  intros N. unfold py_eq, model_eq.
  destruct (is_ancestor (e_class a) (e_class b)) eqn:E1, (is_ancestor (e_class b) (e_class a)) eqn:E2; cbn; auto.
  exfalso. apply N. apply anc_antisym; auto.
Qed.

Lemma eq_true_iff s a b : built_eq a -> built_eq b ->
  (py_eq s a b = Ok true <->
   e_class a = e_class b /\
   (forall h v, hyper s a h v -> v <> NaN /\ hyper s b h v) /\
   (exists v, v <> NaN /\ one_noise s a v /\ one_noise s b v) /\
   agree (e_scale a) (e_scale b)).
Proof.
  intros Ha Hb. destruct (list_eq_dec Nat.eq_dec (e_class a) (e_class b)) as [E|N].
  - rewrite py_eq_same by auto. rewrite model_eq_true by auto. rewrite E, anc_refl. tauto.
  - rewrite py_eq_other by auto. split; [discriminate|]. intros [E _]. contradiction.
Qed.

Lemma eq_refl_ s a v : built_eq a ->
  (forall h w, hyper s a h w -> w <> NaN) -> one_noise s a v -> v <> NaN -> e_scale a <> NaN ->
  py_eq s a a = Ok true.
Proof.
  intros Ha H1 H2 H3 H4. apply eq_true_iff; auto. repeat split; eauto.
Qed.

Lemma eq_trans_ s a b c : built_eq a -> built_eq b -> built_eq c ->
  py_eq s a b = Ok true -> py_eq s b c = Ok true -> py_eq s a c = Ok true.
Proof.
  intros Ha Hb Hc. rewrite !eq_true_iff by auto.
  intros (E1 & H1 & (v & N & V1 & V2) & S1) (E2 & H2 & (w & N' & W1 & W2) & S2).
  assert (v = w) by (rewrite one_noise_elem in V2, W1; eapply one_elem_fun; eauto). subst w.
  split; [congruence|]. split; [|split; [exists v; auto|eapply agree_trans; eauto]].
  intros h x Hx. destruct (H1 h x Hx) as [Nx Hx']. split; auto. apply (H2 h x Hx').
Qed.

Lemma hyp_incl_sym s a b : built_eq a -> built_eq b -> same_names a b ->
  (forall h v, hyper s a h v -> v <> NaN /\ hyper s b h v) ->
  (forall h v, hyper s b h v -> v <> NaN /\ hyper s a h v).
Proof.
  intros Ha Hb SN H h v (n & Hn & E & V).
  assert (I : In h (map nm_name (kernel_declares (e_kernel a)))) by (apply SN; rewrite <- E; apply in_map; auto).
  apply in_map_iff in I. destruct I as (n' & E' & Hn').
  destruct (H h (val_of s n')) as (N & n2 & Hn2 & E2 & V2); [exists n'; auto|].
  assert (n2 = n).
  { pose proof (knodup b Hb) as ND.
    assert (D1 : dget (map (fun n => (nm_name n, n)) (kernel_declares (e_kernel b))) h = Some n2) by (apply (dget_names _ _ _ ND); auto).
    assert (D2 : dget (map (fun n => (nm_name n, n)) (kernel_declares (e_kernel b))) h = Some n) by (apply (dget_names _ _ _ ND); auto).
    congruence. }
  subst n2. rewrite <- V, V2. split; auto. exists n'. auto.
Qed.

Lemma eq_sym_ s a b : built_eq a -> built_eq b -> same_names a b -> py_eq s a b = py_eq s b a.
Proof.
  intros Ha Hb SN. destruct (list_eq_dec Nat.eq_dec (e_class a) (e_class b)) as [E|N];
    [|rewrite !py_eq_other by congruence; auto].
  rewrite !py_eq_same by congruence. rewrite !model_eq_alt. rewrite E, anc_refl.
  assert (Q : all_hypers s (kernel_dict (e_kernel a)) (kernel_dict (e_kernel b)) =
              all_hypers s (kernel_dict (e_kernel b)) (kernel_dict (e_kernel a))).
  { destruct (all_hypers_ok s (kernel_declares (e_kernel a)) (kernel_declares (e_kernel b)) (fun h => proj1 (SN h))) as [x Hx].
    destruct (all_hypers_ok s (kernel_declares (e_kernel b)) (kernel_declares (e_kernel a)) (fun h => proj2 (SN h))) as [y Hy].
    rewrite <- (kdict a Ha), <- (kdict b Hb) in *. rewrite Hx, Hy.
    assert (I : x = true <-> y = true).
    { split; intros ->.
      - pose proof (proj1 (hyp_true_iff s a b Ha Hb) Hx) as TMP; clear Hx; rename TMP into Hx. pose proof (hyp_incl_sym s a b Ha Hb SN Hx) as H.
        pose proof (proj2 (hyp_true_iff s b a Hb Ha) H) as TMP; clear H; rename TMP into H. congruence.
      - pose proof (proj1 (hyp_true_iff s b a Hb Ha) Hy) as TMP; clear Hy; rename TMP into Hy.
        pose proof (hyp_incl_sym s b a Hb Ha (fun h => conj (proj2 (SN h)) (proj1 (SN h))) Hy) as H.
        pose proof (proj2 (hyp_true_iff s a b Ha Hb) H) as TMP; clear H; rename TMP into H. congruence. }
    destruct x, y; auto; destruct I as [I1 I2]; [specialize (I1 eq_refl)|specialize (I2 eq_refl)]; discriminate. }
  rewrite Q. clear Q. destruct (all_hypers s (kernel_dict (e_kernel b)) (kernel_dict (e_kernel a))) as [h|]; cbn [bind]; [|reflexivity].
  rewrite (cmp_comm (noise_value s (e_noise b))).
  destruct (bop num_eqb (noise_value s (e_noise a)) _) eqn:B1.
  - destruct (proj1 (bop_ok_comm _ _) (ex_intro _ _ B1)) as [z Hz]. rewrite Hz. destruct h; [|reflexivity].
    destruct (cmp _ _) as [tn|]; cbn [bind]; [|reflexivity]. destruct tn; [|reflexivity].
    rewrite num_eqb_sym. reflexivity.
  - destruct (bop num_eqb (noise_value s (e_noise b)) _) eqn:B2.
    + destruct (proj1 (bop_ok_comm _ _) (ex_intro _ _ B2)) as [z Hz]. congruence.
    + unfold bop in B1, B2. destruct (bshape _ _); [discriminate|]. destruct (bshape _ _); [discriminate|]. congruence.
Qed.

(** Tensor noise with more than one entry. *)
Lemma brev_self s : brev s s = Some s.
Proof. induction s; cbn; auto. rewrite IHs, Nat.eqb_refl. auto. Qed.
Lemma bshape_self s : bshape s s = Some s.
Proof. unfold bshape. rewrite brev_self. cbn. rewrite rev_involutive. auto. Qed.
Lemma eq_hetero_raises s a t : built_eq a -> (forall h w, hyper s a h w -> w <> NaN) ->
  e_noise a = EHetero t -> 2 <= nprod (shape t) -> py_eq s a a = Err ValueError.
Proof.
  intros Ha H1 H2 H3. rewrite py_eq_same, model_eq_alt, anc_refl by auto.
  assert (Q : all_hypers s (kernel_dict (e_kernel a)) (kernel_dict (e_kernel a)) = Ok true).
  { apply (proj2 (hyp_true_iff s a a Ha Ha)). intros h v H. split; eauto. }
  rewrite Q. cbn [bind]. rewrite H2. cbn [noise_value]. unfold cmp, bop. rewrite bshape_self. cbn [bind].
  unfold truth. cbn [shape]. destruct (nprod (shape t)) as [|[|]]; auto; lia.
Qed.
(** A hyperparameter the other kernel lacks. *)
Lemma eq_missing_raises s a b : built_eq a -> built_eq b -> e_class a = e_class b ->
  (exists h, In h (map nm_name (kernel_declares (e_kernel a))) /\ ~ In h (map nm_name (kernel_declares (e_kernel b)))) ->
  py_eq s a b = Err KeyError \/ py_eq s a b = Ok false \/ py_eq s a b = Err ValueError.
Proof.
  intros Ha Hb E (h & Hi & Hn). rewrite py_eq_same, model_eq_alt, E, anc_refl by auto.
  rewrite (kdict a Ha), (kdict b Hb).
  assert (G : forall la, In h (map nm_name la) ->
     all_hypers s (map (fun n => (nm_name n, n)) la) (map (fun n => (nm_name n, n)) (kernel_declares (e_kernel b))) = Err KeyError \/
     all_hypers s (map (fun n => (nm_name n, n)) la) (map (fun n => (nm_name n, n)) (kernel_declares (e_kernel b))) = Ok false).
  { induction la as [|x la IH]; [intros []|]. cbn. intros [Ex|Hx].
    - assert (D : dget (map (fun n => (nm_name n, n)) (kernel_declares (e_kernel b))) (nm_name x) = None) by (apply dget_names_none; congruence).
      rewrite D. auto.
    - destruct (dget _ _); auto. destruct (num_eqb _ _); auto. }
  destruct (G _ Hi) as [->| ->]; cbn [bind]; auto.
  destruct (bop _ _ _) as [|e] eqn:B; auto. unfold bop in B. destruct (bshape _ _); [discriminate|]. injection B as <-. auto.
Qed.
