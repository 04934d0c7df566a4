(** Lemmas behind C30-C32, stated on the loss functions themselves. *)
From Coq Require Import Lia Lra.
From Verif Require Import Base BaseFacts NdModel NdFacts RSum LinAlgModel LinAlgSpec GPModel LossModel
  LossSpec LossProofs.
Local Open Scope R_scope.
Local Open Scope string_scope.

Lemma lool_fn_scale_min ls sld p t v b s0 s L0 L : vec3 p t v b -> (0 < b)%nat ->
  (forall i, (i < b)%nat -> 0 < at_ v [i]) ->
  s0 = / INR b * rsum b (fun i => (at_ p [i] - at_ t [i]) ^ 2 / at_ v [i]) -> 0 < s0 -> 0 < s ->
  lool_fn ls sld p t v s0 = Ok L0 -> lool_fn ls sld p t v s = Ok L ->
  L0 <= L /\ (s <> s0 -> L0 < L).
Proof.
  intros Hv Hb Hp Es H0 Hs E0 E. rewrite (lool_formula ls sld p t v b) in E0, E by assumption.
  injection E0 as <-. injection E as <-.
  exact (lool_scale_min b (fun i => at_ p [i] - at_ t [i]) (fun i => at_ v [i]) s0 s Hb Hp Es H0 Hs).
Qed.

Lemma looph_bounds ls sld p t v b s d L P : vec3 p t v b -> d <> 0 -> 0 < s ->
  (forall i, (i < b)%nat -> 0 < at_ v [i]) ->
  lool_fn ls sld p t v s = Ok L -> looph_fn p t v s d = Ok P ->
  P <= L /\
  rsum b (fun i => 2 * Rabs d * Rabs (at_ p [i] - at_ t [i]) / sqrt (s * at_ v [i]) - 2 * d ^ 2
                   + ln (s * at_ v [i])) <= P.
Proof.
  intros Hv Hd Hs Hp EL EP. rewrite (lool_formula ls sld p t v b) in EL by assumption.
  rewrite (looph_formula p t v b) in EP by assumption. injection EL as <-. injection EP as <-.
  split; apply rsum_le; intros i Hi.
  - apply looph_le_lool; [assumption|]. apply Rmult_lt_0_compat; auto.
  - apply looph_log_lower; [assumption|]. apply Rmult_lt_0_compat; auto.
Qed.

Definition fits_loss (l : loss) (p t v : nd R) : Prop :=
  match l with
  | CrossEntropy => exists b k, (0 < b)%nat /\ (2 <= k)%nat /\ shape p = [b; k] /\ shape t = [b; k]
  | Mse | PseudoHuber => shape p = shape t
  | Lool | LoolUnscaled | Looph => exists b, vec3 p t v b
  end.

Lemma loss_evaluates ls sld eps l p t v s : l <> LoolUnscaled -> fits_loss l p t v ->
  exists r, predict_and_loss ls sld eps l (Ok p) (Ok v) (Ok s) t None [] = Ok r.
Proof.
  intros Hl Hf. unfold predict_and_loss.
  destruct l; cbn [loss_wrapper bind loss_call clash existsb has_key dget orb] in *; try contradiction.
  - destruct Hf as [b [k [Hb [Hk [Hp Ht]]]]]. rewrite (cross_entropy_value eps p t b k) by assumption.
    cbn [bind]. eauto.
  - rewrite mse_formula by assumption. cbn [bind]. eauto.
  - destruct Hf as [b Hv]. rewrite (lool_formula ls sld p t v b) by assumption. cbn [bind]. eauto.
  - rewrite huber_formula by assumption. cbn [bind]. eauto.
  - destruct Hf as [b Hv]. rewrite (looph_formula p t v b) by assumption. cbn [bind]. eauto.
Qed.

Lemma lool_unscaled_never ls sld eps p v s t kw :
  predict_and_loss ls sld eps LoolUnscaled (Ok p) (Ok v) (Ok s) t None kw = Err TypeError.
Proof. reflexivity. Qed.

Lemma mask_never ls sld eps l p v s t m kw b : loss_wrapper l = VarWrapper -> vec3 p t v b ->
  predict_and_loss ls sld eps l (Ok p) (Ok v) (Ok s) t (Some m) kw = Err IndexError.
Proof.
  intros Hl [Hp [Ht Hv]]. unfold predict_and_loss. rewrite Hl. cbn [bind]. unfold mask_cols.
  rewrite Hp. reflexivity.
Qed.

Lemma looph_mask_never ls sld eps p v s t m kw :
  exists e, predict_and_loss ls sld eps Looph (Ok p) (Ok v) (Ok s) t (Some m) kw = Err e.
Proof.
  unfold predict_and_loss. cbn [loss_wrapper bind].
  destruct (mask_cols p m) as [p'|e]; cbn [bind]; [|eauto].
  unfold mask_diag. destruct (shape v) as [|a [|c [|d r]]] eqn:Ev; cbn [bind]; eauto.
  destruct (forallb _ m); cbn [bind]; [|eauto].
  unfold loss_call. destruct (clash _ _); cbn [bind]; [eauto|].
  unfold looph_fn, looph_fn_unscaled. cbn [shape ndmap]. cbn [bind]. eauto.
Qed.

(** ** The objective value, with and without a boundary scale keyword *)
Lemma huber_objective ls sld eps p v s t kw d : shape p = shape t ->
  kw = [] /\ d = 3 / 2 \/ kw = [("boundary_scale", d)] ->
  predict_and_loss ls sld eps PseudoHuber (Ok p) (Ok v) (Ok s) t None kw =
  Ok (- total (shape p) (fun idx => huber_entry d (at_ t idx - at_ p idx))).
Proof.
  intros E Hk. unfold predict_and_loss.
  destruct Hk as [[-> ->]| ->]; cbn [loss_wrapper bind loss_call clash existsb has_key dget orb]; cbn [String.eqb Ascii.eqb Bool.eqb];
    rewrite huber_formula by exact E; reflexivity.
Qed.

Lemma looph_objective ls sld eps p v s t kw d b : vec3 p t v b ->
  kw = [] /\ d = 3 \/ kw = [("boundary_scale", d)] ->
  predict_and_loss ls sld eps Looph (Ok p) (Ok v) (Ok s) t None kw =
  Ok (- rsum b (fun i => looph_entry d (at_ p [i] - at_ t [i]) (s * at_ v [i]))).
Proof.
  intros E Hk. unfold predict_and_loss.
  destruct Hk as [[-> ->]| ->]; cbn [loss_wrapper bind loss_call clash existsb has_key dget orb]; cbn [String.eqb Ascii.eqb Bool.eqb];
    rewrite (looph_formula p t v b) by exact E; reflexivity.
Qed.

Lemma mse_objective ls sld eps p v s t : shape p = shape t ->
  predict_and_loss ls sld eps Mse (Ok p) (Ok v) (Ok s) t None [] =
  Ok (- (total (shape p) (residual_sq p t) / INR (nprod (shape p)))).
Proof.
  intros E. unfold predict_and_loss. cbn [loss_wrapper bind loss_call clash existsb has_key dget orb].
  rewrite mse_formula by exact E. reflexivity.
Qed.

Lemma lool_objective ls sld eps p v s t b : vec3 p t v b ->
  predict_and_loss ls sld eps Lool (Ok p) (Ok v) (Ok s) t None [] =
  Ok (- rsum b (fun i => lool_entry (at_ p [i] - at_ t [i]) (s * at_ v [i]))).
Proof.
  intros E. unfold predict_and_loss. cbn [loss_wrapper bind loss_call clash existsb has_key dget orb].
  rewrite (lool_formula ls sld p t v b) by exact E. reflexivity.
Qed.

(** ** Target masks *)
Lemma mask_cols_ok p b c m : shape p = [b; c] -> (forall j, In j m -> (j < c)%nat) ->
  exists p', mask_cols p m = Ok p' /\ shape p' = [b; List.length m] /\
    forall x i, at_ p' [x; i] = at_ p [x; nth i m O].
Proof.
  intros Sp Hm. unfold mask_cols. rewrite Sp.
  replace (forallb _ m) with true by (symmetry; apply forallb_forall; intros j Hj; apply Nat.ltb_lt, Hm, Hj).
  eexists. split; [reflexivity|]. split; [reflexivity|]. reflexivity.
Qed.

Lemma masked_mse ls sld eps p var s t b c m : shape p = [b; c] -> shape t = [b; List.length m] ->
  (forall j, In j m -> (j < c)%nat) ->
  predict_and_loss ls sld eps Mse (Ok p) var s t (Some m) [] =
  Ok (- (rsum b (fun x => rsum (List.length m) (fun i => (at_ p [x; nth i m O] - at_ t [x; i]) ^ 2)) / INR (b * List.length m))).
Proof.
  intros Sp St Hm. destruct (mask_cols_ok p b c m Sp Hm) as (p' & E & Sp' & A). unfold predict_and_loss.
  cbn [loss_wrapper bind]. rewrite E. cbn [bind loss_call clash existsb has_key dget orb].
  rewrite mse_formula by congruence. cbn [bind]. rewrite Sp'. replace (nprod [b; List.length m]) with (b * List.length m)%nat by (unfold nprod; cbn [fold_left fold_right]; lia). do 3 f_equal. cbn [total].
  apply rsum_ext. intros x Hx. apply rsum_ext. intros i Hi. unfold residual_sq. rewrite A. reflexivity.
Qed.

Lemma masked_huber ls sld eps p var s t b c m : shape p = [b; c] -> shape t = [b; List.length m] ->
  (forall j, In j m -> (j < c)%nat) ->
  predict_and_loss ls sld eps PseudoHuber (Ok p) var s t (Some m) [] =
  Ok (- rsum b (fun x => rsum (List.length m) (fun i => huber_entry (3 / 2) (at_ t [x; i] - at_ p [x; nth i m O])))).
Proof.
  intros Sp St Hm. destruct (mask_cols_ok p b c m Sp Hm) as (p' & E & Sp' & A). unfold predict_and_loss.
  cbn [loss_wrapper bind]. rewrite E. cbn [bind loss_call clash existsb has_key dget orb].
  rewrite huber_formula by congruence. cbn [bind]. rewrite Sp'. do 2 f_equal. cbn [total].
  apply rsum_ext. intros x Hx. apply rsum_ext. intros i Hi. rewrite A. reflexivity.
Qed.

Lemma mask_out_of_range ls sld eps l p v s t b c m kw j : shape p = [b; c] -> In j m -> (c <= j)%nat ->
  predict_and_loss ls sld eps l (Ok p) (Ok v) (Ok s) t (Some m) kw = Err IndexError.
Proof.
  intros Sp Hj Hc. assert (E : mask_cols p m = Err IndexError).
  { unfold mask_cols. rewrite Sp. replace (forallb _ m) with false; [reflexivity|]. symmetry. apply Bool.not_true_is_false.
    rewrite forallb_forall. intros H. specialize (H j Hj). apply Nat.ltb_lt in H. lia. }
  unfold predict_and_loss. destruct (loss_wrapper l); cbn [bind]; rewrite E; reflexivity.
Qed.

(** lool on the masked variances: a (batch, mask) table is not a stack of square matrices. *)
Lemma lool_mask_never ls sld eps p v s t b c m kw : shape p = [b; c] -> shape v = [b; c; c] -> b <> List.length m ->
  exists e, predict_and_loss ls sld eps Lool (Ok p) (Ok v) (Ok s) t (Some m) kw = Err e.
Proof.
  intros Sp Sv Hb. unfold predict_and_loss. cbn [loss_wrapper bind].
  destruct (mask_cols p m) as [p'|e] eqn:Ep; cbn [bind]; [|eauto].
  unfold mask_diag. rewrite Sv. destruct (forallb _ m); cbn [bind]; [|eauto].
  unfold loss_call. destruct (clash _ _); cbn [bind]; [eauto|].
  unfold lool_fn, lool_fn_unscaled. cbn [shape ndmap]. destruct (bop Rminus p' t) as [r|e]; cbn [bind]; [|eauto].
  unfold np_solve at 1. cbn [shape ndmap rev app].
  destruct (rev (shape (atleast_3d r))) as [|k [|mm rB]]; cbn [bind]; eauto.
  replace (List.length m =? b)%nat with false by (symmetry; apply Nat.eqb_neq; congruence). cbn [andb bind]. eauto.
Qed.
