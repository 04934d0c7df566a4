(** Property theorems C30, C31 and C32: loss functions. *)
From Coq Require Import Lia Lra.
From Verif Require Import Base BaseFacts NdModel NdFacts RSum LinAlgModel LinAlgSpec LinAlgFacts GPModel LossModel
  LossSpec LossProofs LossLemmas Gauss GPSpec GPExamples.
Local Open Scope R_scope.
Local Open Scope string_scope.

(** * C30 *)
Theorem C30_mse_formula : forall p t, shape p = shape t ->
  mse_fn p t = Ok (total (shape p) (residual_sq p t) / INR (nprod (shape p))).
Proof. exact mse_formula. Qed.
Print Assumptions C30_mse_formula.

Theorem C30_mse_nonneg_zero_iff : forall p t v, shape p = shape t -> (0 < nprod (shape p))%nat ->
  mse_fn p t = Ok v -> 0 <= v /\ (v = 0 <-> nd_eq p t).
Proof. exact mse_nonneg. Qed.
Print Assumptions C30_mse_nonneg_zero_iff.

Theorem C30_pseudo_huber_formula : forall p t d, shape p = shape t ->
  pseudo_huber_fn p t d = Ok (total (shape p) (fun idx => huber_entry d (at_ t idx - at_ p idx))).
Proof. exact huber_formula. Qed.
Print Assumptions C30_pseudo_huber_formula.

(** Nonnegative, zero exactly on perfect predictions, below the quadratic and the linear
    asymptote, and within d^2 per entry of the linear one. *)
Theorem C30_pseudo_huber_bounds : forall p t d v, shape p = shape t -> d <> 0 ->
  pseudo_huber_fn p t d = Ok v ->
  (0 <= v /\ (v = 0 <-> nd_eq p t)) /\
  v <= total (shape p) (residual_sq p t) / 2 /\
  v <= total (shape p) (fun idx => Rabs d * Rabs (at_ p idx - at_ t idx)) /\
  total (shape p) (fun idx => Rabs d * Rabs (at_ p idx - at_ t idx) - d ^ 2) <= v.
Proof. exact huber_bounds. Qed.
Print Assumptions C30_pseudo_huber_bounds.

Theorem C30_lool_formula : forall ls sld p t v b s, vec3 p t v b ->
  lool_fn ls sld p t v s =
  Ok (rsum b (fun i => lool_entry (at_ p [i] - at_ t [i]) (s * at_ v [i]))).
Proof. exact lool_formula. Qed.
Print Assumptions C30_lool_formula.

Theorem C30_lool_unscaled_formula : forall ls sld p t v b, vec3 p t v b ->
  lool_fn_unscaled ls sld p t v =
  Ok (rsum b (fun i => lool_entry (at_ p [i] - at_ t [i]) (at_ v [i]))).
Proof. exact lool_unscaled_formula. Qed.
Print Assumptions C30_lool_unscaled_formula.

(** Over all positive rescalings of the variances lool is smallest, strictly, at the mean
    squared standardized residual. *)
Theorem C30_lool_scale_minimum : forall ls sld p t v b s0 s L0 L, vec3 p t v b -> (0 < b)%nat ->
  (forall i, (i < b)%nat -> 0 < at_ v [i]) ->
  s0 = / INR b * rsum b (fun i => (at_ p [i] - at_ t [i]) ^ 2 / at_ v [i]) -> 0 < s0 -> 0 < s ->
  lool_fn ls sld p t v s0 = Ok L0 -> lool_fn ls sld p t v s = Ok L ->
  L0 <= L /\ (s <> s0 -> L0 < L).
Proof. exact lool_fn_scale_min. Qed.
Print Assumptions C30_lool_scale_minimum.

Theorem C30_looph_formula : forall p t v b s d, vec3 p t v b ->
  looph_fn p t v s d =
  Ok (rsum b (fun i => looph_entry d (at_ p [i] - at_ t [i]) (s * at_ v [i]))).
Proof. exact looph_formula. Qed.
Print Assumptions C30_looph_formula.

(** looph lies between lool (its quadratic regime) and its linear asymptote. *)
Theorem C30_looph_bounds : forall ls sld p t v b s d L P, vec3 p t v b -> d <> 0 -> 0 < s ->
  (forall i, (i < b)%nat -> 0 < at_ v [i]) ->
  lool_fn ls sld p t v s = Ok L -> looph_fn p t v s d = Ok P ->
  P <= L /\
  rsum b (fun i => 2 * Rabs d * Rabs (at_ p [i] - at_ t [i]) / sqrt (s * at_ v [i]) - 2 * d ^ 2
                   + ln (s * at_ v [i])) <= P.
Proof. exact looph_bounds. Qed.
Print Assumptions C30_looph_bounds.

(** Cross entropy of the softmax scores; [eps] is the clipping of sklearn's log_loss. *)
Theorem C30_cross_entropy_formula : forall eps p t b k, shape p = [b; k] -> shape t = [b; k] ->
  (2 <= k)%nat -> (0 < b)%nat ->
  (forall i j, (i < b)%nat -> (j < k)%nat -> eps <= prob k (fun c => at_ p [i; c]) j <= 1 - eps) ->
  cross_entropy_fn eps p t = Ok (rsum b (fun i => rsum k (fun j =>
    if Rltb 0 (at_ t [i; j]) then - ln (prob k (fun c => at_ p [i; c]) j) else 0))).
Proof. exact cross_entropy_formula. Qed.
Print Assumptions C30_cross_entropy_formula.

Theorem C30_cross_entropy_nonneg : forall eps p t b k v, shape p = [b; k] -> shape t = [b; k] ->
  (2 <= k)%nat -> 0 < eps < 1/2 -> cross_entropy_fn eps p t = Ok v -> 0 <= v.
Proof. exact cross_entropy_nonneg. Qed.
Print Assumptions C30_cross_entropy_nonneg.

(** Adding a constant to the scores of a row changes nothing. *)
Theorem C30_cross_entropy_shift : forall eps p p' t b k c, shape p = [b; k] -> shape p' = [b; k] ->
  shape t = [b; k] -> (2 <= k)%nat ->
  (forall i j, (i < b)%nat -> (j < k)%nat -> at_ p' [i; j] = at_ p [i; j] + c i) ->
  cross_entropy_fn eps p' t = cross_entropy_fn eps p t.
Proof. exact cross_entropy_shift. Qed.
Print Assumptions C30_cross_entropy_shift.

(** Hypotheses are met: two predictions 1, 2 with targets 0, 0 and variances 1, 1 have the
    minimizer 5/2; a two-class batch has probabilities inside [1/100, 99/100]. *)
Definition exp_ : nd R := mkNd [2%nat] (fun idx => match idx with [i] => INR i + 1 | _ => 0 end).
Definition ext_ : nd R := mkNd [2%nat] (fun _ => 0).
Definition exv_ : nd R := mkNd [2%nat] (fun _ => 1).
Example C30_ex_lool : vec3 exp_ ext_ exv_ 2 /\ (forall i, (i < 2)%nat -> 0 < at_ exv_ [i]) /\
  / INR 2 * rsum 2 (fun i => (at_ exp_ [i] - at_ ext_ [i]) ^ 2 / at_ exv_ [i]) = 5 / 2.
Proof. split; [repeat split|]. split; [intros; cbn; lra|]. cbn. field. Qed.
Example C30_ex_cross : exists p, shape p = [2; 2]%nat /\
  forall i j, (i < 2)%nat -> (j < 2)%nat -> 1 / 100 <= prob 2 (fun c => at_ p [i; c]) j <= 1 - 1 / 100.
Proof.
  exists (mkNd [2; 2]%nat (fun _ => 0)). split; [reflexivity|]. intros. unfold prob. cbn.
  rewrite exp_0. lra.
Qed.

(** * C31 (refuted): for positive definite blocks the code returns at least b more than the
    documented value, b being the batch size, because it adds both halves of slogdet's pair
    (so the sign and a second copy of the quadratic form enter the sum). *)
Theorem C31_lool_block_refuted : forall ls, exact_solver ls -> forall sld p t V b n,
  shape p = [b; n] -> shape t = [b; n] -> shape V = [b; n; n] -> (0 < b)%nat ->
  (forall x, (x < b)%nat -> pd n (fun i j => at_ V [x; i; j])) ->
  (forall x, (x < b)%nat -> fst (sld n (fun i j => at_ V [x; i; j])) = 1) ->
  exists v, lool_fn_unscaled ls sld p t V = Ok v /\
    forall d, (forall x, (x < b)%nat -> lool_block n (fun i j => at_ V [x; i; j])
        (fun i => at_ p [x; i] - at_ t [x; i]) (snd (sld n (fun i j => at_ V [x; i; j]))) (d x)) ->
      INR b <= v - rsum b d.
Proof. exact lool_block_refuted. Qed.
Print Assumptions C31_lool_block_refuted.

(** What it does compute. *)
Theorem C31_lool_block_value : forall ls, exact_solver ls -> forall sld p t V b n,
  shape p = [b; n] -> shape t = [b; n] -> shape V = [b; n; n] ->
  (forall x, (x < b)%nat -> nonsingular n (fun i j => at_ V [x; i; j])) ->
  exists q v, lool_fn_unscaled ls sld p t V = Ok v /\
    (forall x, (x < b)%nat -> exists w, solves n (fun i j => at_ V [x; i; j]) w
        (fun i => at_ p [x; i] - at_ t [x; i]) /\
        q x = dot n (fun i => at_ p [x; i] - at_ t [x; i]) w) /\
    v = rsum b (fun x => 2 * q x + fst (sld n (fun i j => at_ V [x; i; j]))
                               + snd (sld n (fun i j => at_ V [x; i; j]))).
Proof. exact lool_block_value. Qed.
Print Assumptions C31_lool_block_value.

Example C31_ex : (exists ls, exact_solver ls) /\ shape exKin = [2; 2; 2]%nat /\
  (forall x, (x < 2)%nat -> pd 2 (fun i j => at_ exKin [x; i; j])).
Proof. split; [exists gauss; exact gauss_exact|]. split; [reflexivity|]. intros x Hx. exact (exKin_pd x). Qed.

(** * C32 *)

(** Every loss except lool_fn_unscaled gives a value whenever the predictions do. *)
Theorem C32_loss_evaluates_partial : forall ls sld eps l p t v s, l <> LoolUnscaled ->
  match l with
  | CrossEntropy => exists b k, (0 < b)%nat /\ (2 <= k)%nat /\ shape p = [b; k] /\ shape t = [b; k]
  | Mse | PseudoHuber => shape p = shape t
  | _ => exists b, vec3 p t v b
  end ->
  exists r, predict_and_loss ls sld eps l (Ok p) (Ok v) (Ok s) t None [] = Ok r.
Proof.
  intros ls sld eps l p t v s Hl Hf. apply loss_evaluates; [exact Hl|]. destruct l; exact Hf.
Qed.
Print Assumptions C32_loss_evaluates_partial.

(** A loss keyword that names one of the arguments the objective passes itself is an error, for every loss; a keyword that no loss declares is
    ignored by mse. *)
Theorem C30_repeated_keyword : forall ls sld eps l p t v s kw k r,
  In (k, r) kw -> In k (match l with Lool | Looph => ["predictions"; "targets"; "variances"; "scale"] | LoolUnscaled => ["predictions"; "targets"; "variances"]
                        | _ => ["predictions"; "targets"] end) ->
  loss_call ls sld eps l (match l with Lool | Looph => [AArr p; AArr t; AArr v; ANum s] | LoolUnscaled => [AArr p; AArr t; AArr v] | _ => [AArr p; AArr t] end) kw = Err TypeError.
Proof.
  intros ls sld eps l p t v s kw k r Hin Hk.
  assert (HK : has_key kw k = true).
  { unfold has_key. destruct (dget kw k) eqn:E; [reflexivity|]. exfalso. apply (proj1 (dget_none kw k)); [exact E|].
    apply (in_map fst) in Hin. exact Hin. }
  assert (CL : forall names, In k names -> clash kw names = true) by (intros names H; unfold clash; apply existsb_exists; exists k; auto).
  destruct l; cbn [loss_call]; try (rewrite CL by exact Hk; reflexivity). destruct kw; [contradiction|reflexivity].
Qed.
Print Assumptions C30_repeated_keyword.

Theorem C30_ignored_keyword : forall ls sld eps p t k r, k <> "predictions" -> k <> "targets" ->
  loss_call ls sld eps Mse [AArr p; AArr t] [(k, r)] = loss_call ls sld eps Mse [AArr p; AArr t] [].
Proof.
  intros ls sld eps p t k r H1 H2. cbn [loss_call clash existsb has_key].
  unfold has_key. cbn [dget]. apply String.eqb_neq in H1, H2. rewrite H1, H2. reflexivity.
Qed.
Print Assumptions C30_ignored_keyword.
Example C30_repeated_keyword_sat : In ("scale", 2) [("scale", 2)] /\ In "scale" ["predictions"; "targets"; "variances"; "scale"].
Proof. cbn. auto 6. Qed.

(** Finding: optimizing with lool_fn_unscaled always raises TypeError. *)
Theorem C32_lool_unscaled_refuted : forall ls sld eps p v s t kw,
  predict_and_loss ls sld eps LoolUnscaled (Ok p) (Ok v) (Ok s) t None kw = Err TypeError.
Proof. exact lool_unscaled_never. Qed.
Print Assumptions C32_lool_unscaled_refuted.

(** Finding: a target mask cannot be used with a variance-based loss on univariate data, nor
    with looph on any data. *)
Theorem C32_target_mask_refuted : forall ls sld eps l p v s t m kw b,
  (l = Lool \/ l = LoolUnscaled \/ l = Looph) -> vec3 p t v b ->
  predict_and_loss ls sld eps l (Ok p) (Ok v) (Ok s) t (Some m) kw = Err IndexError.
Proof. intros ls sld eps l p v s t m kw b Hl Hv. apply (mask_never ls sld eps l p v s t m kw b); [|exact Hv].
  destruct Hl as [->|[->| ->]]; reflexivity. Qed.
Print Assumptions C32_target_mask_refuted.

Theorem C32_looph_mask_refuted : forall ls sld eps p v s t m kw,
  exists e, predict_and_loss ls sld eps Looph (Ok p) (Ok v) (Ok s) t (Some m) kw = Err e.
Proof. exact looph_mask_never. Qed.
Print Assumptions C32_looph_mask_refuted.

(** The objective is minus the documented loss; boundary_scale reaches the two Huber losses, with defaults 1.5 and 3. *)
Theorem C32_objective_values : forall ls sld eps p v s t,
  (shape p = shape t ->
    predict_and_loss ls sld eps Mse (Ok p) (Ok v) (Ok s) t None [] =
      Ok (- (total (shape p) (residual_sq p t) / INR (nprod (shape p)))) /\
    forall kw d, kw = [] /\ d = 3 / 2 \/ kw = [("boundary_scale", d)] ->
      predict_and_loss ls sld eps PseudoHuber (Ok p) (Ok v) (Ok s) t None kw =
        Ok (- total (shape p) (fun idx => huber_entry d (at_ t idx - at_ p idx)))) /\
  (forall b, vec3 p t v b ->
    predict_and_loss ls sld eps Lool (Ok p) (Ok v) (Ok s) t None [] =
      Ok (- rsum b (fun i => lool_entry (at_ p [i] - at_ t [i]) (s * at_ v [i]))) /\
    forall kw d, kw = [] /\ d = 3 \/ kw = [("boundary_scale", d)] ->
      predict_and_loss ls sld eps Looph (Ok p) (Ok v) (Ok s) t None kw =
        Ok (- rsum b (fun i => looph_entry d (at_ p [i] - at_ t [i]) (s * at_ v [i])))).
Proof.
  intros ls sld eps p v s t. split.
  - intros E. split; [exact (mse_objective ls sld eps p v s t E)|]. intros kw d. exact (huber_objective ls sld eps p v s t kw d E).
  - intros b E. split; [exact (lool_objective ls sld eps p v s t b E)|]. intros kw d. exact (looph_objective ls sld eps p v s t kw d b E).
Qed.
Print Assumptions C32_objective_values.

(** With a target mask, the losses on the means score the masked columns, in the order of the mask, against the targets;
    an index beyond the last column raises IndexError. *)
Theorem C32_target_mask_partial : forall ls sld eps p b c m, shape p = [b; c] ->
  (forall var s t, shape t = [b; List.length m] -> (forall j, In j m -> (j < c)%nat) ->
    predict_and_loss ls sld eps Mse (Ok p) var s t (Some m) [] =
      Ok (- (rsum b (fun x => rsum (List.length m) (fun i => (at_ p [x; nth i m O] - at_ t [x; i]) ^ 2)) / INR (b * List.length m))) /\
    predict_and_loss ls sld eps PseudoHuber (Ok p) var s t (Some m) [] =
      Ok (- rsum b (fun x => rsum (List.length m) (fun i => huber_entry (3 / 2) (at_ t [x; i] - at_ p [x; nth i m O]))))) /\
  (forall l v s t kw j, In j m -> (c <= j)%nat ->
    predict_and_loss ls sld eps l (Ok p) (Ok v) (Ok s) t (Some m) kw = Err IndexError).
Proof.
  intros ls sld eps p b c m Sp. split.
  - intros var s t St Hm. split; [exact (masked_mse ls sld eps p var s t b c m Sp St Hm)|exact (masked_huber ls sld eps p var s t b c m Sp St Hm)].
  - intros l v s t kw j. exact (mask_out_of_range ls sld eps l p v s t b c m kw j Sp).
Qed.
Print Assumptions C32_target_mask_partial.

(** Finding: with a mask, lool receives the (batch, mask) table of masked variances as if it were a matrix, and raises
    whenever the batch size differs from the mask length. *)
Theorem C32_lool_mask_refuted : forall ls sld eps p v s t b c m kw,
  shape p = [b; c] -> shape v = [b; c; c] -> b <> List.length m ->
  exists e, predict_and_loss ls sld eps Lool (Ok p) (Ok v) (Ok s) t (Some m) kw = Err e.
Proof. exact lool_mask_never. Qed.
Print Assumptions C32_lool_mask_refuted.

Example C32_mask_ex : shape exKcross = [2; 2]%nat /\ shape (mkNd [2; 1]%nat (fun _ => 0)) = [2; List.length [1]]%nat /\
  (forall j, In j [1]%nat -> (j < 2)%nat) /\ 2%nat <> List.length [1]%nat.
Proof. repeat split; auto; intros j [<-|[]]; lia. Qed.

Example C32_ex : vec3 exp_ ext_ exv_ 2 /\ shape exKcross = [2; 2]%nat /\ (2 <= 2)%nat.
Proof. repeat split; auto. Qed.
