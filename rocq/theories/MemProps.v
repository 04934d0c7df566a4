(** C29: kernels, noise perturbation and objectives do not modify the caller's arrays. *)
From Coq Require Import Lia Lra.
From Verif Require Import Base NdModel NdFacts RSum HyperModel NamedModel TensorModel LinAlgModel LinAlgSpec Gauss KernelModel
  GPModel NoiseModel LossModel CongProofs MemModel MemSpec MemProofs MemLemmas.
Local Open Scope R_scope.
Local Open Scope string_scope.

(** C29: calling an RBF or Matern kernel (any deformation, any smoothness branch including the in-place general
    Matern, any keywords) on any array changes no buffer that existed before, returns a new array with the
    contents the pure kernel formula gives, or raises the same exception. *)
Theorem C29_kernel : forall gamma kv k cur x kw h h' r, lives h x ->
  mem_kernel_call gamma kv k cur x kw h = (h', r) ->
  untouched h h' /\ same_outcome (contents h' r) (kernel_value gamma kv k cur (read h x) kw) /\ fresh_result h r.
Proof.
  intros gamma kv k cur x kw h h' r L E. destruct (mem_kernel_good gamma kv k cur x kw h L) as (U & S & F & _).
  rewrite E in *. auto.
Qed.
Print Assumptions C29_kernel.

(** C29: perturbing a kernel tensor with any noise model changes no existing buffer and gives the contents the
    pure formula gives; every model but the null one returns a new array. *)
Theorem C29_noise : forall v1 v2 z Kin noise h h' r, lives h Kin -> noise_lives h z ->
  mem_perturb v1 v2 z Kin noise h = (h', r) ->
  untouched h h' /\ same_outcome (contents h' r) (perturb (noise_contents h z) (read h Kin) noise) /\
  (z <> MNull -> fresh_result h r).
Proof.
  intros v1 v2 z Kin noise h h' r L LZ E.
  destruct (mem_perturb_good v1 v2 z Kin noise h (read h Kin) L LZ (nd_eq_refl _)) as [(U & S & _) F].
  rewrite E in *. auto.
Qed.
Print Assumptions C29_noise.

(** C29: later in-place writes to a perturbed tensor do not reach the unperturbed one, for every noise model but
    the null one ... *)
Theorem C29_noise_result_independent : forall v1 v2 z Kin noise h h' t mask x h'' u, lives h Kin -> noise_lives h z ->
  z <> MNull -> mem_perturb v1 v2 z Kin noise h = (h', Ok t) -> store_where t mask x h' = (h'', u) ->
  nd_eq (read h'' Kin) (read h Kin).
Proof.
  intros v1 v2 z Kin noise h h' t mask x h'' u L LZ N E W.
  destruct (C29_noise _ _ _ _ _ _ _ _ L LZ E) as (U & _ & F). specialize (F N). cbn in F.
  unfold store_where in W. injection W as <- <-. split; [reflexivity|]. intros idx Hi. cbn.
  rewrite store_other by (unfold lives in L; lia). apply U. exact L.
Qed.
Print Assumptions C29_noise_result_independent.
(** ... which hands the caller's own array back, so that writing to the result overwrites the argument. *)
Theorem C29_null_noise_aliases_refuted : forall v1 v2 Kin noise h h' t c h'' u, lives h Kin -> contig Kin ->
  mem_perturb v1 v2 MNull Kin noise h = (h', Ok t) -> store_where t (fun _ => true) (fun _ => c) h' = (h'', u) ->
  forall idx, inb (t_shape Kin) idx -> at_ (read h'' Kin) idx = c.
Proof.
  intros v1 v2 Kin noise h h' t c h'' u L C E W idx Hi. cbn in E. injection E as <- <-.
  destruct (store_where_spec Kin (fun _ => true) (fun _ => c) C h L) as (h2 & E2 & _ & _ & Rd).
  rewrite W in E2. injection E2 as <- _. destruct Rd as [_ Rd]. rewrite (Rd idx Hi). reflexivity.
Qed.
Print Assumptions C29_null_noise_aliases_refuted.

(** C29: any number of evaluations of a leave-one-out objective, in any order, with any hyperparameter
    candidates, leaves every array as it was, and each evaluation has the value it would have on its own. *)
Theorem C29_objective : forall gamma kv mean_f var_f scale_f loss_f,
  content_only3 same_outcome mean_f -> content_only2 same_outcome var_f -> content_only2 eq scale_f ->
  content_only3 eq (fun m t v => loss_f m t v) ->
  forall kws views k z cur pw cw nt tg h h' rs,
  lives h pw -> lives h cw -> lives h nt -> lives h tg -> noise_lives h z ->
  mem_evaluate gamma kv mean_f var_f scale_f loss_f views k z cur pw cw nt tg kws h = (h', rs) ->
  untouched h h' /\
  rs = map (objective_value gamma kv mean_f var_f scale_f loss_f k (noise_contents h z) cur
        (read h pw) (read h cw) (read h nt) (read h tg)) kws.
Proof. intros. eapply evaluate_ok; eauto. Qed.
Print Assumptions C29_objective.

(** C29: the same for the library's own routines: the posterior mean and variance, the analytic scale and the
    leave-one-out pseudo-Huber loss. *)
Theorem C29_objective_looph : forall gamma kv ls Kout boundary, exact_solver ls ->
  forall kws views k z cur pw cw nt tg h h' rs,
  lives h pw -> lives h cw -> lives h nt -> lives h tg -> noise_lives h z ->
  let mean_f := posterior_mean ls in
  let var_f := fun K C => diagonal_variance ls K C Kout 1 in
  let scale_f := analytic_scale ls in
  let loss_f := fun m t v s => looph_fn m t v s boundary in
  mem_evaluate gamma kv mean_f var_f scale_f loss_f views k z cur pw cw nt tg kws h = (h', rs) ->
  untouched h h' /\
  rs = map (objective_value gamma kv mean_f var_f scale_f loss_f k (noise_contents h z) cur
        (read h pw) (read h cw) (read h nt) (read h tg)) kws.
Proof.
  intros gamma kv ls Kout boundary Hls kws views k z cur pw cw nt tg h h' rs. intros. eapply C29_objective; eauto.
  - apply posterior_mean_content; auto.
  - apply diagonal_variance_content; auto.
  - apply analytic_content; auto.
  - apply looph_content.
Qed.
Print Assumptions C29_objective_looph.

(** C29: what protects the caller is the copy made by the deformation: the general Matern function itself
    overwrites its argument (a one-entry array holding 1 ends up holding the kernel value). *)
Theorem C29_general_matern_is_in_place : forall gamma kv nu,
  let h := mkHeap 1 (fun _ _ => 1) in
  let t := mkRef 0 [1%nat] (ravel [1%nat]) in
  let (h', r) := mem_matern_gen gamma kv t nu h in
  r = Ok t /\ h_buf h' 0 0 = gen_entry gamma kv nu 1.
Proof.
  intros gamma kv nu. cbn zeta. set (h := mkHeap 1 (fun _ _ => 1)). set (t := mkRef 0 [1%nat] (ravel [1%nat])).
  destruct (matern_gen_spec gamma kv t nu h) as (h' & E & _ & _ & Rd); [unfold lives; cbn; lia|reflexivity|].
  rewrite E. split; auto. destruct Rd as [_ Rd]. specialize (Rd [0%nat]). cbn [read ndmap at_ shape] in Rd.
  change (t_pos t [0%nat]) with 0%nat in Rd. change (t_addr t) with 0%nat in Rd. apply Rd. cbn. apply inb1. lia.
Qed.
Print Assumptions C29_general_matern_is_in_place.

(** A concrete memory: two distance arrays, targets, and a heteroscedastic noise array, all living in it. *)
Example C29_example :
  let h := mkHeap 5 (fun a p => INR (a + p)) in
  let pw := mkRef 0 [1; 2; 2]%nat (ravel [1; 2; 2]%nat) in
  let cw := mkRef 1 [1; 2]%nat (ravel [1; 2]%nat) in
  let nt := mkRef 2 [1; 2]%nat (ravel [1; 2]%nat) in
  let tg := mkRef 3 [1]%nat (ravel [1]%nat) in
  let z := MHetero (mkRef 4 [1; 2]%nat (ravel [1; 2]%nat)) in
  lives h pw /\ lives h cw /\ lives h nt /\ lives h tg /\ noise_lives h z /\ exact_solver gauss.
Proof. cbn. repeat split; try (unfold lives; cbn; lia); apply gauss_exact. Qed.
