(** C101 for shear models: far from the survey, lensing predictions revert to the prior. *)
From Coq Require Import Lia Lra.
From Verif Require Import Base NdModel RSum LinAlgModel LinAlgSpec Gauss GPModel NoiseModel MuyGPSModel GPSpec TensorModel TensorSpec
  HyperModel HyperSpec NamedModel NamedSpec KernelModel KernelSpec FlowSpec LossModel LossSpec ChassisModel ChassisSpec WorkSpec FarSpec TrainSpec
  ShearModel ShearSpec ShearFlowSpec ShearEdge ShearTrainModel ShearTrainSpec ShearTrainProofs2 ShearTrainProps ShearFarProofs.
Local Open Scope R_scope.
Local Open Scope string_scope.

(** A test point at distance [D] from every training point: the predicted observables decay at least like the inverse square of [D] (with
    observations bounded by [Y]), their covariance approaches the prior covariance like the inverse fourth power. *)
Theorem C101_shear_rate : forall ls, exact_solver ls -> forall km sn s F l v test train targets ix nn m n b k Y,
  shear_trainable km sn s F -> shear_values s F l v -> shear_inputs test train targets ix nn m n b k -> 0 <= f_var_scale F ->
  (forall i o, (i < n)%nat -> (o < 3)%nat -> Rabs (at_ targets [i; o]) <= Y) ->
  exists mean var, shear_posterior ls km sn s F test train targets ix nn = Ok (mean, var) /\
    forall x r D, (x < b)%nat -> selects m (at_ ix [x]) r -> 0 < D -> far_from test train n r D ->
      let N := INR (observed km * k) in let h := 162 / (l * D ^ 2) in
      forall o, (o < 3)%nat -> Rabs (at_ mean [x; o]) <= N * h * Y / v /\
        forall o', (o' < 3)%nat ->
          Rabs (at_ var [x; o; o'] - f_var_scale F * shear_cov l (obs o) (obs o') (feature test r) (feature test r)) <= f_var_scale F * (N * h ^ 2 / v).
Proof. exact shear_far. Qed.
Print Assumptions C101_shear_rate.

(** For every tolerance there is one distance that works for all surveys with observations bounded by [Y]. *)
Theorem C101_shear_reverts_to_prior : forall ls, exact_solver ls -> forall km sn l v sc k Y eps,
  0 < l -> 0 < v -> 0 <= sc -> 0 <= Y -> 0 < eps ->
  exists D, 0 < D /\ forall s F test train targets ix nn m n b,
  shear_trainable km sn s F -> shear_values s F l v -> f_var_scale F = sc -> shear_inputs test train targets ix nn m n b k ->
  (forall i o, (i < n)%nat -> (o < 3)%nat -> Rabs (at_ targets [i; o]) <= Y) ->
  exists mean var, shear_posterior ls km sn s F test train targets ix nn = Ok (mean, var) /\
    forall x r, (x < b)%nat -> selects m (at_ ix [x]) r -> far_from test train n r D ->
      forall o, (o < 3)%nat -> Rabs (at_ mean [x; o]) <= eps /\
        forall o', (o' < 3)%nat -> Rabs (at_ var [x; o; o'] - sc * shear_cov l (obs o) (obs o') (feature test r) (feature test r)) <= eps.
Proof.
  intros ls EX km sn l v sc k Y eps Hl Hv Hs HY He.
  set (N := INR (observed km * k)). assert (N0 : 0 <= N) by apply pos_INR.
  set (B := 1 + N * (Y + sc)). assert (B0 : 0 < B) by (assert (0 <= N * (Y + sc)) by (apply Rmult_le_pos; lra); unfold B; lra).
  set (h0 := Rmin 1 (eps * v / B)).
  assert (E0 : 0 < eps * v / B) by (apply Rdiv_lt_0_compat; [apply Rmult_lt_0_compat; auto|exact B0]).
  assert (H0 : 0 < h0) by (apply Rmin_glb_lt; lra). assert (H1 : h0 <= 1) by apply Rmin_l. assert (H2 : h0 <= eps * v / B) by apply Rmin_r.
  assert (LH : 0 < 162 / (l * h0)) by (apply Rdiv_lt_0_compat; [lra|apply Rmult_lt_0_compat; auto]).
  set (D := 1 + 162 / (l * h0)). assert (D1 : 1 <= D) by (unfold D; lra). exists D. split; [lra|].
  intros s F test train targets ix nn m n b TR SV <- IN TB.
  destruct (C101_shear_rate ls EX km sn s F l v test train targets ix nn m n b k Y TR SV IN Hs TB) as (mean & var & E & H).
  exists mean, var. split; [exact E|]. intros x r Hx Hr FF o Ho.
  destruct (H x r D Hx Hr ltac:(lra) FF o Ho) as [HM HV]. clear H. fold N in HM, HV. set (h := 162 / (l * D ^ 2)) in *.
  assert (LD : 0 < l * D ^ 2) by (apply Rmult_lt_0_compat; [exact Hl|apply pow_lt; lra]).
  assert (h1 : 0 < h) by (apply Rdiv_lt_0_compat; [lra|exact LD]).
  assert (hh : h <= h0).
  { apply (Rmult_le_reg_r (l * D ^ 2)); [exact LD|]. unfold h at 1. unfold Rdiv. rewrite Rmult_assoc, Rinv_l, Rmult_1_r by lra.
    apply Rle_trans with (h0 * (l * (162 / (l * h0)))); [right; field; split; lra|]. apply Rmult_le_compat_l; [lra|]. apply Rmult_le_compat_l; [lra|].
    cbn [pow]. unfold D in *. nra. }
  assert (BH : B * h <= eps * v).
  { apply Rle_trans with (B * (eps * v / B)); [apply Rmult_le_compat_l; lra|right; field; lra]. }
  assert (NY : 0 <= N * Y) by (apply Rmult_le_pos; auto). assert (NS : 0 <= N * f_var_scale F) by (apply Rmult_le_pos; auto).
  assert (BE : B = 1 + N * Y + N * f_var_scale F) by (unfold B; ring).
  split.
  - eapply Rle_trans; [exact HM|]. apply (Rmult_le_reg_r v); [exact Hv|]. replace (N * h * Y / v * v) with (N * Y * h) by (field; lra). nra.
  - intros o' Ho'. eapply Rle_trans; [apply HV; exact Ho'|]. apply (Rmult_le_reg_r v); [exact Hv|].
    replace (f_var_scale F * (N * h ^ 2 / v) * v) with (N * f_var_scale F * h * h) by (field; lra).
    assert (0 <= N * f_var_scale F * h) by (apply Rmult_le_pos; lra). nra.
Qed.
Print Assumptions C101_shear_reverts_to_prior.

(** The survey of C89_sat, with observations bounded by 10; a test table whose points are all at distance [D] or more. *)
Definition exDistant (D : R) : nd R := mkNd [4; 2]%nat (fun idx => match idx with [_; O] => - D | _ => 0 end).
Example C101_shear_sat : exact_solver gauss /\ shear_trainable Full33 true ex89_store ex89 /\ shear_values ex89_store ex89 1 (1/2) /\
  0 <= f_var_scale ex89 /\ (exists Y, forall i o, (i < 4)%nat -> (o < 3)%nat -> Rabs (at_ exTgt [i; o]) <= Y) /\
  forall D, 0 < D -> shear_inputs (exDistant D) exFeat exTgt exIx exNn 4 4 4 3 /\ forall r, (r < 4)%nat -> far_from (exDistant D) exFeat 4 r D.
Proof.
  destruct C89_sat as (EX & _ & _ & _ & _ & T1 & _ & SV & _ & _ & _ & _ & _ & IN).
  split; [exact EX|]. split; [exact T1|]. split; [exact SV|]. split; [cbn; lra|]. split.
  { exists (rsum 4 (fun i => rsum 3 (fun o => Rabs (at_ exTgt [i; o])))). intros i o Hi Ho.
    eapply Rle_trans; [|apply (rsum_term_le 4 (fun i => rsum 3 (fun o => Rabs (at_ exTgt [i; o]))) i); [intros; apply rsum_nonneg; intros; apply Rabs_pos|exact Hi]].
    apply (rsum_term_le 3 (fun o => Rabs (at_ exTgt [i; o])) o); [intros; apply Rabs_pos|exact Ho]. }
  intros D D0. split. { destruct IN. constructor; auto. }
  intros r Hr a Ha. unfold euclid, sqdist, feature_count, feature, exDistant, exFeat. cbn [shape at_ rsum].
  assert (P : 0 <= INR (a + a * 0)) by apply pos_INR.
  match goal with |- D <= sqrt ?q => assert (Q : D ^ 2 <= q) end.
  { cbn [pow]. match goal with |- _ <= 0 + ?x + ?y => assert (0 <= y) by (pose proof (pow2_ge_0 (0 - INR (a + a * 1))) as X; cbn [pow] in X; lra) end. nra. }
  apply Rle_trans with (sqrt (D ^ 2)); [right; symmetry; apply sqrt_pow2; lra|apply sqrt_le_1_alt; exact Q].
Qed.
