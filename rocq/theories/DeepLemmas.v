(** Further lemmas for C75-C78. *)
From Coq Require Import Lia Lra.
From Verif Require Import Base BaseFacts NdModel NdFacts RSum LinAlgModel LinAlgSpec LinAlgFacts GPModel NoiseModel MuyGPSModel GPSpec
  TensorModel TensorSpec FlowModel FlowSpec FlowProofs FlowLemmas MultiModel MultiSpec MultiProofs MuyGPSProofs LossModel LossSpec LossProofs
  BackendModel BackendProofs BackendProofs2 NeighborsModel NoiseProofs DeepModel DeepSpec DeepProofs.
Local Open Scope R_scope.

Lemma filter_length_le {A} (f : A -> bool) l : (List.length (filter f l) <= List.length l)%nat.
Proof. induction l as [|a l IH]; cbn; [lia|]. destruct (f a); cbn; lia. Qed.

Lemma classic_dec_l w (q : nat -> nat) c : (exists l, (l < w)%nat /\ q l = c) \/ (forall l, (l < w)%nat -> q l <> c).
Proof.
  induction w as [|w [(l & Hl & E)|H]]; [right; lia|left; exists l; split; [lia|auto]|].
  destruct (Nat.eq_dec (q w) c) as [E|E]; [left; exists w; split; [lia|auto]|].
  right. intros l Hl. destruct (Nat.eq_dec l w) as [->|]; [auto|apply H; lia].
Qed.

Lemma row_dist_nonneg F x y i j : 0 <= row_dist F x y i j.
Proof. apply rsum_nonneg. intros f Hf. apply pow2_ge_0. Qed.

Lemma self_first F N b w x y nn c : closest_rows F N b w x y nn -> rows_of b F x y c -> (forall a, (a < b)%nat -> (c a < N)%nat) ->
  distinct_rows N F x -> (0 < w)%nat -> forall a, (a < b)%nat -> at_ nn [a; O] = Z.of_nat (c a).
Proof.
  intros [_ [q Hq]] [_ Hy] Hc Hd Hw a Ha. destruct (Hq a Ha) as (H1 & H2 & H3 & H4). destruct (H1 O Hw) as [E Hlt].
  rewrite E. f_equal. destruct (Nat.eq_dec (q a O) (c a)) as [|Hne]; [auto|exfalso].
  assert (D : forall i, row_dist F y x a i = row_dist F x x (c a) i).
  { intros i. apply rsum_ext. intros f Hf. rewrite Hy by auto. reflexivity. }
  assert (Z0 : row_dist F x x (c a) (c a) = 0).
  { unfold row_dist. rewrite (rsum_ext _ _ (fun _ => 0)) by (intros; ring). apply rsum_0. }
  assert (Hpos : row_dist F x x (c a) (q a O) <> 0) by (apply Hd; auto).
  pose proof (row_dist_nonneg F x x (c a) (q a O)) as Hnn.
  assert (Hle : row_dist F x x (c a) (q a O) <= 0).
  { destruct (classic_dec_l w (q a) (c a)) as [(l & Hl & El)|Hno].
    - assert (l <> O) by (intros ->; auto). specialize (H3 O l ltac:(lia) Hl). rewrite El, !D, Z0 in H3. exact H3.
    - specialize (H4 (c a) O (Hc a Ha) Hw Hno). rewrite !D, Z0 in H4. exact H4. }
  lra.
Qed.

(** A neighbourhood that contains the point itself reproduces its response exactly (no noise). *)
Lemma kriging_self w A kv y v j0 : (j0 < w)%nat -> nonsingular w A -> (forall i, (i < w)%nat -> kv i = A i j0) ->
  kriging w A kv y v -> v = y j0.
Proof.
  intros Hj Hns Hk (wv & Hs & ->).
  assert (E : forall j, (j < w)%nat -> wv j = delta j j0).
  { intros j Hjw. assert (H0 : wv j - delta j j0 = 0); [|lra].
    apply (Hns (fun j => wv j - delta j j0)); [|auto].
    intros i Hi. rewrite (rsum_ext _ _ (fun j => A i j * wv j - A i j * delta j j0)) by (intros; ring).
    rewrite rsum_minus. specialize (Hs i Hi). cbn beta in Hs. rewrite Hs, Hk by auto.
    rewrite (rsum_ext _ _ (fun j => delta j j0 * A i j)) by (intros; ring). rewrite rsum_delta by auto. ring. }
  unfold dot. rewrite (rsum_ext _ _ (fun j => delta j j0 * y j)) by (intros j Hjw; rewrite E by auto; reflexivity).
  apply rsum_delta; auto.
Qed.

Lemma layer1_leak ls y F k x responses N b w q c r :
  exact_solver ls -> pointwise_kernel F (l1_kernel y (l1_length_scale y)) k -> (forall d, k (fun f => - d f) = k d) ->
  shape x = [N; F] -> gp_noise (l1_gp y) = NullNoise ->
  shape responses = [N; r] -> take responses (l1_nn_indices y) = Ok (l1_nn_targets y) -> shape (gp_Kout (l1_gp y)) = [] ->
  shape (l1_indices y) = [b] -> (forall a, (a < b)%nat -> at_ (l1_indices y) [a] = Z.of_nat (c a) /\ (c a < N)%nat) ->
  index_matrix (l1_nn_indices y) b w N q -> r <> w -> (0 < w)%nat ->
  (forall a, (a < b)%nat -> nonsingular w (nbr_matrix k NullNoise x q a)) ->
  (forall a, (a < b)%nat -> q a O = c a) ->
  exists p v, layer1_forward ls y x = Ok (p, v) /\ shape p = [b; r] /\
    forall a s, (a < b)%nat -> (s < r)%nat -> at_ p [a; s] = at_ responses [c a; s].
Proof.
  intros Hls Hk Hsym Sx Hg HT ET HO Hix Hc Hnn Hr Hw Hns Hself.
  destruct (layer1_posterior ls y F k x responses N b w q c r) as (p & v & E & Sp & _ & Hp & _); rewrite ?Hg; auto; try exact I.
  exists p, v. split; [exact E|]. split; [exact Sp|]. intros a s Ha Hs. rewrite <- (Hself a Ha).
  specialize (Hp a s Ha Hs). rewrite Hg in Hp. refine (kriging_self w _ _ _ _ O Hw (Hns a Ha) _ Hp).
  intros i Hi. unfold nbr_matrix, plus_diag, kcov. cbn [noise_at].
  rewrite <- (Hself a Ha).
  rewrite (proj1 Hk (fun f => feature x (q a O) f - feature x (q a i) f) (fun f => - (feature x (q a i) f - feature x (q a O) f))) by (intros; ring).
  rewrite Hsym. destruct (i =? O)%nat; ring.
Qed.

(** ** Losses *)
Lemma total_squeeze sh : forall f, total (squeeze_shape sh) (fun idx => f (unsqueeze_idx sh idx)) = total sh f.
Proof.
  induction sh as [|d sh IH]; intros f; [reflexivity|]. unfold squeeze_shape. cbn [filter unsqueeze_idx].
  destruct (Nat.eqb_spec d 1) as [->|Hd]; cbn [negb].
  - cbn [total rsum]. fold (squeeze_shape sh). rewrite (IH (fun l => f (O :: l))). cbn. ring.
  - cbn [total]. apply rsum_ext. intros i Hi. apply (IH (fun l => f (i :: l))).
Qed.

Lemma to_sum_all t : nd_sum (to_sum t) = nd_sum t.
Proof.
  destruct (shape t) as [|b rest] eqn:S; [unfold to_sum; rewrite S; reflexivity|].
  destruct (to_sum_total t b rest S) as [S1 E]. rewrite E, nd_sum_total, S1. reflexivity.
Qed.

Definition lool_term (p t v : R) : R := (p - t) ^ 2 / v + ln v.

Lemma lool_value bce ce ls p t v sh : shape p = sh -> shape t = sh -> shape v = sh -> (List.length sh <= 2)%nat ->
  deep_loss_value bce ce ls LLool p t v = Ok (total sh (fun idx => lool_term (at_ p idx) (at_ t idx) (at_ v idx))).
Proof.
  intros Sp St Sv Hl. cbn [deep_loss_value]. unfold to_lool_unscaled, bk_lool_terms.
  assert (Hn : (ndim (squeeze v) =? 3)%nat = false).
  { apply Nat.eqb_neq. unfold ndim. cbn [squeeze shape]. rewrite Sv. unfold squeeze_shape.
    pose proof (filter_length_le (fun d => negb (d =? 1)%nat) sh). lia. }
  rewrite Hn.
  destruct (bop_same Rminus (squeeze p) (squeeze t)) as (r & -> & Sr & Ar); [cbn [squeeze shape]; congruence|]. cbn [bind].
  destruct (bop_same Rdiv (ndmap (fun x => x ^ 2) r) (squeeze v)) as (d & -> & Sd & Ad); [cbn [ndmap squeeze shape] in *; congruence|]. cbn [bind].
  destruct (bop_same Rplus d (ndmap ln (squeeze v))) as (u & -> & Su & Au); [cbn [ndmap squeeze shape] in *; congruence|]. cbn [bind].
  f_equal. rewrite to_sum_all, nd_sum_total.
  assert (Su' : shape u = squeeze_shape sh) by (cbn [ndmap squeeze shape] in *; congruence).
  rewrite Su'. rewrite <- (total_squeeze sh). apply total_ext. intros idx Hi.
  rewrite Au by (cbn [ndmap squeeze shape] in *; congruence).
  rewrite Ad by (cbn [ndmap squeeze shape] in *; congruence). cbn [ndmap at_].
  rewrite Ar by (cbn [ndmap squeeze shape] in *; congruence). cbn [squeeze at_]. rewrite Sp, St, Sv. reflexivity.
Qed.

(** One response with a trailing axis. *)
Lemma lool_value_column bce ce ls p t v b : shape p = [b; 1%nat] -> shape t = [b; 1%nat] -> shape v = [b] ->
  deep_loss_value bce ce ls LLool p t v = Ok (rsum b (fun x => lool_term (at_ p [x; O]) (at_ t [x; O]) (at_ v [x]))).
Proof.
  intros Sp St Sv.
  cbn [deep_loss_value]. unfold to_lool_unscaled, bk_lool_terms.
  assert (Sh : shape (squeeze v) = shape (squeeze p)).
  { cbn [squeeze shape]. rewrite Sv, Sp. unfold squeeze_shape. cbn [filter]. destruct (b =? 1)%nat; reflexivity. }
  assert (Hn : (ndim (squeeze v) =? 3)%nat = false).
  { apply Nat.eqb_neq. unfold ndim. cbn [squeeze shape]. rewrite Sv. unfold squeeze_shape. cbn [filter].
    destruct (negb (b =? 1)%nat); cbn; lia. }
  rewrite Hn.
  destruct (bop_same Rminus (squeeze p) (squeeze t)) as (r & -> & Sr & Ar); [cbn [squeeze shape]; congruence|]. cbn [bind].
  destruct (bop_same Rdiv (ndmap (fun x => x ^ 2) r) (squeeze v)) as (d & -> & Sd & Ad); [cbn [ndmap shape] in *; congruence|]. cbn [bind].
  destruct (bop_same Rplus d (ndmap ln (squeeze v))) as (u & -> & Su & Au); [cbn [ndmap shape] in *; congruence|]. cbn [bind].
  f_equal. rewrite to_sum_all, nd_sum_total.
  assert (Su' : shape u = squeeze_shape [b]) by (cbn [ndmap shape] in *; rewrite Su, Sd, Sr, <- Sh; cbn [squeeze shape]; rewrite Sv; reflexivity).
  rewrite Su'.
  transitivity (total [b] (fun idx => lool_term (at_ p (idx ++ [O])) (at_ t (idx ++ [O])) (at_ v idx))); [|reflexivity].
  rewrite <- (total_squeeze [b]). apply total_ext. intros idx Hi.
  assert (Hi' : inb (shape u) idx) by congruence.
  rewrite Au by (cbn [ndmap shape] in *; congruence).
  rewrite Ad by (cbn [ndmap shape] in *; congruence). cbn [ndmap at_].
  rewrite Ar by (cbn [ndmap shape] in *; congruence). unfold squeeze. cbn [at_]. rewrite Sp, St, Sv. unfold lool_term. cbn [unsqueeze_idx].
  unfold squeeze_shape in Hi. cbn [filter] in Hi.
  destruct (Nat.eqb_spec b 1) as [->|Hb]; cbn [negb] in Hi.
  - reflexivity.
  - apply inb_inv1 in Hi as (i & -> & Hi). reflexivity.
Qed.

(** Several responses in the single layer: one variance per batch element does not broadcast ... *)
Lemma lool_single_many bce ce ls p t v b r : shape p = [b; r] -> shape t = [b; r] -> shape v = [b] -> (2 <= b)%nat -> (2 <= r)%nat -> b <> r ->
  deep_loss_value bce ce ls LLool p t v = Err ValueError.
Proof.
  intros Sp St Sv Hb Hr Hne. cbn [deep_loss_value]. unfold to_lool_unscaled, bk_lool_terms.
  assert (E1 : shape (squeeze p) = [b; r]).
  { cbn [squeeze shape]. rewrite Sp. unfold squeeze_shape. cbn [filter]. destruct (Nat.eqb_spec b 1), (Nat.eqb_spec r 1); try lia. reflexivity. }
  assert (E2 : shape (squeeze t) = [b; r]).
  { cbn [squeeze shape]. rewrite St. unfold squeeze_shape. cbn [filter]. destruct (Nat.eqb_spec b 1), (Nat.eqb_spec r 1); try lia. reflexivity. }
  assert (E3 : shape (squeeze v) = [b]).
  { cbn [squeeze shape]. rewrite Sv. unfold squeeze_shape. cbn [filter]. destruct (Nat.eqb_spec b 1); try lia. reflexivity. }
  unfold ndim. rewrite E3. cbn [List.length Nat.eqb].
  destruct (bop_same Rminus (squeeze p) (squeeze t)) as (rr & -> & Sr & Ar); [congruence|]. cbn [bind].
  unfold bop at 1. cbn [ndmap shape]. rewrite Sr, E1, E3. unfold bshape. cbn [rev app brev].
  destruct (Nat.eqb_spec r b), (Nat.eqb_spec r 1), (Nat.eqb_spec b 1); try lia; reflexivity.
Qed.

(** ... and with as many responses as batch elements it is broadcast along the wrong axis. *)
Lemma lool_single_square bce ce ls p t v b : shape p = [b; b] -> shape t = [b; b] -> shape v = [b] -> (2 <= b)%nat ->
  deep_loss_value bce ce ls LLool p t v =
  Ok (rsum b (fun x => rsum b (fun s => lool_term (at_ p [x; s]) (at_ t [x; s]) (at_ v [s])))).
Proof.
  intros Sp St Sv Hb. cbn [deep_loss_value]. unfold to_lool_unscaled, bk_lool_terms.
  assert (Hb1 : (b =? 1)%nat = false) by (apply Nat.eqb_neq; lia).
  assert (E1 : shape (squeeze p) = [b; b]) by (cbn [squeeze shape]; rewrite Sp; unfold squeeze_shape; cbn [filter]; rewrite Hb1; reflexivity).
  assert (E2 : shape (squeeze t) = [b; b]) by (cbn [squeeze shape]; rewrite St; unfold squeeze_shape; cbn [filter]; rewrite Hb1; reflexivity).
  assert (E3 : shape (squeeze v) = [b]) by (cbn [squeeze shape]; rewrite Sv; unfold squeeze_shape; cbn [filter]; rewrite Hb1; reflexivity).
  unfold ndim. rewrite E3. cbn [List.length Nat.eqb].
  destruct (bop_same Rminus (squeeze p) (squeeze t)) as (r & -> & Sr & Ar); [congruence|]. cbn [bind].
  destruct (bop_suffix Rdiv (ndmap (fun x => x ^ 2) r) (squeeze v) [b]) as (d & -> & Sd & Ad);
    [cbn [ndmap shape]; rewrite Sr, E1, E3; reflexivity|]. cbn [bind].
  destruct (bop_suffix Rplus d (ndmap ln (squeeze v)) [b]) as (u & -> & Su & Au);
    [cbn [ndmap shape] in *; rewrite Sd, Sr, E1, E3; reflexivity|]. cbn [bind].
  f_equal. rewrite to_sum_all, nd_sum_total.
  assert (Su' : shape u = [b; b]) by (cbn [ndmap shape] in *; congruence).
  rewrite Su'. cbn [total]. apply rsum_ext. intros x Hx. apply rsum_ext. intros s Hs.
  assert (Hv : at_ (squeeze v) [s] = at_ v [s]).
  { cbn [squeeze at_]. rewrite Sv. cbn [unsqueeze_idx]. rewrite Hb1. reflexivity. }
  assert (Hp : at_ (squeeze p) [x; s] = at_ p [x; s]).
  { cbn [squeeze at_]. rewrite Sp. cbn [unsqueeze_idx]. rewrite Hb1. reflexivity. }
  assert (Ht : at_ (squeeze t) [x; s] = at_ t [x; s]).
  { cbn [squeeze at_]. rewrite St. cbn [unsqueeze_idx]. rewrite Hb1. reflexivity. }
  pose proof (Au [x] [s]) as Au1. pose proof (Ad [x] [s]) as Ad1. cbn [app ndmap shape at_] in Au1, Ad1.
  rewrite Au1, Ad1 by (try (apply inb1; auto); rewrite ?E3; try (apply inb1; auto)).
  rewrite Ar by (rewrite E1; apply inb2; auto). rewrite Hp, Ht, Hv. reflexivity.
Qed.

(** ** Loss names *)
Lemma parse_loss_cases name : parse_loss name =
  match find (fun e => String.eqb (lower name) (fst e)) [("mse", LMse); ("bce", LBce); ("ce", LCe); ("lool", LLool)]%string with
  | Some e => Ok (snd e) | None => Err ValueError end.
Proof.
  unfold parse_loss. cbn [find fst].
  destruct (String.eqb (lower name) "mse"); [reflexivity|]. destruct (String.eqb (lower name) "bce"); [reflexivity|].
  destruct (String.eqb (lower name) "ce"); [reflexivity|]. destruct (String.eqb (lower name) "lool"); reflexivity.
Qed.

(** ** Registered parameters and bounds *)
Section Bounds.
Variable P : Type.
Variable emb : bool -> nat -> P -> nd R -> nd R.
Variable L : Type.
Variable build : nd R -> nat -> result L.
Variable lookup_count : L -> nat.
Variable query : L -> nd R -> nat -> result (nd Z).
Variables bce ce : nd R -> nd R -> result R.
Variable ls : lsolver.
Definition with_layer (y : gp_layer) (m : deep P) : deep P :=
  mkDeep P (dm_embedding P m) (Some y) (dm_nn_indices P m) (dm_nn_targets P m) (dm_training P m) (dm_draws P m).

Lemma refresh_with_layer y m train responses bf n : refresh P emb L build query (with_layer y m) train responses bf n =
  rmap (fun e => (fst e, with_layer y (snd e))) (refresh P emb L build query m train responses bf n).
Proof.
  unfold refresh, embed. cbn [with_layer dm_embedding dm_training dm_draws dm_layer].
  destruct (dm_embedding P m) as [w|] eqn:E; [|reflexivity]. cbn [bind].
  destruct (build _ n) as [nb|]; [|reflexivity]. cbn [bind dm_embedding dm_training dm_draws].
  destruct (query nb _ n) as [nn|]; [|reflexivity]. cbn [bind].
  destruct (to_take responses nn) as [T|]; [|reflexivity]. cbn [bind rmap fst snd]. unfold set_neighbors, with_layer.
  cbn [dm_embedding dm_layer dm_nn_indices dm_nn_targets dm_training dm_draws]. reflexivity.
Qed.

Variable opt : nat -> P -> list R -> P * list R.
(** The same updates of the weights, with the length scale set to [l]. *)
Definition opt_to (l : R) : nat -> P -> list R -> P * list R := fun i w v => (fst (opt i w v), [l]).

Lemma one_step_any_length_scale m y train responses ix nbrs lf freq nbrs' m' l : dm_layer P m = Some (Single y) ->
  train_deep_kernel P emb L build lookup_count query bce ce opt ls m train responses ix nbrs 1 lf freq = Ok (nbrs', m') ->
  exists m'' y'', train_deep_kernel P emb L build lookup_count query bce ce (opt_to l) ls m train responses ix nbrs 1 lf freq = Ok (nbrs', m'') /\
    dm_layer P m'' = Some (Single y'') /\ l1_length_scale y'' = l /\ l1_bounds y'' = l1_bounds y.
Proof.
  intros Hy E. unfold train_deep_kernel in *. destruct (dm_embedding P m) as [w|] eqn:Ew; [|discriminate].
  destruct (to_take train ix) as [bf|]; cbn [bind] in *; [|discriminate].
  destruct (to_take responses ix) as [br|]; cbn [bind] in *; [|discriminate].
  destruct (parse_loss lf) as [k|]; cbn [bind] in *; [|discriminate].
  cbn [train_loop] in *. unfold train_step in *.
  destruct (forward P emb ls (set_mode P true m) train) as [[[p v] m1]|] eqn:EF; cbn [bind] in *; [|discriminate].
  destruct (forward_inv _ _ _ _ _ _ _ _ EF) as (Hw & Hl & Ht & _ & _). cbn [set_mode dm_embedding dm_layer dm_training] in *.
  destruct (deep_loss_value bce ce ls k p br v) as [lo|]; cbn [bind] in *; [|discriminate].
  pose (y2 := mkLayer1 (l1_gp y) (l1_kernel y) l (l1_bounds y) (l1_indices y) (l1_nn_indices y) (l1_targets y) (l1_nn_targets y)).
  assert (HA : apply_step P (opt_to l) 0 m1 = with_layer (Single y2) (apply_step P opt 0 m1)).
  { unfold apply_step, opt_to, with_layer. rewrite Hw, Ew. destruct (opt 0%nat w (model_parameters P m1)) as [w' v'] eqn:EO. cbn [fst].
    rewrite Hl, Hy. reflexivity. }
  rewrite HA. exists (with_layer (Single y2) m'), y2.
  destruct (update_due 0 freq).
  - assert (HS : set_mode P false (with_layer (Single y2) (apply_step P opt 0 m1)) = with_layer (Single y2) (set_mode P false (apply_step P opt 0 m1))) by reflexivity.
    rewrite HS, refresh_with_layer.
    destruct (refresh P emb L build query (set_mode P false (apply_step P opt 0 m1)) train responses bf (lookup_count nbrs)) as [[nb m2]|]; cbn [bind rmap fst snd] in *; [|discriminate].
    rewrite refresh_with_layer, E. cbn [rmap fst snd]. auto.
  - cbn [bind] in *. rewrite refresh_with_layer, E. cbn [rmap fst snd]. auto.
Qed.
End Bounds.
