(** Lemmas behind C43: tensors, predictions, losses and scale under MPI. *)
From Coq Require Import Lia Lra.
From Verif Require Import Base BaseFacts NdModel NdFacts RSum LinAlgModel LinAlgSpec LinAlgFacts GPModel NoiseModel MuyGPSModel
  GPSpec MuyGPSProofs GPTheorems TensorModel TensorSpec TensorProofs TensorLemmas LossModel LossSpec LossProofs
  MpiModel MpiSem MpiProofs MpiSpec ChunkProofs MpiLemmas.
Local Open Scope R_scope.

Lemma delivers_split_intro size b ps ts : (1 <= size)%nat ->
  (forall t, In t ts -> exists rest, shape t = b :: rest) ->
  always_delivers size ps (fun r => Ok (map (fun t => chunk_of size b t r) ts)) ->
  delivers_split size ps ts.
Proof.
  intros Hs HT HD. exists (fun r => map (fun t => chunk_of size b t r) ts). split; [assumption|].
  split; [intros; apply map_length|]. intros j t Hj.
  destruct (HT t (nth_error_In _ _ Hj)) as [rest E].
  exists (nat_sizes b size), (map (chunk_of size b t) (seq 0 size)). split; [rewrite E; apply nat_sizes_balanced; assumption|].
  split; [apply (chunk_of_split size b t rest); assumption|].
  intros r Hr. rewrite nth_error_map, Hj. cbn [option_map].
  rewrite nth_error_map. rewrite (nth_error_nth' _ 0%nat) by (rewrite seq_length; assumption).
  rewrite seq_nth by assumption. reflexivity.
Qed.

Lemma chunk_function_split size b func ts : (1 <= size)%nat -> (Z.of_nat b < 2 ^ 53)%Z -> ts <> [] ->
  (forall t, In t ts -> exists rest, shape t = b :: rest) ->
  sends (func 0%nat) = Some ([], Ok ts) ->
  delivers_split size (fun r => chunk_function_tensor size r (func r) (List.length ts)) ts.
Proof. intros. apply (delivers_split_intro size b); auto. apply chunk_function_delivers; assumption. Qed.

Lemma one_in {A} (P : A -> Prop) t : P t -> forall x, In x [t] -> P x.
Proof. intros H x [<-|[]]. assumption. Qed.

Lemma single_split size b rest r t : (1 <= size)%nat -> (Z.of_nat b < 2 ^ 53)%Z -> r = Ok t -> shape t = b :: rest ->
  delivers_split size (fun k => chunk_function_tensor size k (lift (single r)) 1) [t].
Proof.
  intros Hs Hb -> E. apply (chunk_function_split size b (fun _ => lift (single (Ok t))) [t]); auto; [discriminate|].
  apply one_in. eauto.
Qed.

Lemma sends_lift {V A} (r : result A) a : r = Ok a -> sends (@lift V A r) = Some ([], Ok a).
Proof. intros ->. reflexivity. Qed.

Lemma predict_split post size b ix nn tf rf tt ts : (1 <= size)%nat -> (Z.of_nat b < 2 ^ 53)%Z ->
  make_predict_tensors post ix nn tf rf tt = Ok ts ->
  (forall t, In t ts -> exists rest, shape t = b :: rest) ->
  delivers_split size (fun r => make_predict_tensors_mpi post NumpyDiffs size r ix nn tf rf tt) ts.
Proof.
  intros Hs Hb E HT. unfold make_predict_tensors in E.
  apply bind_ok in E as (cd & Ecd & E). apply bind_ok in E as (c & Ec & E).
  apply bind_ok in E as (pd & Epd & E). apply bind_ok in E as (p & Ep & E).
  apply bind_ok in E as (t & Et & E). injection E as <-.
  pose proof (chunk_function_split size b (fun r =>
    pbind (def_crosswise post NumpyDiffs size r tf rf ix nn true) (fun c =>
     pbind (def_pairwise post NumpyDiffs size r rf nn true) (fun p =>
     pbind (lift (take tt nn)) (fun t =>
     Ret [head_of c; head_of p; t])))) [c; p; t] Hs Hb ltac:(discriminate) HT) as H.
  apply H. unfold def_crosswise, def_pairwise, mpi_chunk, metric_crosswise_diffs, metric_pairwise_diffs.
  rewrite Ecd, Epd. cbn [single bind lift pbind head_of]. rewrite Ec, Ep. cbn [single bind lift pbind head_of].
  rewrite Et. reflexivity.
Qed.

Lemma train_split post size b ix nn rf tt ts : (1 <= size)%nat -> (Z.of_nat b < 2 ^ 53)%Z ->
  make_train_tensors post ix nn rf tt = Ok ts ->
  (forall t, In t ts -> exists rest, shape t = b :: rest) ->
  delivers_split size (fun r => make_train_tensors_mpi post NumpyDiffs size r ix nn rf tt) ts.
Proof.
  intros Hs Hb E HT. unfold make_train_tensors in E.
  apply bind_ok in E as (cd & Ecd & E). apply bind_ok in E as (c & Ec & E).
  apply bind_ok in E as (pd & Epd & E). apply bind_ok in E as (p & Ep & E).
  apply bind_ok in E as (nt & Ent & E). apply bind_ok in E as (t & Et & E). injection E as <-.
  pose proof (chunk_function_split size b (fun r =>
    pbind (def_crosswise post NumpyDiffs size r rf rf ix nn true) (fun c =>
     pbind (def_pairwise post NumpyDiffs size r rf nn true) (fun p =>
     pbind (lift (take tt nn)) (fun nt =>
     pbind (lift (take tt ix)) (fun t =>
     Ret [head_of c; head_of p; t; nt]))))) [c; p; t; nt] Hs Hb ltac:(discriminate) HT) as H.
  apply H. unfold def_crosswise, def_pairwise, mpi_chunk, metric_crosswise_diffs, metric_pairwise_diffs.
  rewrite Ecd, Epd. cbn [single bind lift pbind head_of]. rewrite Ec, Ep. cbn [single bind lift pbind head_of].
  rewrite Ent, Et. reflexivity.
Qed.

(** ** The deformations' own tensor functions *)
Lemma deformation_split post size b rest u : (1 <= size)%nat -> (Z.of_nat b < 2 ^ 53)%Z -> shape u = b :: rest ->
  (forall data nn_data ix nn, (let! d := crosswise_tensor data nn_data ix nn in post d) = Ok u ->
     delivers_split size (fun r => def_crosswise post NumpyDiffs size r data nn_data ix nn false) [u]) /\
  (forall data nn, (let! d := pairwise_tensor data nn in post d) = Ok u ->
     delivers_split size (fun r => def_pairwise post NumpyDiffs size r data nn false) [u]).
Proof.
  intros Hs Hb Su. split.
  - intros data nn_data ix nn E. apply bind_ok in E as (d & Ed & E).
    apply (chunk_function_split size b (fun r => pbind (metric_crosswise_diffs NumpyDiffs size r data nn_data ix nn) (fun ds => lift (single (post (head_of ds))))) [u]); auto; [discriminate|apply one_in; eauto|].
    unfold metric_crosswise_diffs. rewrite Ed. cbn [single bind lift pbind head_of]. rewrite E. reflexivity.
  - intros data nn E. apply bind_ok in E as (d & Ed & E).
    apply (chunk_function_split size b (fun r => pbind (metric_pairwise_diffs NumpyDiffs size r data nn) (fun ds => lift (single (post (head_of ds))))) [u]); auto; [discriminate|apply one_in; eauto|].
    unfold metric_pairwise_diffs. rewrite Ed. cbn [single bind lift pbind head_of]. rewrite E. reflexivity.
Qed.

Lemma undecorated_split size b rest t u urest post : (1 <= size)%nat -> (Z.of_nat b < 2 ^ 53)%Z ->
  shape t = b :: rest -> shape u = b :: urest ->
  (forall off n, (off + n <= b)%nat -> exists v, post (slice0 t off n) = Ok v /\ rows_of u off n v) ->
  delivers_split size (fun r => pbind (chunk_function_tensor size r (lift (single (Ok t))) 1)
    (fun ds => lift (single (post (head_of ds))))) [u].
Proof.
  intros Hs Hb St Su HP.
  destruct (nat_sizes_spec b size Hs) as [NL [NS NI]].
  destruct (chunk_tensor_sends size b t [] rest Hs Hb St) as [L [A [B C]]].
  assert (HC : forall i, (i < size)%nat -> exists v, post (chunk_of size b t i) = Ok v /\
     rows_of u (sum_nat (firstn i (nat_sizes b size))) (nth i (nat_sizes b size) 0%nat) v).
  { intros i Hi. unfold chunk_of. rewrite (chunks_of_nth t b rest) by (auto; lia). apply HP.
    pose proof (nsum_firstn (nat_sizes b size) i). change sum_nat with nsum. lia. }
  set (val := fun i => match post (chunk_of size b t i) with Ok v => v | Err _ => u end).
  assert (HV : forall i, (i < size)%nat -> post (chunk_of size b t i) = Ok (val i)).
  { intros i Hi. unfold val. destruct (HC i Hi) as [v [-> _]]. reflexivity. }
  exists (fun r => [val r]). split; [|split].
  - set (ps := fun r => pbind (chunk_function_tensor size r (lift (single (Ok t))) 1) (fun ds => lift (single (post (head_of ds))))).
    assert (Root : sends (ps 0%nat) = Some (L, Ok [val 0%nat])).
    { unfold ps, chunk_function_tensor. cbn [Nat.eqb single bind lift pbind].
      rewrite <- (app_nil_r L). eapply sends_bind; [exact A|]. cbn [map head_of]. rewrite (HV 0%nat) by lia. reflexivity. }
    eapply delivers_ext; [|eapply (star_delivers size Hs ps L _ Root B (fun i => Ok [val i]) (fun _ => []))].
    + intros r Hr. unfold all_res. destruct (Nat.eqb_spec r 0) as [->|]; reflexivity.
    + intros i Hi. rewrite C by assumption. unfold ps, chunk_function_tensor. destruct (Nat.eqb_spec i 0); [lia|].
      eapply recvs_bind.
      * pose proof (chunk_tensor_recvs size i 1 [chunk_of size b t i] [] ltac:(lia) eq_refl) as HR. exact HR.
      * cbn [map head_of]. rewrite (HV i) by lia. reflexivity.
    + reflexivity.
  - reflexivity.
  - intros j w Hj. destruct j as [|[|]]; [|discriminate|discriminate]. assert (w = u) as -> by (cbn in Hj; congruence).
    exists (nat_sizes b size), (map val (seq 0 size)). split; [rewrite Su; apply nat_sizes_balanced; assumption|].
    assert (HN : forall r, (r < size)%nat -> nth_error (map val (seq 0 size)) r = Some (val r)).
    { intros r Hr. rewrite nth_error_map. rewrite (nth_error_nth' _ 0%nat) by (rewrite seq_length; assumption).
      rewrite seq_nth by assumption. reflexivity. }
    split; [|intros r Hr; cbn [nth_error]; symmetry; apply HN; assumption].
    split; [rewrite Su; cbn [tl]; f_equal; change sum_nat with nsum; congruence|].
    split; [rewrite map_length, seq_length; congruence|].
    intros r c Hc. assert (Hr : (r < size)%nat).
    { assert (H : nth_error (map val (seq 0 size)) r <> None) by congruence. apply nth_error_Some in H.
      rewrite map_length, seq_length in H. assumption. }
    rewrite (HN r Hr) in Hc. assert (c = val r) as -> by congruence.
    destruct (HC r Hr) as [v [Ev Hv]]. rewrite (HV r Hr) in Ev. assert (v = val r) as -> by congruence. exact Hv.
Qed.

Lemma metric_slices m t b rest F u off n : shape t = b :: rest ++ [F] -> metric_call m t = Ok u -> (off + n <= b)%nat ->
  exists v, metric_call m (slice0 t off n) = Ok v /\ rows_of u off n v.
Proof.
  intros St Eu Hn. destruct (metric_spec m t (b :: rest) F St) as [u' [Eu' [Su Au]]].
  assert (u' = u) as -> by congruence.
  destruct (metric_spec m (slice0 t off n) (n :: rest) F) as [v [Ev [Sv Av]]]; [rewrite (slice_shape t b _ off n St Hn); reflexivity|].
  exists v. split; [assumption|]. split; [rewrite Sv, Su; reflexivity|].
  intros i l Hi _. rewrite Av, Au. destruct m.
  - f_equal. apply rsum_ext. intros k _. cbn [app]. rewrite (slice_at t b _ off n i _ St) by lia. reflexivity.
  - apply rsum_ext. intros k _. cbn [app]. rewrite (slice_at t b _ off n i _ St) by lia. reflexivity.
Qed.

Lemma post_slices post t b rest F u off n : (post = aniso_post \/ exists m, post = iso_post m) ->
  shape t = b :: rest ++ [F] -> post t = Ok u -> (off + n <= b)%nat ->
  exists v, post (slice0 t off n) = Ok v /\ rows_of u off n v.
Proof.
  intros HP St Eu Hn. destruct HP as [->|[m ->]].
  - unfold aniso_post in *. assert (u = t) as -> by congruence. eexists. split; [reflexivity|].
    split; [rewrite (slice_shape t b _ off n St Hn), St; reflexivity|]. intros i l Hi _. apply (slice_at t b _ off n i l St). lia.
  - apply (metric_slices m t b rest F u off n); assumption.
Qed.

Lemma deformation_disabled_split post size b rest u : (1 <= size)%nat -> (Z.of_nat b < 2 ^ 53)%Z ->
  (post = aniso_post \/ exists m, post = iso_post m) ->
  (forall data nn_data ix nn d F, crosswise_tensor data nn_data ix nn = Ok d -> shape d = b :: rest ++ [F] -> post d = Ok u ->
     delivers_split size (fun r => def_crosswise post BackendDiffs size r data nn_data ix nn true) [u]) /\
  (forall data nn d F, pairwise_tensor data nn = Ok d -> shape d = b :: rest ++ [F] -> post d = Ok u ->
     delivers_split size (fun r => def_pairwise post BackendDiffs size r data nn true) [u]).
Proof.
  intros Hs Hb HP.
  assert (SU : forall d F, shape d = b :: rest ++ [F] -> post d = Ok u -> exists ur, shape u = b :: ur).
  { intros d F Sd Eu. destruct HP as [->|[m ->]].
    - unfold aniso_post in Eu. assert (u = d) as -> by congruence. eauto.
    - destruct (metric_spec m d (b :: rest) F Sd) as [u' [Eu' [Su' _]]]. unfold iso_post in Eu. assert (u' = u) as -> by congruence. eauto. }
  split.
  - intros data nn_data ix nn d F Ed Sd Eu. destruct (SU d F Sd Eu) as [ur Su].
    pose proof (undecorated_split size b _ d u ur post Hs Hb Sd Su (fun off n Hn => post_slices post d b rest F u off n HP Sd Eu Hn)) as H.
    unfold def_crosswise, mpi_chunk, metric_crosswise_diffs, crosswise_mpi. rewrite Ed. exact H.
  - intros data nn d F Ed Sd Eu. destruct (SU d F Sd Eu) as [ur Su].
    pose proof (undecorated_split size b _ d u ur post Hs Hb Sd Su (fun off n Hn => post_slices post d b rest F u off n HP Sd Eu Hn)) as H.
    unfold def_pairwise, mpi_chunk, metric_pairwise_diffs, pairwise_mpi. rewrite Ed. exact H.
Qed.

(** ** The library's own metrics scatter twice *)
Lemma library_predict m size b k F ix nn tf rf tt cd pd t brest r : (2 <= size)%nat -> (1 <= r < size)%nat ->
  (Z.of_nat b < 2 ^ 53)%Z ->
  crosswise_tensor tf rf ix nn = Ok cd -> shape cd = [b; k; F] ->
  pairwise_tensor rf nn = Ok pd -> shape pd = [b; k; k; F] ->
  take tt nn = Ok t -> shape t = b :: brest ->
  let ps := fun r => make_predict_tensors_mpi (iso_post m) BackendDiffs size r ix nn tf rf tt in
  (exists n w, steps size n (start ps) w /\ finished size w) /\
  forall n w, steps size n (start ps) w -> finished size w ->
    exists c rest, outcome (w_proc w r) = Some (Ok (c :: rest)) /\ ndim c = 3%nat.
Proof.
  intros Hs Hr Hb Ecd Scd Epd Spd Et St ps.
  assert (Hs1 : (1 <= size)%nat) by lia.
  destruct (chunk_tensor_sends size b cd [] _ Hs1 Hb Scd) as [L1 [A1 [B1 C1]]].
  destruct (chunk_tensor_sends size b pd [] _ Hs1 Hb Spd) as [L2 [A2 [B2 C2]]].
  destruct (nat_sizes_spec b size Hs1) as [NL [NS NI]].
  assert (CS : forall x rest i, shape x = b :: rest -> (i < size)%nat -> exists c, shape (chunk_of size b x i) = c :: rest /\ (c <= b)%nat).
  { intros x rest i Sx Hi. unfold chunk_of. rewrite (chunks_of_nth x b rest) by (auto; lia).
    pose proof (nsum_firstn (nat_sizes b size) i). eexists. split; [apply (slice_shape x b); [assumption|lia]|]. lia. }
  destruct (CS cd _ 0%nat Scd ltac:(lia)) as [c0 [Sc0 Lc0]].
  destruct (CS pd _ 0%nat Spd ltac:(lia)) as [p0 [Sp0 Lp0]].
  destruct (metric_spec m (chunk_of size b cd 0) [c0; k] F) as [c' [Ec' [Sc' _]]]; [exact Sc0|].
  destruct (metric_spec m (chunk_of size b pd 0) [p0; k; k] F) as [p' [Ep' [Sp' _]]]; [exact Sp0|].
  destruct (chunk_tensor_sends size c0 c' [p'; t] [k] Hs1 ltac:(lia) Sc') as [L3 [A3 [B3 C3]]].
  assert (Root : sends (ps 0%nat) = Some (L1 ++ L2 ++ L3, Ok (map (fun t => chunk_of size c0 t 0) [c'; p'; t]))).
  { unfold ps, make_predict_tensors_mpi, mpi_chunk, chunk_function_tensor. cbn [Nat.eqb].
    unfold def_crosswise, def_pairwise, metric_crosswise_diffs, metric_pairwise_diffs, mpi_chunk, crosswise_mpi, pairwise_mpi, chunk_function_tensor.
    cbn [Nat.eqb].
    rewrite Ecd, Epd. cbn [single bind lift pbind].
    rewrite app_assoc.
    eapply sends_bind; [|exact A3].
    eapply sends_bind.
    - rewrite <- (app_nil_r L1). eapply sends_bind; [exact A1|]. cbn [map head_of]. unfold iso_post. rewrite Ec'. reflexivity.
    - cbn [head_of]. rewrite <- (app_nil_r L2). eapply sends_bind.
      + rewrite <- (app_nil_r L2). eapply sends_bind; [exact A2|]. cbn [map head_of]. unfold iso_post. rewrite Ep'. reflexivity.
      + rewrite Et. reflexivity. }
  assert (Dst : forall d v, In (d, v) (L1 ++ L2 ++ L3) -> (1 <= d < size)%nat).
  { intros d v Hin. rewrite !in_app_iff in Hin. destruct Hin as [H|[H|H]]; eauto. }
  assert (Leaf : forall i, (1 <= i < size)%nat -> recvs (ps i) (msgs i (L1 ++ L2 ++ L3)) =
     Some (Ok [chunk_of size b cd i; chunk_of size b pd i; chunk_of size c0 c' i], [chunk_of size c0 p' i; chunk_of size c0 t i])).
  { intros i Hi. rewrite !msgs_app, C1, C2, C3 by assumption.
    unfold ps, make_predict_tensors_mpi, mpi_chunk, chunk_function_tensor. destruct (Nat.eqb_spec i 0); [lia|].
    apply (chunk_tensor_recvs size i 3 [chunk_of size b cd i; chunk_of size b pd i; chunk_of size c0 c' i]
             [chunk_of size c0 p' i; chunk_of size c0 t i]); [lia|reflexivity]. }
  destruct (star_outcomes size Hs1 ps _ _ Root Dst _ _ Leaf) as [HE HO]. split; [exact HE|].
  intros n w Hst HF. rewrite (HO n w Hst HF r ltac:(lia)). unfold all_res.
  destruct (Nat.eqb_spec r 0); [lia|]. do 2 eexists. split; [reflexivity|].
  destruct (CS cd _ r Scd ltac:(lia)) as [cr [Scr _]]. unfold ndim. rewrite Scr. reflexivity.
Qed.

(** ** Sums over a split *)
Lemma rsum_split (g : nat -> R) sizes : forall off,
  lsum (map (fun r => rsum (nth r sizes 0%nat) (fun i => g (off + (sum_nat (firstn r sizes) + i))%nat)) (seq 0 (List.length sizes)))
  = rsum (sum_nat sizes) (fun i => g (off + i)%nat).
Proof.
  induction sizes as [|c sizes IH]; intros off; [reflexivity|].
  cbn [List.length seq map]. cbn [lsum fold_right]. change (fold_right Rplus 0) with lsum.
  cbn [firstn sum_nat fold_right nth]. change (fold_right Nat.add 0%nat sizes) with (sum_nat sizes).
  rewrite rsum_app. f_equal.
  rewrite <- seq_shift, map_map. cbn [nth firstn].
  rewrite (rsum_ext (sum_nat sizes) (fun i => g (off + (c + i))%nat) (fun i => g (off + c + i)%nat)) by (intros; f_equal; lia).
  rewrite <- IH. f_equal. apply map_ext. intros r. apply rsum_ext. intros i Hi.
  cbn [sum_nat fold_right]. change (fold_right Nat.add 0%nat) with sum_nat. f_equal. lia.
Qed.

Lemma sequence_ok {A B} (f : A -> result B) (v : A -> B) l : (forall a, In a l -> f a = Ok (v a)) ->
  sequence (map f l) = Ok (map v l).
Proof.
  induction l as [|a l IH]; intros H; [reflexivity|]. cbn. rewrite (H a (or_introl eq_refl)). cbn.
  rewrite IH by (intros; apply H; right; assumption). reflexivity.
Qed.

Lemma nth_error_combine {A B} (l1 : list A) (l2 : list B) n x y :
  nth_error (combine l1 l2) n = Some (x, y) -> nth_error l1 n = Some x /\ nth_error l2 n = Some y.
Proof.
  revert l1 l2. induction n as [|n IH]; intros [|a l1] [|b l2] H; cbn in H; try discriminate.
  - injection H as <- <-. auto.
  - apply IH in H. assumption.
Qed.

Lemma allreduce_rows {A} (loc : A -> result R) (entry : nat -> R) sizes (ranks : list A) :
  List.length ranks = List.length sizes ->
  (forall r a, nth_error ranks r = Some a ->
     loc a = Ok (rsum (nth r sizes 0%nat) (fun i => entry (sum_nat (firstn r sizes) + i)%nat))) ->
  allreduce (map loc ranks) = Ok (rsum (sum_nat sizes) entry).
Proof.
  intros HL H. unfold allreduce.
  assert (E : map loc ranks = map (fun r => Ok (rsum (nth r sizes 0%nat) (fun i => entry (sum_nat (firstn r sizes) + i)%nat)))
                              (seq 0 (List.length sizes))).
  { clear -HL H. rewrite <- HL. clear HL.
    assert (G : forall (rs : list A) off,
      (forall r a, nth_error rs r = Some a -> loc a = Ok (rsum (nth (off + r) sizes 0%nat) (fun i => entry (sum_nat (firstn (off + r) sizes) + i)%nat))) ->
      map loc rs = map (fun r => Ok (rsum (nth r sizes 0%nat) (fun i => entry (sum_nat (firstn r sizes) + i)%nat))) (seq off (List.length rs))).
    { induction rs as [|a rs IH]; intros off Hrs; [reflexivity|]. cbn [map List.length seq]. f_equal.
      - specialize (Hrs 0%nat a eq_refl). rewrite Nat.add_0_r in Hrs. exact Hrs.
      - apply IH. intros r x Hx. specialize (Hrs (S r) x Hx). rewrite Nat.add_succ_r in Hrs. exact Hrs. }
    apply G. exact H. }
  rewrite E. rewrite (sequence_ok _ (fun r => rsum (nth r sizes 0%nat) (fun i => entry (sum_nat (firstn r sizes) + i)%nat))) by reflexivity.
  cbn [bind]. f_equal. exact (rsum_split entry sizes 0).
Qed.

Lemma firstn_nth_le sizes r : (sum_nat (firstn r sizes) + nth r sizes 0%nat <= sum_nat sizes)%nat.
Proof. exact (nsum_firstn sizes r). Qed.

Section Pair.
Variables (p t : nd R) (sizes : list nat) (ps ts : list (nd R)).
Hypothesis Hp : split_into p sizes ps.
Hypothesis Ht : split_into t sizes ts.

Lemma pair_length : List.length (combine ps ts) = List.length sizes.
Proof. destruct Hp as [_ [L1 _]]. destruct Ht as [_ [L2 _]]. rewrite combine_length. lia. Qed.

Lemma pair_rows r pc tc : nth_error (combine ps ts) r = Some (pc, tc) ->
  rows_of p (sum_nat (firstn r sizes)) (nth r sizes 0%nat) pc /\
  rows_of t (sum_nat (firstn r sizes)) (nth r sizes 0%nat) tc.
Proof. intros H. apply nth_error_combine in H as [H1 H2]. split; [apply Hp|apply Ht]; assumption. Qed.

Lemma triple_length v vs : split_into v sizes vs -> List.length (combine (combine ps ts) vs) = List.length sizes.
Proof. intros [_ [L3 _]]. rewrite combine_length, pair_length. lia. Qed.

Lemma triple_rows v vs r pc tc vc : split_into v sizes vs -> nth_error (combine (combine ps ts) vs) r = Some (pc, tc, vc) ->
  rows_of p (sum_nat (firstn r sizes)) (nth r sizes 0%nat) pc /\
  rows_of t (sum_nat (firstn r sizes)) (nth r sizes 0%nat) tc /\
  rows_of v (sum_nat (firstn r sizes)) (nth r sizes 0%nat) vc.
Proof.
  intros Hv H. apply nth_error_combine in H as [H1 H2]. destruct (pair_rows _ _ _ H1). split; [|split]; auto.
  destruct Hv as [_ [_ Hv]]. apply Hv. assumption.
Qed.

(** Sum over the rows of [t] from [off]. *)
Lemma rows_total n off pc tc (f : list nat -> R) g rest :
  tl (shape p) = rest -> tl (shape t) = rest ->
  rows_of p off n pc -> rows_of t off n tc ->
  (forall i l, (i < n)%nat -> inb rest l -> g (i :: l) = f ((off + i)%nat :: l)) ->
  total (n :: rest) g = rsum n (fun i => total rest (fun l => f ((off + i)%nat :: l))).
Proof.
  intros. cbn [total]. apply rsum_ext. intros i Hi. apply total_ext. intros l Hl. auto.
Qed.

Lemma mse_reduce : shape p = shape t -> mse_mpi (combine ps ts) = mse_fn p t.
Proof.
  intros E. pose proof (proj1 Hp) as Sp. set (rest := tl (shape p)) in *.
  assert (St : tl (shape t) = rest) by (rewrite <- E; reflexivity).
  rewrite (mse_formula p t E). unfold mse_mpi.
  rewrite (allreduce_rows (fun a : nd R * nd R => Ok (INR (nprod (shape (fst a))))) (fun _ => INR (nprod rest)) sizes _ pair_length).
  2:{ intros r [pc tc] Ha. apply pair_rows in Ha as [[S1 _] _]. cbn [fst]. rewrite S1. fold rest.
      rewrite nprod_cons, mult_INR, rsum_const. reflexivity. }
  cbn [bind].
  rewrite (allreduce_rows (fun a : nd R * nd R => mse_unnormalized (fst a) (snd a))
     (fun i => total rest (fun l => residual_sq p t (i :: l))) sizes _ pair_length).
  2:{ intros r [pc tc] Ha. apply pair_rows in Ha as [[S1 A1] [S2 A2]]. cbn [fst snd].
      fold rest in S1, A1. rewrite St in S2, A2.
      unfold mse_unnormalized. destruct (bop_same Rminus pc tc ltac:(congruence)) as [d [Ed [Sd Ad]]]. rewrite Ed. cbn [bind].
      f_equal. rewrite nd_sum_total. cbn [shape ndmap]. rewrite Sd, S1. cbn [total]. apply rsum_ext. intros i Hi.
      apply total_ext. intros l Hl. cbn [at_ ndmap]. rewrite Ad by (rewrite S1; apply inb_cons; auto).
      unfold residual_sq. rewrite A1, A2 by assumption. reflexivity. }
  cbn [bind]. f_equal. rewrite Sp at 1 2. f_equal.
  rewrite rsum_const, nprod_cons, mult_INR. reflexivity.
Qed.

Lemma huber_reduce d : shape p = shape t -> pseudo_huber_mpi d (combine ps ts) = pseudo_huber_fn p t d.
Proof.
  intros E. pose proof (proj1 Hp) as Sp. set (rest := tl (shape p)) in *.
  assert (St : tl (shape t) = rest) by (rewrite <- E; reflexivity).
  rewrite (huber_formula p t d E). unfold pseudo_huber_mpi.
  rewrite (allreduce_rows _ (fun i => total rest (fun l => huber_entry d (at_ t (i :: l) - at_ p (i :: l)))) sizes _ pair_length).
  - f_equal. rewrite Sp at 1. reflexivity.
  - intros r [pc tc] Ha. apply pair_rows in Ha as [[S1 A1] [S2 A2]]. cbn [fst snd].
    fold rest in S1, A1. rewrite St in S2, A2.
    rewrite (huber_formula pc tc d ltac:(congruence)). f_equal. rewrite S1. cbn [total]. apply rsum_ext. intros i Hi.
    apply total_ext. intros l Hl. rewrite A1, A2 by assumption. reflexivity.
Qed.

Lemma cross_entropy_reduce eps k : shape p = [sum_nat sizes; k] -> shape t = [sum_nat sizes; k] -> (2 <= k)%nat ->
  sizes <> [] -> (forall n, In n sizes -> (0 < n)%nat) ->
  cross_entropy_mpi eps (combine ps ts) = cross_entropy_fn eps p t.
Proof.
  intros Ep Et Hk HN Hpos.
  assert (Hb : (0 < sum_nat sizes)%nat).
  { destruct sizes as [|n ss]; [contradiction|]. specialize (Hpos n (or_introl eq_refl)). cbn. lia. }
  rewrite (cross_entropy_value eps p t _ k Ep Et Hk Hb). unfold cross_entropy_mpi.
  rewrite (allreduce_rows _ (fun i => - rsum k (fun j =>
    (if Rltb 0 (at_ t [i; j]) then 1 else 0) * ln (clip eps (prob k (fun c => at_ p [i; c]) j)))) sizes _ pair_length).
  - f_equal. apply rsum_opp.
  - intros r [pc tc] Ha.
    assert (Hr : (r < List.length sizes)%nat).
    { rewrite <- pair_length. apply nth_error_Some. congruence. }
    apply pair_rows in Ha as [[S1 A1] [S2 A2]]. cbn [fst snd].
    rewrite Ep in S1, A1. rewrite Et in S2, A2. cbn [tl] in *.
    rewrite (cross_entropy_value eps pc tc _ k S1 S2 Hk) by (apply Hpos, nth_In; assumption). f_equal.
    rewrite <- rsum_opp. apply rsum_ext. intros i Hi. f_equal. apply rsum_ext. intros j Hj.
    rewrite A2 by (try apply inb1; assumption). do 3 f_equal. unfold prob.
    rewrite A1 by (try apply inb1; assumption). f_equal. apply rsum_ext. intros c Hc.
    rewrite A1 by (try apply inb1; assumption). reflexivity.
Qed.

Lemma lool_reduce ls sld s v vs : split_into v sizes vs ->
  vec3 p t v (sum_nat sizes) -> lool_mpi ls sld s (combine (combine ps ts) vs) = lool_fn ls sld p t v s.
Proof.
  intros Hv V3. rewrite (lool_formula ls sld p t v _ s V3). destruct V3 as [Ep [Et Ev]]. unfold lool_mpi.
  apply allreduce_rows; [apply (triple_length v); assumption|].
  intros r [[pc tc] vc] Ha. apply (triple_rows v) in Ha as [[S1 A1] [[S2 A2] [S3 A3]]]; [|assumption]. cbn [fst snd].
  rewrite Ep in S1, A1. rewrite Et in S2, A2. rewrite Ev in S3, A3. cbn [tl] in *.
  rewrite (lool_formula ls sld pc tc vc _ s (conj S1 (conj S2 S3))). f_equal. apply rsum_ext. intros i Hi.
  rewrite A1, A2, A3 by (try constructor; assumption). reflexivity.
Qed.

Lemma looph_reduce s d v vs : split_into v sizes vs ->
  vec3 p t v (sum_nat sizes) -> looph_mpi s d (combine (combine ps ts) vs) = looph_fn p t v s d.
Proof.
  intros Hv V3. rewrite (looph_formula p t v _ s d V3). destruct V3 as [Ep [Et Ev]]. unfold looph_mpi.
  apply allreduce_rows; [apply (triple_length v); assumption|].
  intros r [[pc tc] vc] Ha. apply (triple_rows v) in Ha as [[S1 A1] [[S2 A2] [S3 A3]]]; [|assumption]. cbn [fst snd].
  rewrite Ep in S1, A1. rewrite Et in S2, A2. rewrite Ev in S3, A3. cbn [tl] in *.
  rewrite (looph_formula pc tc vc _ s d (conj S1 (conj S2 S3))). f_equal. apply rsum_ext. intros i Hi.
  rewrite A1, A2, A3 by (try constructor; assumption). reflexivity.
Qed.
End Pair.

(** ** Predictions row by row *)
Section Pred.
Variable ls : lsolver.
Hypothesis Hls : exact_solver ls.

(** The mpi noise functions support homoscedastic noise only. *)
Definition mpi_noise (m : noise_model) : Prop :=
  match m with HomoscedasticNoise _ | NullNoise => True | _ => False end.
Lemma mpi_noise_fits m b n : mpi_noise m -> noise_fits m b n.
Proof. destruct m; cbn; auto; contradiction. Qed.
Lemma mpi_noise_at m kw x x' i : mpi_noise m -> noise_at m kw x i = noise_at m kw x' i.
Proof. destruct m; cbn; auto; contradiction. Qed.

Lemma mean_rows m kw Kin Kcross T t b n ex off c Kc Cc Tc : mpi_noise m ->
  shape Kin = [b; n; n] -> shape Kcross = [b; n] -> shape T = b :: n :: ex -> no_coincidence ex [n] ->
  (off + c <= b)%nat ->
  rows_of Kin off c Kc -> rows_of Kcross off c Cc -> rows_of T off c Tc ->
  (let! K := perturb m Kin kw in posterior_mean ls K Kcross T) = Ok t ->
  exists tc, (let! K := perturb m Kc kw in posterior_mean ls K Cc Tc) = Ok tc /\ rows_of t off c tc.
Proof.
  intros Hm HK HC HT Hnc Hoff [SK AK] [SC AC] [ST AT] E.
  rewrite HK in SK, AK. rewrite HC in SC, AC. rewrite HT in ST, AT. cbn [tl] in *.
  destruct (gp_mean_inv ls Hls _ _ _ _ _ _ _ _ _ (mpi_noise_fits m b n Hm) HK HC HT Hnc E) as [S1 H1].
  assert (EQ : forall x i j, (x < c)%nat -> (i < n)%nat -> (j < n)%nat ->
     plus_diag (rowmat Kin (off + x)) (noise_at m kw (off + x)) i j = plus_diag (rowmat Kc x) (noise_at m kw x) i j).
  { intros x i j Hx Hi Hj. unfold plus_diag, rowmat. rewrite AK by (try apply inb2; assumption).
    rewrite (mpi_noise_at m kw (off + x) x i Hm). reflexivity. }
  destruct (gp_mean_total ls Hls m kw Kc Cc Tc c n ex (mpi_noise_fits m c n Hm) SK SC ST Hnc) as (tc & Etc & Stc & _).
  { intros x Hx. apply (nonsingular_ext n (plus_diag (rowmat Kin (off + x)) (noise_at m kw (off + x)))); [|apply H1; lia].
    intros i j Hi Hj. apply EQ; assumption. }
  exists tc. split; [exact Etc|]. split; [rewrite Stc, S1; reflexivity|].
  rewrite S1. cbn [tl]. intros i l Hi Hl. symmetry.
  apply (c19_local ls Hls m m kw kw Kin Kcross T t Kc Cc Tc tc b c n ex (off + i)%nat i); auto using mpi_noise_fits, mpi_noise_at; try lia.
  - intros a a' Ha Ha'. symmetry. apply AK; [assumption|]. apply inb2; assumption.
  - intros a Ha. symmetry. apply AC; [assumption|]. apply inb1; assumption.
  - intros a e Ha He. symmetry. apply AT; [assumption|]. apply inb_cons; auto.
Qed.

Lemma var_rows m kw Kin Kcross Kout t b n off c Kc Cc : mpi_noise m ->
  shape Kin = [b; n; n] -> shape Kcross = [b; n] -> shape Kout = [] ->
  (off + c <= b)%nat ->
  rows_of Kin off c Kc -> rows_of Kcross off c Cc ->
  (let! K := perturb m Kin kw in diagonal_variance ls K Kcross Kout 1) = Ok t ->
  exists tc, (let! K := perturb m Kc kw in diagonal_variance ls K Cc Kout 1) = Ok tc /\ rows_of t off c tc.
Proof.
  intros Hm HK HC HO Hoff [SK AK] [SC AC] E.
  rewrite HK in SK, AK. rewrite HC in SC, AC. cbn [tl] in *.
  destruct (gp_var_inv ls Hls _ _ _ _ _ _ _ _ (mpi_noise_fits m b n Hm) HK HC HO E) as [S1 H1].
  assert (EQ : forall x i j, (x < c)%nat -> (i < n)%nat -> (j < n)%nat ->
     plus_diag (rowmat Kin (off + x)) (noise_at m kw (off + x)) i j = plus_diag (rowmat Kc x) (noise_at m kw x) i j).
  { intros x i j Hx Hi Hj. unfold plus_diag, rowmat. rewrite AK by (try apply inb2; assumption).
    rewrite (mpi_noise_at m kw (off + x) x i Hm). reflexivity. }
  destruct (gp_var_total ls Hls m kw Kc Cc Kout c n (mpi_noise_fits m c n Hm) SK SC HO) as (tc & Etc).
  { intros x Hx. apply (nonsingular_ext n (plus_diag (rowmat Kin (off + x)) (noise_at m kw (off + x)))); [|apply H1; lia].
    intros i j Hi Hj. apply EQ; assumption. }
  exists tc. split; [exact Etc|].
  destruct (gp_var_inv ls Hls _ _ _ _ _ _ _ _ (mpi_noise_fits m c n Hm) SK SC HO Etc) as [S2 H2].
  split; [rewrite S2, S1; reflexivity|]. rewrite S1. cbn [tl]. intros i l Hi Hl. apply inb_inv_nil in Hl. subst l.
  destruct (H1 (off + i)%nat ltac:(lia)) as [Hns [w [Hw ->]]]. destruct (H2 i Hi) as [_ [w' [Hw' ->]]]. f_equal.
  unfold dot. apply rsum_ext. intros j Hj. unfold rowvec. rewrite AC by (try apply inb1; assumption). f_equal.
  symmetry. refine (solves_unique n _ w w' _ Hns Hw _ j Hj).
  intros a Ha. specialize (Hw' a Ha). unfold rowvec in *. rewrite AC in Hw' by (try apply inb1; assumption). rewrite <- Hw'.
  apply rsum_ext. intros q Hq. rewrite EQ by assumption. reflexivity.
Qed.

(** ** Analytic scale *)
Lemma analytic_reduce Kin T b n sizes Ks Ts s :
  shape Kin = [b; n; n] -> univariate_shape T b n -> sizes <> [] ->
  split_into Kin sizes Ks -> split_into T sizes Ts ->
  analytic_scale ls Kin T = Ok s -> analytic_scale_mpi ls (combine Ks Ts) = Ok s.
Proof.
  intros HK HT HN HsK HsT E.
  destruct (analytic_char ls Hls Kin T b n s HK HT E) as [Hns [c [Hc Hs]]].
  assert (Hb : sum_nat sizes = b).
  { destruct HsK as [H _]. rewrite HK in H. cbn [tl] in H. congruence. }
  unfold analytic_scale_mpi.
  set (local := fun a : nd R * nd R => _).
  assert (HL : forall r a, nth_error (combine Ks Ts) r = Some a ->
    local a = Ok (rsum (nth r sizes 0%nat) (fun i => (fun x => dot n (tgt T x) (c x)) (sum_nat (firstn r sizes) + i)%nat)) /\
    shape (fst a) = [nth r sizes 0%nat; n; n]).
  { intros r [Kc Tc] Ha. apply (pair_rows Kin T sizes Ks Ts HsK HsT) in Ha as [[SK AK] [ST AT]].
    pose proof (firstn_nth_le sizes r) as Hle. rewrite Hb in Hle.
    set (off := sum_nat (firstn r sizes)) in *. set (q := nth r sizes 0%nat) in *.
    rewrite HK in SK, AK. cbn [tl] in SK, AK.
    assert (HTc : univariate_shape Tc q n).
    { destruct HT as [HT|HT]; [left|right]; rewrite ST, HT; reflexivity. }
    assert (Htgt : forall x i, (x < q)%nat -> (i < n)%nat -> tgt Tc x i = tgt T (off + x) i).
    { intros x i Hx Hi. unfold tgt. destruct HT as [HT|HT]; rewrite ST, HT in *; cbn [tl] in *.
      - apply AT; [assumption|]. apply inb1; assumption.
      - apply AT; [assumption|]. apply inb2; [assumption|lia]. }
    split; [|exact SK]. unfold local. cbn [fst snd]. unfold ndim. rewrite SK.
    change ((List.length [q; n; n] - 1) / 2)%nat with 1%nat. cbn [firstn skipn Nat.add app].
    rewrite nprod_cons. cbn [nprod fold_right]. rewrite Nat.mul_1_r.
    destruct (reshape_ok Kc [q; n; n]) as [Kf EKf]; [rewrite SK; reflexivity|].
    destruct (reshape_ok Tc [q; n; 1%nat]) as [Tf ETf]; [destruct HTc as [H|H]; rewrite H, !nprod_cons; cbn; lia|].
    rewrite EKf, ETf. cbn [bind].
    pose proof (reshape_shape _ _ _ EKf) as SKf. pose proof (reshape_shape _ _ _ ETf) as STf.
    assert (HKf : forall x i j, (x < q)%nat -> (i < n)%nat -> (j < n)%nat -> rowmat Kf x i j = rowmat Kin (off + x) i j).
    { intros x i j Hx Hi Hj. unfold rowmat. rewrite <- (AK x [i; j]) by (try apply inb2; assumption).
      rewrite <- SK in EKf. apply (reshape_same _ _ EKf). rewrite SK. apply inb3; assumption. }
    destruct (unnormalized_total ls Hls Kf Tf q n 1 SKf STf) as [u Eu].
    { intros x Hx. apply (nonsingular_ext n (rowmat Kin (off + x))); [|apply Hns; lia].
      intros i j Hi Hj. symmetry. apply HKf; assumption. }
    rewrite Eu. f_equal. destruct (unnormalized_char ls Hls Kf Tf q n 1 u SKf STf Eu) as [_ [c' [Hc' ->]]].
    apply rsum_ext. intros x Hx. cbn [rsum]. rewrite Rplus_0_l. unfold dot. apply rsum_ext. intros i Hi.
    rewrite (reshape_T2 Tc Tf q n HTc ETf x i Hx Hi), Htgt by assumption. f_equal.
    specialize (Hc' x 0%nat Hx ltac:(lia)).
    refine (solves_unique n (rowmat Kin (off + x)) (c' x 0%nat) (c (off + x)%nat) (tgt T (off + x)) _ _ _ i Hi).
    - apply Hns. lia.
    - intros a Ha. specialize (Hc' a Ha). cbv beta in Hc'. rewrite (reshape_T2 Tc Tf q n HTc ETf x a Hx Ha), Htgt in Hc' by assumption.
      rewrite <- Hc'. apply rsum_ext. intros a' Ha'. rewrite HKf by assumption. reflexivity.
    - apply Hc. lia. }
  assert (LL : List.length (combine Ks Ts) = List.length sizes) by (apply (pair_length Kin T); assumption).
  rewrite (allreduce_rows local (fun x => dot n (tgt T x) (c x)) sizes _ LL) by (intros; apply HL; assumption).
  cbn [bind].
  rewrite (allreduce_rows _ (fun _ => 1) sizes _ LL).
  2:{ intros r a Ha. destruct (HL r a Ha) as [_ Sa]. rewrite Sa. cbn [firstn]. rewrite nprod_cons, rsum_const, Rmult_1_r. f_equal. f_equal. change (nprod []) with 1%nat. lia. }
  cbn [bind]. f_equal. rewrite Hs, Hb, rsum_const, Rmult_1_r, mult_INR.
  assert (IS : match combine Ks Ts with
    | a :: _ => nprod (skipn (1 + (ndim (fst a) - 1) / 2) (shape (fst a)))
    | [] => 0%nat end = n).
  { destruct (combine Ks Ts) as [|a l] eqn:EC; [cbn in LL; destruct sizes; [contradiction|discriminate]|].
    destruct (HL 0%nat a eq_refl) as [_ Sa]. unfold ndim. rewrite Sa.
    change ((List.length [nth 0 sizes 0%nat; n; n] - 1) / 2)%nat with 1%nat. cbn [skipn Nat.add]. unfold nprod. cbn [fold_right]. lia. }
  rewrite IS. f_equal. ring.
Qed.
End Pred.

(** ** The down-sampled scale is not reduced over the ranks *)
From Coq Require Import Sorted Permutation.
From Verif Require Import ScaleSpec DownSampleProofs Gauss GPExamples.
Definition exTrank (r : nat) : nd R := mkNd [1; 2]%nat (fun _ => INR r).
Definition exKrank : nd R := mkNd [1; 2; 2]%nat (fun idx =>
  match idx with [_; i; j] => if Nat.eqb i j then 2 else 1 | _ => 0 end).

Lemma downsample_rank r : downsample_scale_opt gauss (exgp NullNoise) 1 1 (fun _ => [0%nat]) exKrank (exTrank r)
  = Ok (Some (INR r * INR r / 2)).
Proof.
  destruct (c56_downsample gauss gauss_exact (exgp NullNoise) 1 1 (fun _ => [0%nat]) exKrank (exTrank r) 1 2 1)
    as (scales & m & E & Hm & HF); try reflexivity; try exact I; try lia.
  - right. split; reflexivity.
  - intros x Hx. destruct x as [|x]; [|lia].
    intros y Hy. pose proof (exKin_pd 0 y Hy) as H. revert H. unfold quad, noisy, plus_diag, rowmat, noise_at.
    cbn. lra.
  - intros k Hk. split; [repeat constructor; auto|]. split; [reflexivity|]. intros a [<-|[]]. lia.
  - rewrite E. do 2 f_equal.
    inversion HF as [|k q ks qs Hq HF' E1 E2]; subst. inversion HF'; subst.
    destruct Hq as [idx [Hp [_ [c [Hc Hq]]]]].
    assert (idx = [0%nat]) by (apply Permutation_length_1_inv; assumption). subst idx.
    specialize (Hc 0%nat 0%nat ltac:(lia) ltac:(lia) 0%nat ltac:(cbn; lia)).
    cbn in Hc, Hq. unfold submat, noisy, plus_diag, rowmat, noise_at, resp in Hc, Hq. cbn in Hc, Hq.
    assert (m = q).
    { destruct Hm as [s [Hs [_ [[k [Hk Em]]|[k [Hk _]]]]]]; apply Permutation_length_1_inv in Hs; subst s; cbn in Hk; [|lia].
      assert (k = 0)%nat by lia. subst k. exact Em. }
    subst m. unfold dot in Hq. cbn in Hq. change (INR 1) with 1.
    assert (c 0%nat 0%nat 0%nat = INR r / 2) by lra. rewrite Hq, H. field.
Qed.

Definition exKall : nd R := exKin.
Definition exTall : nd R := mkNd [2; 2]%nat (fun idx => match idx with x :: _ => INR x | [] => 0 end).
Lemma exall_split : split_into exKall [1; 1]%nat [exKrank; exKrank] /\ split_into exTall [1; 1]%nat [exTrank 0; exTrank 1].
Proof.
  split; (split; [reflexivity|]; split; [reflexivity|]);
    intros [|[|r]] c H; cbn in H; try discriminate; try (destruct r; discriminate);
    injection H as <-; (split; [reflexivity|]); intros i l Hi Hl; cbn in Hi; assert (i = 0)%nat by lia; subst i.
  - cbn. destruct l as [|a [|b [|? ?]]]; reflexivity.
  - cbn. destruct l as [|a [|b [|? ?]]]; reflexivity.
  - reflexivity.
  - reflexivity.
Qed.

Lemma cross_entropy_empty_rank eps ranks p t k : In (p, t) ranks -> shape p = [O; k] ->
  forall v, cross_entropy_mpi eps ranks <> Ok v.
Proof.
  intros Hin Hp v. unfold cross_entropy_mpi, allreduce. intros H.
  apply bind_ok in H as (l & Hl & _). revert l Hl. induction ranks as [|a ranks IH]; intros l Hl; [contradiction|].
  cbn [map sequence] in Hl. destruct Hin as [->|Hin].
  - cbn [fst snd] in Hl. rewrite (cross_entropy_empty eps p t k Hp) in Hl. discriminate.
  - destruct (cross_entropy_fn eps (fst a) (snd a)); [|discriminate]. cbn [bind] in Hl.
    apply bind_ok in Hl as (l' & Hl' & _). exact (IH Hin l' Hl').
Qed.

Lemma downsample_ranks : exists g draws K T sizes K0 K1 T0 T1 s0 s1,
  split_into K sizes [K0; K1] /\ split_into T sizes [T0; T1] /\
  downsample_scale_opt gauss g 1 1 draws K0 T0 = Ok (Some s0) /\
  downsample_scale_opt gauss g 1 1 draws K1 T1 = Ok (Some s1) /\ s0 <> s1.
Proof.
  exists (exgp NullNoise), (fun _ => [0%nat]), exKall, exTall, [1; 1]%nat, exKrank, exKrank, (exTrank 0), (exTrank 1),
    (INR 0 * INR 0 / 2), (INR 1 * INR 1 / 2).
  destruct exall_split as [H1 H2]. split; [assumption|]. split; [assumption|]. split; [apply downsample_rank|].
  split; [apply downsample_rank|]. cbn. lra.
Qed.

Lemma mpi_examples : 
  split_into exKall [1; 1]%nat [exKrank; exKrank] /\ split_into exTall [1; 1]%nat [exTrank 0; exTrank 1] /\
  (exists s, analytic_scale gauss exKall exTall = Ok s) /\
  (exists ts, make_train_tensors (iso_post L2) (mkNd [2]%nat (fun idx => Z.of_nat (hd O idx))) ex_nix ex_data ex_data = Ok ts /\
     forall t, In t ts -> exists rest, shape t = 2%nat :: rest) /\
  (exists cd pd, crosswise_tensor ex_data ex_data (mkNd [2]%nat (fun idx => Z.of_nat (hd O idx))) ex_nix = Ok cd /\ shape cd = [2; 2; 2]%nat /\
     pairwise_tensor ex_data ex_nix = Ok pd /\ shape pd = [2; 2; 2; 2]%nat).
Proof.
  destruct exall_split as [H1 H2]. split; [assumption|]. split; [assumption|]. split.
  - apply (analytic_total gauss gauss_exact exKall exTall 2 2); [reflexivity|left; reflexivity|].
    intros x Hx. apply pd_nonsingular. apply exKin_pd.
  - destruct ex_tensor as [D [F [SN _]]].
    split.
    + eexists. split.
      * unfold make_train_tensors. cbn. reflexivity.
      * cbn. intros t [<-|[<-|[<-|[<-|[]]]]]; cbn; eauto.
    + eexists. eexists. cbn. repeat split.
Qed.
