(** Chunk sizes and slices. *)
From Coq Require Import Lia Lra.
From Flocq Require Import Core Relative.
From Verif Require Import Base BaseFacts NdModel MpiModel.
Local Open Scope R_scope.

(** ** int(count / size) is integer division below 2^53 *)
Lemma int_true_div_exact count size : (1 <= size)%nat -> (Z.of_nat count < 2 ^ 53)%Z ->
  int_true_div count size = Z.of_nat (count / size).
Proof.
  intros Hs Hc. unfold int_true_div. set (q := INR count / INR size).
  set (rq := round radix2 (FLX_exp 53) ZnearestE q).
  assert (Hp : 0 < INR size) by (apply lt_0_INR; lia).
  assert (Hq0 : 0 <= q) by (apply Rmult_le_pos; [apply pos_INR|left; apply Rinv_0_lt_compat; assumption]).
  set (f := (count / size)%nat).
  pose proof (Nat.div_mod count size ltac:(lia)) as DM. pose proof (Nat.mod_upper_bound count size ltac:(lia)) as MB.
  fold f in DM.
  assert (Lo : INR f <= q).
  { unfold q. apply Rmult_le_reg_r with (INR size); [assumption|].
    unfold Rdiv. rewrite Rmult_assoc, Rinv_l, Rmult_1_r by lra. rewrite <- mult_INR. apply le_INR. nia. }
  assert (Hi : q + / INR size <= INR f + 1).
  { unfold q. apply Rmult_le_reg_r with (INR size); [assumption|].
    replace ((INR count / INR size + / INR size) * INR size) with (INR count + 1) by (field; lra).
    rewrite <- !S_INR, <- mult_INR. apply le_INR. nia. }
  assert (Fm : generic_format radix2 (FLX_exp 53) (INR f)).
  { rewrite INR_IZR_INZ. apply generic_format_FLX. exists (Float radix2 (Z.of_nat f) 0).
    - unfold F2R. cbn. lra.
    - cbn [Fnum]. rewrite Z.abs_eq by lia. apply Z.le_lt_trans with (Z.of_nat count); [|exact Hc].
      apply inj_le. unfold f. apply Nat.div_le_upper_bound; nia. }
  assert (Rlo : INR f <= rq).
  { rewrite <- (round_generic radix2 (FLX_exp 53) ZnearestE (INR f) Fm). apply round_le; [apply FLX_exp_valid; reflexivity|apply valid_rnd_N|exact Lo]. }
  assert (Rhi : rq < INR f + 1).
  { pose proof (relative_error_N_FLX radix2 53 ltac:(reflexivity) (fun x => negb (Z.even x)) q) as RE.
    fold rq in RE. 
    assert (B : / 2 * bpow radix2 (- 53 + 1) * Rabs q < / INR size).
    { rewrite Rabs_pos_eq by assumption. unfold q.
      assert (E : / 2 * bpow radix2 (- 53 + 1) = / IZR (2 ^ 53)).
      { change (bpow radix2 (- 53 + 1)) with (/ IZR (2 ^ 52)). rewrite <- Rinv_mult, <- mult_IZR. reflexivity. }
      rewrite E.
      assert (P53 : 0 < IZR (2 ^ 53)) by (apply (IZR_lt 0); reflexivity).
      replace (/ IZR (2 ^ 53) * (INR count / INR size)) with (INR count * / IZR (2 ^ 53) * / INR size) by (unfold Rdiv; ring).
      rewrite <- (Rmult_1_l (/ INR size)) at 2. apply Rmult_lt_compat_r; [apply Rinv_0_lt_compat; assumption|].
      apply Rmult_lt_reg_r with (IZR (2 ^ 53)); [assumption|].
      rewrite Rmult_assoc, Rinv_l, Rmult_1_r, Rmult_1_l by (apply Rgt_not_eq; exact P53). rewrite INR_IZR_INZ. apply IZR_lt. exact Hc. }
    pose proof (Rle_lt_trans _ _ _ RE B) as RB. apply Rle_lt_trans with (q + Rabs (rq - q)); [pose proof (Rle_abs (rq - q)); lra|]. clear RE B. lra. }
  apply Zfloor_imp. rewrite plus_IZR, <- INR_IZR_INZ. split; assumption.
Qed.

(** ** The sizes *)
Definition nat_sizes (count size : nat) : list nat :=
  map (fun i => if (size - count mod size <=? i)%nat then S (count / size) else (count / size)%nat) (seq 0 size).

Lemma sizes_nat count size : (1 <= size)%nat -> (Z.of_nat count < 2 ^ 53)%Z ->
  get_chunk_sizes count size = map Z.of_nat (nat_sizes count size).
Proof.
  intros Hs Hc. unfold get_chunk_sizes, nat_sizes. rewrite int_true_div_exact by assumption. rewrite map_map.
  apply map_ext. intros i.
  assert (E : (Z.of_nat count - Z.of_nat (count / size) * Z.of_nat size)%Z = Z.of_nat (count mod size)).
  { pose proof (Nat.div_mod count size ltac:(lia)). nia. }
  rewrite E. pose proof (Nat.mod_upper_bound count size ltac:(lia)).
  destruct (Z.leb_spec (Z.of_nat size - Z.of_nat (count mod size)) (Z.of_nat i)), (Nat.leb_spec (size - count mod size) i); lia.
Qed.

Definition nsum (l : list nat) : nat := fold_right Nat.add 0%nat l.
Lemma nsum_app l1 l2 : nsum (l1 ++ l2) = (nsum l1 + nsum l2)%nat.
Proof. induction l1 as [|a l1 IH]; cbn [app nsum fold_right]; [reflexivity|]. fold (nsum (l1 ++ l2)) (nsum l1). lia. Qed.
Lemma zsum_nat l : zsum (map Z.of_nat l) = Z.of_nat (nsum l).
Proof. induction l as [|a l IH]; cbn [map zsum fold_right nsum]; [reflexivity|]. fold (zsum (map Z.of_nat l)) (nsum l). lia. Qed.

Lemma nsum_threshold a f n : forall s, nsum (map (fun i => if (a <=? i)%nat then S f else f) (seq s n)) = (n * f + (n - (a - s)))%nat.
Proof.
  induction n as [|n IH]; intros s; cbn [seq map nsum fold_right]; [reflexivity|].
  fold (nsum (map (fun i => if (a <=? i)%nat then S f else f) (seq (S s) n))). rewrite IH.
  destruct (Nat.leb_spec a s); nia.
Qed.

Lemma nat_sizes_spec count size : (1 <= size)%nat ->
  List.length (nat_sizes count size) = size /\ nsum (nat_sizes count size) = count /\
  forall c, In c (nat_sizes count size) -> c = (count / size)%nat \/ c = S (count / size).
Proof.
  intros Hs. unfold nat_sizes. rewrite map_length, seq_length. split; [reflexivity|]. split.
  - rewrite nsum_threshold. pose proof (Nat.div_mod count size ltac:(lia)).
    pose proof (Nat.mod_upper_bound count size ltac:(lia)). nia.
  - intros c Hc. apply in_map_iff in Hc. destruct Hc as [i [<- _]]. destruct (_ <=? _)%nat; auto.
Qed.

(** ** Slices put back together *)
Definition chunks_of (t : nd R) (sizes : list nat) : list (nd R) :=
  map (fun i => slice0 t (nsum (firstn i sizes)) (nth i sizes 0%nat)) (seq 0 (List.length sizes)).

Lemma prepare_nat size l t : List.length l = size -> prepare size (map Z.of_nat l) t = chunks_of t l.
Proof.
  intros HL. unfold prepare, chunks_of. rewrite HL. apply map_ext. intros i.
  rewrite firstn_map, zsum_nat, Nat2Z.id.
  change 0%Z with (Z.of_nat 0). rewrite map_nth, Nat2Z.id. reflexivity.
Qed.

Lemma slice_shape t b rest start n : shape t = b :: rest -> (start + n <= b)%nat ->
  shape (slice0 t start n) = n :: rest.
Proof. intros E H. unfold slice0. rewrite E. cbn [shape]. f_equal. lia. Qed.
Lemma slice_at t b rest start n i l : shape t = b :: rest -> (start <= b)%nat ->
  at_ (slice0 t start n) (i :: l) = at_ t ((start + i)%nat :: l).
Proof. intros E H. unfold slice0. rewrite E. cbn [at_]. do 2 f_equal. lia. Qed.

(** Chunks from offset [off]. *)
Definition chunks_from (t : nd R) (off : nat) (sizes : list nat) : list (nd R) :=
  map (fun i => slice0 t (off + nsum (firstn i sizes)) (nth i sizes 0%nat)) (seq 0 (List.length sizes)).
Lemma chunks_from_0 t sizes : chunks_from t 0 sizes = chunks_of t sizes.
Proof. reflexivity. Qed.
Lemma chunks_from_cons t off c sizes :
  chunks_from t off (c :: sizes) = slice0 t off c :: chunks_from t (off + c) sizes.
Proof.
  unfold chunks_from. cbn [List.length seq map firstn nth nsum fold_right]. rewrite Nat.add_0_r. f_equal.
  rewrite <- seq_shift, map_map. apply map_ext. intros i. cbn [firstn nth nsum fold_right].
  fold (nsum (firstn i sizes)). f_equal. lia.
Qed.

Lemma gather_chunks_from t b rest sizes : shape t = b :: rest -> forall off,
  (off + nsum sizes <= b)%nat ->
  nsum (map (fun c => hd 0%nat (shape c)) (chunks_from t off sizes)) = nsum sizes /\
  (forall i l, (i < nsum sizes)%nat -> gather_at (chunks_from t off sizes) i l = at_ t ((off + i)%nat :: l)).
Proof.
  intros E. induction sizes as [|c sizes IH]; intros off H.
  - split; [reflexivity|]. cbn. intros; lia.
  - cbn [nsum fold_right] in *. fold (nsum sizes) in *. rewrite chunks_from_cons.
    destruct (IH (off + c)%nat ltac:(lia)) as [IH1 IH2].
    assert (ES : shape (slice0 t off c) = c :: rest) by (apply (slice_shape t b); [assumption|lia]).
    split.
    + cbn [map fold_right nsum]. fold (nsum (map (fun c => hd 0%nat (shape c)) (chunks_from t (off + c) sizes))).
      rewrite IH1, ES. reflexivity.
    + intros i l Hi. cbn [gather_at]. rewrite ES. cbn [hd].
      destruct (Nat.ltb_spec i c) as [Hlt|Hge].
      * apply (slice_at t b rest); [assumption|lia].
      * rewrite IH2 by lia. do 2 f_equal. lia.
Qed.

Lemma gather_chunks t b rest sizes : shape t = b :: rest -> nsum sizes = b -> sizes <> [] ->
  nd_eq (gather (chunks_of t sizes)) t.
Proof.
  intros E HS HN. destruct (gather_chunks_from t b rest sizes E 0 ltac:(lia)) as [H1 H2].
  rewrite chunks_from_0 in *.
  assert (ES : shape (gather (chunks_of t sizes)) = b :: rest).
  { unfold gather. cbn [shape]. fold (nsum (map (fun c => hd 0%nat (shape c)) (chunks_of t sizes))).
    rewrite H1, HS. f_equal. destruct sizes as [|c sizes]; [contradiction|].
    rewrite <- chunks_from_0, chunks_from_cons. unfold slice0. rewrite E. reflexivity. }
  split; [congruence|]. rewrite ES. intros idx Hi. inversion Hi as [|i b' l rest' Hib Hl]; subst.
  unfold gather. cbn [at_]. rewrite H2 by assumption. reflexivity.
Qed.

Lemma chunks_of_nth t b rest sizes i d : shape t = b :: rest -> (i < List.length sizes)%nat ->
  nth i (chunks_of t sizes) d = slice0 t (nsum (firstn i sizes)) (nth i sizes 0%nat).
Proof.
  intros E Hi. unfold chunks_of.
  set (f := fun i => slice0 t (nsum (firstn i sizes)) (nth i sizes 0%nat)).
  rewrite (nth_indep _ d (f 0%nat)) by (rewrite map_length, seq_length; assumption).
  rewrite (map_nth f), seq_nth by assumption. reflexivity.
Qed.
Lemma nsum_firstn sizes i : (nsum (firstn i sizes) + nth i sizes 0%nat <= nsum sizes)%nat.
Proof.
  revert i. unfold nsum. induction sizes as [|c sizes IH]; intros [|i]; cbn [firstn nth fold_right]; try lia.
  specialize (IH i). lia.
Qed.

(** ** Beyond 2^53 the division rounds up *)
Lemma int_true_div_large : Zfloor (round radix2 (FLX_exp 53) ZnearestE (IZR (2 ^ 54 + 3))) = (2 ^ 54 + 4)%Z.
Proof.
  assert (M : mag radix2 (IZR (2 ^ 54 + 3)) = 55%Z :> Z).
  { apply mag_unique. rewrite Rabs_pos_eq by (apply (IZR_le 0); vm_compute; discriminate).
    change (bpow radix2 (55 - 1)) with (IZR (2 ^ 54)). change (bpow radix2 55) with (IZR (2 ^ 55)).
    split; [apply IZR_le; vm_compute; discriminate|apply IZR_lt; reflexivity]. }
  unfold round, scaled_mantissa, cexp. rewrite M. change (FLX_exp 53 55) with 2%Z.
  change (- (2))%Z with (-2)%Z.
  assert (N : ZnearestE (IZR (2 ^ 54 + 3) * bpow radix2 (- 2)) = (2 ^ 52 + 1)%Z).
  { apply Znearest_imp. change (bpow radix2 (- 2)) with (/ 4).
    replace (IZR (2 ^ 54 + 3) * / 4 - IZR (2 ^ 52 + 1)) with (- / 4).
    - rewrite Rabs_Ropp, Rabs_pos_eq; lra.
    - replace (IZR (2 ^ 54 + 3)) with (4 * IZR (2 ^ 52 + 1) - 1); [field|].
      rewrite <- (mult_IZR 4), <- minus_IZR. f_equal. }
  rewrite N. unfold F2R. cbn [Fnum Fexp]. change (bpow radix2 2) with (IZR 4). rewrite <- mult_IZR.
  rewrite Zfloor_IZR. reflexivity.
Qed.

Lemma chunk_sizes_large count : Z.of_nat count = (2 ^ 54 + 3)%Z -> zsum (get_chunk_sizes count 1) <> Z.of_nat count.
Proof.
  intros Hc. unfold get_chunk_sizes, int_true_div. change (INR 1) with 1. unfold Rdiv. rewrite Rinv_1, Rmult_1_r.
  rewrite INR_IZR_INZ, Hc, int_true_div_large. cbn. discriminate.
Qed.
