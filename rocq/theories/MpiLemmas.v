(** Lemmas behind the MPI properties C41-C43. *)
From Coq Require Import Lia Lra.
From Verif Require Import Base BaseFacts NdModel NdFacts RSum LinAlgModel LinAlgSpec LinAlgFacts GPModel NoiseModel MuyGPSModel
  GPSpec MuyGPSProofs GPTheorems TensorModel TensorSpec TensorProofs LossModel LossSpec LossProofs
  MpiModel MpiSem MpiProofs MpiSpec ChunkProofs.
Local Open Scope R_scope.

Lemma nat_sizes_balanced count size : (1 <= size)%nat -> balanced count size (nat_sizes count size).
Proof.
  intros Hs. destruct (nat_sizes_spec count size Hs) as [H1 [H2 H3]]. split; [assumption|]. split; [assumption|].
  intros x y Hx Hy. apply H3 in Hx, Hy. lia.
Qed.

Lemma chunks_split t b rest sizes : shape t = b :: rest -> nsum sizes = b ->
  split_into t sizes (chunks_of t sizes).
Proof.
  intros E HS. rewrite <- HS in E. split; [rewrite E; reflexivity|]. split; [unfold chunks_of; rewrite map_length, seq_length; reflexivity|].
  intros r c Hc.
  assert (Hr : (r < List.length sizes)%nat).
  { assert (H : nth_error (chunks_of t sizes) r <> None) by congruence. apply nth_error_Some in H.
    unfold chunks_of in H. rewrite map_length, seq_length in H. assumption. }
  apply (nth_error_nth _ _ c) in Hc. rewrite (chunks_of_nth t _ rest sizes r c E Hr) in Hc. subst c.
  pose proof (nsum_firstn sizes r) as HF. fold (sum_nat (firstn r sizes)) in *. change (nsum (firstn r sizes)) with (sum_nat (firstn r sizes)) in *.
  split.
  - rewrite (slice_shape t _ rest _ _ E HF). rewrite E. reflexivity.
  - intros i l Hi _. apply (slice_at t _ rest _ _ _ _ E). lia.
Qed.

Lemma split_gather t sizes chunks : sizes <> [] -> split_into t sizes chunks -> nd_eq (gather chunks) t.
Proof.
  intros HN [Hsh [HL HR]].
  set (b := sum_nat sizes) in *. set (rest := tl (shape t)) in *.
  assert (G : forall ss cs off, List.length cs = List.length ss ->
     (forall r c, nth_error cs r = Some c -> rows_of t (off + sum_nat (firstn r ss)) (nth r ss 0%nat) c) ->
     sum_nat (map (fun c => hd 0%nat (shape c)) cs) = sum_nat ss /\
     forall i l, (i < sum_nat ss)%nat -> inb rest l -> gather_at cs i l = at_ t ((off + i)%nat :: l)).
  { induction ss as [|n ss IH]; intros [|c cs] off HLc HRc; try discriminate.
    - split; [reflexivity|]. cbn. intros; lia.
    - destruct (HRc 0%nat c eq_refl) as [Sc Ac]. cbn [firstn sum_nat fold_right nth] in Sc, Ac.
      rewrite Nat.add_0_r in Ac.
      destruct (IH cs (off + n)%nat) as [IH1 IH2]; [cbn in HLc; lia| |].
      { intros r c' Hc'. specialize (HRc (S r) c' Hc'). cbn [firstn sum_nat fold_right nth] in HRc.
        rewrite Nat.add_assoc in HRc. exact HRc. }
      split.
      + cbn [map sum_nat fold_right]. rewrite Sc. cbn [hd]. f_equal. exact IH1.
      + intros i l Hi Hl. cbn [sum_nat fold_right] in Hi. cbn [gather_at]. rewrite Sc. cbn [hd].
        destruct (Nat.ltb_spec i n) as [Hlt|Hge]; [apply Ac; assumption|].
        rewrite IH2 by (auto; unfold sum_nat in *; lia). do 2 f_equal. lia. }
  destruct (G sizes chunks 0%nat HL) as [G1 G2]; [exact HR|].
  assert (ES : shape (gather chunks) = b :: rest).
  { unfold gather. cbn [shape]. change (fold_right Nat.add 0%nat) with sum_nat. rewrite G1. f_equal.
    destruct chunks as [|c cs]; [destruct sizes; [contradiction|discriminate]|].
    destruct (HR 0%nat c eq_refl) as [Sc _]. rewrite Sc. reflexivity. }
  split; [congruence|]. rewrite ES. intros idx Hi. apply inb_inv_cons in Hi as (i & l & -> & Hi & Hl).
  unfold gather. cbn [at_]. apply G2; assumption.
Qed.

(** ** Scattering *)
Lemma delivers_ext {V A} size (ps : nat -> proc V A) res res' :
  (forall r, (r < size)%nat -> res r = res' r) -> always_delivers size ps res -> always_delivers size ps res'.
Proof.
  intros E [bd H]. exists bd. intros n w Hs. destruct (H n w Hs) as [H1 [H2 H3]]. split; [assumption|]. split; [assumption|].
  intros HF. destruct (H3 HF) as [H4 H5]. split; [|assumption]. intros r Hr. rewrite <- E by assumption. auto.
Qed.

Lemma big_scatter_delivers {V} (d0 : V) size chunks : (1 <= size)%nat -> List.length chunks = size ->
  always_delivers size (fun r => big_scatter r (if (r =? 0)%nat then chunks else []))
                  (fun r => Ok (nth r chunks d0)).
Proof.
  intros Hs HL. destruct chunks as [|c cs]; [cbn in HL; lia|].
  eapply delivers_ext; [|eapply (star_delivers size Hs _ (numbered 1 cs) (Ok c) (big_scatter_sends c cs) _
     (fun i => Ok (nth i (c :: cs) d0)) (fun _ => []))].
  - intros r Hr. unfold all_res. destruct (Nat.eqb_spec r 0) as [->|]; reflexivity.
  - intros i Hi. rewrite (msgs_numbered cs 1 i d0) by (cbn in HL; lia). unfold big_scatter.
    destruct (Nat.eqb_spec i 0); [lia|]. cbn. destruct i as [|i]; [lia|]. cbn. rewrite Nat.sub_0_r. reflexivity.
  - reflexivity.
  Unshelve. intros d v Hin. apply numbered_in in Hin. cbn in HL. lia.
Qed.

Definition chunk_of (size b : nat) (t : nd R) (r : nat) : nd R :=
  nth r (chunks_of t (nat_sizes b size)) (mkNd [] (fun _ => 0)).
Lemma chunk_of_split size b t rest : (1 <= size)%nat -> shape t = b :: rest ->
  split_into t (nat_sizes b size) (map (chunk_of size b t) (seq 0 size)).
Proof.
  intros Hs E. destruct (nat_sizes_spec b size Hs) as [H1 [H2 _]].
  replace (map (chunk_of size b t) (seq 0 size)) with (chunks_of t (nat_sizes b size)); [apply (chunks_split t b rest); assumption|].
  unfold chunk_of. set (l := chunks_of t (nat_sizes b size)).
  assert (HL : List.length l = size) by (unfold l, chunks_of; rewrite map_length, seq_length; assumption).
  apply (nth_ext _ _ (mkNd [] (fun _ => 0)) (mkNd [] (fun _ => 0))); [rewrite map_length, seq_length; assumption|].
  intros n Hn. rewrite HL in Hn.
  rewrite (nth_indep (map _ _) _ ((fun r => nth r l (mkNd [] (fun _ => 0))) 0%nat)) by (rewrite map_length, seq_length; assumption).
  rewrite (map_nth (fun r => nth r l (mkNd [] (fun _ => 0)))), seq_nth by assumption. reflexivity.
Qed.

(** The root evaluates [ts] after sending [L0]; then the scatter. *)
Lemma chunk_tensor_sends size b t0 ts rest : (1 <= size)%nat -> (Z.of_nat b < 2 ^ 53)%Z ->
  shape t0 = b :: rest ->
  exists L, sends (chunk_tensor size 0 (t0 :: ts) (List.length (t0 :: ts))) =
      Some (L, Ok (map (fun t => chunk_of size b t 0) (t0 :: ts))) /\
    (forall d v, In (d, v) L -> (1 <= d < size)%nat) /\
    (forall i, (1 <= i < size)%nat -> msgs i L = map (fun t => chunk_of size b t i) (t0 :: ts)).
Proof.
  intros Hs Hb E. unfold chunk_tensor. cbn [Nat.eqb]. rewrite E. rewrite (sizes_nat b size Hs Hb).
  destruct (nat_sizes_spec b size Hs) as [H1 [H2 _]].
  assert (EP : map (prepare size (map Z.of_nat (nat_sizes b size))) (t0 :: ts) =
               map (fun t => chunks_of t (nat_sizes b size)) (t0 :: ts)).
  { apply map_ext. intros t. apply prepare_nat. assumption. }
  rewrite EP.
  destruct (scatter_all_sends (mkNd [] (fun _ => 0)) size (map (fun t => chunks_of t (nat_sizes b size)) (t0 :: ts)) Hs) as [L [L1 [L2 L3]]].
  { intros cs Hcs. apply in_map_iff in Hcs. destruct Hcs as [t [<- _]]. unfold chunks_of. rewrite map_length, seq_length. assumption. }
  exists L. rewrite L1, map_map. split; [reflexivity|]. split; [assumption|].
  intros i Hi. rewrite L3, map_map by assumption. reflexivity.
Qed.
Lemma chunk_tensor_recvs size rank n vs more : (0 < rank)%nat -> List.length vs = n ->
  recvs (chunk_tensor size rank [] n) (vs ++ more) = Some (Ok vs, more).
Proof.
  intros Hr HL. unfold chunk_tensor. destruct (Nat.eqb_spec rank 0); [lia|]. apply scatter_all_recvs; assumption.
Qed.

Lemma chunk_tensor_delivers size b ts : (1 <= size)%nat -> (Z.of_nat b < 2 ^ 53)%Z -> ts <> [] ->
  (forall t, In t ts -> exists rest, shape t = b :: rest) ->
  always_delivers size (fun r => chunk_tensor size r (if (r =? 0)%nat then ts else []) (List.length ts))
    (fun r => Ok (map (fun t => chunk_of size b t r) ts)).
Proof.
  intros Hs Hb HN HT. destruct ts as [|t0 ts]; [contradiction|].
  destruct (HT t0 (or_introl eq_refl)) as [rest E].
  destruct (chunk_tensor_sends size b t0 ts rest Hs Hb E) as [L [L1 [L2 L3]]].
  eapply delivers_ext; [|eapply (star_delivers size Hs _ L _ L1 L2 (fun i => Ok (map (fun t => chunk_of size b t i) (t0 :: ts))) (fun _ => []))].
  - intros r Hr. unfold all_res. destruct (Nat.eqb_spec r 0) as [->|]; reflexivity.
  - intros i Hi. rewrite L3 by assumption. destruct (Nat.eqb_spec i 0); [lia|].
    pose proof (chunk_tensor_recvs size i (List.length (t0 :: ts)) (map (fun t => chunk_of size b t i) (t0 :: ts)) []
      ltac:(lia) (map_length _ _)) as HR. rewrite app_nil_r in HR. exact HR.
  - reflexivity.
Qed.

(** A function evaluated on the root only, without communication. *)
Lemma chunk_function_delivers size b func ts : (1 <= size)%nat -> (Z.of_nat b < 2 ^ 53)%Z -> ts <> [] ->
  (forall t, In t ts -> exists rest, shape t = b :: rest) ->
  sends (func 0%nat) = Some ([], Ok ts) ->
  always_delivers size (fun r => chunk_function_tensor size r (func r) (List.length ts))
    (fun r => Ok (map (fun t => chunk_of size b t r) ts)).
Proof.
  intros Hs Hb HN HT HF. destruct ts as [|t0 ts]; [contradiction|].
  destruct (HT t0 (or_introl eq_refl)) as [rest E].
  destruct (chunk_tensor_sends size b t0 ts rest Hs Hb E) as [L [L1 [L2 L3]]].
  assert (HF2 : sends (chunk_function_tensor size 0 (func 0%nat) (List.length (t0 :: ts))) =
     Some (L, Ok (map (fun t => chunk_of size b t 0) (t0 :: ts)))).
  { unfold chunk_function_tensor. cbn [Nat.eqb]. change L with ([] ++ L). eapply sends_bind; [exact HF|exact L1]. }
  eapply delivers_ext; [|eapply (star_delivers size Hs (fun r => chunk_function_tensor size r (func r) (List.length (t0 :: ts))) L _ HF2 L2 (fun i => Ok (map (fun t => chunk_of size b t i) (t0 :: ts))) (fun _ => []))].
  - intros r Hr. unfold all_res. destruct (Nat.eqb_spec r 0) as [->|]; [reflexivity|reflexivity].
  - intros i Hi. rewrite L3 by assumption. unfold chunk_function_tensor. destruct (Nat.eqb_spec i 0); [lia|].
    pose proof (chunk_tensor_recvs size i (List.length (t0 :: ts)) (map (fun t => chunk_of size b t i) (t0 :: ts)) []
      ltac:(lia) (map_length _ _)) as HR. rewrite app_nil_r in HR. exact HR.
  - reflexivity.
Qed.

Lemma steps_snoc {V A} size n (w w' w'' : @world V A) : steps size n w w' -> may_step size w' w'' -> steps size (n + 1) w w''.
Proof.
  intros H. induction H as [w|n w w1 w2 H1 H2 IH]; intros Hm.
  - econstructor; [exact Hm|constructor].
  - cbn [Nat.add]. econstructor; [exact H1|auto].
Qed.

Lemma delivers_terminates {V A} size (ps : nat -> proc V A) res : always_delivers size ps res ->
  exists n w, steps size n (start ps) w /\ finished size w.
Proof.
  intros [bd H].
  assert (G : forall k n w, steps size n (start ps) w -> (bd - n <= k)%nat -> exists n' w', steps size n' (start ps) w' /\ finished size w').
  { induction k as [|k IH]; intros n w Hs Hk.
    - destruct (Exists_dec (fun i => outcome (w_proc w i) = None) (seq 0 size)) as [HE|HN].
      + intros i; destruct (outcome (w_proc w i)); [right; discriminate|left; reflexivity].
      + assert (HF : ~ finished size w).
        { intros HF. apply Exists_exists in HE. destruct HE as [i [Hin Ei]]. apply in_seq in Hin. apply (HF i); [lia|assumption]. }
        destruct (H n w Hs) as [_ [H2 _]]. destruct (H2 HF) as [w' Hw'].
        assert (Hs' : steps size (n + 1) (start ps) w') by (eapply steps_snoc; [exact Hs|right; exact Hw']).
        destruct (H _ _ Hs') as [HB _]. destruct (H n w Hs) as [HB0 _]. lia.
      + exists n, w. split; [assumption|]. intros i Hin C. apply HN. apply Exists_exists. exists i. split; [apply in_seq; lia|assumption].
    - destruct (Exists_dec (fun i => outcome (w_proc w i) = None) (seq 0 size)) as [HE|HN].
      + intros i; destruct (outcome (w_proc w i)); [right; discriminate|left; reflexivity].
      + assert (HF : ~ finished size w).
        { intros HF. apply Exists_exists in HE. destruct HE as [i [Hin Ei]]. apply in_seq in Hin. apply (HF i); [lia|assumption]. }
        destruct (H n w Hs) as [_ [H2 _]]. destruct (H2 HF) as [w' Hw'].
        apply (IH (n + 1)%nat w'); [eapply steps_snoc; [exact Hs|right; exact Hw']|lia].
      + exists n, w. split; [assumption|]. intros i Hin C. apply HN. apply Exists_exists. exists i. split; [apply in_seq; lia|assumption]. }
  exact (G (bd - 0)%nat 0%nat (start ps) (steps_0 _ _) (le_n _)).
Qed.
