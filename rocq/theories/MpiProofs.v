(** Executions in which rank 0 only sends and the others only receive from rank 0. *)
From Coq Require Import Lia.
From Verif Require Import Base MpiModel MpiSem.

Section Star.
Context {V A : Type}.

(** What a program that never receives sends, and its outcome. *)
Fixpoint sends {B} (p : proc V B) : option (list (nat * V) * result B) :=
  match p with
  | Ret a => Some ([], Ok a)
  | Raise e => Some ([], Err e)
  | Send v d k => match sends k with Some (L, r) => Some ((d, v) :: L, r) | None => None end
  | Recv _ _ => None
  end.

(** The outcome of a program that only receives from rank 0, given its messages, and those left. *)
Fixpoint recvs {B} (p : proc V B) (inbox : list V) : option (result B * list V) :=
  match p with
  | Ret a => Some (Ok a, inbox)
  | Raise e => Some (Err e, inbox)
  | Send _ _ _ => None
  | Recv O k => match inbox with [] => None | v :: vs => recvs (k v) vs end
  | Recv _ _ => None
  end.

Definition msgs (i : nat) (L : list (nat * V)) : list V :=
  map snd (filter (fun e => (fst e =? i)%nat) L).

Variable size : nat.
Hypothesis Hsize : (1 <= size)%nat.
Variable ps : nat -> proc V A.
Variable L : list (nat * V).
Variable r0 : result A.
Hypothesis Hroot : sends (ps 0) = Some (L, r0).
Hypothesis Hdst : forall d v, In (d, v) L -> (1 <= d < size)%nat.
Variable res : nat -> result A.
Variable rest : nat -> list V.
Hypothesis Hleaf : forall i, (1 <= i < size)%nat -> recvs (ps i) (msgs i L) = Some (res i, rest i).

Definition inv (w : world) (m : nat) : Prop :=
  exists L2, sends (w_proc w 0) = Some (L2, r0) /\ incl L2 L /\
    (forall i, (1 <= i < size)%nat -> recvs (w_proc w i) (w_chan w 0 i ++ msgs i L2) = Some (res i, rest i)) /\
    (forall s d, s <> 0%nat -> w_chan w s d = []) /\
    (forall d, ~ (1 <= d < size)%nat -> w_chan w 0 d = []) /\
    (2 * List.length L2 + fold_right Nat.add 0 (map (fun i => List.length (w_chan w 0 i)) (seq 0 size)) = m)%nat.

Lemma sum_upd (f : nat -> nat) n d x : forall a, (a <= d < a + n)%nat ->
  (fold_right Nat.add 0 (map (fun i => if (i =? d)%nat then x else f i) (seq a n)) + f d =
   fold_right Nat.add 0 (map f (seq a n)) + x)%nat.
Proof.
  induction n as [|n IH]; intros a H; [lia|]. cbn [seq map fold_right].
  destruct (Nat.eqb_spec a d) as [->|Hne].
  - assert (E : map (fun i => if (i =? d)%nat then x else f i) (seq (S d) n) = map f (seq (S d) n)).
    { apply map_ext_in. intros i Hi. apply in_seq in Hi. destruct (Nat.eqb_spec i d); [lia|reflexivity]. }
    rewrite E. lia.
  - specialize (IH (S a) ltac:(lia)). lia.
Qed.

Lemma msgs_cons i d v L2 : msgs i ((d, v) :: L2) = (if (d =? i)%nat then [v] else []) ++ msgs i L2.
Proof. unfold msgs. cbn. destruct (d =? i)%nat; reflexivity. Qed.

Lemma inv_start : inv (start ps) (2 * List.length L).
Proof.
  exists L. unfold start. cbn [w_proc w_chan]. repeat split; auto using incl_refl.
  assert (E : forall n a, fold_right Nat.add 0%nat (map (fun _ : nat => @List.length V []) (seq a n)) = 0%nat).
  { induction n; intros; cbn; auto. }
  rewrite E. lia.
Qed.

Lemma inv_step w w' m : inv w m -> may_step size w w' -> exists m', inv w' m' /\ (m' < m)%nat.
Proof.
  intros [L2 [HS [HI [HR [HC [HC0 HM]]]]]] [Hst|[Hst|Hst]].
  - (* buffered send *)
    destruct Hst as [r [d [v [k [Hr [Ep ->]]]]]].
    destruct (Nat.eq_dec r 0) as [->|Hne].
    2:{ specialize (HR r ltac:(lia)). rewrite Ep in HR. discriminate. }
    rewrite Ep in HS. cbn in HS. destruct (sends k) as [[L' r']|] eqn:Ek; [|discriminate].
    injection HS as <- ->. assert (Hd : (1 <= d < size)%nat) by (apply (Hdst d v), HI; left; reflexivity).
    exists (m - 1)%nat. split; [|cbn in HM; lia]. exists L'. cbn [w_proc w_chan].
    split; [unfold upd; cbn; exact Ek|]. split; [intros x Hx; apply HI; right; assumption|].
    split; [|split; [|split]].
    + intros i Hi. unfold upd, upd2. destruct (Nat.eqb_spec i 0); [lia|]. cbn [Nat.eqb andb].
      specialize (HR i Hi). rewrite msgs_cons in HR.
      destruct (Nat.eqb_spec i d) as [->|Hid].
      * rewrite Nat.eqb_refl in HR. rewrite <- app_assoc. exact HR.
      * destruct (Nat.eqb_spec d i); [lia|]. exact HR.
    + intros s d' Hs. unfold upd2. destruct (Nat.eqb_spec s 0); [lia|]. cbn. auto.
    + intros d' Hd'. unfold upd2. cbn [Nat.eqb andb]. destruct (Nat.eqb_spec d' d); [lia|]. auto.
    + pose proof (sum_upd (fun i => List.length (w_chan w 0 i)) size d (List.length (w_chan w 0 d ++ [v])) 0 ltac:(lia)) as HU.
      rewrite app_length in HU. cbn [List.length] in HU, HM.
      erewrite map_ext; [|intros i; unfold upd2; cbn [Nat.eqb andb];
        rewrite (fun b => match b as b0 return List.length (if b0 then w_chan w 0 d ++ [v] else w_chan w 0 i) = if b0 then List.length (w_chan w 0 d ++ [v]) else List.length (w_chan w 0 i) with true => eq_refl | false => eq_refl end);
        reflexivity].
      rewrite app_length. cbn [List.length]. lia.
  - (* receive *)
    destruct Hst as [r [s [v [vs [k [Hr [Ep [Ec ->]]]]]]]].
    destruct (Nat.eq_dec r 0) as [->|Hne]. { rewrite Ep in HS. discriminate. }
    pose proof (HR r ltac:(lia)) as HRr. rewrite Ep in HRr.
    destruct s as [|s]; [|discriminate HRr]. rewrite Ec in HRr. cbn in HRr.
    exists (m - 1)%nat.
    pose proof (sum_upd (fun i => List.length (w_chan w 0 i)) size r (List.length vs) 0 ltac:(lia)) as HU.
    cbn beta in HU. rewrite Ec in HU. cbn [List.length] in HU.
    split; [|lia]. exists L2. cbn [w_proc w_chan].
    split; [unfold upd; destruct (Nat.eqb_spec 0 r); [lia|]; exact HS|]. split; [assumption|].
    split; [|split; [|split]].
    + intros i Hi. unfold upd, upd2. cbn [Nat.eqb andb]. destruct (Nat.eqb_spec i r) as [->|Hir]; [exact HRr|auto].
    + intros s d' Hs. unfold upd2. destruct (Nat.eqb_spec s 0); [lia|]. cbn. auto.
    + intros d' Hd'. unfold upd2. cbn [Nat.eqb andb]. destruct (Nat.eqb_spec d' r) as [->|]; [|auto].
      exfalso. apply Hd'. lia.
    + erewrite map_ext; [|intros i; unfold upd2; cbn [Nat.eqb andb];
        rewrite (fun b => match b as b0 return List.length (if b0 then vs else w_chan w 0 i) = if b0 then List.length vs else List.length (w_chan w 0 i) with true => eq_refl | false => eq_refl end);
        reflexivity].
      lia.
  - (* rendezvous *)
    destruct Hst as [r [d [v [k [k2 [Hr [Hd [Hrd [Ep [Ep2 [Ec ->]]]]]]]]]]].
    destruct (Nat.eq_dec r 0) as [->|Hne].
    2:{ specialize (HR r ltac:(lia)). rewrite Ep in HR. discriminate. }
    rewrite Ep in HS. cbn in HS. destruct (sends k) as [[L' r']|] eqn:Ek; [|discriminate].
    injection HS as <- ->.
    exists (m - 2)%nat. cbn [List.length] in HM. split; [|lia]. exists L'. cbn [w_proc w_chan].
    split; [unfold upd; destruct (Nat.eqb_spec 0 d); [lia|]; cbn; exact Ek|].
    split; [intros x Hx; apply HI; right; assumption|].
    split; [|split; [|split]]; auto; [|lia].
    intros i Hi. unfold upd. specialize (HR i Hi). rewrite msgs_cons in HR.
    destruct (Nat.eqb_spec i d) as [->|Hid].
    + rewrite Nat.eqb_refl, Ep2, Ec in HR. cbn in HR. rewrite Ec. exact HR.
    + destruct (Nat.eqb_spec d i); [lia|]. destruct (Nat.eqb_spec i 0); [lia|]. exact HR.
Qed.

Lemma inv_steps n : forall w w' m, inv w m -> steps size n w w' -> exists m', inv w' m' /\ (n + m' <= m)%nat.
Proof.
  induction n as [|n IH]; intros w w' m Hi Hs; inversion Hs; subst.
  - exists m. split; [assumption|lia].
  - destruct (inv_step _ _ _ Hi H0) as [m1 [I1 L1]]. destruct (IH _ _ _ I1 H1) as [m2 [I2 L2]].
    exists m2. split; [assumption|lia].
Qed.

(** On completion the outcomes are determined, whatever the schedule. *)
Lemma inv_finished w m : inv w m -> finished size w ->
  outcome (w_proc w 0) = Some r0 /\
  (forall i, (1 <= i < size)%nat -> outcome (w_proc w i) = Some (res i) /\ w_chan w 0 i = rest i).
Proof.
  intros [L2 [HS [HI [HR [HC _]]]]] HF.
  assert (H0 : outcome (w_proc w 0) = Some r0 /\ L2 = []).
  { specialize (HF 0%nat ltac:(lia)). destruct (w_proc w 0); cbn in *; try congruence; injection HS as <- <-; auto. }
  destruct H0 as [H0 ->]. split; [assumption|]. intros i Hi. specialize (HF i ltac:(lia)). specialize (HR i Hi).
  cbn [msgs filter map] in HR. rewrite app_nil_r in HR.
  destruct (w_proc w i); cbn in *; try congruence; injection HR as <- <-; auto.
Qed.

Lemma inv_may w m : inv w m -> ~ finished size w -> exists w', may_step size w w'.
Proof.
  intros [L2 [HS [HI [HR [HC _]]]]] HF.
  destruct (w_proc w 0) as [a|e|v d k|s k] eqn:E0; try discriminate.
  3:{ eexists. left. exists 0%nat, d, v, k. split; [lia|]. split; [exact E0|reflexivity]. }
  all: assert (L2 = []) by (cbn in HS; congruence); subst L2.
  all: destruct (Exists_dec (fun i => outcome (w_proc w i) = None) (seq 0 size)) as [HE|HN];
    [intros i; destruct (outcome (w_proc w i)); [right; discriminate|left; reflexivity]|
    |exfalso; apply HF; intros i Hi C; apply HN; apply Exists_exists; exists i; split; [apply in_seq; lia|assumption]].
  all: apply Exists_exists in HE; destruct HE as [i [Hi Ei]]; apply in_seq in Hi.
  all: destruct (Nat.eq_dec i 0) as [->|Hne]; [rewrite E0 in Ei; discriminate|].
  all: specialize (HR i ltac:(lia)); cbn [msgs filter map] in HR; rewrite app_nil_r in HR.
  all: destruct (w_proc w i) as [a'|e'|v d k|[|s] k] eqn:Ep; try discriminate.
  all: destruct (w_chan w 0 i) as [|v vs] eqn:Ec; [discriminate|].
  all: eexists; right; left; exists i, 0%nat, v, vs, k; split; [lia|]; split; [exact Ep|]; split; [exact Ec|reflexivity].
Qed.

Lemma inv_must w m : (forall i, (1 <= i < size)%nat -> rest i = []) -> inv w m -> ~ finished size w ->
  exists w', must_step size w w'.
Proof.
  intros Hrest Hinv HF. destruct (inv_may w m Hinv HF) as [w' [Hs|Hs]]; [|eauto].
  destruct Hinv as [L2 [HS [HI [HR [HC _]]]]].
  destruct Hs as [r [d [v [k [Hr [Ep _]]]]]].
  destruct (Nat.eq_dec r 0) as [->|Hne].
  2:{ specialize (HR r ltac:(lia)). rewrite Ep in HR. discriminate. }
  rewrite Ep in HS. cbn in HS. destruct (sends k) as [[L' r']|] eqn:Ek; [|discriminate].
  injection HS as <- ->. assert (Hd : (1 <= d < size)%nat) by (apply (Hdst d v), HI; left; reflexivity).
  specialize (HR d Hd). rewrite msgs_cons, Nat.eqb_refl, (Hrest d Hd) in HR.
  destruct (w_chan w 0 d) as [|u us] eqn:Ec.
  - destruct (w_proc w d) as [a|e|v' d' k'|[|s] k'] eqn:Epd; cbn in HR; try discriminate.
    eexists. right. exists 0%nat, d, v, k, k'. repeat split; auto; try lia.
  - destruct (w_proc w d) as [a|e|v' d' k'|[|s] k'] eqn:Epd; cbn in HR; try discriminate.
    eexists. left. exists d, 0%nat, u, us, k'. repeat split; auto; try lia.
Qed.

Definition all_res (i : nat) : result A := if (i =? 0)%nat then r0 else res i.

Theorem star_delivers : (forall i, (1 <= i < size)%nat -> rest i = []) -> always_delivers size ps all_res.
Proof.
  intros Hrest. exists (2 * List.length L)%nat. intros n w Hs.
  destruct (inv_steps n _ _ _ inv_start Hs) as [m [Hi Hm]]. split; [lia|]. split.
  - intros HF. apply (inv_must w m Hrest Hi HF).
  - intros HF. destruct (inv_finished w m Hi HF) as [H0 H1]. split.
    + intros r Hr. unfold all_res. destruct (Nat.eqb_spec r 0) as [->|Hne]; [assumption|]. apply H1. lia.
    + intros s d. destruct Hi as [L2 [_ [_ [_ [HC [HC0 _]]]]]].
      destruct (Nat.eq_dec s 0) as [->|Hs0]; [|auto].
      destruct (le_lt_dec size d) as [Hd|Hd]; [apply HC0; lia|].
      destruct d as [|d]; [apply HC0; lia|]. rewrite (proj2 (H1 (S d) ltac:(lia))). apply Hrest. lia.
Qed.

(** Some execution completes, and every completed one has these outcomes (even if messages remain). *)
Theorem star_outcomes :
  (exists n w, steps size n (start ps) w /\ finished size w) /\
  (forall n w, steps size n (start ps) w -> finished size w ->
     forall r, (r < size)%nat -> outcome (w_proc w r) = Some (all_res r)).
Proof.
  split.
  - assert (G : forall m w, inv w m -> exists n w', steps size n w w' /\ finished size w').
    { induction m as [m IH] using lt_wf_ind. intros w Hi.
      destruct (Exists_dec (fun i => outcome (w_proc w i) = None) (seq 0 size)) as [HE|HN].
      - intros i; destruct (outcome (w_proc w i)); [right; discriminate|left; reflexivity].
      - assert (HF : ~ finished size w).
        { intros HF. apply Exists_exists in HE. destruct HE as [i [Hin Ei]]. apply in_seq in Hin.
          apply (HF i); [lia|assumption]. }
        destruct (inv_may w m Hi HF) as [w' Hw']. destruct (inv_step _ _ _ Hi Hw') as [m' [Hi' Hlt]].
        destruct (IH m' Hlt w' Hi') as [n [w'' [Hs Hf]]]. exists (S n), w''. split; [econstructor; eauto|assumption].
      - exists 0%nat, w. split; [constructor|]. intros i Hin C. apply HN. apply Exists_exists. exists i.
        split; [apply in_seq; lia|assumption]. }
    exact (G _ _ inv_start).
  - intros n w Hs HF r Hr. destruct (inv_steps n _ _ _ inv_start Hs) as [m [Hi _]].
    destruct (inv_finished w m Hi HF) as [H0 H1]. unfold all_res.
    destruct (Nat.eqb_spec r 0) as [->|Hne]; [assumption|]. apply H1. lia.
Qed.
End Star.

(** ** Composition *)
Section Comp.
Context {V : Type}.

Lemma sends_bind {A B} (p : proc V A) (f : A -> proc V B) L1 a L2 r :
  sends p = Some (L1, Ok a) -> sends (f a) = Some (L2, r) -> sends (pbind p f) = Some (L1 ++ L2, r).
Proof.
  revert L1. induction p as [x|e|v d k IH|s k IH]; intros L1 H1 H2; cbn in *; try discriminate.
  - injection H1 as <- <-. assumption.
  - destruct (sends k) as [[L' r']|]; [|discriminate]. injection H1 as <- ->.
    rewrite (IH L' eq_refl H2). reflexivity.
Qed.
Lemma sends_bind_err {A B} (p : proc V A) (f : A -> proc V B) L1 e :
  sends p = Some (L1, Err e) -> sends (pbind p f) = Some (L1, Err e).
Proof.
  revert L1. induction p as [x|e'|v d k IH|s k IH]; intros L1 H1; cbn in *; try discriminate.
  - injection H1 as <- <-. reflexivity.
  - destruct (sends k) as [[L' r']|]; [|discriminate]. injection H1 as <- ->.
    rewrite (IH L' eq_refl). reflexivity.
Qed.
Lemma recvs_bind {A B} (p : proc V A) (f : A -> proc V B) : forall inbox a mid out,
  recvs p inbox = Some (Ok a, mid) -> recvs (f a) mid = out -> recvs (pbind p f) inbox = out.
Proof.
  induction p as [x|e|v d k IH|s k IH]; intros inbox a mid out H1 H2; cbn in *; try discriminate.
  - injection H1 as <- <-. assumption.
  - destruct s; [|discriminate]. destruct inbox as [|v vs]; [discriminate|]. eapply IH; eauto.
Qed.

Fixpoint numbered (i : nat) (cs : list V) : list (nat * V) :=
  match cs with [] => [] | c :: cs' => (i, c) :: numbered (S i) cs' end.

Lemma scatter_loop_sends cs : forall i my, (0 < i)%nat ->
  sends (scatter_loop i cs (Some my)) = Some (numbered i cs, Ok my).
Proof.
  induction cs as [|c cs IH]; intros i my Hi; [reflexivity|]. cbn [scatter_loop].
  destruct (Nat.eqb_spec i 0); [lia|]. cbn. rewrite IH by lia. reflexivity.
Qed.
Lemma big_scatter_sends c cs : sends (big_scatter 0 (c :: cs)) = Some (numbered 1 cs, Ok c).
Proof. unfold big_scatter. cbn [Nat.eqb scatter_loop]. apply scatter_loop_sends. lia. Qed.

Lemma numbered_in cs : forall i d v, In (d, v) (numbered i cs) -> (i <= d < i + List.length cs)%nat.
Proof.
  induction cs as [|c cs IH]; intros i d v H; cbn in *; [contradiction|]. destruct H as [H|H].
  - injection H as <- <-. lia.
  - apply IH in H. lia.
Qed.
Lemma msgs_app i (L1 L2 : list (nat * V)) : msgs i (L1 ++ L2) = msgs i L1 ++ msgs i L2.
Proof. unfold msgs. rewrite filter_app, map_app. reflexivity. Qed.
Lemma msgs_numbered_lt cs : forall a i, (i < a)%nat -> msgs i (numbered a cs) = [].
Proof.
  induction cs as [|c cs IH]; intros a i H; [reflexivity|]. cbn [numbered]. rewrite msgs_cons.
  destruct (Nat.eqb_spec a i); [lia|]. cbn. apply IH. lia.
Qed.
Lemma msgs_numbered cs : forall a i d, (a <= i < a + List.length cs)%nat -> msgs i (numbered a cs) = [nth (i - a) cs d].
Proof.
  induction cs as [|c cs IH]; intros a i d H; cbn [List.length] in H; [lia|]. cbn [numbered]. rewrite msgs_cons.
  destruct (Nat.eqb_spec a i) as [->|Hne].
  - rewrite msgs_numbered_lt by lia. rewrite Nat.sub_diag. reflexivity.
  - cbn [app]. rewrite (IH (S a) i d) by lia. replace (i - a)%nat with (S (i - S a)) by lia. reflexivity.
Qed.

Variable d0 : V.

(** Every list of chunks has one chunk per rank. *)
Lemma scatter_all_sends size (l : list (list V)) : (1 <= size)%nat ->
  (forall cs, In cs l -> List.length cs = size) ->
  exists L, sends (scatter_all 0 l) = Some (L, Ok (map (fun cs => nth 0 cs d0) l)) /\
    (forall d v, In (d, v) L -> (1 <= d < size)%nat) /\
    (forall i, (1 <= i < size)%nat -> msgs i L = map (fun cs => nth i cs d0) l).
Proof.
  intros Hs. induction l as [|cs l IH]; intros HL.
  - exists []. cbn. repeat split; auto; contradiction.
  - destruct IH as [L [E1 [E2 E3]]]; [intros; apply HL; right; assumption|].
    pose proof (HL cs (or_introl eq_refl)) as Hcs. destruct cs as [|c cs]; [cbn in Hcs; lia|].
    exists (numbered 1 cs ++ L). cbn [scatter_all]. split; [|split].
    + eapply sends_bind; [apply big_scatter_sends|].
      rewrite <- (app_nil_r L). eapply sends_bind; [exact E1|]. reflexivity.
    + intros d v Hin. apply in_app_iff in Hin. destruct Hin as [Hin|Hin]; [|eauto].
      apply numbered_in in Hin. cbn in Hcs. lia.
    + intros i Hi. rewrite msgs_app, E3 by assumption. cbn [map].
      rewrite (msgs_numbered cs 1 i d0) by (cbn in Hcs; lia). destruct i as [|i]; [lia|]. cbn [Nat.sub nth app].
      rewrite Nat.sub_0_r. reflexivity.
Qed.

Lemma scatter_all_recvs rank n : (0 < rank)%nat -> forall vs more : list V, List.length vs = n ->
  recvs (scatter_all rank (repeat [] n)) (vs ++ more) = Some (Ok vs, more).
Proof.
  intros Hr. induction n as [|n IH]; intros vs more HL.
  - destruct vs; [reflexivity|discriminate].
  - destruct vs as [|v vs]; [discriminate|]. cbn [repeat scatter_all app]. unfold big_scatter.
    destruct (Nat.eqb_spec rank 0); [lia|]. cbn [pbind recvs].
    eapply recvs_bind; [apply IH; cbn in HL; lia|]. reflexivity.
Qed.
End Comp.
