(** Facts about [Base]. *)
From Coq Require Import Lia Lra.
From Verif Require Import Base.
Local Open Scope R_scope.

Lemma Rltb_true a b : Rltb a b = true <-> a < b.
Proof. unfold Rltb; destruct (Rlt_dec a b); split; intros; auto; try discriminate; contradiction. Qed.
Lemma Rltb_false a b : Rltb a b = false <-> b <= a.
Proof. unfold Rltb; destruct (Rlt_dec a b); split; intros; auto; try discriminate; lra. Qed.
Lemma Rleb_true a b : Rleb a b = true <-> a <= b.
Proof. unfold Rleb; destruct (Rle_dec a b); split; intros; auto; try discriminate; contradiction. Qed.
Lemma Rleb_false a b : Rleb a b = false <-> b < a.
Proof. unfold Rleb; destruct (Rle_dec a b); split; intros; auto; try discriminate; lra. Qed.
Lemma Reqb_true a b : Reqb a b = true <-> a = b.
Proof. unfold Reqb; destruct (Req_EM_T a b); split; intros; auto; try discriminate; contradiction. Qed.
Lemma Reqb_false a b : Reqb a b = false <-> a <> b.
Proof. unfold Reqb; destruct (Req_EM_T a b); split; intros; auto; try discriminate; contradiction. Qed.

Lemma bind_ok {A B} (r : result A) (k : A -> result B) b :
  bind r k = Ok b <-> exists a, r = Ok a /\ k a = Ok b.
Proof.
  destruct r as [a|e]; simpl; split.
  - intros H; exists a; auto.
  - intros [a' [E H]]; inversion E; subst; auto.
  - discriminate.
  - intros [a' [E H]]; discriminate.
Qed.

Lemma dget_app {V} (d1 d2 : dict V) k :
  dget (d1 ++ d2) k = match dget d1 k with Some v => Some v | None => dget d2 k end.
Proof.
  induction d1 as [|[k' v] d1 IH]; simpl; auto.
  destruct (String.eqb k' k); auto.
Qed.

Lemma dget_none {V} (d : dict V) k : dget d k = None <-> ~ In k (map fst d).
Proof.
  induction d as [|[k' v] d IH]; simpl; [tauto|].
  destruct (String.eqb_spec k' k) as [->|Hne]; split; intros H; try discriminate.
  - exfalso; apply H; auto.
  - intros [E|E]; [congruence|]. apply IH in H; auto.
  - apply IH; tauto.
Qed.

Lemma dget_some_in {V} (d : dict V) k v : dget d k = Some v -> In (k, v) d.
Proof.
  induction d as [|[k' v'] d IH]; simpl; [discriminate|].
  destruct (String.eqb_spec k' k) as [->|Hne]; intros H; [inversion H; auto|auto].
Qed.

Lemma in_dget {V} (d : dict V) k v : dict_ok d -> In (k, v) d -> dget d k = Some v.
Proof.
  unfold dict_ok; induction d as [|[k' v'] d IH]; simpl; [tauto|].
  intros Hnd; inversion Hnd as [|? ? Hni Hnd']; subst. intros [E|E].
  - inversion E; subst. rewrite String.eqb_refl; auto.
  - destruct (String.eqb_spec k' k) as [->|Hne]; auto.
    exfalso; apply Hni; apply in_map_iff; exists (k, v); auto.
Qed.

Lemma setdefault_get {V} (d : dict V) k v k' :
  dget (setdefault d k v) k' =
  match dget d k' with Some w => Some w | None => if String.eqb k k' then Some v else None end.
Proof.
  unfold setdefault. destruct (dget d k) as [w|] eqn:E.
  - destruct (dget d k') eqn:E'; auto.
    destruct (String.eqb_spec k k'); subst; congruence.
  - rewrite dget_app; simpl. reflexivity.
Qed.

Lemma setdefault_ok {V} (d : dict V) k v : dict_ok d -> dict_ok (setdefault d k v).
Proof.
  unfold setdefault, dict_ok. destruct (dget d k) eqn:E; auto.
  intros H. rewrite map_app; simpl. apply dget_none in E.
  induction (map fst d) as [|x l IH]; simpl; [constructor; auto; constructor|].
  inversion H; subst. constructor.
  - rewrite in_app_iff; simpl. intros [Hx|[Hx|[]]]; [auto|subst; apply E; left; auto].
  - apply IH; auto. intros Hk; apply E; right; auto.
Qed.

Lemma dget_dset {V} (d : dict V) k v k' :
  dget (dset d k v) k' = if String.eqb k k' then Some v else dget d k'.
Proof.
  induction d as [|[k0 v0] d IH]; simpl; auto.
  destruct (String.eqb_spec k0 k) as [->|Hne]; simpl.
  - destruct (String.eqb_spec k k'); auto.
  - rewrite IH. destruct (String.eqb_spec k0 k') as [->|Hne']; auto.
    destruct (String.eqb_spec k k'); [subst; congruence|auto].
Qed.
