(** Index calculus for [NdModel]. *)
From Coq Require Import Lia.
From Verif Require Import Base NdModel.

Lemma nprod_cons d sh : nprod (d :: sh) = d * nprod sh.
Proof. reflexivity. Qed.

Lemma nprod_app s1 s2 : nprod (s1 ++ s2) = nprod s1 * nprod s2.
Proof. induction s1 as [|d s1 IH]; simpl; [unfold nprod; simpl; lia|]. rewrite !nprod_cons, IH; lia. Qed.

Lemma inb_cons d sh i idx : inb (d :: sh) (i :: idx) <-> i < d /\ inb sh idx.
Proof. unfold inb; split; intros H; [inversion H; auto|constructor; tauto]. Qed.

Lemma inb_nil : inb [] [].
Proof. constructor. Qed.

Lemma inb_length sh idx : inb sh idx -> List.length idx = List.length sh.
Proof. intros H; induction H; simpl; auto. Qed.

Lemma inb_inv_cons d sh idx : inb (d :: sh) idx ->
  exists i idx', idx = i :: idx' /\ i < d /\ inb sh idx'.
Proof. intros H; inversion H; subst; eauto. Qed.

Lemma inb_inv_nil idx : inb [] idx -> idx = [].
Proof. intros H; inversion H; auto. Qed.

Lemma inb_app s1 s2 i1 i2 : inb s1 i1 -> inb s2 i2 -> inb (s1 ++ s2) (i1 ++ i2).
Proof. apply Forall2_app. Qed.

Lemma ravel_lt sh idx : inb sh idx -> ravel sh idx < nprod sh.
Proof.
  intros H; induction H as [|i d idx sh Hlt H IH]; simpl; [unfold nprod; simpl; lia|].
  rewrite nprod_cons. nia.
Qed.

Lemma unravel_ravel sh idx : inb sh idx -> unravel sh (ravel sh idx) = idx.
Proof.
  intros H; induction H as [|i d idx sh Hlt H IH]; simpl; [reflexivity|].
  pose proof (ravel_lt _ _ H) as Hr.
  rewrite Nat.div_add_l by lia. rewrite Nat.div_small by auto.
  rewrite Nat.add_0_r. f_equal.
  rewrite Nat.add_comm, Nat.mod_add by lia. rewrite Nat.mod_small by auto. exact IH.
Qed.

Lemma unravel_inb sh k : k < nprod sh -> inb sh (unravel sh k).
Proof.
  revert k; induction sh as [|d sh IH]; simpl; intros k Hk; [constructor|].
  rewrite nprod_cons in Hk. constructor.
  - apply Nat.div_lt_upper_bound; nia.
  - apply IH. apply Nat.mod_upper_bound. nia.
Qed.

Lemma ravel_unravel sh k : k < nprod sh -> ravel sh (unravel sh k) = k.
Proof.
  revert k; induction sh as [|d sh IH]; simpl; intros k Hk.
  - unfold nprod in Hk; simpl in Hk; lia.
  - rewrite nprod_cons in Hk. rewrite IH by (apply Nat.mod_upper_bound; nia).
    rewrite (Nat.div_mod k (nprod sh)) at 3 by nia. lia.
Qed.

(** Reading a reshaped array: same row-major position, same entry. *)
Lemma reshape_at {A} (t t' : nd A) sh idx idx' :
  reshape t sh = Ok t' -> inb (shape t) idx -> ravel sh idx' = ravel (shape t) idx ->
  at_ t' idx' = at_ t idx.
Proof.
  unfold reshape. destruct (nprod sh =? nprod (shape t)); [|discriminate].
  intros E Hin Hr; inversion E; subst; simpl. rewrite Hr, unravel_ravel by auto. reflexivity.
Qed.

Lemma reshape_shape {A} (t t' : nd A) sh : reshape t sh = Ok t' -> shape t' = sh.
Proof. unfold reshape; destruct (_ =? _); intros E; inversion E; auto. Qed.

Lemma reshape_ok {A} (t : nd A) sh : nprod sh = nprod (shape t) -> exists t', reshape t sh = Ok t'.
Proof. intros H; unfold reshape. rewrite H, Nat.eqb_refl. eauto. Qed.

Lemma reshape_err {A} (t : nd A) sh : nprod sh <> nprod (shape t) -> reshape t sh = Err ValueError.
Proof. intros H; unfold reshape. apply Nat.eqb_neq in H; rewrite H; auto. Qed.

Lemma nd_eq_refl {A} (x : nd A) : nd_eq x x.
Proof. split; auto. Qed.
Lemma nd_eq_sym {A} (x y : nd A) : nd_eq x y -> nd_eq y x.
Proof. intros [Hs Ha]; split; [auto|]. intros idx H; rewrite <- Hs in H; symmetry; auto. Qed.
Lemma nd_eq_trans {A} (x y z : nd A) : nd_eq x y -> nd_eq y z -> nd_eq x z.
Proof.
  intros [Hs Ha] [Hs' Ha']; split; [congruence|].
  intros idx H; rewrite Ha by auto; apply Ha'; congruence.
Qed.

Lemma inb_inv2 a b idx : inb [a; b] idx -> exists i j, idx = [i; j] /\ i < a /\ j < b.
Proof.
  intros H. apply inb_inv_cons in H as (i & r & -> & Hi & H).
  apply inb_inv_cons in H as (j & r' & -> & Hj & H). apply inb_inv_nil in H as ->. eauto 6.
Qed.

Lemma inb_inv1 a idx : inb [a] idx -> exists i, idx = [i] /\ i < a.
Proof.
  intros H. apply inb_inv_cons in H as (i & r & -> & Hi & H). apply inb_inv_nil in H as ->. eauto.
Qed.

Lemma inb_inv3 a b c idx : inb [a; b; c] idx ->
  exists i j k, idx = [i; j; k] /\ i < a /\ j < b /\ k < c.
Proof.
  intros H. apply inb_inv_cons in H as (i & r & -> & Hi & H).
  apply inb_inv2 in H as (j & k & -> & Hj & Hk). eauto 10.
Qed.

Lemma inb_inv4 a b c d idx : inb [a; b; c; d] idx ->
  exists i j k l, idx = [i; j; k; l] /\ i < a /\ j < b /\ k < c /\ l < d.
Proof.
  intros H. apply inb_inv_cons in H as (i & r & -> & Hi & H).
  apply inb_inv3 in H as (j & k & l & -> & Hj & Hk & Hl). eauto 12.
Qed.

Lemma inb_inv5 a b c d e idx : inb [a; b; c; d; e] idx ->
  exists i j k l m, idx = [i; j; k; l; m] /\ i < a /\ j < b /\ k < c /\ l < d /\ m < e.
Proof.
  intros H. apply inb_inv_cons in H as (i & r & -> & Hi & H).
  apply inb_inv4 in H as (j & k & l & m & -> & Hj & Hk & Hl & Hm). eauto 14.
Qed.

Lemma inb2 a b i j : i < a -> j < b -> inb [a; b] [i; j].
Proof. intros; repeat constructor; auto. Qed.
Lemma inb1 a i : i < a -> inb [a] [i].
Proof. intros; repeat constructor; auto. Qed.
Lemma inb3 a b c i j k : i < a -> j < b -> k < c -> inb [a; b; c] [i; j; k].
Proof. intros; repeat constructor; auto. Qed.
Lemma inb4 a b c d i j k l : i < a -> j < b -> k < c -> l < d -> inb [a; b; c; d] [i; j; k; l].
Proof. intros; repeat constructor; auto. Qed.
Lemma inb5 a b c d e i j k l m : i < a -> j < b -> k < c -> l < d -> m < e ->
  inb [a; b; c; d; e] [i; j; k; l; m].
Proof. intros; repeat constructor; auto. Qed.

(** ** Broadcasting *)

Lemma brev_refl s : brev s s = Some s.
Proof. induction s as [|a s IH]; simpl; auto. rewrite IH, Nat.eqb_refl; auto. Qed.

Lemma brev_prefix s1 s2 : brev (s1 ++ s2) s1 = Some (s1 ++ s2).
Proof.
  induction s1 as [|a s1 IH]; simpl; [destruct s2; auto|].
  rewrite IH, Nat.eqb_refl; auto.
Qed.

Lemma bshape_refl s : bshape s s = Some s.
Proof. unfold bshape. rewrite brev_refl; simpl; rewrite rev_involutive; auto. Qed.

(** An operand whose shape is a suffix broadcasts over the leading axes. *)
Lemma bshape_suffix s1 s2 : bshape (s1 ++ s2) s2 = Some (s1 ++ s2).
Proof.
  unfold bshape. rewrite rev_app_distr, brev_prefix. simpl.
  rewrite rev_app_distr, !rev_involutive; auto.
Qed.

Lemma bshape_nil_r s : bshape s [] = Some s.
Proof. unfold bshape; simpl. assert (E : brev (rev s) [] = Some (rev s)) by (destruct (rev s); auto).
  rewrite E; simpl; rewrite rev_involutive; auto. Qed.

Lemma bidx_rev_id sh idx : inb sh idx -> bidx_rev sh idx = idx.
Proof.
  intros H; induction H as [|i d idx sh Hlt H IH]; simpl; auto.
  rewrite IH. destruct (Nat.eqb_spec d 1); auto. f_equal; lia.
Qed.

Lemma bidx_rev_prefix sh idx extra : inb sh idx -> bidx_rev sh (idx ++ extra) = idx.
Proof.
  intros H; induction H as [|i d idx sh Hlt H IH]; simpl; [destruct extra; auto|].
  rewrite IH. destruct (Nat.eqb_spec d 1); auto. f_equal; lia.
Qed.

Lemma inb_rev sh idx : inb sh idx -> inb (rev sh) (rev idx).
Proof.
  intros H; induction H as [|i d idx sh Hlt H IH]; simpl; [constructor|].
  apply inb_app; auto. repeat constructor; auto.
Qed.

Lemma bidx_id sh idx : inb sh idx -> bidx sh idx = idx.
Proof.
  intros H; unfold bidx. rewrite bidx_rev_id by (apply inb_rev; auto). apply rev_involutive.
Qed.

Lemma bidx_suffix sh idx pre : inb sh idx -> bidx sh (pre ++ idx) = idx.
Proof.
  intros H; unfold bidx. rewrite rev_app_distr, bidx_rev_prefix by (apply inb_rev; auto).
  apply rev_involutive.
Qed.

Lemma bidx_nil idx : bidx [] idx = [].
Proof. unfold bidx; simpl. destruct (rev idx); auto. Qed.

Lemma bop_shape_inv {A B C} (f : A -> B -> C) x y t :
  bop f x y = Ok t -> bshape (shape x) (shape y) = Some (shape t).
Proof. unfold bop. destruct (bshape _ _); intros E; inversion E; auto. Qed.
