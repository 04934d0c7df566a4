(** The library's own numerical routines depend only on array contents: instances for the objective theorem. *)
From Coq Require Import Lia Lra FunctionalExtensionality.
From Verif Require Import Base NdModel NdFacts RSum LinAlgModel LinAlgSpec GPModel LossModel CongProofs MemModel MemSpec MemProofs.
Local Open Scope R_scope.

Lemma bop_cong2 {A B C} (f : A -> B -> C) x x' y y' : nd_eq x x' -> nd_eq y y' -> same_outcome (bop f x y) (bop f x' y').
Proof.
  intros Hx [S H]. eapply so_trans; [apply bop_cong; exact Hx|]. unfold bop. rewrite <- S.
  destruct (bshape (shape x') (shape y)) as [sh|] eqn:E; cbn; auto. split; cbn; auto. intros idx Hi. f_equal.
  apply H. assert (E' : bshape (shape y) (shape x') = Some sh).
  { unfold bshape in *. 
    assert (Q : forall s1 s2, brev s1 s2 = brev s2 s1).
    { induction s1 as [|a s1 IH]; intros [|b s2]; cbn; auto. rewrite IH. destruct (brev s2 s1); auto.
      destruct (Nat.eqb_spec a b); destruct (Nat.eqb_spec b a); destruct (Nat.eqb_spec a 1); destruct (Nat.eqb_spec b 1); subst; auto; try lia. }
    rewrite Q. auto. }
  eapply bidx_inb; eauto.
Qed.
Lemma nd_sum_cong x y : nd_eq x y -> nd_sum x = nd_sum y.
Proof.
  intros [S H]. unfold nd_sum. rewrite <- S. apply rsum_ext. intros k Hk. apply H. apply unravel_inb. auto.
Qed.


Lemma swap_last_inb sh idx : inb (swap_last sh) idx -> inb sh (swap_last idx).
Proof.
  unfold swap_last. destruct (rev sh) as [|b [|a r]] eqn:E.
  - intros H. apply (f_equal (@rev nat)) in E. rewrite rev_involutive in E. cbn in E. subst. apply inb_inv_nil in H. subst. constructor.
  - intros H. apply (f_equal (@rev nat)) in E. rewrite rev_involutive in E. cbn in E. subst. apply inb_inv1 in H. destruct H as (i & -> & Hi). cbn. apply inb1. auto.
  - intros H. apply (f_equal (@rev nat)) in E. rewrite rev_involutive in E. subst sh.
    apply inb_rev in H. rewrite rev_involutive in H. apply inb_inv_cons in H. destruct H as (i & l & El & Hi & H).
    apply inb_inv_cons in H. destruct H as (j & l' & -> & Hj & H). rewrite El.
    apply inb_rev. constructor; auto.
Qed.
Lemma swap_cong A A' : nd_eq A A' -> nd_eq (swapaxes_last A) (swapaxes_last A').
Proof.
  intros [S H]. unfold swapaxes_last. split; cbn; [congruence|]. intros idx Hi. apply H. apply swap_last_inb. auto.
Qed.

Lemma posterior_mean_content ls : exact_solver ls -> content_only3 same_outcome (posterior_mean ls).
Proof.
  intros Hls K K' C C' T T' HK HC HT. unfold posterior_mean.
  rewrite <- (proj1 HK), <- (proj1 HC), <- (proj1 HT).
  destruct (find_matching_ndim (shape T) (shape K)) as [m|e]; cbn [bind]; [|apply so_refl].
  apply so_bind; [apply reshape_cong; auto|]. intros t t' Ht.
  apply so_bind; [apply reshape_cong; auto|]. intros k k' Hk.
  apply so_bind; [apply reshape_cong; auto|]. intros c c' Hc.
  apply so_bind; [apply solve_cong; auto|]. intros F F' HF.
  apply so_bind; [|intros; apply reshape_cong; auto].
  apply matmul_cong; auto. apply swap_cong; auto.
Qed.
Lemma diagonal_variance_content ls Kout bc : exact_solver ls -> content_only2 same_outcome (fun K C => diagonal_variance ls K C Kout bc).
Proof.
  intros Hls K K' C C' HK HC. unfold diagonal_variance, ndim. rewrite <- (proj1 HK), <- (proj1 HC).
  apply so_bind; [apply reshape_cong; auto|]. intros k k' Hk.
  apply so_bind; [apply reshape_cong; auto|]. intros c c' Hc.
  apply so_bind; [apply solve_cong; auto|]. intros F F' HF.
  apply so_bind; [apply matmul_cong; auto; apply swap_cong; auto|]. intros P P' HP.
  apply so_bind; [apply reshape_cong; auto|]. intros Q Q' HQ.
  apply bop_cong2; auto. apply nd_eq_refl.
Qed.
Lemma analytic_content ls : exact_solver ls -> content_only2 eq (analytic_scale ls).
Proof. intros Hls K K' T T' HK HT. apply analytic_scale_cong; auto. Qed.
Lemma looph_content boundary : content_only3 eq (fun m t v s => looph_fn m t v s boundary).
Proof.
  intros m m' t t' v v' Hm Ht Hv. apply FunctionalExtensionality.functional_extensionality. intros s.
  unfold looph_fn, looph_fn_unscaled. cbn [shape ndmap]. rewrite <- (proj1 Hv).
  destruct (shape v) as [|b [|]]; auto.
  apply bind_so; [apply bop_cong2; auto|]. intros r r' Hr.
  apply bind_so; [apply bop_cong2; repeat apply ndmap_cong; auto|]. intros q q' Hq.
  apply bind_so; [apply bop_cong2; repeat apply ndmap_cong; auto|]. intros w w' Hw. f_equal. apply nd_sum_cong. auto.
Qed.
