(** The partial derivatives in the specification exist, so none of them is a junk value; relation
    of the base covariance to the library's RBF kernel. *)
From Coq Require Import Lia Lra.
From Coquelicot Require Import Coquelicot.
From Verif Require Import Base NdModel RSum TensorModel KernelModel ShearModel ShearSpec ShearProofs.
Local Open Scope R_scope.

Ltac diff4 := intros ? ? ? ?; repeat split; auto_derive; auto.

Section S.
Variable l : R.
Hypothesis Hl : l <> 0.

Lemma diff_rbf : differentiable4 (rbf2 l).
Proof. unfold rbf2. diff4. Qed.
Lemma diff_dy1 : differentiable4 (dy1 (rbf2 l)).
Proof. rewrite dy1_rbf by auto. diff4. Qed.
Lemma diff_dy2 : differentiable4 (dy2 (rbf2 l)).
Proof. rewrite dy2_rbf by auto. diff4. Qed.
Lemma diff_q a b c d : differentiable4 (qform l a b c d).
Proof. unfold qform. diff4. Qed.
Lemma diff_dx1_q a b c d : differentiable4 (dx1 (qform l a b c d)).
Proof. rewrite dx1_q by auto. diff4. Qed.
Lemma diff_dx2_q a b c d : differentiable4 (dx2 (qform l a b c d)).
Proof. rewrite dx2_q by auto. diff4. Qed.

Lemma derivatives_exist : differentiable4 (rbf2 l) /\ differentiable4 (dy1 (rbf2 l)) /\ differentiable4 (dy2 (rbf2 l)) /\
  forall o, differentiable4 (at_second o (rbf2 l)) /\ differentiable4 (dx1 (at_second o (rbf2 l))) /\
            differentiable4 (dx2 (at_second o (rbf2 l))).
Proof.
  split; [apply diff_rbf|]. split; [apply diff_dy1|]. split; [apply diff_dy2|].
  intros o. rewrite second_q by auto. destruct o; split; [apply diff_q|split; [apply diff_dx1_q|apply diff_dx2_q]| | | |];
  try apply diff_q; try (split; [apply diff_dx1_q|apply diff_dx2_q]).
Qed.
End S.
