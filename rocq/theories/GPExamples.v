(** Concrete tensors used to show that the hypotheses of the GP theorems can be met. *)
From Coq Require Import Lia Lra.
From Verif Require Import Base BaseFacts NdModel NdFacts RSum LinAlgModel LinAlgSpec LinAlgFacts
  GPModel NoiseModel MuyGPSModel GPSpec ScaleSpec.
Local Open Scope R_scope.

(** Two test points with two neighbours each; kernel [[2,1],[1,2]]. *)
Definition exKin : nd R := mkNd [2; 2; 2]%nat (fun idx =>
  match idx with [_; i; j] => if Nat.eqb i j then 2 else 1 | _ => 0 end).
Definition exKcross : nd R := mkNd [2; 2]%nat (fun idx => match idx with [x; i] => INR x + 1 | _ => 0 end).
Definition exT3 : nd R := mkNd [2; 2; 3]%nat (fun idx =>
  match idx with [x; i; s] => INR x + INR i + INR s + 1 | _ => 0 end).
Definition exT2 : nd R := mkNd [2; 2]%nat (fun idx => match idx with [x; i] => INR x + INR i + 1 | _ => 0 end).
Definition exKout : nd R := mkNd [] (fun _ => 5).
Definition exNoise : nd R := mkNd [2; 2]%nat (fun idx => match idx with [x; i] => INR x + INR i + 1 | _ => 0 end).
Definition exgp (m : noise_model) : gp := mkGp m (AnalyticScale 1) 1 1 exKout.

Lemma exKin_quad x y : quad 2 (rowmat exKin x) y = y O * y O + y 1%nat * y 1%nat + (y O + y 1%nat) * (y O + y 1%nat).
Proof. unfold quad, rowmat. cbn. ring. Qed.

Lemma exKin_psd x : psd 2 (rowmat exKin x).
Proof. intros y. rewrite exKin_quad. nra. Qed.

Lemma exKin_pd x : pd 2 (rowmat exKin x).
Proof.
  intros y (i & Hi & Hy). rewrite exKin_quad.
  pose proof (Rsqr_pos_lt _ Hy) as H. unfold Rsqr in H.
  pose proof (Rle_0_sqr (y O)) as H0. pose proof (Rle_0_sqr (y 1%nat)) as H1.
  pose proof (Rle_0_sqr (y O + y 1%nat)) as H2. unfold Rsqr in *.
  destruct i as [|[|i]]; [| |lia]; lra.
Qed.

Lemma exKin_sym x : symmetric 2 (rowmat exKin x).
Proof. intros i j Hi Hj. unfold rowmat. cbn. rewrite (Nat.eqb_sym j i). reflexivity. Qed.

Lemma exKin_noisy_pd m x : noise_fits m 2 2 -> (forall i, (i < 2)%nat -> 0 <= noise_at m None x i) ->
  pd 2 (noisy m exKin x).
Proof.
  intros _ Hn y Hy. pose proof (exKin_pd x y Hy) as H. unfold noisy, plus_diag in *.
  pose proof (Hn O ltac:(lia)) as H0. pose proof (Hn 1%nat ltac:(lia)) as H1.
  rewrite exKin_quad in H. unfold quad, rowmat. cbn. nra.
Qed.

Lemma exjoint_psd x : (x < 2)%nat -> psd 3 (joint 5 (rowvec exKcross x) (rowmat exKin x)).
Proof.
  intros Hx y. unfold quad. cbn. destruct x as [|[|x]]; [| |lia]; cbn.
  - match goal with |- 0 <= ?e => replace e with
      (Rsqr (y O + y 1%nat) + Rsqr (y O + y 2%nat) + 3 * Rsqr (y O) + Rsqr (y 1%nat + y 2%nat)) by (unfold Rsqr; ring) end.
    pose proof (Rle_0_sqr (y O + y 1%nat)). pose proof (Rle_0_sqr (y O + y 2%nat)).
    pose proof (Rle_0_sqr (y O)). pose proof (Rle_0_sqr (y 1%nat + y 2%nat)). lra.
  - match goal with |- 0 <= ?e => replace e with
      (Rsqr (2 * y O + y 1%nat + y 2%nat) + Rsqr (y O) + Rsqr (y 1%nat) + Rsqr (y 2%nat)) by (unfold Rsqr; ring) end.
    pose proof (Rle_0_sqr (2 * y O + y 1%nat + y 2%nat)). pose proof (Rle_0_sqr (y O)).
    pose proof (Rle_0_sqr (y 1%nat)). pose proof (Rle_0_sqr (y 2%nat)). lra.
Qed.
