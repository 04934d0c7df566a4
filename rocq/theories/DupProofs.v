(** Lemmas for C113. *)
From Coq Require Import Lia Lra Permutation.
From Verif Require Import Base BaseFacts NdModel NdFacts RSum HyperModel NamedModel NamedSpec LinAlgModel LinAlgSpec LinAlgFacts Gauss
  GPModel NoiseModel MuyGPSModel GPSpec GPTheorems WellPosedProofs TensorModel TensorSpec KernelModel KernelSpec
  FlowModel FlowSpec FlowProofs PointwiseSpec LibSpec LibProofs MultiModel DriverModel NeighborsModel NeighborsProofs WorkModel WorkSpec WorkProofs WorkLemmas BestSpec BestProofs DupSpec.
Local Open Scope R_scope.

Lemma group_total n m p (f : nat -> nat -> R) : (forall i, (i < n)%nat -> (p i < m)%nat) ->
  rsum n (fun i => f i (p i)) = rsum m (fun a => group_sum n p a (fun i => f i a)).
Proof.
  intros B. unfold group_sum. rewrite rsum_swap. apply rsum_ext. intros i Hi.
  rewrite (rsum_ext m _ (fun a => delta (p i) a * f i a)); [symmetry; apply (rsum_delta_l m (p i) (f i)); auto|].
  intros a Ha. unfold delta. destruct (p i =? a)%nat; ring.
Qed.
Lemma group_scal n p a c f : group_sum n p a (fun i => c * f i) = c * group_sum n p a f.
Proof. unfold group_sum. rewrite <- rsum_scal. apply rsum_ext. intros i Hi. destruct (p i =? a)%nat; ring. Qed.
Lemma group_ext n p a f g : (forall i, (i < n)%nat -> p i = a -> f i = g i) -> group_sum n p a f = group_sum n p a g.
Proof. intros H. unfold group_sum. apply rsum_ext. intros i Hi. destruct (Nat.eqb_spec (p i) a); auto. Qed.
Lemma group_pos n p a f : (forall i, (i < n)%nat -> 0 < f i) -> (exists i, (i < n)%nat /\ p i = a) -> 0 < group_sum n p a f.
Proof.
  intros P (i & Hi & E). apply Rlt_le_trans with (if (p i =? a)%nat then f i else 0).
  - rewrite E, Nat.eqb_refl. auto.
  - apply (rsum_term_le n (fun i => if (p i =? a)%nat then f i else 0) i); auto. intros j Hj. destruct (p j =? a)%nat; [left; auto|lra].
Qed.

(** Spreading the weight of a place over its measurements, in proportion to their precisions, solves the larger system. *)
Lemma spread n m p (A : nat -> nat -> R) (noise noise' w' k : nat -> R) :
  (forall i, (i < n)%nat -> (p i < m)%nat) -> (forall i, (i < n)%nat -> 0 < noise i) -> (forall a, (a < m)%nat -> exists i, (i < n)%nat /\ p i = a) ->
  (forall a, (a < m)%nat -> pooled_noise n p noise a (noise' a)) ->
  solves m (plus_diag A noise') w' k ->
  solves n (plus_diag (fun i j => A (p i) (p j)) noise) (fun i => w' (p i) * noise' (p i) / noise i) (fun i => k (p i)).
Proof.
  intros B NP SU PN SO i Hi. rewrite <- (SO (p i) (B i Hi)). unfold plus_diag.
  rewrite (rsum_ext n _ (fun j => A (p i) (p j) * (w' (p j) * noise' (p j) / noise j) + delta i j * (noise i * (w' (p j) * noise' (p j) / noise j)))).
  2:{ intros j Hj. unfold delta. destruct (Nat.eqb_spec i j) as [->|]; ring. }
  rewrite rsum_plus, (rsum_delta_l n i (fun j => noise i * (w' (p j) * noise' (p j) / noise j)) Hi).
  rewrite (rsum_ext m _ (fun a => A (p i) a * w' a + delta (p i) a * (noise' (p i) * w' a))).
  2:{ intros a Ha. unfold delta. destruct (Nat.eqb_spec (p i) a) as [->|]; ring. }
  rewrite rsum_plus, (rsum_delta_l m (p i) (fun a => noise' (p i) * w' a) (B i Hi)). f_equal.
  - rewrite (group_total n m p (fun j a => A (p i) a * (w' a * noise' a / noise j)) B). apply rsum_ext. intros a Ha.
    rewrite (group_ext n p a _ (fun j => (A (p i) a * w' a * noise' a) * (1 / noise j))) by (intros; unfold Rdiv; ring).
    rewrite group_scal. rewrite (PN a Ha). field. apply Rgt_not_eq. apply group_pos; auto. intros j Hj. apply Rdiv_lt_0_compat; [lra|auto].
  - field. apply Rgt_not_eq. apply NP; auto.
Qed.
Lemma spread_dot n m p (noise noise' w' y y' : nat -> R) :
  (forall i, (i < n)%nat -> (p i < m)%nat) -> (forall i, (i < n)%nat -> 0 < noise i) -> (forall a, (a < m)%nat -> exists i, (i < n)%nat /\ p i = a) ->
  (forall a, (a < m)%nat -> pooled_noise n p noise a (noise' a)) -> (forall a, (a < m)%nat -> pooled_response n p noise y a (y' a)) ->
  dot n (fun i => w' (p i) * noise' (p i) / noise i) y = dot m w' y'.
Proof.
  intros B NP SU PN PR. unfold dot. rewrite (group_total n m p (fun i a => w' a * noise' a / noise i * y i) B). apply rsum_ext. intros a Ha.
  rewrite (group_ext n p a _ (fun i => (w' a * noise' a) * (y i / noise i))) by (intros; unfold Rdiv; ring).
  rewrite group_scal, (PR a Ha), (PN a Ha). unfold Rdiv. ring.
Qed.

Lemma lk_cov_ext gamma kv K F cur kw u v : (forall f, (f < F)%nat -> u f = v f) -> lk_cov gamma kv K F cur kw u = lk_cov gamma kv K F cur kw v.
Proof.
  intros H. assert (S : forall d, scaled_sqdist F (scale_of d cur kw) u (fun _ => 0) = scaled_sqdist F (scale_of d cur kw) v (fun _ => 0)).
  { intros d. unfold scaled_sqdist. apply rsum_ext. intros f Hf. rewrite (H f Hf). reflexivity. }
  destruct K as [d|d sm p]; cbn [lk_cov]; unfold rbf_cov, matern_cov; rewrite S; reflexivity.
Qed.

Section Work.
Variables (gamma : R -> R) (kv : R -> R -> R) (ls : lsolver).
Hypothesis EX : exact_solver ls.


(** One row: equal means and (unscaled) variances. *)
Lemma pooled_row K cur m0 m0' test train train' x n m q q' p :
  lk_ok K (feature_count train) cur [] -> feature_count train' = feature_count train ->
  (forall i, (i < n)%nat -> 0 < noise_at m0 None x i) -> (forall a, (a < m)%nat -> 0 < noise_at m0' None x a) ->
  repeats train train' n m (q x) (q' x) p ->
  (forall a, (a < m)%nat -> pooled_noise n p (noise_at m0 None x) a (noise_at m0' None x a)) ->
  let k := lk_cov gamma kv K (feature_count train) cur [] in
  exists u u', solves n (nbr_matrix k m0 train q x) u (fun j => kcov k test train x (q x j)) /\
    (forall w, solves n (nbr_matrix k m0 train q x) w (fun j => kcov k test train x (q x j)) -> forall j, (j < n)%nat -> w j = u j) /\
    (forall w, solves m (nbr_matrix k m0' train' q' x) w (fun j => kcov k test train' x (q' x j)) -> forall j, (j < m)%nat -> w j = u' j) /\
    dot n u (fun j => kcov k test train x (q x j)) = dot m u' (fun j => kcov k test train' x (q' x j)) /\
    forall y y', (forall a, (a < m)%nat -> pooled_response n p (noise_at m0 None x) y a (y' a)) -> dot n u y = dot m u' y'.
Proof.
  intros OK FE NP NP' [RB RS] PN k.
  assert (KX : forall u v u' v', (forall f, (f < feature_count train)%nat -> u f = u' f) -> (forall f, (f < feature_count train)%nat -> v f = v' f) ->
     k (fun f => u f - v f) = k (fun f => u' f - v' f)).
  { intros u v u' v' H1 H2. unfold k. apply lk_cov_ext. intros f Hf. rewrite H1, H2; auto. }
  assert (NS : nonsingular n (nbr_matrix k m0 train q x)).
  { apply pd_nonsingular. unfold nbr_matrix. apply plus_diag_pd; [|exact NP].
    apply (lk_cov_psd gamma kv K (feature_count train) cur [] (fun i f => feature train (q x i) f) n OK). }
  assert (NS' : nonsingular m (nbr_matrix k m0' train' q' x)).
  { apply pd_nonsingular. unfold nbr_matrix. apply plus_diag_pd; [|exact NP'].
    apply (lk_cov_psd gamma kv K (feature_count train) cur [] (fun i f => feature train' (q' x i) f) m OK). }
  destruct (proj1 (proj2 gauss_exact m 1%nat (nbr_matrix k m0' train' q' x) (fun j _ => kcov k test train' x (q' x j))) NS') as [X EXX].
  set (w' := fun i => X i O).
  assert (SO' : solves m (nbr_matrix k m0' train' q' x) w' (fun j => kcov k test train' x (q' x j))) by exact (proj1 gauss_exact m 1%nat _ _ X EXX O ltac:(lia)).
  set (u := fun i => w' (p i) * noise_at m0' None x (p i) / noise_at m0 None x i).
  assert (SU : solves n (nbr_matrix k m0 train q x) u (fun j => kcov k test train x (q x j))).
  { pose proof (spread n m p (fun a b => kcov k train' train' (q' x a) (q' x b)) (noise_at m0 None x) (noise_at m0' None x) w'
      (fun j => kcov k test train' x (q' x j)) (fun i Hi => proj1 (RB i Hi)) NP RS PN SO') as SP.
    intros i Hi. specialize (SP i Hi). cbn beta in SP. unfold kcov at 1. rewrite (KX _ _ (feature test x) (feature train' (q' x (p i))));
      [|auto|intros f Hf; apply (proj2 (RB i Hi)); auto]. unfold kcov in SP at 2. rewrite <- SP. apply rsum_ext. intros j Hj.
    f_equal. unfold nbr_matrix, plus_diag, kcov.
    rewrite (KX _ _ (feature train' (q' x (p i))) (feature train' (q' x (p j)))); [reflexivity|apply (proj2 (RB i Hi))|apply (proj2 (RB j Hj))]. }
  assert (DX : forall y y', (forall a, (a < m)%nat -> pooled_response n p (noise_at m0 None x) y a (y' a)) -> dot n u y = dot m w' y').
  { intros y y' H. apply spread_dot with (m := m); auto; intros i Hi; apply RB; auto. }
  exists u, w'. split; [exact SU|]. split; [intros w SW; apply (solves_unique n _ w u _ NS SW SU)|].
  split; [intros w SW; apply (solves_unique m _ w w' _ NS' SW SO')|]. split; [|exact DX].
  apply DX. intros a Ha. unfold pooled_response.
  rewrite (group_ext n p a _ (fun i => kcov k test train' x (q' x a) * (1 / noise_at m0 None x i))).
  2:{ intros i Hi Ei. unfold kcov. rewrite (KX _ _ (feature test x) (feature train' (q' x a))); [unfold Rdiv; ring|auto|].
      intros f Hf. rewrite <- Ei. apply (proj2 (RB i Hi)); auto. }
  rewrite group_scal. field. apply Rgt_not_eq. apply group_pos; [|apply RS; auto]. intros i Hi. apply Rdiv_lt_0_compat; [lra|apply NP; auto].
Qed.

Lemma pooled g g' K cur nn nn' test train train' targets targets' N N' M n m q q' ex :
  lk_ok K (feature_count train) cur [] -> dataset test M -> dataset train N -> dataset train' N' ->
  ndim test = ndim train -> ndim test = ndim train' -> feature_count test = feature_count train -> feature_count test = feature_count train' ->
  shape targets = N :: ex -> shape targets' = N' :: ex -> no_coincidence ex [n] -> no_coincidence ex [m] ->
  shape (gp_Kout g) = [] -> at_ (gp_Kout g) [] = 1 -> 0 <= gp_var_scale g ->
  shape (gp_Kout g') = [] -> at_ (gp_Kout g') [] = 1 -> gp_var_scale g' = gp_var_scale g ->
  index_matrix nn M n N q -> index_matrix nn' M m N' q' -> noise_fits (gp_noise g) M n -> noise_fits (gp_noise g') M m ->
  (forall x i, (x < M)%nat -> (i < n)%nat -> 0 < noise_at (gp_noise g) None x i) ->
  (forall x a, (x < M)%nat -> (a < m)%nat -> 0 < noise_at (gp_noise g') None x a) ->
  exists mean var mean' var',
    regress_from_indices ls (lib_model gamma kv g K cur) (arange M) nn test train targets = Ok (mean, var) /\
    regress_from_indices ls (lib_model gamma kv g' K cur) (arange M) nn' test train' targets' = Ok (mean', var') /\
    shape mean = shape mean' /\ shape var = shape var' /\
    forall x p, (x < M)%nat -> repeats train train' n m (q x) (q' x) p ->
      (forall a, (a < m)%nat -> pooled_noise n p (noise_at (gp_noise g) None x) a (noise_at (gp_noise g') None x a)) ->
      at_ var [x] = at_ var' [x] /\
      forall e, inb ex e ->
        (forall a, (a < m)%nat -> pooled_response n p (noise_at (gp_noise g) None x) (fun i => at_ targets (q x i :: e)) a (at_ targets' (q' x a :: e))) ->
        at_ mean (x :: e) = at_ mean' (x :: e).
Proof.
  intros OK D1 D2 D3 ND ND' FC FC' HT HT' NC NC' SK K1 SC SK' K1' SC' IM IM' NF NF' NP NP'.
  assert (FE : feature_count train' = feature_count train) by congruence.
  assert (WP : well_posed (gp_noise g) train M n q) by (intros x Hx; left; auto).
  assert (WP' : well_posed (gp_noise g') train' M m q') by (intros x Hx; left; auto).
  destruct (regress_indices gamma kv ls EX g K cur [] nn test train targets N M n q ex) as (mean & var & E & S1 & S2 & V); auto.
  destruct (regress_indices gamma kv ls EX g' K cur [] nn' test train' targets' N' M m q' ex) as (mean' & var' & E' & S1' & S2' & V'); auto;
    [rewrite FE; auto|rewrite SC'; auto|].
  exists mean, var, mean', var'. split; [exact E|]. split; [exact E'|]. split; [congruence|]. split; [congruence|].
  intros x p Hx RE PN. destruct (V x Hx) as (V1 & (wv & SO & EV) & _). destruct (V' x Hx) as (V1' & (w' & SO' & EV') & _).
  rewrite FE in V1', SO', EV'.
  destruct (pooled_row K cur (gp_noise g) (gp_noise g') test train train' x n m q q' p OK FE) as (u & u' & SU & UQ & UQ' & DK & DX); auto.
  split.
  - rewrite EV, EV', SC'. f_equal. f_equal. etransitivity; [|etransitivity; [exact DK|]]; unfold dot; apply rsum_ext; intros j Hj;
      [rewrite (UQ wv SO j Hj)|rewrite (UQ' w' SO' j Hj)]; reflexivity.
  - intros e He PY. destruct (V1 e He) as (w1 & SO1 & ->). destruct (V1' e He) as (w2 & SO2 & ->).
    etransitivity; [|etransitivity; [exact (DX _ (fun a => at_ targets' (q' x a :: e)) PY)|]]; unfold dot; apply rsum_ext; intros j Hj;
      [rewrite (UQ w1 SO1 j Hj)|rewrite (UQ' w2 SO2 j Hj)]; reflexivity.
Qed.
End Work.

(** ** Replicated training sets *)
Lemma nodup_app {A} (l1 l2 : list A) : NoDup l1 -> NoDup l2 -> (forall x, In x l1 -> ~ In x l2) -> NoDup (l1 ++ l2).
Proof.
  induction l1 as [|a l1 IH]; cbn [app]; auto. intros H1 H2 D. inversion H1; subst. constructor.
  - intros C. apply in_app_iff in C as [C|C]; [auto|]. apply (D a); [left; reflexivity|exact C].
  - apply IH; auto. intros x Hx. apply D. right. exact Hx.
Qed.
Lemma nodup_map {A B} (f : A -> B) l : (forall x y, In x l -> In y l -> f x = f y -> x = y) -> NoDup l -> NoDup (map f l).
Proof.
  induction l as [|a l IH]; intros I ND; cbn [map]; [constructor|]. inversion ND; subst. constructor.
  - intros C. apply in_map_iff in C as (y & E & Hy). assert (y = a) as -> by (apply I; [right|left|]; auto). contradiction.
  - apply IH; auto. intros x y Hx Hy. apply I; right; auto.
Qed.
Lemma lsum_filter n (q : nat -> nat) (P : nat -> bool) (y : nat -> R) :
  rsum n (fun i => if P (q i) then y (q i) else 0) = lsum (map y (filter P (map q (seq 0 n)))).
Proof.
  induction n as [|n IH]; [reflexivity|]. rewrite seq_S, map_app, filter_app, map_app, lsum_app, <- IH. cbn [rsum map filter plus].
  destruct (P (q n)); cbn [map lsum]; lra.
Qed.
Lemma lsum_one (l : list nat) : lsum (map (fun _ => 1) l) = INR (List.length l).
Proof. induction l as [|a l IH]; [reflexivity|]. cbn [map List.length]. rewrite S_INR, <- IH. cbn [lsum]. ring. Qed.

Lemma index_of m (q' : nat -> nat) b : {a | (a < m)%nat /\ q' a = b} + {forall a, (a < m)%nat -> q' a <> b}.
Proof.
  induction m as [|m [(a & Ha & E)|IH]]; [right; intros; lia|left; exists a; split; [lia|exact E]|].
  destruct (Nat.eq_dec (q' m) b) as [E|NE]; [left; exists m; split; [lia|exact E]|right].
  intros a Ha. destruct (Nat.eq_dec a m) as [->|]; [exact NE|apply IH; lia].
Qed.

Section Replicas.
Variables (test train train' : nd R) (N N' r x m : nat) (pi q q' : nat -> nat).
Hypothesis RP : replicated train train' N N' r pi.
Hypothesis FE : feature_count train' = feature_count train.
Hypothesis FT : feature_count test = feature_count train.
Hypothesis R0 : (0 < r)%nat.
Hypothesis NR : nearest_rows test train N x (r * m) q.
Hypothesis NR' : nearest_rows test train' N' x m q'.
Hypothesis NT : no_ties test train' N' x.

Let fibre b := filter (fun a => pi a =? b)%nat (seq 0 N).
Let B := flat_map (fun a => fibre (q' a)) (seq 0 m).
Let L := map q (seq 0 (r * m)).

Lemma in_fibre b a : In a (fibre b) <-> (a < N)%nat /\ pi a = b.
Proof. unfold fibre. rewrite filter_In, in_seq, Nat.eqb_eq. intuition lia. Qed.
Lemma in_B a : In a B <-> (a < N)%nat /\ exists c, (c < m)%nat /\ pi a = q' c.
Proof.
  unfold B. rewrite in_flat_map. split.
  - intros (c & Hc & Ha). apply in_seq in Hc. apply in_fibre in Ha. split; [tauto|]. exists c. split; [lia|tauto].
  - intros (Ha & c & Hc & E). exists c. split; [apply in_seq; lia|]. apply in_fibre. auto.
Qed.
Lemma in_L a : In a L <-> exists i, (i < r * m)%nat /\ q i = a.
Proof.
  unfold L. rewrite in_map_iff. split.
  - intros (i & E & Hi). apply in_seq in Hi. exists i. split; [lia|exact E].
  - intros (i & Hi & E). exists i. split; [exact E|apply in_seq; lia].
Qed.
Lemma len_B : List.length B = (r * m)%nat.
Proof.
  unfold B. assert (H : forall k, (k <= m)%nat -> List.length (flat_map (fun a => fibre (q' a)) (seq 0 k)) = (r * k)%nat).
  { induction k as [|k IH]; intros Hk; [cbn; lia|]. rewrite seq_S, flat_map_app, app_length, IH by lia. cbn [flat_map plus]. rewrite app_nil_r.
    unfold fibre. rewrite (proj2 RP (q' k)); [lia|]. apply NR'. lia. }
  apply H. lia.
Qed.
Lemma nodup_B : NoDup B.
Proof.
  unfold B. assert (H : forall k, (k <= m)%nat -> NoDup (flat_map (fun a => fibre (q' a)) (seq 0 k))).
  { induction k as [|k IH]; intros Hk; [constructor|]. rewrite seq_S, flat_map_app. cbn [flat_map plus]. rewrite app_nil_r.
    apply nodup_app; [apply IH; lia|apply NoDup_filter, seq_NoDup|].
    intros a Ha Hb. apply in_flat_map in Ha. destruct Ha as (c & Hc & Ha). apply in_seq in Hc. apply in_fibre in Ha. apply in_fibre in Hb.
    assert (c = k); [|lia]. destruct NR' as (_ & IN & _). destruct Ha, Hb. apply IN; [lia|lia|congruence]. }
  apply H. lia.
Qed.
Lemma nodup_L : NoDup L.
Proof.
  unfold L. apply nodup_map; [|apply seq_NoDup]. intros i j Hi Hj E. apply in_seq in Hi. apply in_seq in Hj. destruct NR as (_ & IN & _). apply IN; auto; lia.
Qed.
Lemma row_dist_copy a : (a < N)%nat -> row_dist test train x a = row_dist test train' x (pi a).
Proof.
  intros Ha. destruct (proj1 RP a Ha) as [_ E]. unfold row_dist. rewrite FE. unfold sqdist. apply rsum_ext. intros f Hf. rewrite E by auto. reflexivity.
Qed.
Lemma L_in_B : incl L B.
Proof.
  intros a Ha. destruct (in_dec Nat.eq_dec a B) as [H|NB]; [exact H|exfalso].
  apply in_L in Ha. destruct Ha as (i & Hi & <-).
  destruct NR as (QB & QI & QS & QC). destruct NR' as (QB' & QI' & QS' & QC').
  assert (HN : (q i < N)%nat) by auto.
  assert (NO : forall c, (c < m)%nat -> q' c <> pi (q i)).
  { intros c Hc E. apply NB. apply in_B. split; [exact HN|]. exists c. auto. }
  assert (IN : incl B L).
  { intros c Hc. apply in_B in Hc. destruct Hc as (Hc & d & Hd & Ed). apply in_L.
    destruct (list_in_dec (r * m) q c) as [H|NL]; [exact H|exfalso].
    pose proof (QC c Hc NL i Hi) as LE. rewrite !row_dist_copy in LE by auto. rewrite Ed in LE.
    assert (P : (pi (q i) < N')%nat) by (apply (proj1 RP); auto).
    pose proof (QC' (pi (q i)) P NO d Hd) as GE.
    apply (NO d Hd). apply NT; auto. lra. }
  assert (NoDup (q i :: B)) as ND by (constructor; [exact NB|apply nodup_B]).
  assert (incl (q i :: B) L) as IL by (intros c [<-|Hc]; [apply in_L; exists i; auto|auto]).
  pose proof (NoDup_incl_length ND IL) as LE. cbn [List.length] in LE. rewrite len_B in LE. unfold L in LE. rewrite map_length, seq_length in LE. lia.
Qed.
Lemma B_in_L : incl B L.
Proof.
  apply NoDup_length_incl; [apply nodup_L| |apply L_in_B]. rewrite len_B. unfold L. rewrite map_length, seq_length. lia.
Qed.

Definition place (i : nat) : nat := match index_of m q' (pi (q i)) with inleft s => proj1_sig s | inright _ => O end.
Lemma place_ok i : (i < r * m)%nat -> (place i < m)%nat /\ q' (place i) = pi (q i).
Proof.
  intros Hi. unfold place. destruct (index_of m q' (pi (q i))) as [(a & H)|NO]; [exact H|exfalso].
  assert (In (q i) B) as H by (apply L_in_B, in_L; eauto). apply in_B in H. destruct H as (_ & c & Hc & E). apply (NO c Hc). auto.
Qed.
Lemma place_group a (y : nat -> R) : (a < m)%nat -> group_sum (r * m) place a (fun i => y (q i)) = group_sum N pi (q' a) y.
Proof.
  intros Ha. unfold group_sum.
  transitivity (rsum (r * m) (fun i => if (pi (q i) =? q' a)%nat then y (q i) else 0)).
  { apply rsum_ext. intros i Hi. destruct (place_ok i Hi) as [P1 P2].
    destruct (Nat.eqb_spec (place i) a) as [E|NE], (Nat.eqb_spec (pi (q i)) (q' a)) as [E'|NE']; auto; exfalso.
    - apply NE'. rewrite <- P2, E. reflexivity.
    - apply NE. destruct NR' as (_ & IN & _). apply IN; auto. congruence. }
  rewrite (lsum_filter (r * m) q (fun c => pi c =? q' a)%nat y), (lsum_filter N (fun c => c) (fun c => pi c =? q' a)%nat y), map_id.
  apply lsum_perm, Permutation_map, NoDup_Permutation; [apply NoDup_filter, nodup_L|apply NoDup_filter, seq_NoDup|].
  intros c. fold L. rewrite !filter_In, in_seq. split.
  - intros [Hc E]. split; [|exact E]. apply L_in_B, in_B in Hc. lia.
  - intros [Hc E]. split; [|exact E]. apply B_in_L, in_B. split; [lia|]. exists a. split; [exact Ha|]. apply Nat.eqb_eq; exact E.
Qed.
Lemma place_repeats : repeats train train' (r * m) m q q' place.
Proof.
  split.
  - intros i Hi. destruct (place_ok i Hi) as [P1 P2]. split; [exact P1|]. intros f Hf. rewrite P2. destruct NR as (QB & _). apply (proj1 RP (q i) (QB i Hi)). exact Hf.
  - intros a Ha. assert (HB : (q' a < N')%nat) by (apply NR'; auto).
    pose proof (proj2 RP (q' a) HB) as LN.
    destruct (filter (fun c => pi c =? q' a)%nat (seq 0 N)) as [|c l] eqn:EF; [cbn in LN; lia|].
    assert (HC : In c (fibre (q' a))) by (unfold fibre; rewrite EF; left; reflexivity). apply in_fibre in HC. destruct HC as [HN E].
    assert (In c L) as HL by (apply B_in_L, in_B; split; [exact HN|exists a; auto]). apply in_L in HL. destruct HL as (i & Hi & EI).
    exists i. split; [exact Hi|]. destruct (place_ok i Hi) as [P1 P2]. destruct NR' as (_ & IN & _). apply IN; auto. congruence.
Qed.
Lemma place_count a : (a < m)%nat -> group_sum (r * m) place a (fun _ => 1) = INR r.
Proof.
  intros Ha. rewrite (place_group a (fun _ => 1) Ha). unfold group_sum.
  rewrite (lsum_filter N (fun c => c) (fun c => pi c =? q' a)%nat (fun _ => 1)), map_id, lsum_one, (proj2 RP (q' a)); [reflexivity|]. apply NR'; auto.
Qed.
End Replicas.


(** ** The whole workflow on replicated data *)
Section Flow.
Variables (gamma : R -> R) (kv : R -> R -> R) (ls : lsolver) (knn : dict nnval -> list point -> point -> nat -> list (nat * R)) (hnsw : nnval -> list point -> point -> nat -> list (nat * R))
  (dist : dict nnval -> point -> point -> R).
Hypothesis EX : exact_solver ls.
Hypothesis Hsk : sklearn_ok knn dist.

Lemma replicated_any en en' method method' kw kw' w w' g g' K cur test train train' targets targets' N N' M r m nu pi ex :
  lower method = "exact"%string -> euclidean_kw kw -> nn_init en (rows_of train) (r * m) method kw = Ok w ->
  lower method' = "exact"%string -> euclidean_kw kw' -> nn_init en' (rows_of train') m method' kw' = Ok w' ->
  (0 < r /\ 0 < m <= N' /\ r * m <= N /\ 0 < M)%nat ->
  dataset test M -> dataset train N -> dataset train' N' -> ndim test = ndim train -> ndim test = ndim train' ->
  feature_count test = feature_count train -> feature_count test = feature_count train' ->
  lk_ok K (feature_count train) cur [] -> shape targets = N :: ex -> shape targets' = N' :: ex -> no_coincidence ex [(r * m)%nat] -> no_coincidence ex [m] ->
  shape (gp_Kout g) = [] -> at_ (gp_Kout g) [] = 1 -> 0 <= gp_var_scale g ->
  shape (gp_Kout g') = [] -> at_ (gp_Kout g') [] = 1 -> gp_var_scale g' = gp_var_scale g ->
  gp_noise g = HomoscedasticNoise nu -> 0 < nu -> gp_noise g' = HomoscedasticNoise (nu / INR r) ->
  replicated train train' N N' r pi ->
  (forall b e, (b < N')%nat -> inb ex e -> averaged N pi (fun a => at_ targets (a :: e)) b (at_ targets' (b :: e))) ->
  exists mean var mean' var',
    regress_any ls knn hnsw (Univariate (lib_model gamma kv g K cur)) test train w targets = Ok (mean, var) /\
    regress_any ls knn hnsw (Univariate (lib_model gamma kv g' K cur)) test train' w' targets' = Ok (mean', var') /\
    shape mean = shape mean' /\ shape var = shape var' /\
    forall x, (x < M)%nat -> no_ties test train' N' x ->
      at_ var [x] = at_ var' [x] /\ forall e, inb ex e -> at_ mean (x :: e) = at_ mean' (x :: e).
Proof.
  intros LM EK NI LM' EK' NI' (R0 & M0 & RM & MP) D1 D2 D3 ND ND' FC FC' OK HT HT' NC NC' SK K1 SC SK' K1' SC' GN NU GN' RP AV.
  assert (FE : feature_count train' = feature_count train) by congruence.
  assert (IR : 0 < INR r) by (apply lt_0_INR; auto).
  destruct (regress_any_nbr gamma kv ls EX knn hnsw dist Hsk en method kw w g K cur [] test train targets N M (r * m)%nat ex) as (mean & var & E & S1 & S2 & _ & V); auto.
  { split; auto. split; auto. apply Nat.mul_pos_pos; lia. }
  { rewrite GN. exact I. }
  { left. intros. rewrite GN. exact NU. }
  destruct (regress_any_nbr gamma kv ls EX knn hnsw dist Hsk en' method' kw' w' g' K cur [] test train' targets' N' M m ex) as (mean' & var' & E' & S1' & S2' & _ & V'); auto.
  { rewrite FE. exact OK. }
  { rewrite SC'. exact SC. }
  { rewrite GN'. exact I. }
  { left. intros. rewrite GN'. cbn [noise_at]. apply Rdiv_lt_0_compat; auto. }
  exists mean, var, mean', var'. split; [exact E|]. split; [exact E'|]. split; [congruence|]. split; [congruence|].
  intros x Hx NT. destruct (V x Hx) as (NR & V1 & (wv & SO & EV) & _). destruct (V' x Hx) as (NR' & V1' & (wv' & SO' & EV') & _).
  rewrite FE in V1', SO', EV'.
  set (q := nbr knn hnsw w test) in *. set (q' := nbr knn hnsw w' test) in *.
  assert (RE : repeats train train' (r * m) m (q x) (q' x) (place m pi (q x) (q' x))) by (eapply place_repeats with (test := test); eauto).
  assert (PG : forall a y, (a < m)%nat -> group_sum (r * m) (place m pi (q x) (q' x)) a (fun i => y (q x i)) = group_sum N pi (q' x a) y)
    by (intros a y Ha; eapply place_group with (test := test); eauto).
  assert (CN : forall a, (a < m)%nat -> group_sum (r * m) (place m pi (q x) (q' x)) a (fun _ => 1) = INR r)
    by (intros a Ha; eapply place_count with (test := test); eauto).
  set (p := place m pi (q x) (q' x)) in *.
  assert (IN : forall a, (a < m)%nat -> group_sum (r * m) p a (fun i => 1 / noise_at (gp_noise g) None x i) = INR r / nu).
  { intros a Ha. rewrite (group_ext _ p a _ (fun i => (1 / nu) * 1)) by (intros; rewrite GN; cbn [noise_at]; ring).
    rewrite group_scal, (CN a Ha). unfold Rdiv. ring. }
  destruct (pooled_row gamma kv K cur (gp_noise g) (gp_noise g') test train train' x (r * m)%nat m q q' p OK FE) as (u & u' & SU & UQ & UQ' & DK & DX); auto.
  { intros i Hi. rewrite GN. exact NU. }
  { intros a Ha. rewrite GN'. cbn [noise_at]. apply Rdiv_lt_0_compat; auto. }
  { intros a Ha. unfold pooled_noise. rewrite (IN a Ha), GN'. cbn [noise_at]. field. lra. }
  split.
  - rewrite EV, EV', SC'. f_equal. f_equal. etransitivity; [|etransitivity; [exact DK|]]; unfold dot; apply rsum_ext; intros j Hj;
      [rewrite (UQ wv SO j Hj)|rewrite (UQ' wv' SO' j Hj)]; reflexivity.
  - intros e He. destruct (V1 e He) as (w1 & SO1 & ->). destruct (V1' e He) as (w2 & SO2 & ->).
    assert (PR : forall a, (a < m)%nat -> pooled_response (r * m) p (noise_at (gp_noise g) None x)
       (fun j => at_ targets (q x j :: e)) a (at_ targets' (q' x a :: e))).
    { intros a Ha. unfold pooled_response. rewrite (IN a Ha).
      rewrite (group_ext _ p a _ (fun i => (1 / nu) * at_ targets (q x i :: e))) by (intros; rewrite GN; cbn [noise_at]; unfold Rdiv; ring).
      rewrite group_scal, (PG a (fun c => at_ targets (c :: e)) Ha).
      assert (QB : (q' x a < N')%nat) by (apply NR'; auto).
      rewrite (AV (q' x a) e QB He). unfold measurements. rewrite <- (PG a (fun _ => 1) Ha), (CN a Ha). field. lra. }
    etransitivity; [|etransitivity; [exact (DX _ (fun a => at_ targets' (q' x a :: e)) PR)|]]; unfold dot.
    + apply rsum_ext; intros j Hj. rewrite (UQ w1 SO1 j Hj). reflexivity.
    + apply rsum_ext; intros j Hj. rewrite (UQ' w2 SO2 j Hj). reflexivity.
Qed.
End Flow.
