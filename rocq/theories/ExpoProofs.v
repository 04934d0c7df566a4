(** Lemmas for C115. *)
From Coq Require Import Lia Lra.
From Verif Require Import Base BaseFacts NdModel NdFacts RSum HyperModel NamedModel NamedSpec LinAlgModel LinAlgSpec LinAlgFacts Gauss
  GPModel NoiseModel MuyGPSModel GPSpec GPTheorems TensorModel TensorSpec KernelModel KernelSpec KernelLemmas
  FlowModel FlowSpec FlowProofs PointwiseSpec LibSpec LibProofs MultiModel DriverModel NeighborsModel NeighborsProofs WorkModel WorkSpec WorkProofs WorkLemmas
  SimplerSpec SimplerProofs ExpoSpec.
Local Open Scope R_scope.

(** The kernel matrix of the exponential kernel at the positions [p], and its solution for one or two neighbours that screen the rest. *)
Definition ek (l s t : R) : R := exp (- (Rabs (s - t) / l)).

Lemma one_point n l (p : nat -> R) z a : (a < n)%nat ->
  (forall i, (i < n)%nat -> p i <= p a) -> p a <= z -> 
  solves n (fun i j => ek l (p i) (p j)) (fun j => delta j a * ek l z (p a)) (fun i => ek l z (p i)).
Proof.
  intros Ha HP Hz i Hi. rewrite (rsum_ext n _ (fun j => delta j a * (ek l (p i) (p j) * ek l z (p a)))) by (intros; ring).
  rewrite rsum_delta by exact Ha. unfold ek. rewrite <- exp_plus. f_equal. specialize (HP i Hi).
  rewrite Rabs_left1 by lra. rewrite (Rabs_pos_eq (z - p a)) by lra. rewrite (Rabs_pos_eq (z - p i)) by lra. lra.
Qed.

Lemma one_point' n l (p : nat -> R) z b : (b < n)%nat ->
  (forall i, (i < n)%nat -> p b <= p i) -> z <= p b ->
  solves n (fun i j => ek l (p i) (p j)) (fun j => delta j b * ek l z (p b)) (fun i => ek l z (p i)).
Proof.
  intros Ha HP Hz i Hi. rewrite (rsum_ext n _ (fun j => delta j b * (ek l (p i) (p j) * ek l z (p b)))) by (intros; ring).
  rewrite rsum_delta by exact Ha. unfold ek. rewrite <- exp_plus. f_equal. specialize (HP i Hi).
  rewrite Rabs_pos_eq by lra. rewrite (Rabs_left1 (z - p b)) by lra. rewrite (Rabs_left1 (z - p i)) by lra. lra.
Qed.

Lemma sinh_pos x : 0 < x -> 0 < sinh x.
Proof. intros H. unfold sinh. assert (exp (- x) < exp x) by (apply exp_increasing; lra). lra. Qed.

Lemma bridge_left A B C : 0 < A + B -> sinh B / sinh (A + B) * exp (- C) + sinh A / sinh (A + B) * exp (- (C + A + B)) = exp (- (C + A)).
Proof.
  intros H. assert (sinh (A + B) <> 0) by (pose proof (sinh_pos _ H); lra).
  apply (Rmult_eq_reg_l (sinh (A + B))); [|assumption]. unfold Rdiv.
  transitivity (sinh B * exp (- C) + sinh A * exp (- (C + A + B))); [field; assumption|].
  unfold sinh.
  replace (- (C + A + B)) with (- C + - A + - B) by ring. replace (- (C + A)) with (- C + - A) by ring. replace (- (A + B)) with (- A + - B) by ring.
  rewrite !exp_plus. assert (EA : exp A * exp (- A) = 1) by (rewrite <- exp_plus, Rplus_opp_r; apply exp_0).
  assert (EB : exp B * exp (- B) = 1) by (rewrite <- exp_plus, Rplus_opp_r; apply exp_0).
  set (a := exp A) in *. set (a' := exp (- A)) in *. set (b := exp B) in *. set (b' := exp (- B)) in *. set (c := exp (- C)).
  replace ((b - b') / 2 * c + (a - a') / 2 * (c * a' * b')) with (c / 2 * (b - b' + (a * a') * b' - a' * a' * b')) by field.
  replace ((a * b - a' * b') / 2 * (c * a')) with (c / 2 * ((a * a') * b - a' * a' * b')) by field.
  rewrite EA. ring.
Qed.

Lemma two_points n l (p : nat -> R) z a b : 0 < l -> (a < n)%nat -> (b < n)%nat -> p a <= z < p b ->
  (forall i, (i < n)%nat -> p i <= p a \/ p b <= p i) ->
  solves n (fun i j => ek l (p i) (p j))
    (fun j => delta j a * (sinh ((p b - z) / l) / sinh ((p b - p a) / l)) + delta j b * (sinh ((z - p a) / l) / sinh ((p b - p a) / l)))
    (fun i => ek l z (p i)).
Proof.
  intros Hl Ha Hb Hz HP i Hi.
  rewrite (rsum_ext n _ (fun j => delta j a * (ek l (p i) (p j) * (sinh ((p b - z) / l) / sinh ((p b - p a) / l)))
     + delta j b * (ek l (p i) (p j) * (sinh ((z - p a) / l) / sinh ((p b - p a) / l))))) by (intros; ring).
  rewrite rsum_plus, !rsum_delta by assumption. unfold ek.
  assert (LP : 0 < (p b - p a) / l) by (apply Rdiv_lt_0_compat; lra).
  replace ((p b - p a) / l) with ((z - p a) / l + (p b - z) / l) in * by (field; lra).
  destruct (HP i Hi) as [H|H].
  - rewrite (Rabs_left1 (p i - p a)), (Rabs_left1 (p i - p b)), (Rabs_pos_eq (z - p i)) by lra.
    pose proof (bridge_left ((z - p a) / l) ((p b - z) / l) ((p a - p i) / l) LP) as E.
    replace (- (p i - p a) / l) with ((p a - p i) / l) by (field; lra).
    replace (- (p i - p b) / l) with ((p a - p i) / l + (z - p a) / l + (p b - z) / l) by (field; lra).
    replace ((z - p i) / l) with ((p a - p i) / l + (z - p a) / l) by (field; lra). lra.
  - rewrite (Rabs_pos_eq (p i - p a)), (Rabs_pos_eq (p i - p b)), (Rabs_left1 (z - p i)) by lra.
    rewrite Rplus_comm in LP.
    pose proof (bridge_left ((p b - z) / l) ((z - p a) / l) ((p i - p b) / l) LP) as E.
    rewrite (Rplus_comm ((p b - z) / l) ((z - p a) / l)) in E.
    replace ((p i - p a) / l) with ((p i - p b) / l + (p b - z) / l + (z - p a) / l) by (field; lra).
    replace (- (z - p i) / l) with ((p i - p b) / l + (p b - z) / l) by (field; lra). lra.
Qed.

(** ** Extreme rows *)
Lemma left_exists train N z c : (c < N)%nat -> pos train c <= z -> exists a, left_row train N z a.
Proof.
  revert c. induction N as [|N IH]; intros c Hc Hz; [lia|].
  destruct (Rle_dec (pos train N) z) as [HN|HN].
  - destruct (Nat.eq_dec c N) as [->|NE].
    + assert (EX : (exists a, left_row train N z a) \/ forall c, (c < N)%nat -> ~ pos train c <= z).
      { destruct (Classical_Prop.classic (exists c, (c < N)%nat /\ pos train c <= z)) as [(c & C1 & C2)|NO]; [left; eapply IH; eauto|].
        right. intros c C1 C2. apply NO. exists c. auto. }
      destruct EX as [(a & A1 & A2 & A3)|NO].
      * destruct (Rle_dec (pos train N) (pos train a)) as [L|L].
        -- exists a. split; [lia|]. split; [lra|]. intros c C1 C2. destruct (Nat.eq_dec c N) as [->|]; [lra|]. apply A3; [lia|lra].
        -- exists N. split; [lia|]. split; [lra|]. intros c C1 C2. destruct (Nat.eq_dec c N) as [->|]; [lra|].
           assert (pos train c <= pos train a) by (apply A3; [lia|lra]). lra.
      * exists N. split; [lia|]. split; [lra|]. intros c C1 C2. destruct (Nat.eq_dec c N) as [->|]; [lra|]. exfalso. apply (NO c); [lia|lra].
    + destruct (IH c ltac:(lia) Hz) as (a & A1 & A2 & A3).
      destruct (Rle_dec (pos train N) (pos train a)) as [L|L].
      * exists a. split; [lia|]. split; [lra|]. intros d C1 C2. destruct (Nat.eq_dec d N) as [->|]; [lra|]. apply A3; [lia|lra].
      * exists N. split; [lia|]. split; [lra|]. intros d C1 C2. destruct (Nat.eq_dec d N) as [->|]; [lra|].
        assert (pos train d <= pos train a) by (apply A3; [lia|lra]). lra.
  - destruct (Nat.eq_dec c N) as [->|NE]; [contradiction|].
    destruct (IH c ltac:(lia) Hz) as (a & A1 & A2 & A3). exists a. split; [lia|]. split; [lra|].
    intros d C1 C2. destruct (Nat.eq_dec d N) as [->|]; [lra|]. apply A3; [lia|lra].
Qed.

Lemma right_exists train N z c : (c < N)%nat -> z < pos train c -> exists b, right_row train N z b.
Proof.
  revert c. induction N as [|N IH]; intros c Hc Hz; [lia|].
  destruct (Classical_Prop.classic (exists c, (c < N)%nat /\ z < pos train c)) as [(c' & C1 & C2)|NO].
  - destruct (IH c' C1 C2) as (a & A1 & A2 & A3).
    destruct (Rlt_dec z (pos train N)) as [HN|HN]; [destruct (Rlt_dec (pos train N) (pos train a)) as [L|L]|].
    + exists N. split; [lia|]. split; [lra|]. intros d D1 D2. destruct (Nat.eq_dec d N) as [->|]; [lra|].
      assert (pos train a <= pos train d) by (apply A3; [lia|lra]). lra.
    + exists a. split; [lia|]. split; [lra|]. intros d D1 D2. destruct (Nat.eq_dec d N) as [->|]; [lra|]. apply A3; [lia|lra].
    + exists a. split; [lia|]. split; [lra|]. intros d D1 D2. destruct (Nat.eq_dec d N) as [->|]; [lra|]. apply A3; [lia|lra].
  - assert (c = N) as ->. { destruct (Nat.eq_dec c N); auto. exfalso. apply NO. exists c. split; [lia|lra]. }
    exists N. split; [lia|]. split; [lra|]. intros d D1 D2. destruct (Nat.eq_dec d N) as [->|]; [lra|]. exfalso. apply NO. exists d. split; [lia|lra].
Qed.

Lemma row_dist_1 test train x a : feature_count train = 1%nat -> row_dist test train x a = (pos test x - pos train a) ^ 2.
Proof. intros F1. unfold row_dist, sqdist. rewrite F1. cbn [rsum]. unfold pos. ring. Qed.

(** The nearest row on a side where there is a neighbour is a neighbour. *)
Lemma side_in test train N x n q a (side : R -> Prop) : feature_count train = 1%nat -> distinct_rows train N (fun i => i) ->
  nearest_rows test train N x n q -> (a < N)%nat ->
  (forall j, (j < n)%nat -> side (pos train (q j)) -> (pos test x - pos train a) ^ 2 < (pos test x - pos train (q j)) ^ 2 \/ pos train a = pos train (q j)) ->
  (exists j, (j < n)%nat /\ side (pos train (q j))) -> exists j, (j < n)%nat /\ q j = a.
Proof.
  intros F1 DR (QB & QI & QS & OUT) Ha HS (j & Hj & Sj).
  destruct (Classical_Prop.classic (exists j, (j < n)%nat /\ q j = a)) as [E|NE]; [exact E|]. exfalso.
  assert (NO : forall i, (i < n)%nat -> q i <> a) by (intros i Hi E; apply NE; eauto).
  pose proof (OUT a Ha NO j Hj) as D. rewrite !row_dist_1 in D by exact F1.
  destruct (HS j Hj Sj) as [L|E]; [lra|].
  destruct (DR (q j) a (QB j Hj) Ha (NO j Hj)) as (f & Hf & NF). rewrite F1 in Hf. assert (f = O) as -> by lia. apply NF. symmetry. exact E.
Qed.

Section E.
Variables (gamma : R -> R) (kv : R -> R -> R).
Variable ls : lsolver.
Hypothesis EX : exact_solver ls.
Variable knn : dict nnval -> list point -> point -> nat -> list (nat * R).
Variable hnsw : nnval -> list point -> point -> nat -> list (nat * R).
Variable dist : dict nnval -> point -> point -> R.
Hypothesis Hsk : sklearn_ok knn dist.

Local Notation run g K cur kkw := (regress_any ls knn hnsw (Univariate (mkMm g (lk_call gamma kv K cur kkw)))).

Lemma expo_cov g K cur kkw l X Y i j : exponential g K cur kkw l -> 0 < l ->
  kcov (lk_cov gamma kv K 1 cur kkw) X Y i j = ek l (pos X i) (pos Y j).
Proof.
  intros ((d & sm & p & -> & FH) & LE & _) Hl. unfold kcov. cbn [lk_cov lk_def] in *. unfold matern_cov. rewrite FH. cbn [matern_value].
  unfold matern_half, ek. f_equal. f_equal. unfold scaled_sqdist. cbn [rsum]. rewrite LE.
  assert (Q : 0 + ((feature X i 0 - feature Y j 0 - 0) / l) ^ 2 = Rsqr ((pos X i - pos Y j) / l)) by (unfold pos, Rsqr, Rdiv; ring).
  etransitivity; [exact (f_equal sqrt Q)|]. rewrite sqrt_Rsqr_abs. unfold Rdiv. rewrite Rabs_mult, (Rabs_pos_eq (/ l)); [reflexivity|]. left. apply Rinv_0_lt_compat. exact Hl.
Qed.

(** What one prediction needs: the system, and the weights on the neighbours [a] and [b]. *)
Lemma expo_run en method kw w test train targets N M n ex g K cur kkw l :
  regression en method kw w test train targets N M n ex -> documented g K cur kkw train N M n -> exponential g K cur kkw l -> feature_count train = 1%nat ->
  0 < l /\ distinct_rows train N (fun i => i) /\ exists mean var, run g K cur kkw test train w targets = Ok (mean, var) /\ shape mean = M :: ex /\ shape var = [M] /\
    forall x, (x < M)%nat -> exists q, nearest_rows test train N x n q /\
      forall wv, solves n (fun i j => ek l (pos train (q i)) (pos train (q j))) wv (fun i => ek l (pos test x) (pos train (q i))) ->
        (forall e, inb ex e -> at_ mean (x :: e) = dot n wv (fun j => at_ targets (q j :: e))) /\
        at_ var [x] = gp_var_scale g * (1 - dot n wv (fun i => ek l (pos test x) (pos train (q i)))).
Proof.
  intros (Hm & He & Hi & Hn & D1 & D2 & ND & FC & HT & NC) (OK & SK & K1 & SC & NF & SN) XP F1.
  assert (Hl : 0 < l). { destruct OK as (_ & _ & PS & _). destruct XP as (_ & <- & _). apply PS. rewrite F1. lia. }
  assert (NZ : forall x i, noise_at (gp_noise g) None x i = 0) by (intros; destruct XP as (_ & _ & [->| ->]); reflexivity).
  split; [exact Hl|]. split.
  { destruct SN as [P|[_ D]]; [|exact D]. exfalso. assert (0 < noise_at (gp_noise g) None O O) by (apply P; lia). rewrite NZ in H. lra. }
  destruct (regress_any_nbr gamma kv ls EX knn hnsw dist Hsk en method kw w g K cur kkw test train targets N M n ex) as (mean & var & E & Sm & Sv & NS & V); auto.
  exists mean, var. split; [exact E|]. split; [exact Sm|]. split; [exact Sv|]. intros x Hx.
  destruct (V x Hx) as (NR & Mx & (wv & W & Vx) & _). specialize (NS x Hx). exists (nbr knn hnsw w test x). split; [exact NR|].
  set (q := nbr knn hnsw w test x) in *.
  assert (AE : forall i j, (i < n)%nat -> (j < n)%nat ->
    nbr_matrix (lk_cov gamma kv K (feature_count train) cur kkw) (gp_noise g) train (nbr knn hnsw w test) x i j = ek l (pos train (q i)) (pos train (q j))).
  { intros i j _ _. unfold nbr_matrix, plus_diag. rewrite NZ, F1, (expo_cov g K cur kkw l) by assumption. fold q. destruct (i =? j)%nat; ring. }
  assert (KE : forall j, (j < n)%nat -> kcov (lk_cov gamma kv K (feature_count train) cur kkw) test train x (q j) = ek l (pos test x) (pos train (q j))).
  { intros j _. rewrite F1. apply (expo_cov g); assumption. }
  intros u U. split.
  - intros e Hie. refine (kriging_det n _ _ _ _ _ _ _ _ NS AE KE (fun j _ => eq_refl) (Mx e Hie) _). exists u. split; [exact U|reflexivity].
  - rewrite Vx. do 2 f_equal. refine (kriging_det n _ _ _ _ _ _ _ _ NS AE KE KE _ _); [exists wv|exists u]; split; auto.
Qed.

Lemma dot_delta n a u v : (a < n)%nat -> dot n (fun j => delta j a * u) v = u * v a.
Proof. intros H. unfold dot. rewrite (rsum_ext n _ (fun j => delta j a * (u * v j))) by (intros; ring). apply (rsum_delta n a (fun j => u * v j) H). Qed.
Lemma dot_delta2 n a b u u' v : (a < n)%nat -> (b < n)%nat -> dot n (fun j => delta j a * u + delta j b * u') v = u * v a + u' * v b.
Proof.
  intros H H'. unfold dot. rewrite (rsum_ext n _ (fun j => delta j a * (u * v j) + delta j b * (u' * v j))) by (intros; ring).
  rewrite rsum_plus. rewrite (rsum_delta n a (fun j => u * v j) H), (rsum_delta n b (fun j => u' * v j) H'). reflexivity.
Qed.

(** Rows [a] and [b] are the closest rows on both sides. *)
Lemma expo_between en method kw w test train targets N M n ex g K cur kkw l :
  regression en method kw w test train targets N M n ex -> documented g K cur kkw train N M n -> exponential g K cur kkw l -> feature_count train = 1%nat ->
  exists mean var, run g K cur kkw test train w targets = Ok (mean, var) /\ shape mean = M :: ex /\ shape var = [M] /\
    forall x, (x < M)%nat ->
     (forall a b, straddled test train N x n -> left_row train N (pos test x) a -> right_row train N (pos test x) b ->
      let A := (pos test x - pos train a) / l in let B := (pos train b - pos test x) / l in
      (forall e, inb ex e -> at_ mean (x :: e) = (sinh B * at_ targets (a :: e) + sinh A * at_ targets (b :: e)) / sinh (A + B)) /\
      at_ var [x] = gp_var_scale g * (2 * sinh A * sinh B / sinh (A + B))) /\
     (forall a, after_all test train N x -> left_row train N (pos test x) a ->
      let A := (pos test x - pos train a) / l in
      (forall e, inb ex e -> at_ mean (x :: e) = exp (- A) * at_ targets (a :: e)) /\ at_ var [x] = gp_var_scale g * (1 - exp (- (2 * A)))) /\
     (forall b, before_all test train N x -> right_row train N (pos test x) b ->
      let B := (pos train b - pos test x) / l in
      (forall e, inb ex e -> at_ mean (x :: e) = exp (- B) * at_ targets (b :: e)) /\ at_ var [x] = gp_var_scale g * (1 - exp (- (2 * B)))).
Proof.
  intros RG DG XP F1. destruct (expo_run _ _ _ _ _ _ _ _ _ _ _ _ _ _ _ _ RG DG XP F1) as (Hl & DR & mean & var & E & Sm & Sv & V).
  exists mean, var. split; [exact E|]. split; [exact Sm|]. split; [exact Sv|]. intros x Hx. destruct (V x Hx) as (q & NR & HW). clear V.
  assert (Hn : (0 < n)%nat) by apply RG. pose proof NR as (QB & _).
  assert (LI : forall a, left_row train N (pos test x) a -> (exists j, (j < n)%nat /\ pos train (q j) <= pos test x) -> exists j, (j < n)%nat /\ q j = a).
  { intros a (A1 & A2 & A3) EXJ. apply (side_in test train N x n q a (fun t => t <= pos test x)); auto.
    intros j Hj S. cbn beta in S. pose proof (A3 (q j) (QB j Hj) S) as L. destruct (Req_dec (pos train a) (pos train (q j))) as [Q|Q]; [right; exact Q|left].
    assert (0 < (pos train a - pos train (q j)) * (pos test x - pos train a + (pos test x - pos train (q j)))) by (apply Rmult_lt_0_compat; lra). lra. }
  assert (RI : forall b, right_row train N (pos test x) b -> (exists j, (j < n)%nat /\ pos test x < pos train (q j)) -> exists j, (j < n)%nat /\ q j = b).
  { intros a (A1 & A2 & A3) EXJ. apply (side_in test train N x n q a (fun t => pos test x < t)); auto.
    intros j Hj S. cbn beta in S. pose proof (A3 (q j) (QB j Hj) S) as L. destruct (Req_dec (pos train a) (pos train (q j))) as [Q|Q]; [right; exact Q|left].
    assert (0 < (pos train (q j) - pos train a) * (pos train a - pos test x + (pos train (q j) - pos test x))) by (apply Rmult_lt_0_compat; lra). lra. }
  split; [|split].
  - intros a b ST LA RB A B. destruct (ST q NR) as (SL & SR). destruct (LI a LA SL) as (ia & Hia & Ea). destruct (RI b RB SR) as (ib & Hib & Eb).
    destruct LA as (A1 & A2 & A3). destruct RB as (B1 & B2 & B3).
    assert (AB : (pos train b - pos train a) / l = A + B) by (unfold A, B; field; lra).
    assert (HP : forall i, (i < n)%nat -> pos train (q i) <= pos train (q ia) \/ pos train (q ib) <= pos train (q i)).
    { intros i Hi'. rewrite Ea, Eb. destruct (Rle_dec (pos train (q i)) (pos test x)); [left; apply A3|right; apply B3]; auto; lra. }
    assert (HZ : pos train (q ia) <= pos test x < pos train (q ib)) by (rewrite Ea, Eb; lra).
    destruct (HW _ (two_points n l (fun i => pos train (q i)) (pos test x) ia ib Hl Hia Hib HZ HP)) as (HM & HV).
    rewrite !Ea, !Eb, AB in HM, HV. fold A B in HM, HV.
    assert (PAB : 0 < A + B) by (rewrite <- AB; apply Rdiv_lt_0_compat; lra). pose proof (sinh_pos _ PAB) as SP. split.
    + intros e Hie. rewrite (HM e Hie), dot_delta2 by assumption. rewrite Ea, Eb. field. lra.
    + rewrite HV, dot_delta2 by assumption. f_equal. rewrite Ea, Eb. unfold ek.
      rewrite (Rabs_pos_eq (pos test x - pos train a)), (Rabs_left1 (pos test x - pos train b)) by lra.
      replace (- (pos test x - pos train b) / l) with B by (unfold B; field; lra). fold A.
      apply (Rmult_eq_reg_r (sinh (A + B))); [|lra]. field_simplify; [|lra|lra]. unfold sinh.
      replace (- (A + B)) with (- A + - B) by ring. rewrite !exp_plus.
      assert (EA : exp A * exp (- A) = 1) by (rewrite <- exp_plus, Rplus_opp_r; apply exp_0).
      assert (EB : exp B * exp (- B) = 1) by (rewrite <- exp_plus, Rplus_opp_r; apply exp_0).
      field_simplify. nra.
  - intros a AL LA A. destruct (LI a LA) as (ia & Hia & Ea). { exists O. split; [exact Hn|]. apply AL. apply QB. exact Hn. }
    destruct LA as (A1 & A2 & A3).
    assert (HP : forall i, (i < n)%nat -> pos train (q i) <= pos train (q ia)) by (intros i Hi'; rewrite Ea; apply A3; auto).
    assert (HZ : pos train (q ia) <= pos test x) by (rewrite Ea; lra).
    destruct (HW _ (one_point n l (fun i => pos train (q i)) (pos test x) ia Hia HP HZ)) as (HM & HV). rewrite !Ea in HM, HV.
    assert (EKA : ek l (pos test x) (pos train a) = exp (- A)) by (unfold ek; rewrite Rabs_pos_eq by lra; reflexivity).
    split.
    + intros e Hie. rewrite (HM e Hie), dot_delta by assumption. rewrite Ea, EKA. reflexivity.
    + rewrite HV, dot_delta by assumption. rewrite Ea, EKA. rewrite <- exp_plus. do 4 f_equal. ring.
  - intros b BL RB B. destruct (RI b RB) as (ib & Hib & Eb). { exists O. split; [exact Hn|]. apply BL. apply QB. exact Hn. }
    destruct RB as (B1 & B2 & B3).
    assert (HP : forall i, (i < n)%nat -> pos train (q ib) <= pos train (q i)) by (intros i Hi'; rewrite Eb; apply B3; auto).
    assert (HZ : pos test x <= pos train (q ib)) by (rewrite Eb; lra).
    destruct (HW _ (one_point' n l (fun i => pos train (q i)) (pos test x) ib Hib HP HZ)) as (HM & HV). rewrite !Eb in HM, HV.
    assert (EKB : ek l (pos test x) (pos train b) = exp (- B)).
    { unfold ek. rewrite Rabs_left1 by lra. unfold B. do 3 f_equal. ring. }
    split.
    + intros e Hie. rewrite (HM e Hie), dot_delta by assumption. rewrite Eb, EKB. reflexivity.
    + rewrite HV, dot_delta by assumption. rewrite Eb, EKB. rewrite <- exp_plus. do 4 f_equal. ring.
Qed.

(** [n] neighbours are as good as all [N]. *)
Lemma expo_exact en method kw w en' method' kw' w' test train targets N M n ex g K cur kkw l :
  regression en method kw w test train targets N M n ex -> regression en' method' kw' w' test train targets N M N ex ->
  documented g K cur kkw train N M n -> exponential g K cur kkw l -> feature_count train = 1%nat ->
  (forall x, (x < M)%nat -> straddled test train N x n \/ after_all test train N x \/ before_all test train N x) ->
  same_prediction (run g K cur kkw test train w targets) (run g K cur kkw test train w' targets).
Proof.
  intros RG RG' DG XP F1 HX.
  assert (DG' : documented g K cur kkw train N M N).
  { destruct DG as (OK & SK & K1 & SC & NF & SN). repeat (split; [assumption|]). destruct XP as (_ & _ & NZ).
    assert (Hn : (0 < n /\ 0 < M)%nat) by (destruct RG as (_ & _ & _ & Hn & _); lia).
    split; [destruct NZ as [->| ->]; exact I|]. right. split; [intros; destruct NZ as [->| ->]; cbn; lra|].
    destruct SN as [P|[_ D]]; [|exact D]. exfalso. assert (0 < noise_at (gp_noise g) None O O) by (apply P; lia). destruct NZ as [Z|Z]; rewrite Z in H; cbn in H; lra. }
  destruct (expo_between _ _ _ _ _ _ _ _ _ _ _ _ _ _ _ _ RG DG XP F1) as (mean & var & E & Sm & Sv & V).
  destruct (expo_between _ _ _ _ _ _ _ _ _ _ _ _ _ _ _ _ RG' DG' XP F1) as (mean' & var' & E' & Sm' & Sv' & V').
  assert (HN : (0 < n <= N)%nat) by apply RG.
  assert (EQ : forall x, (x < M)%nat -> (forall e, inb ex e -> at_ mean (x :: e) = at_ mean' (x :: e)) /\ at_ var [x] = at_ var' [x]).
  { intros x Hx. destruct (V x Hx) as (V1 & V2 & V3). destruct (V' x Hx) as (W1 & W2 & W3).
    destruct (HX x Hx) as [ST|[AL|BL]].
    - destruct (Classical_Prop.classic (exists q, nearest_rows test train N x n q)) as [(q & NR)|NO].
      + destruct (ST q NR) as ((j & Hj & Pj) & (i & Hi & Pi)). pose proof NR as (QB & _).
        destruct (left_exists train N _ _ (QB j Hj) Pj) as (a & LA). destruct (right_exists train N _ _ (QB i Hi) Pi) as (b & RB).
        assert (ST' : straddled test train N x N).
        { intros q' (QB' & QI' & _ & OUT'). 
          assert (SUR : forall a, (a < N)%nat -> exists k, (k < N)%nat /\ q' k = a).
          { intros a0 Ha0. destruct (Classical_Prop.classic (exists k, (k < N)%nat /\ q' k = a0)) as [Y|Y]; [exact Y|exfalso].
            assert (ND : NoDup (map q' (seq 0 N))).
            { apply NoDup_nth with (d := O). intros u v Hu Hv. rewrite map_length, seq_length in Hu, Hv.
              rewrite !(nth_indep _ O (q' O)) by (rewrite map_length, seq_length; assumption). rewrite !map_nth, !seq_nth by assumption. cbn. intros Q. apply QI' in Q; auto. }
            assert (ND2 : NoDup (a0 :: map q' (seq 0 N))).
            { constructor; [|exact ND]. intros HI. apply in_map_iff in HI as (k & Ek & Hk). apply in_seq in Hk. apply Y. exists k. split; [lia|exact Ek]. }
            assert (LE : (List.length (a0 :: map q' (seq 0 N)) <= List.length (seq 0 N))%nat).
            { apply NoDup_incl_length; [exact ND2|]. intros k [<-|Hk]; apply in_seq; [lia|]. apply in_map_iff in Hk as (u & <- & Hu). apply in_seq in Hu. split; [lia|]. apply QB'. lia. }
            cbn in LE. rewrite map_length, seq_length in LE. lia. }
          destruct (SUR a (proj1 LA)) as (k & Hk & Ek). destruct (SUR b (proj1 RB)) as (k' & Hk' & Ek').
          split; [exists k|exists k']; (split; [assumption|]); [rewrite Ek; apply LA|rewrite Ek'; apply RB]. }
        destruct (V1 a b ST LA RB) as (Y1 & Y2). destruct (W1 a b ST' LA RB) as (Y3 & Y4). split; [intros e Hie; rewrite Y1, Y3 by auto; reflexivity|rewrite Y2, Y4; reflexivity].
      + exfalso. destruct (expo_run _ _ _ _ _ _ _ _ _ _ _ _ _ _ _ _ RG DG XP F1) as (_ & _ & m0 & v0 & _ & _ & _ & Q). destruct (Q x Hx) as (q & NR & _). apply NO. eauto.
    - destruct (left_exists train N (pos test x) O) as (a & LA); [lia|apply AL; lia|].
      destruct (V2 a AL LA) as (Y1 & Y2). destruct (W2 a AL LA) as (Y3 & Y4). split; [intros e Hie; rewrite Y1, Y3 by auto; reflexivity|rewrite Y2, Y4; reflexivity].
    - destruct (right_exists train N (pos test x) O) as (b & RB); [lia|apply BL; lia|].
      destruct (V3 b BL RB) as (Y1 & Y2). destruct (W3 b BL RB) as (Y3 & Y4). split; [intros e Hie; rewrite Y1, Y3 by auto; reflexivity|rewrite Y2, Y4; reflexivity]. }
  exists mean, var, mean', var'. split; [exact E|]. split; [exact E'|]. split; (split; [congruence|]).
  - rewrite Sm. intros idx HI. apply inb_inv_cons in HI as (x & e & -> & Hx & He'). apply EQ; auto.
  - rewrite Sv. intros idx HI. apply inb_inv1 in HI as (x & -> & Hx). apply EQ; auto.
Qed.
End E.
