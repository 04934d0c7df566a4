(** Proofs about the multivariate model. *)
From Coq Require Import Lia Lra.
From Verif Require Import Base BaseFacts NdModel NdFacts RSum LinAlgModel LinAlgSpec LinAlgFacts
  GPModel NoiseModel MuyGPSModel GPSpec GPTheorems CongProofs MultiModel MultiSpec.
Local Open Scope R_scope.

Lemma assign_last_col (x y : nd R) i b r : shape x = [b; r] -> shape y = [b] ->
  assign_last x y i = if (r <=? i)%nat then Err IndexError else
    Ok (mkNd [b; r] (fun idx => if (last idx O =? i)%nat then at_ y (bidx [b] (removelast idx)) else at_ x idx)).
Proof.
  intros Hx Hy. unfold assign_last. rewrite Hx, Hy. cbn [removelast last].
  destruct (r <=? i)%nat; auto. rewrite bshape_refl.
  destruct (list_eq_dec Nat.eq_dec [b] [b]); [reflexivity|congruence].
Qed.

Lemma entry_reshape {A} (y y' : nd A) b x : reshape y [b] = Ok y' -> (x < b)%nat -> at_ y' [x] = entry y x.
Proof.
  unfold reshape. destruct (Nat.eqb_spec (nprod [b]) (nprod (shape y))); [|discriminate].
  intros E Hx; inversion E; subst; cbn [at_]. unfold entry. f_equal. f_equal.
  cbn [ravel]. rewrite nprod0. lia.
Qed.

Lemma column_loop_ok f b r ms : forall i acc out, shape acc = [b; r] ->
  column_loop f b i ms acc = Ok out ->
  shape out = [b; r] /\ (ms = [] \/ i + List.length ms <= r)%nat /\
  (forall k m, nth_error ms k = Some m -> exists y, f (i + k)%nat m = Ok y /\ nprod (shape y) = b /\
     forall x, (x < b)%nat -> at_ out [x; (i + k)%nat] = entry y x) /\
  (forall x j, (x < b)%nat -> (j < i \/ i + List.length ms <= j)%nat -> at_ out [x; j] = at_ acc [x; j]).
Proof.
  induction ms as [|m ms IH]; intros i acc out Ha; cbn [column_loop].
  - intros E; inversion E; subst. repeat split; auto. intros k m; destruct k; discriminate.
  - intros E. apply bind_ok in E as (y & Ey & E). apply bind_ok in E as (y' & Ey' & E).
    apply bind_ok in E as (acc' & Eacc & E).
    pose proof (reshape_shape _ _ _ Ey') as Sy.
    rewrite (assign_last_col acc y' i b r Ha Sy) in Eacc.
    destruct (Nat.leb_spec r i) as [|Hr]; [discriminate|]. injection Eacc as <-.
    destruct (IH _ (mkNd [b; r] _) _ eq_refl E) as (So & Hlen & Hc & Ho). split; [auto|].
    split; [right; cbn [List.length]; destruct Hlen as [->|]; cbn [List.length]; lia|]. split.
    + intros [|k] m' Hk.
      * cbn in Hk. injection Hk as <-. rewrite Nat.add_0_r. exists y. split; [auto|]. split.
        { unfold reshape in Ey'. destruct (Nat.eqb_spec (nprod [b]) (nprod (shape y))) as [e|]; [|discriminate].
          rewrite nprod1 in e; auto. }
        intros x Hx. rewrite Ho by (auto; lia). cbn [at_ last removelast]. rewrite Nat.eqb_refl.
        rewrite (bidx_id [b] [x]) by (apply inb1; auto). apply (entry_reshape _ _ b); auto.
      * cbn in Hk. destruct (Hc k m' Hk) as (y2 & E2 & N2 & V2). rewrite Nat.add_succ_r.
        exists y2. auto.
    + intros x j Hx Hj. cbn [List.length] in Hj. rewrite Ho by (auto; lia). cbn [at_ last].
      destruct (Nat.eqb_spec j i); [lia|auto].
Qed.

Lemma column_loop_total f b r ms : forall i acc, shape acc = [b; r] ->
  (i + List.length ms <= r)%nat ->
  (forall k m, nth_error ms k = Some m -> exists y, f (i + k)%nat m = Ok y /\ nprod (shape y) = b) ->
  exists out, column_loop f b i ms acc = Ok out.
Proof.
  induction ms as [|m ms IH]; intros i acc Ha Hl Hf; cbn [column_loop]; [eauto|].
  cbn [List.length] in Hl.
  destruct (Hf O m eq_refl) as (y & Ey & Ny). rewrite Nat.add_0_r in Ey. rewrite Ey; cbn [bind].
  destruct (reshape_ok y [b]) as [y' Ey']; [rewrite nprod1; auto|]. rewrite Ey'; cbn [bind].
  rewrite (assign_last_col acc y' i b r Ha (reshape_shape _ _ _ Ey')).
  destruct (Nat.leb_spec r i); [lia|]. cbn [bind]. apply IH; [reflexivity|lia|].
  intros k m' Hk. specialize (Hf (S k) m' Hk). rewrite Nat.add_succ_r in Hf. exact Hf.
Qed.

(** The first iteration that fails decides the exception. *)
Lemma column_loop_err f b r ms : forall i acc e, shape acc = [b; r] ->
  column_loop f b i ms acc = Err e ->
  exists k m, nth_error ms k = Some m /\
    (forall j m', (j < k)%nat -> nth_error ms j = Some m' -> exists y, f (i + j)%nat m' = Ok y) /\
    (f (i + k)%nat m = Err e \/
     (exists y, f (i + k)%nat m = Ok y /\ ((nprod (shape y) <> b /\ e = ValueError) \/
                                    (r <= i + k /\ e = IndexError)%nat))).
Proof.
  induction ms as [|m ms IH]; intros i acc e Ha; cbn [column_loop]; [discriminate|].
  destruct (f i m) as [y|e'] eqn:Ef; cbn [bind].
  2:{ intros E; inversion E; subst. exists O, m. split; [reflexivity|]. split; [intros j m'; lia|].
      rewrite Nat.add_0_r. auto. }
  destruct (reshape y [b]) as [y'|e'] eqn:Ey; cbn [bind].
  2:{ intros E; inversion E; subst. exists O, m. split; [reflexivity|]. split; [intros j m'; lia|].
      rewrite Nat.add_0_r. right. exists y. split; auto. left. unfold reshape in Ey.
      destruct (Nat.eqb_spec (nprod [b]) (nprod (shape y))) as [E1|E1]; [discriminate|].
      rewrite nprod1 in E1. split; [auto|]. congruence. }
  rewrite (assign_last_col acc y' i b r Ha (reshape_shape _ _ _ Ey)).
  destruct (Nat.leb_spec r i) as [Hr|Hr]; cbn [bind].
  { intros E; inversion E; subst. exists O, m. split; [reflexivity|]. split; [intros j m'; lia|].
    rewrite Nat.add_0_r. right. exists y. split; auto. }
  intros E. destruct (IH (S i) (mkNd [b; r] _) e eq_refl E) as (k & m' & Hk & Hpre & Hfail).
  exists (S k), m'. split; [auto|]. rewrite Nat.add_succ_r. split; [|exact Hfail].
  intros [|j] m2 Hj Hm2.
  - cbn in Hm2. injection Hm2 as <-. rewrite Nat.add_0_r. eauto.
  - cbn in Hm2. rewrite Nat.add_succ_r. apply (Hpre j m2); auto; lia.
Qed.

Lemma response_column_shape T i b n r : shape T = [b; n; r] -> shape (response_column T i) = [b; n; 1%nat].
Proof. intros H. unfold response_column. cbn [shape]. rewrite H. reflexivity. Qed.

Lemma column_reshape T i b n r : shape T = [b; n; r] -> (i < r)%nat ->
  exists c c', column T i = Ok c /\ reshape c [b; n; 1%nat] = Ok c' /\ nd_eq c' (response_column T i).
Proof.
  intros HT Hi. unfold column. rewrite HT. destruct (Nat.leb_spec r i); [lia|].
  eexists. destruct (reshape_ok (mkNd [b; n] (fun idx => at_ T (idx ++ [i]))) [b; n; 1%nat]) as [c' Ec'].
  { cbn [shape]. rewrite !nprod_cons, nprod0. lia. }
  exists c'. split; [reflexivity|]. split; [exact Ec'|].
  split.
  - rewrite (reshape_shape _ _ _ Ec'), (response_column_shape T i b n r); auto.
  - intros idx Hin. rewrite (reshape_shape _ _ _ Ec') in Hin.
    apply inb_inv3 in Hin as (x & j & z & -> & Hx & Hj & Hz).
    cbn [response_column at_].
    rewrite (reshape_at (mkNd [b; n] (fun idx => at_ T (idx ++ [i]))) c' [b; n; 1%nat] [x; j] [x; j; z]); auto.
    + cbn [shape]. apply inb2; auto.
    + cbn [shape ravel]. rewrite !nprod_cons, nprod0. lia.
Qed.

Lemma mean_one_eq ls m pd cd T i b n r : shape T = [b; n; r] -> (i < r)%nat ->
  same_outcome (mm_mean_one ls pd cd T i m) (univariate_mean ls m pd cd T i).
Proof.
  intros HT Hi. unfold mm_mean_one, univariate_mean.
  destruct (mm_kernel m pd) as [Ki|]; cbn [bind]; [|reflexivity].
  destruct (mm_kernel m cd) as [Kc|]; cbn [bind]; [|reflexivity]. rewrite HT.
  destruct (column_reshape T i b n r HT Hi) as (c & c' & -> & Er & Hc). cbn [bind].
  rewrite Er; cbn [bind]. apply gp_posterior_mean_cong; auto.
Qed.

Lemma mean_one_out ls m pd cd T i b n r y : shape T = [b; n; r] ->
  mm_mean_one ls pd cd T i m = Ok y -> (i < r)%nat.
Proof.
  intros HT. unfold mm_mean_one. destruct (mm_kernel m pd); cbn [bind]; [|discriminate].
  destruct (mm_kernel m cd); cbn [bind]; [|discriminate]. rewrite HT. unfold column. rewrite HT.
  destruct (Nat.leb_spec r i); [discriminate|auto].
Qed.

Lemma mm_mean_ok ls ms pd cd T b n r out : shape T = [b; n; r] ->
  mm_posterior_mean ls ms pd cd T = Ok out ->
  shape out = [b; r] /\ (List.length ms <= r)%nat /\
  (forall i m, nth_error ms i = Some m -> exists t, univariate_mean ls m pd cd T i = Ok t /\
     nprod (shape t) = b /\ forall x, (x < b)%nat -> at_ out [x; i] = entry t x) /\
  (forall x i, (x < b)%nat -> (List.length ms <= i)%nat -> at_ out [x; i] = 0).
Proof.
  intros HT. unfold mm_posterior_mean. rewrite HT. intros E.
  destruct (column_loop_ok _ b r ms O (zeros [b; r]) out eq_refl E) as (So & Hl & Hc & Ho).
  split; [auto|]. split; [destruct Hl as [->|]; cbn [List.length] in *; lia|]. split.
  - intros i m Hm. destruct (Hc i m Hm) as (y & Ey & Ny & Hv). cbn [Nat.add] in *.
    pose proof (mean_one_out _ _ _ _ _ _ _ _ _ _ HT Ey) as Hi.
    pose proof (mean_one_eq ls m pd cd T i b n r HT Hi) as Hs. rewrite Ey in Hs.
    destruct (univariate_mean ls m pd cd T i) as [t|]; [|contradiction].
    exists t. destruct Hs as [Hsh Hat]. split; [auto|]. split; [congruence|].
    intros x Hx. rewrite Hv by auto. unfold entry. rewrite <- Hsh. apply Hat.
    apply unravel_inb. rewrite Ny; auto.
  - intros x i Hx Hi. rewrite Ho by (auto; lia). reflexivity.
Qed.

Lemma mm_mean_total ls ms pd cd T b n r : shape T = [b; n; r] -> (List.length ms <= r)%nat ->
  (forall i m, nth_error ms i = Some m -> exists t, univariate_mean ls m pd cd T i = Ok t /\ nprod (shape t) = b) ->
  exists out, mm_posterior_mean ls ms pd cd T = Ok out.
Proof.
  intros HT Hl Hf. unfold mm_posterior_mean. rewrite HT.
  apply (column_loop_total _ b r); [reflexivity|lia|].
  intros k m Hk. cbn [Nat.add]. destruct (Hf k m Hk) as (t & Et & Nt).
  assert (Hi : (k < r)%nat) by (pose proof (proj1 (nth_error_Some ms k) ltac:(congruence)); lia).
  pose proof (mean_one_eq ls m pd cd T k b n r HT Hi) as Hs. rewrite Et in Hs.
  destruct (mm_mean_one ls pd cd T k m) as [y|]; [|contradiction]. exists y. destruct Hs as [Hs _].
  split; [auto|congruence].
Qed.

Lemma mm_mean_err ls ms pd cd T b n r e : shape T = [b; n; r] -> (List.length ms <= r)%nat ->
  mm_posterior_mean ls ms pd cd T = Err e ->
  exists i m, nth_error ms i = Some m /\
    (forall j m', (j < i)%nat -> nth_error ms j = Some m' -> is_ok (univariate_mean ls m' pd cd T j)) /\
    (univariate_mean ls m pd cd T i = Err e \/
     exists t, univariate_mean ls m pd cd T i = Ok t /\ nprod (shape t) <> b /\ e = ValueError).
Proof.
  intros HT Hl. unfold mm_posterior_mean. rewrite HT. intros E.
  destruct (column_loop_err _ b r ms O (zeros [b; r]) e eq_refl E) as (k & m & Hk & Hpre & Hf).
  assert (Hr : forall j m', nth_error ms j = Some m' -> (j < r)%nat).
  { intros j m' Hj. pose proof (proj1 (nth_error_Some ms j) ltac:(congruence)); lia. }
  exists k, m. split; [auto|]. split.
  - intros j m' Hj Hm'. destruct (Hpre j m' Hj Hm') as [y Ey]. cbn [Nat.add] in Ey.
    pose proof (mean_one_eq ls m' pd cd T j b n r HT (Hr _ _ Hm')) as Hs. rewrite Ey in Hs.
    destruct (univariate_mean ls m' pd cd T j) as [t|]; [|contradiction]. exists t; auto.
  - cbn [Nat.add] in Hf.
    pose proof (mean_one_eq ls m pd cd T k b n r HT (Hr _ _ Hk)) as Hs.
    destruct Hf as [Hf|(y & Ey & Hf)].
    + rewrite Hf in Hs. destruct (univariate_mean ls m pd cd T k); [contradiction|]. cbn in Hs. subst; auto.
    + rewrite Ey in Hs. destruct (univariate_mean ls m pd cd T k) as [t|]; [|contradiction].
      destruct Hs as [Hs _]. right. exists t. split; [auto|].
      pose proof (Hr _ _ Hk). destruct Hf as [[Hf ->]|[Hf _]]; [split; [congruence|auto]|lia].
Qed.

(** Well-shaped kernels and an exact solver: every column is the kriging prediction. *)
Lemma mm_mean_kriging ls ms pd cd T b n r : exact_solver ls -> shape T = [b; n; r] -> n <> 1%nat ->
  (List.length ms <= r)%nat ->
  (forall i m, nth_error ms i = Some m -> noise_fits (gp_noise (mm_gp m)) b n /\
     exists Kin Kcross, mm_kernel m pd = Ok Kin /\ mm_kernel m cd = Ok Kcross /\
       shape Kin = [b; n; n] /\ shape Kcross = [b; n] /\
       forall x, (x < b)%nat -> nonsingular n (noisy (gp_noise (mm_gp m)) Kin x)) ->
  exists out, mm_posterior_mean ls ms pd cd T = Ok out /\ shape out = [b; r] /\
    forall i m Kin Kcross x, nth_error ms i = Some m -> mm_kernel m pd = Ok Kin -> mm_kernel m cd = Ok Kcross ->
      (x < b)%nat ->
      kriging n (noisy (gp_noise (mm_gp m)) Kin x) (rowvec Kcross x) (fun j => at_ T [x; j; i]) (at_ out [x; i]).
Proof.
  intros Hls HT Hn Hl Hm.
  assert (Hu : forall i m, nth_error ms i = Some m -> exists t Kin Kcross,
     mm_kernel m pd = Ok Kin /\ mm_kernel m cd = Ok Kcross /\
     univariate_mean ls m pd cd T i = Ok t /\ shape t = [b; 1%nat] /\
     forall x, (x < b)%nat -> kriging n (noisy (gp_noise (mm_gp m)) Kin x) (rowvec Kcross x)
        (fun j => at_ T [x; j; i]) (at_ t [x; O])).
  { intros i m Hi. destruct (Hm i m Hi) as (Hf & Kin & Kcross & EK & EC & SK & SC & Hns).
    destruct (gp_mean_total ls Hls (gp_noise (mm_gp m)) None Kin Kcross (response_column T i) b n [1%nat])
      as (t & Et & St & Hk); auto.
    { apply (response_column_shape T i b n r HT). }
    { apply no_coincidence_1; auto. }
    exists t, Kin, Kcross. split; [auto|]. split; [auto|]. split.
    { unfold univariate_mean. rewrite EK, EC. cbn [bind]. exact Et. }
    split; [auto|]. intros x Hx. apply (Hk x [O]); auto. apply inb1; auto. }
  destruct (mm_mean_total ls ms pd cd T b n r HT Hl) as [out Eo].
  { intros i m Hi. destruct (Hu i m Hi) as (t & Kin & Kcross & _ & _ & Et & St & _). exists t.
    split; [auto|]. rewrite St, !nprod_cons, nprod0. lia. }
  exists out. split; [auto|].
  destruct (mm_mean_ok ls ms pd cd T b n r out HT Eo) as (So & _ & Hc & _). split; [auto|].
  intros i m Kin Kcross x Hi EK EC Hx.
  destruct (Hu i m Hi) as (t & Kin' & Kcross' & EK' & EC' & Et & St & Hk).
  rewrite EK in EK'; injection EK' as <-. rewrite EC in EC'; injection EC' as <-.
  destruct (Hc i m Hi) as (t' & Et' & _ & Hv). rewrite Et in Et'; injection Et' as <-.
  rewrite Hv by auto. unfold entry. rewrite St. cbn [unravel].
  rewrite !nprod_cons, nprod0. cbn [Nat.mul Nat.add].
  rewrite !Nat.div_1_r, !Nat.mod_1_r. apply Hk; auto.
Qed.

(** ** Variance *)
Lemma entry_ndmap {A B} (f : A -> B) t x : entry (ndmap f t) x = f (entry t x).
Proof. reflexivity. Qed.

Lemma var_one_eq ls pd cd i m y : mm_var_one ls pd cd i m = Ok y <->
  exists v, univariate_variance ls (mm_gp m) m pd cd = Ok v /\ y = ndmap (fun a => a * gp_scale (mm_gp m)) v.
Proof.
  unfold mm_var_one, univariate_variance.
  destruct (mm_kernel m pd) as [Ki|]; cbn [bind]; [|split; [discriminate|intros (v & H & _); discriminate]].
  destruct (mm_kernel m cd) as [Kc|]; cbn [bind]; [|split; [discriminate|intros (v & H & _); discriminate]].
  destruct (gp_posterior_variance ls (mm_gp m) Ki Kc) as [v|]; cbn [bind].
  - split; [intros H; injection H as <-; eauto|intros (v' & H & ->); congruence].
  - split; [discriminate|intros (v & H & _); discriminate].
Qed.

Lemma mm_var_ok ls ms pd cd b sh out : shape cd = b :: sh ->
  mm_posterior_variance ls ms pd cd = Ok out ->
  shape out = [b; List.length ms] /\
  (forall i m, nth_error ms i = Some m -> exists v, univariate_variance ls (mm_gp m) m pd cd = Ok v /\
     nprod (shape v) = b /\ forall x, (x < b)%nat -> at_ out [x; i] = gp_scale (mm_gp m) * entry v x).
Proof.
  intros HC. unfold mm_posterior_variance. rewrite HC. intros E.
  destruct (column_loop_ok _ b _ ms O (zeros [b; List.length ms]) out eq_refl E) as (So & _ & Hc & _).
  split; [auto|]. intros i m Hm. destruct (Hc i m Hm) as (y & Ey & Ny & Hv). cbn [Nat.add] in *.
  apply var_one_eq in Ey as (v & Ev & ->). exists v. split; [auto|]. split; [exact Ny|].
  intros x Hx. rewrite Hv by auto. rewrite entry_ndmap. apply Rmult_comm.
Qed.

Lemma mm_var_total ls ms pd cd b sh : shape cd = b :: sh ->
  (forall i m, nth_error ms i = Some m -> exists v, univariate_variance ls (mm_gp m) m pd cd = Ok v /\ nprod (shape v) = b) ->
  exists out, mm_posterior_variance ls ms pd cd = Ok out.
Proof.
  intros HC Hf. unfold mm_posterior_variance. rewrite HC.
  apply (column_loop_total _ b (List.length ms)); [reflexivity|lia|].
  intros k m Hk. destruct (Hf k m Hk) as (v & Ev & Nv). cbn [Nat.add].
  exists (ndmap (fun a => a * gp_scale (mm_gp m)) v). split; [apply var_one_eq; eauto|exact Nv].
Qed.

(** ** Scale *)
Lemma scale_one_eq ls draws pd T i m b n r : exact_solver ls -> shape T = [b; n; r] -> (i < r)%nat ->
  (forall k a, In a (draws k) -> (a < n)%nat) ->
  match mm_scale_one ls draws pd T i m, univariate_scale ls draws m pd T i with
  | Ok m', Ok g' => mm_kernel m' = mm_kernel m /\ make (mm_gp m') = g' /\
                    gp_var_scale (mm_gp m') = gp_var_scale (mm_gp m)
  | Err e, Err e' => e = e'
  | _, _ => False
  end.
Proof.
  intros Hls HT Hi Hd. unfold mm_scale_one, univariate_scale, optimize_scale.
  destruct (mm_kernel m pd) as [Ki|]; cbn [bind]; [|reflexivity]. rewrite HT.
  destruct (column_reshape T i b n r HT Hi) as (c & c' & -> & Er & Hc). cbn [bind].
  rewrite Er; cbn [bind].
  rewrite (scale_opt_cong ls (mm_gp m) draws Ki c' (response_column T i) b n [1%nat]); auto.
  2:{ apply (reshape_shape _ _ _ Er). }
  destruct (scale_opt _ _ _ _ _) as [[v|]|]; cbn [bind]; auto.
  unfold scale_set. destruct (check_positive_float v); cbn [bind]; auto.
Qed.

Lemma scale_loop_ok ls draws pd T b n r ms : exact_solver ls -> shape T = [b; n; r] ->
  (forall i k a, In a (draws i k) -> (a < n)%nat) ->
  forall i0 ms' o, (i0 + List.length ms <= r)%nat ->
  mm_scale_loop ls draws pd T i0 ms = (ms', o) ->
  List.length ms' = List.length ms /\
  (o = Ok tt -> forall i m, nth_error ms i = Some m ->
     exists m' g', nth_error ms' i = Some m' /\ univariate_scale ls (draws (i0 + i)%nat) m pd T (i0 + i) = Ok g' /\
       mm_kernel m' = mm_kernel m /\ make (mm_gp m') = g' /\ gp_var_scale (mm_gp m') = gp_var_scale (mm_gp m)) /\
  (forall e, o = Err e -> exists i m, nth_error ms i = Some m /\
      univariate_scale ls (draws (i0 + i)%nat) m pd T (i0 + i) = Err e /\
      (forall j, (i <= j)%nat -> nth_error ms' j = nth_error ms j) /\
      (forall j m0, (j < i)%nat -> nth_error ms j = Some m0 -> exists m' g', nth_error ms' j = Some m' /\
         univariate_scale ls (draws (i0 + j)%nat) m0 pd T (i0 + j) = Ok g' /\ make (mm_gp m') = g')).
Proof.
  intros Hls HT Hd. induction ms as [|m ms IH]; intros i0 ms' o Hl E.
  - cbn in E. inversion E; subst. split; [auto|]. split; [intros _ [|]; discriminate|intros; discriminate].
  - cbn [mm_scale_loop] in E. cbn [List.length] in Hl.
    pose proof (scale_one_eq ls (draws i0) pd T i0 m b n r Hls HT ltac:(lia) (Hd i0)) as H1.
    destruct (mm_scale_one ls (draws i0) pd T i0 m) as [m1|e1] eqn:E1.
    + destruct (univariate_scale ls (draws i0) m pd T i0) as [g1|] eqn:U1; [|contradiction].
      destruct (mm_scale_loop ls draws pd T (S i0) ms) as [rs o'] eqn:EL. inversion E; subst; clear E.
      destruct (IH (S i0) rs o ltac:(lia) EL) as (HL & HO & HE). split; [cbn [List.length]; auto|]. split.
      * intros Ho [|i] m0 Hm0.
        { cbn in Hm0. injection Hm0 as <-. exists m1, g1. rewrite Nat.add_0_r. cbn [nth_error].
          destruct H1 as (? & ? & ?). auto 10. }
        { cbn in Hm0. rewrite Nat.add_succ_r. exact (HO Ho i m0 Hm0). }
      * intros e He. destruct (HE e He) as (i & m0 & Hi & Hu & Hr & Hp).
        exists (S i), m0. rewrite Nat.add_succ_r. split; [auto|]. split; [exact Hu|]. split.
        { intros [|j] Hj; [lia|]. cbn [nth_error]. apply Hr; lia. }
        { intros [|j] mj Hj Hmj.
          - cbn in Hmj. injection Hmj as <-. exists m1, g1. rewrite Nat.add_0_r. cbn [nth_error].
            destruct H1 as (? & ? & ?). auto.
          - rewrite Nat.add_succ_r. apply (Hp j mj); auto; lia. }
    + destruct (univariate_scale ls (draws i0) m pd T i0) as [g1|e1'] eqn:U1; [contradiction|]. subst e1'.
      inversion E; subst; clear E. split; [auto|]. split; [discriminate|].
      intros e He. injection He as <-. exists O, m. rewrite Nat.add_0_r. split; [auto|]. split; [auto|].
      split; [auto|]. intros j; lia.
Qed.

Lemma mm_scale_ok ls draws ms pd T b n r ms' : exact_solver ls -> shape T = [b; n; r] ->
  (forall i k a, In a (draws i k) -> (a < n)%nat) ->
  mm_optimize_scale ls draws ms pd T = (ms', Ok tt) ->
  r = List.length ms /\ List.length ms' = List.length ms /\
  forall i m, nth_error ms i = Some m ->
    exists m' g', nth_error ms' i = Some m' /\ univariate_scale ls (draws i) m pd T i = Ok g' /\
      mm_kernel m' = mm_kernel m /\ make (mm_gp m') = g' /\ gp_var_scale (mm_gp m') = gp_var_scale (mm_gp m).
Proof.
  intros Hls HT Hd. unfold mm_optimize_scale. rewrite HT.
  destruct (Nat.eqb_spec r (List.length ms)) as [Hr|Hr]; [|discriminate]. intros E.
  destruct (scale_loop_ok ls draws pd T b n r ms Hls HT Hd O ms' (Ok tt) ltac:(lia) E) as (HL & HO & _).
  split; [auto|]. split; [auto|]. intros i m Hm. exact (HO eq_refl i m Hm).
Qed.

Lemma mm_scale_err ls draws ms pd T b n r ms' e : exact_solver ls -> shape T = [b; n; r] ->
  (forall i k a, In a (draws i k) -> (a < n)%nat) -> r = List.length ms ->
  mm_optimize_scale ls draws ms pd T = (ms', Err e) ->
  exists i m, nth_error ms i = Some m /\ univariate_scale ls (draws i) m pd T i = Err e /\
    (forall j, (i <= j)%nat -> nth_error ms' j = nth_error ms j) /\
    (forall j m0, (j < i)%nat -> nth_error ms j = Some m0 -> exists m' g', nth_error ms' j = Some m' /\
         univariate_scale ls (draws j) m0 pd T j = Ok g' /\ make (mm_gp m') = g').
Proof.
  intros Hls HT Hd Hr. unfold mm_optimize_scale. rewrite HT, Hr, Nat.eqb_refl. intros E.
  destruct (scale_loop_ok ls draws pd T b n r ms Hls HT Hd O ms' (Err e) ltac:(lia) E) as (_ & _ & HE).
  exact (HE e eq_refl).
Qed.

Lemma gp_variance_make ls g K C v : gp_posterior_variance ls g K C = Ok v ->
  exists u, gp_opt_variance ls g K C None = Ok u /\ v = ndmap (Rmult (gp_var_scale g)) u /\
    gp_posterior_variance ls (make g) K C = Ok (ndmap (Rmult (gp_scale g)) u).
Proof.
  unfold gp_posterior_variance. change (gp_opt_variance ls (make g) K C None) with (gp_opt_variance ls g K C None).
  destruct (gp_opt_variance ls g K C None) as [u|]; cbn [bind]; [|discriminate].
  intros E; injection E as <-. exists u. auto.
Qed.

(** Models built with unit scale, then optimized: the double scaling cancels the stale one. *)
Lemma mm_var_after_optimize ls draws ms pd cd T b n r sh ms' out : exact_solver ls ->
  shape T = [b; n; r] -> shape cd = b :: sh ->
  (forall i k a, In a (draws i k) -> (a < n)%nat) ->
  (forall m, In m ms -> gp_var_scale (mm_gp m) = 1) ->
  mm_optimize_scale ls draws ms pd T = (ms', Ok tt) ->
  mm_posterior_variance ls ms' pd cd = Ok out ->
  forall i m, nth_error ms i = Some m -> exists g' v, univariate_scale ls (draws i) m pd T i = Ok g' /\
    univariate_variance ls g' m pd cd = Ok v /\ forall x, (x < b)%nat -> at_ out [x; i] = entry v x.
Proof.
  intros Hls HT HC Hd H1 Eo Ev i m Hm.
  destruct (mm_scale_ok ls draws ms pd T b n r ms' Hls HT Hd Eo) as (_ & _ & H).
  destruct (H i m Hm) as (m' & g' & Hm' & Eu & Hk & Hg & Hs).
  destruct (mm_var_ok ls ms' pd cd b sh out HC Ev) as (_ & Hv).
  destruct (Hv i m' Hm') as (v & Euv & _ & Hval).
  exists g'. revert Euv. unfold univariate_variance. rewrite Hk.
  destruct (mm_kernel m pd) as [Ki|]; cbn [bind]; [|discriminate].
  destruct (mm_kernel m cd) as [Kc|]; cbn [bind]; [|discriminate]. intros Euv.
  destruct (gp_variance_make ls _ _ _ _ Euv) as (u & _ & -> & Em). rewrite Hg in Em.
  eexists. split; [auto|]. split; [exact Em|]. intros x Hx. rewrite Hval by auto. rewrite !entry_ndmap.
  rewrite Hs, (H1 m) by (eapply nth_error_In; eauto). ring.
Qed.

(** ** Fast prediction: always zero *)
Lemma mm_fast_coeffs_zero ls ms pd T out : mm_fast_coefficients ls ms pd T = Ok out ->
  shape out = shape T /\ forall idx, at_ out idx = 0.
Proof.
  unfold mm_fast_coefficients. destruct (shape T) as [|b [|n [|r [|]]]]; try discriminate.
  destruct (mm_coeff_loop _ _ _ _ _ _); cbn [bind]; [|discriminate].
  intros E; injection E as <-. split; auto.
Qed.

Lemma mm_fast_mean_zero ms cd coeffs out : mm_fast_mean ms cd coeffs = Ok out ->
  forall idx, at_ out idx = 0.
Proof.
  unfold mm_fast_mean. destruct (mm_kcross_loop _ _ _ _); cbn [bind]; [|discriminate].
  unfold mm_fast_posterior_mean, einsum_ijk_ijk, zeros. cbn [shape at_].
  destruct (shape coeffs) as [|i [|j [|k [|]]]]; try discriminate.
  destruct (edim i i); [|discriminate]. destruct (edim j j) as [dj|]; [|discriminate].
  destruct (edim k k); [|discriminate]. intros E; injection E as <-. intros idx. cbn [at_].
  destruct idx as [|a0 [|c0 [|]]]; auto.
  rewrite (rsum_ext dj _ (fun _ => 0)) by (intros; ring). apply rsum_0.
Qed.

(** More models than coefficient columns: the write into the missing column raises. *)
Lemma mm_kcross_loop_short cd acc b n r ms : forall i, shape acc = [b; n; r] -> (i <= r)%nat -> (r < i + List.length ms)%nat ->
  (forall m, In m ms -> exists K, mm_kernel m cd = Ok K /\ shape K = [b; n]) ->
  mm_kcross_loop cd acc i ms = Err IndexError.
Proof.
  induction ms as [|m ms IH]; intros i SA Hi HL HK; cbn [List.length] in HL; [lia|]. cbn [mm_kcross_loop].
  destruct (HK m (or_introl eq_refl)) as (K & -> & SK). cbn [bind]. unfold assign_last. rewrite SA, SK. cbn [removelast last].
  destruct (Nat.leb_spec r i); [reflexivity|]. rewrite bshape_refl.
  destruct (list_eq_dec Nat.eq_dec [b; n] [b; n]); [|congruence]. cbn [bind].
  apply IH; auto; [lia|]. intros m' Hm'. apply HK. right. exact Hm'.
Qed.
Lemma mm_fast_mean_too_many ms cd coeffs b n r : shape coeffs = [b; n; r] -> (r < List.length ms)%nat ->
  (forall m, In m ms -> exists K, mm_kernel m cd = Ok K /\ shape K = [b; n]) ->
  mm_fast_mean ms cd coeffs = Err IndexError.
Proof.
  intros SC HL HK. unfold mm_fast_mean. rewrite (mm_kcross_loop_short cd _ b n r ms 0); auto; lia.
Qed.
Lemma mm_coeff_loop_short ls pd T acc b n r ms : forall i, shape T = [b; n; r] -> shape acc = [b; n; r] -> (i <= r)%nat -> (r < i + List.length ms)%nat ->
  (forall m i, In m ms -> (i < r)%nat -> exists Kin c y, mm_kernel m pd = Ok Kin /\ column T i = Ok c /\
     (let! pK := perturb (gp_noise (mm_gp m)) Kin None in gp_fast_coefficients ls (mm_gp m) pK c) = Ok y /\ shape y = [b; n]) ->
  (forall m, In m ms -> exists Kin pK, mm_kernel m pd = Ok Kin /\ perturb (gp_noise (mm_gp m)) Kin None = Ok pK) ->
  mm_coeff_loop ls pd T acc i ms = Err IndexError.
Proof.
  induction ms as [|m ms IH]; intros i ST SA Hi HL HK HP; cbn [List.length] in HL; [lia|]. cbn [mm_coeff_loop].
  destruct (HP m (or_introl eq_refl)) as (Kin & pK & EK & EP). rewrite EK. cbn [bind]. rewrite EP. cbn [bind].
  destruct (Nat.le_gt_cases r i) as [Hr|Hr].
  - unfold column. rewrite ST. destruct (Nat.leb_spec r i); [reflexivity|lia].
  - destruct (HK m i (or_introl eq_refl) Hr) as (Kin' & c & y & EK' & EC & EY & SY).
    assert (Kin' = Kin) by congruence. subst Kin'. rewrite EP in EY. cbn [bind] in EY. rewrite EC. cbn [bind]. rewrite EY. cbn [bind].
    unfold assign_last. rewrite SA, SY. cbn [removelast last]. destruct (Nat.leb_spec r i); [lia|]. rewrite bshape_refl.
    destruct (list_eq_dec Nat.eq_dec [b; n] [b; n]); [|congruence]. cbn [bind].
    apply IH; auto; [lia| |]; intros; [apply HK|apply HP]; auto; right; auto.
Qed.
Lemma mm_fast_coeffs_too_many ls ms pd T b n r : shape T = [b; n; r] -> (r < List.length ms)%nat ->
  (forall m i, In m ms -> (i < r)%nat -> exists Kin c y, mm_kernel m pd = Ok Kin /\ column T i = Ok c /\
     (let! pK := perturb (gp_noise (mm_gp m)) Kin None in gp_fast_coefficients ls (mm_gp m) pK c) = Ok y /\ shape y = [b; n]) ->
  (forall m, In m ms -> exists Kin pK, mm_kernel m pd = Ok Kin /\ perturb (gp_noise (mm_gp m)) Kin None = Ok pK) ->
  mm_fast_coefficients ls ms pd T = Err IndexError.
Proof.
  intros ST HL HK HP. unfold mm_fast_coefficients. rewrite ST.
  rewrite (mm_coeff_loop_short ls pd T _ b n r ms 0); auto; lia.
Qed.
