(** Lemmas behind C35, C36 and C58. *)
From Coq Require Import Lia Lra.
From Verif Require Import Base BaseFacts NdModel RSum LinAlgModel GPModel NoiseModel MuyGPSModel HyperModel
  HyperSpec HyperProofs NamedModel NamedSpec NamedProofs TensorModel KernelModel LossModel
  ChassisModel ChassisSpec ChassisProofs.
Local Open Scope string_scope.

(** ** C35: values *)
Lemma clamped_nan lo hi x : clamped lo hi NaN x -> x = NaN.
Proof.
  intros [[H _]|[[H _]|[_ [_ H]]]]; [inversion H|inversion H|exact H].
Qed.

Lemma clamped_fin a b r x : (a <= b)%R -> clamped (Fin a) (Fin b) (Fin r) x ->
  x = Fin (Rmax a (Rmin b r)).
Proof.
  intros Hab [[H ->]|[[H [_ ->]]|[H1 [H2 ->]]]].
  - inversion H; subst. f_equal. rewrite Rmin_right by lra. rewrite Rmax_left; lra.
  - inversion H; subst. f_equal. rewrite Rmin_left by lra. rewrite Rmax_right; lra.
  - assert (a <= r)%R. { destruct (Rle_lt_dec a r); auto. exfalso. apply H1. constructor. lra. }
    assert (r <= b)%R. { destruct (Rle_lt_dec r b); auto. exfalso. apply H2. constructor. lra. }
    f_equal. rewrite Rmin_right by lra. rewrite Rmax_right; lra.
Qed.

Lemma forall2_in {A} (P : A -> A -> Prop) l l' : Forall2 P l l' -> forall x, In x l ->
  exists y, In y l' /\ P x y.
Proof.
  induction 1 as [|a b l l' H _ IH]; intros x Hx; [destruct Hx|]. destruct Hx as [->|Hx].
  - exists b. split; [left; reflexivity|assumption].
  - destruct (IH x Hx) as [y [Hy Py]]. exists y. split; [right; assumption|assumption].
Qed.

Lemma optimized_value s F opt s' F' n a b r :
  optimized_model s F opt s' F' -> In n (declared (f_attr F)) ->
  p_fixed (st_cell s (nm_loc n)) = false -> p_bounds (st_cell s (nm_loc n)) = (Fin a, Fin b) ->
  (a <= b)%R -> dget opt (nm_name n) = Some (Fin r) ->
  exists n', In n' (declared (f_attr F')) /\ nm_name n' = nm_name n /\
    p_val (st_cell s' (nm_loc n')) = Fin (Rmax a (Rmin b r)).
Proof.
  intros [_ [H _]] Hin Hf Hb Hab Hd. destruct (forall2_in _ _ _ H n Hin) as [n' [Hn' [E [_ [_ [_ Hv]]]]]].
  exists n'. split; [assumption|]. split; [assumption|]. rewrite Hf in Hv.
  destruct Hv as [v [Hv [Hc _]]]. rewrite Hd in Hv. injection Hv as <-. rewrite Hb in Hc.
  cbn [fst snd] in Hc. eapply clamped_fin; eauto.
Qed.

Lemma optimized_nan s F opt s' F' n :
  optimized_model s F opt s' F' -> In n (declared (f_attr F)) ->
  p_fixed (st_cell s (nm_loc n)) = false -> dget opt (nm_name n) = Some NaN ->
  exists n', In n' (declared (f_attr F')) /\ nm_name n' = nm_name n /\
    p_val (st_cell s' (nm_loc n')) = NaN.
Proof.
  intros [_ [H _]] Hin Hf Hd. destruct (forall2_in _ _ _ H n Hin) as [n' [Hn' [E [_ [_ [_ Hv]]]]]].
  exists n'. split; [assumption|]. split; [assumption|]. rewrite Hf in Hv.
  destruct Hv as [v [Hv [Hc _]]]. rewrite Hd in Hv. injection Hv as <-. eapply clamped_nan; eauto.
Qed.

(** ** C36 *)
Lemma mem_key_in k l : mem_key k l = true <-> In k l.
Proof.
  unfold mem_key. rewrite existsb_exists. split.
  - intros [x [H E]]. apply String.eqb_eq in E. subst. assumption.
  - intros H. exists k. split; [assumption|apply String.eqb_refl].
Qed.

(** The keyword arguments as the bayes_opt documentation splits them. *)
Lemma plan_routing s F verbose kw plan : bayes_plan s F verbose kw = Ok plan ->
  (forall k, dget (br_ctor plan) k =
     if mem_key k optimizer_keys then
       match dget kw k with
       | Some v => Some v
       | None => if String.eqb k "verbose" then Some (KInt (if verbose then 2 else 0)%Z)
                 else if String.eqb k "allow_duplicate_points" then Some (KBool true) else None
       end
     else None) /\
  (forall k, dget (br_maximize plan) k =
     if mem_key k maximize_keys then
       match dget kw k with
       | Some v => Some v
       | None => if String.eqb k "init_points" then Some (KInt 5)
                 else if String.eqb k "n_iter" then Some (KInt 20) else None
       end
     else None) /\
  exists names x0 bounds, get_opt_params s (f_attr F) = Ok (names, x0, bounds) /\
    br_pbounds plan = combine names bounds /\ br_probe plan = combine names x0.
Proof.
  unfold bayes_plan. destruct (get_opt_params s (f_attr F)) as [[[names x0] bounds]|]; cbn [bind]; [|discriminate].
  unfold bayes_get_kwargs. cbv beta iota zeta. intros H.
  assert (HP := f_equal (fun r => match r with Ok p => p | Err _ => plan end) H). cbv beta iota in HP.
  rewrite <- HP. clear H HP. cbn [br_ctor br_maximize br_pbounds br_probe].
  split; [|split].
  - intros k. rewrite !setdefault_get.
    rewrite (dget_filter (fun x => mem_key x optimizer_keys) kw k).
    destruct (mem_key k optimizer_keys) eqn:Em.
    + destruct (dget kw k); [reflexivity|].
      rewrite (String.eqb_sym "verbose" k). destruct (String.eqb k "verbose"); [reflexivity|].
      rewrite (String.eqb_sym "allow_duplicate_points" k). reflexivity.
    + destruct (String.eqb "verbose" k) eqn:E1.
      { apply String.eqb_eq in E1. subst. discriminate. }
      destruct (String.eqb "allow_duplicate_points" k) eqn:E2; [|reflexivity].
      apply String.eqb_eq in E2. subst. discriminate.
  - intros k. rewrite !setdefault_get.
    rewrite (dget_filter (fun x => mem_key x maximize_keys) kw k).
    destruct (mem_key k maximize_keys) eqn:Em.
    + destruct (dget kw k); [reflexivity|].
      rewrite (String.eqb_sym "init_points" k). destruct (String.eqb k "init_points"); [reflexivity|].
      rewrite (String.eqb_sym "n_iter" k). reflexivity.
    + destruct (String.eqb "init_points" k) eqn:E1.
      { apply String.eqb_eq in E1. subst. discriminate. }
      destruct (String.eqb "n_iter" k) eqn:E2; [|reflexivity].
      apply String.eqb_eq in E2. subst. discriminate.
  - exists names, x0, bounds. auto.
Qed.

(** A recognized keyword reaches one of the two calls, and not the other. *)
Lemma plan_once s F verbose kw plan k v : bayes_plan s F verbose kw = Ok plan ->
  dget kw k = Some v ->
  (In k ["random_state"; "verbose"; "bounds_transformer"; "allow_duplicate_points"] ->
     dget (br_ctor plan) k = Some v /\ dget (br_maximize plan) k = None) /\
  (In k ["init_points"; "n_iter"; "acq"; "kappa"; "kappa_decay"; "kappa_decay_delay"; "xi"] ->
     dget (br_maximize plan) k = Some v /\ dget (br_ctor plan) k = None) /\
  (~ In k ["random_state"; "verbose"; "bounds_transformer"; "allow_duplicate_points"] ->
   ~ In k ["init_points"; "n_iter"; "acq"; "kappa"; "kappa_decay"; "kappa_decay_delay"; "xi"] ->
     dget (br_ctor plan) k = None /\ dget (br_maximize plan) k = None).
Proof.
  intros H Hk. destruct (plan_routing _ _ _ _ _ H) as [H1 [H2 _]]. rewrite H1, H2, Hk.
  assert (D : forall k, mem_key k optimizer_keys = true -> mem_key k maximize_keys = false).
  { intros x Hx. apply mem_key_in in Hx. cbn in Hx. repeat destruct Hx as [<-|Hx]; try reflexivity. destruct Hx. }
  split; [|split].
  - intros Hin. apply mem_key_in in Hin. fold optimizer_keys in Hin. rewrite Hin, (D k Hin). auto.
  - intros Hin. apply mem_key_in in Hin. fold maximize_keys in Hin. rewrite Hin.
    destruct (mem_key k optimizer_keys) eqn:E; [|auto]. rewrite (D k E) in Hin. discriminate.
  - intros N1 N2. fold optimizer_keys in N1. fold maximize_keys in N2.
    destruct (mem_key k optimizer_keys) eqn:E1; [apply mem_key_in in E1; contradiction|].
    destruct (mem_key k maximize_keys) eqn:E2; [apply mem_key_in in E2; contradiction|]. auto.
Qed.

(** Documented defaults. *)
Lemma plan_defaults s F verbose kw plan : bayes_plan s F verbose kw = Ok plan ->
  (dget kw "verbose" = None -> dget (br_ctor plan) "verbose" = Some (KInt (if verbose then 2 else 0)%Z)) /\
  (dget kw "allow_duplicate_points" = None ->
     dget (br_ctor plan) "allow_duplicate_points" = Some (KBool true)) /\
  (dget kw "init_points" = None -> dget (br_maximize plan) "init_points" = Some (KInt 5)) /\
  (dget kw "n_iter" = None -> dget (br_maximize plan) "n_iter" = Some (KInt 20)) /\
  (forall k, dget kw k = None ->
     ~ In k ["verbose"; "allow_duplicate_points"] -> dget (br_ctor plan) k = None) /\
  (forall k, dget kw k = None -> ~ In k ["init_points"; "n_iter"] -> dget (br_maximize plan) k = None).
Proof.
  intros H. destruct (plan_routing _ _ _ _ _ H) as [H1 [H2 _]].
  repeat split; intros.
  - rewrite H1, H0. reflexivity.
  - rewrite H1, H0. reflexivity.
  - rewrite H2, H0. reflexivity.
  - rewrite H2, H0. reflexivity.
  - rewrite H1, H0. destruct (mem_key k optimizer_keys); [|reflexivity].
    destruct (String.eqb k "verbose") eqn:E; [apply String.eqb_eq in E; subst; contradiction H3; left; reflexivity|].
    destruct (String.eqb k "allow_duplicate_points") eqn:E'; [|reflexivity].
    apply String.eqb_eq in E'; subst; contradiction H3; right; left; reflexivity.
  - rewrite H2, H0. destruct (mem_key k maximize_keys); [|reflexivity].
    destruct (String.eqb k "init_points") eqn:E; [apply String.eqb_eq in E; subst; contradiction H3; left; reflexivity|].
    destruct (String.eqb k "n_iter") eqn:E'; [|reflexivity].
    apply String.eqb_eq in E'; subst; contradiction H3; right; left; reflexivity.
Qed.

(** ** C58 *)

(** The probes an epoch makes: everything found so far, or the starting point in epoch 0. *)
Definition mb_probes (probe_previous : bool) (x0 : dict num) (bs : nat -> dict num) (e : nat)
  : list (nat * dict num) :=
  if probe_previous then map (fun p => (e, p)) (x0 :: map bs (seq 0 e))
  else match e with O => [(O, x0)] | _ => [] end.

Lemma mb_loop_spec aniso pp E best bs x0 : (forall e, (e < E)%nat -> best e = Ok (bs e)) ->
  (aniso = false \/ (E <= 1)%nat) ->
  forall todo e st, (e + todo = E)%nat -> mb_probed st = x0 :: map bs (seq 0 e) ->
  exists st', mb_loop aniso pp E best todo e st = Ok st' /\
    mb_probed st' = x0 :: map bs (seq 0 E) /\
    mb_calls st' = (mb_calls st ++ flat_map (mb_probes pp x0 bs) (seq e todo))%list /\
    mb_total st' = (mb_total st + Z.of_nat (List.length (flat_map (mb_probes pp x0 bs) (seq e todo))))%Z.
Proof.
  intros Hb Ha todo. induction todo as [|k IH]; intros e st He Hp.
  - exists st. cbn [mb_loop seq flat_map]. rewrite app_nil_r. assert (He' : e = E) by lia. rewrite <- He'.
    split; [reflexivity|]. split; [exact Hp|]. split; [reflexivity|]. cbn. lia.
  - cbn [mb_loop]. unfold mb_epoch. rewrite (Hb e) by lia. cbn [bind].
    assert (Hg : aniso && (e <? E - 1)%nat = false).
    { destruct Ha as [->|Ha]; [reflexivity|]. destruct aniso; [|reflexivity]. apply Nat.ltb_ge. lia. }
    rewrite Hg. cbn [bind].
    match goal with |- context [mb_loop aniso pp E best k (S e) ?s1] =>
      destruct (IH (S e) s1 ltac:(lia)) as [st' [E1 [E2 [E3 E4]]]] end.
    + cbn [mb_probed]. rewrite Hp, seq_S, map_app. reflexivity.
    + exists st'. split; [exact E1|]. split; [exact E2|]. rewrite E3, E4. cbn [mb_calls mb_total seq flat_map].
      assert (Q : map (fun p => (e, p)) (if pp then mb_probed st else if Nat.eqb e 0 then firstn 1 (mb_probed st) else []) =
                  mb_probes pp x0 bs e).
      { unfold mb_probes. destruct pp; [rewrite Hp; reflexivity|].
        destruct e; cbn [Nat.eqb]; [rewrite Hp; reflexivity|reflexivity]. }
      rewrite Q, <- app_assoc. split; [reflexivity|].
      rewrite app_length.
      assert (L : List.length (if pp then mb_probed st else if Nat.eqb e 0 then firstn 1 (mb_probed st) else []) =
                  List.length (mb_probes pp x0 bs e)) by (rewrite <- Q, map_length; reflexivity).
      rewrite L, Nat2Z.inj_add. lia.
Qed.

Lemma mb_probes_count pp x0 bs E : (0 < E)%nat ->
  Z.of_nat (List.length (flat_map (mb_probes pp x0 bs) (seq 0 E))) =
  (if pp then Z.of_nat E * (Z.of_nat E + 1) / 2 else 1)%Z.
Proof.
  intros HE. destruct pp.
  - clear HE. assert (G : (2 * Z.of_nat (List.length (flat_map (mb_probes true x0 bs) (seq 0 E))) =
      Z.of_nat E * (Z.of_nat E + 1))%Z).
    { induction E as [|E IH]; [reflexivity|].
      rewrite seq_S, flat_map_app, app_length, Nat2Z.inj_add, Z.mul_add_distr_l, IH.
      cbn [flat_map]. rewrite app_nil_r. unfold mb_probes. rewrite map_length. cbn [List.length].
      rewrite map_length, seq_length. nia. }
    rewrite <- G. rewrite Z.mul_comm, Z.div_mul; lia.
  - destruct E as [|E]; [lia|]. cbn [seq flat_map]. rewrite app_length.
    assert (Z0 : forall n k, List.length (flat_map (mb_probes false x0 bs) (seq (S n) k)) = O).
    { intros n k. revert n. induction k as [|k IH]; intros n; [reflexivity|]. cbn [seq flat_map].
      rewrite app_length, IH. reflexivity. }
    rewrite Z0. reflexivity.
Qed.

Lemma mini_batch_spec s F aniso E pp verbose kw best bs ip ni names x0 bounds :
  model_ok s F -> bounds_ok s F -> get_opt_params s (f_attr F) = Ok (names, x0, bounds) ->
  (0 < E)%nat -> (aniso = false \/ E = 1%nat) ->
  dget kw "init_points" = Some (KInt ip) -> dget kw "n_iter" = Some (KInt ni) ->
  (forall e, (e < E)%nat -> best e = Ok (bs e)) ->
  (forall k, In k names -> exists v, dget (bs (E - 1)%nat) k = Some v) ->
  exists s' F' calls,
    mini_batch s F aniso E pp verbose kw best =
      Ok (s', F', (Z.of_nat E * ip + (if pp then Z.of_nat E * (Z.of_nat E + 1) / 2 else 1))%Z,
          (Z.of_nat E * ni)%Z, calls) /\
    calls = flat_map (mb_probes pp (combine names x0) bs) (seq 0 E) /\
    optimized_model s F (bs (E - 1)%nat) s' F'.
Proof.
  intros Hm Hb Eo HE Ha Hip Hni Hbest Hn. unfold mini_batch. rewrite Eo. cbn [bind].
  unfold bayes_get_kwargs.
  rewrite (dget_filter (fun x => mem_key x maximize_keys) kw "init_points").
  rewrite (dget_filter (fun x => mem_key x maximize_keys) kw "n_iter").
  change (mem_key "init_points" maximize_keys) with true. change (mem_key "n_iter" maximize_keys) with true.
  cbv iota. rewrite Hip, Hni. cbn [bind as_int].
  destruct (mb_loop_spec aniso pp E best bs (combine names x0) Hbest ltac:(destruct Ha; [left|right]; auto; lia)
    E 0%nat (mkMb [combine names x0] [] (Z.of_nat E * ip)) ltac:(lia) eq_refl) as [st [E1 [E2 [E3 E4]]]].
  rewrite E1. cbn [bind]. destruct E as [|E']; [lia|].
  rewrite (Hbest (S E' - 1)%nat) by lia. cbn [bind].
  destruct (new_muygps_spec s F names x0 bounds (bs (S E' - 1)%nat) Hm Hb Eo Hn) as [s' [F' [EN ON]]].
  rewrite EN. cbn [bind fst snd]. exists s', F', (mb_calls st).
  rewrite E4, mb_probes_count by lia. split; [reflexivity|]. split; [rewrite E3; reflexivity|exact ON].
Qed.

Lemma mini_batch_needs_keywords s F aniso E pp verbose kw best names x0 bounds :
  get_opt_params s (f_attr F) = Ok (names, x0, bounds) ->
  dget kw "init_points" = None ->
  mini_batch s F aniso E pp verbose kw best = Err KeyError.
Proof.
  intros Eo Hip. unfold mini_batch. rewrite Eo. cbn [bind]. unfold bayes_get_kwargs.
  rewrite (dget_filter (fun x => mem_key x maximize_keys) kw "init_points").
  change (mem_key "init_points" maximize_keys) with true. cbv iota. rewrite Hip. reflexivity.
Qed.

Lemma mini_batch_needs_n_iter s F aniso E pp verbose kw best names x0 bounds ip :
  get_opt_params s (f_attr F) = Ok (names, x0, bounds) ->
  dget kw "init_points" = Some (KInt ip) -> dget kw "n_iter" = None ->
  mini_batch s F aniso E pp verbose kw best = Err KeyError.
Proof.
  intros Eo Hip Hni. unfold mini_batch. rewrite Eo. cbn [bind]. unfold bayes_get_kwargs.
  rewrite (dget_filter (fun x => mem_key x maximize_keys) kw "init_points").
  rewrite (dget_filter (fun x => mem_key x maximize_keys) kw "n_iter").
  change (mem_key "init_points" maximize_keys) with true. change (mem_key "n_iter" maximize_keys) with true.
  cbv iota. rewrite Hip, Hni. reflexivity.
Qed.

Lemma mini_batch_zero s F aniso pp verbose kw best :
  forall r, mini_batch s F aniso 0 pp verbose kw best <> Ok r.
Proof.
  intros r. unfold mini_batch. destruct (get_opt_params s (f_attr F)) as [[[names x0] bounds]|]; cbn [bind]; [|discriminate].
  destruct (bayes_get_kwargs verbose kw) as [ct mx].
  destruct (match dget mx "init_points" with Some v => as_int v | None => Err KeyError end); cbn [bind]; [|discriminate].
  destruct (match dget mx "n_iter" with Some v => as_int v | None => Err KeyError end); cbn [bind]; [|discriminate].
  cbn [mb_loop bind]. discriminate.
Qed.

Lemma mini_batch_anisotropy s F E pp verbose kw best : (2 <= E)%nat ->
  forall r, mini_batch s F true E pp verbose kw best <> Ok r.
Proof.
  intros HE r. unfold mini_batch. destruct (get_opt_params s (f_attr F)) as [[[names x0] bounds]|]; cbn [bind]; [|discriminate].
  destruct (bayes_get_kwargs verbose kw) as [ct mx].
  destruct (match dget mx "init_points" with Some v => as_int v | None => Err KeyError end); cbn [bind]; [|discriminate].
  destruct (match dget mx "n_iter" with Some v => as_int v | None => Err KeyError end); cbn [bind]; [|discriminate].
  destruct E as [|E]; [lia|]. cbn [mb_loop]. unfold mb_epoch.
  destruct (best 0%nat); cbn [bind]; [|discriminate].
  assert (L : (0 <? S E - 1)%nat = true) by (apply Nat.ltb_lt; lia). rewrite L. cbn [andb bind]. discriminate.
Qed.
