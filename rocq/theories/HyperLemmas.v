(** Witnesses and statement-level lemmas for HyperProps. *)
From Coq Require Import Lia Lra.
From Verif Require Import Base BaseFacts HyperModel HyperSpec HyperProofs NamedModel NamedSpec NamedProofs.
Local Open Scope R_scope.
Local Open Scope string_scope.

Definition ex_env : env := mkEnv (fun lo hi => lo) None.

Lemma none_value_is_type_error :
  param_init ex_env PObj (PStr "fixed") = Err TypeError.
Proof. reflexivity. Qed.

Lemma generator_bounds_type_error :
  param_init ex_env (PNum (Fin 1)) PGen = Err TypeError.
Proof. reflexivity. Qed.

Lemma ltb_ff a b : a <= b -> Rltb b a = false.
Proof. intros; apply Rltb_false; auto. Qed.
Lemma ltb_tt a b : b < a -> Rltb b a = true.
Proof. intros; apply Rltb_true; auto. Qed.

Lemma degenerate_accepted : forall e x,
  exists p, param_init e (PNum (Fin x)) (PList [PNum (Fin x); PNum (Fin x)]) = Ok p /\
    p_fixed p = false /\ p_bounds p = (Fin x, Fin x).
Proof.
  intros e x. unfold param_init; simpl. unfold num_gtb; simpl. rewrite ltb_ff by lra. simpl.
  unfold check_range, num_gtb, tol; simpl.
  rewrite ltb_ff by lra. rewrite ltb_ff by lra. simpl. eauto.
Qed.

Lemma strictly_wrong_rejected : forall e v lo hi, hi < lo ->
  param_init e v (PList [PNum (Fin lo); PNum (Fin hi)]) = Err ValueError.
Proof.
  intros e v lo hi H. unfold param_init; simpl. unfold num_gtb; simpl.
  rewrite ltb_tt by lra. reflexivity.
Qed.

(** Histories and late binding *)
Definition values (s : store) : nat -> num := fun l => p_val (st_cell s l).

Lemma late_binding {B} (n : named) (fn : dict num -> result B) s ops kw :
  named_apply_fn n fn (values (run ops s)) kw =
  fn (setdefault kw (nm_name n) (p_val (st_cell (run ops s) (nm_loc n)))).
Proof. reflexivity. Qed.

Lemma apply_fn_receives {B} (n : named) (fn : dict num -> result B) s kw :
  exists kw', named_apply_fn n fn (values s) kw = fn kw' /\
    forall k, dget kw' k =
      if String.eqb k (nm_name n)
      then Some (kw_or kw (nm_name n) (p_val (st_cell s (nm_loc n)))) else dget kw k.
Proof.
  eexists; split; [reflexivity|]. intros k. apply (apply_fn_lookup n (values s)).
Qed.

Lemma embed_receives {B D D'} (n : named) (fn : D' -> dict num -> result B)
  (deform : D -> dict num -> result D') s dists kw :
  exists params rest,
    named_embed n fn deform (values s) dists kw = bind (deform dists params) (fun d => fn d rest) /\
    (forall k, dget params k =
      if String.eqb k (nm_name n)
      then Some (kw_or kw (nm_name n) (p_val (st_cell s (nm_loc n)))) else None) /\
    (forall k, dget rest k = if String.eqb k (nm_name n) then None else dget kw k).
Proof.
  eexists; eexists; split; [reflexivity|]. split.
  - intros k. apply (named_filter_params n (values s)).
  - intros k. apply (named_filter_rest n (values s)).
Qed.

Lemma vec_embed_receives {B D D'} (v : nvec) (fn : D' -> dict num -> result B)
  (deform : D -> dict num -> result D') s dists kw name srcs s0 :
  v = snd (vec_init s0 name srcs) ->
  exists params rest,
    vec_embed v fn deform (values s) dists kw = bind (deform dists params) (fun d => fn d rest) /\
    (forall n, In n (v_elems v) -> dget params (nm_name n) =
        Some (kw_or kw (nm_name n) (p_val (st_cell s (nm_loc n))))) /\
    (forall k, dget rest k = if String.prefix name k then None else dget kw k).
Proof.
  intros Hv. destruct (vec_init_elems s0 name srcs) as [E1 [E2 E3]]. rewrite <- Hv in *.
  eexists; eexists; split; [reflexivity|]. split.
  - intros n Hn. apply (vec_filter_content v (values s)); auto.
    + rewrite E2. apply vec_names_nodup, seq_NoDup.
    + intros x Hx. apply (in_map nm_name) in Hx. rewrite E2 in Hx. apply in_map_iff in Hx.
      destruct Hx as [i [<- _]]. rewrite E1. apply prefix_append.
  - intros k. rewrite <- E1. apply (vec_filter_rest v (values s)).
Qed.

Lemma vec_apply_receives {B} (v : nvec) (fn : dict num -> result B) s kw name srcs s0 :
  v = snd (vec_init s0 name srcs) ->
  exists kw', vec_apply_fn v fn (values s) kw = fn kw' /\
    (forall n, In n (v_elems v) -> dget kw' (nm_name n) = Some (kw_or kw (nm_name n) (p_val (st_cell s (nm_loc n))))) /\
    (forall k, String.prefix name k = false -> dget kw' k = dget kw k).
Proof.
  intros Hv. destruct (vec_init_elems s0 name srcs) as [E1 [E2 E3]]. rewrite <- Hv in *.
  assert (PX : forall x, In x (v_elems v) -> String.prefix (v_name v) (nm_name x) = true).
  { intros x Hx. apply (in_map nm_name) in Hx. rewrite E2 in Hx. apply in_map_iff in Hx. destruct Hx as [i [<- _]]. rewrite E1. apply prefix_append. }
  eexists; split; [reflexivity|]. split.
  - intros n Hn. rewrite dget_app. pose proof (vec_filter_content v (values s) kw n) as H. unfold vec_filter in H. cbn [fst] in H. rewrite H; auto.
    rewrite E2. apply vec_names_nodup, seq_NoDup.
  - intros k Hk. rewrite dget_app.
    assert (NI : dget (vec_defaults v (values s) (filter (fun kv => String.prefix (v_name v) (fst kv)) kw)) k = None).
    { unfold vec_defaults. assert (G : forall d, dget d k = None -> dget (fold_left (fun d n => setdefault d (nm_name n) (values s (nm_loc n))) (v_elems v) d) k = None).
      { clear E2 E3. revert PX. induction (v_elems v) as [|x l IH]; intros PX d H; [exact H|]. cbn [fold_left]. apply IH; [intros y Hy; apply PX; right; auto|].
        rewrite setdefault_get, H. destruct (String.eqb_spec (nm_name x) k) as [E|]; [|reflexivity].
        pose proof (PX x (or_introl eq_refl)) as X. rewrite E1, E, Hk in X. discriminate. }
      apply G. apply dget_none. intros C. apply in_map_iff in C as (y & <- & Hy). apply filter_In in Hy as [_ Hy]. rewrite E1, Hk in Hy. discriminate. }
    rewrite NI. pose proof (vec_filter_rest v (values s) kw k) as H. unfold vec_filter in H; cbn [snd] in H. rewrite H, E1, Hk. reflexivity.
Qed.

Lemma vec_call_built {V} (s0 : store) name srcs (cur : nat -> V) kw m v :
  v = snd (vec_init s0 name srcs) -> dict_ok kw ->
  map fst (filter (fun kv => String.prefix name (fst kv)) kw) =
     map (fun i => name ++ str_nat i) (seq 0 m) -> (m <= List.length srcs)%nat ->
  vec_call v cur kw = map (fun n => kw_or kw (nm_name n) (cur (nm_loc n))) (v_elems v).
Proof.
  intros Hv OK E Hm. destruct (vec_init_elems s0 name srcs) as [E1 [E2 E3]]. rewrite <- Hv in *.
  apply (vec_call_in_order v cur kw m); auto.
  - rewrite E2. apply vec_names_nodup, seq_NoDup.
  - rewrite E1, E, <- firstn_map, E2, firstn_map. f_equal.
    clear -Hm. revert m Hm. generalize 0%nat. induction (List.length srcs); intros k [|m] Hm; simpl; auto; try lia.
    f_equal. apply IHn; lia.
  - intros x Hx. apply (in_map nm_name) in Hx. rewrite E2 in Hx. apply in_map_iff in Hx.
    destruct Hx as [i [<- _]]. rewrite E1. apply prefix_append.
Qed.

(** Two dimensions, only the second length scale passed by keyword. *)
Lemma vec_call_swapped :
  let v := snd (vec_init empty_store "length_scale" [0; 0]%nat) in
  forall a b,
  let cur := fun l : nat => if Nat.eqb l 0 then a else b in
  forall x : num,
  vec_call v cur [("length_scale1", x)] = [x; a] /\
  map (fun n => kw_or [("length_scale1", x)] (nm_name n) (cur (nm_loc n))) (v_elems v) = [a; x].
Proof. intros; split; reflexivity. Qed.

(** Both passed, in the other order. *)
Lemma vec_call_reordered :
  let v := snd (vec_init empty_store "length_scale" [0; 0]%nat) in
  forall (cur : nat -> num) x y,
  vec_call v cur [("length_scale1", y); ("length_scale0", x)] = [y; x].
Proof. intros; reflexivity. Qed.

Lemma hier_vec_collision :
  hier_vec_name "length_scale" 1 10 = hier_vec_name "length_scale" 11 0.
Proof. reflexivity. Qed.

(** Example model: Matern with an anisotropic length scale of three elements, one of them free. *)
Definition ex_par (fixed : bool) : param :=
  mkParam (Fin 1) (if fixed then (Fin 0, Fin 0) else (Fin 0, Fin 2)) fixed.
Definition ex_store : store :=
  mkStore 5 (fun l => match l with 0 | 2 | 3 => ex_par true | _ => ex_par false end%nat).
Definition ex_vec : nvec := snd (vec_init empty_store "length_scale" [0; 0; 0]%nat).
Definition ex_model : model :=
  mkModel (KMatern (LSVector ex_vec) (mkNamed "smoothness" 3) MGen) (NHomo (mkNamed "noise" 4)).

Lemma ex_built : built ex_model.
Proof.
  repeat split; simpl; auto. apply bl_vector; reflexivity.
Qed.

Lemma ex_opt : get_opt_params ex_store ex_model =
  Ok (["length_scale1"; "noise"], [Fin 1; Fin 1], [(Fin 0, Fin 2); (Fin 0, Fin 2)]).
Proof. reflexivity. Qed.

Lemma negative_noise_fixed :
  homoscedastic_init ex_env (PNum (Fin (-1))) (PStr "fixed") =
  Ok (mkParam (Fin (-1)) (Fin 0, Fin 0) true).
Proof. reflexivity. Qed.

Lemma negative_noise_free : exists p,
  homoscedastic_init ex_env (PNum (Fin (- / 200000))) (PList [PNum (Fin 0); PNum (Fin 1)]) = Ok p /\
  p_fixed p = false /\ p_val p = Fin (- / 200000) /\ nlt (p_val p) (Fin 0).
Proof.
  unfold homoscedastic_init, param_init; simpl. unfold num_gtb; simpl. rewrite ltb_ff by lra. simpl.
  unfold check_range, num_gtb, tol; simpl.
  rewrite ltb_ff by lra. rewrite ltb_ff by lra. simpl.
  rewrite ltb_ff by lra. rewrite ltb_ff by lra. simpl.
  eexists; split; [reflexivity|]. simpl. repeat split. constructor. lra.
Qed.

Lemma null_noise_queries s k :
  get_opt_params s (mkModel k NNull) = Err NotImplementedError /\
  (model_fixed s (mkModel k NNull) = Err AttributeError \/
   model_fixed s (mkModel k NNull) = Ok false).
Proof.
  split; [reflexivity|]. unfold model_fixed; simpl.
  destruct (forallb _ _); auto.
Qed.

Lemma null_noise_fixed_model s k :
  (forall n, In n (kernel_params k) -> p_fixed (st_cell s (nm_loc n)) = true) ->
  model_fixed s (mkModel k NNull) = Err AttributeError.
Proof.
  intros H. unfold model_fixed; simpl.
  assert (F : forallb (fun kv : string * named => p_fixed (st_cell s (nm_loc (snd kv)))) (kernel_dict k) = true).
  { unfold kernel_dict. 
    assert (G : forall l d, (forall kv, In kv d -> p_fixed (st_cell s (nm_loc (snd kv))) = true) ->
       (forall n, In n l -> p_fixed (st_cell s (nm_loc n)) = true) ->
       forall kv, In kv (fold_left (fun d n => dset d (nm_name n) n) l d) -> p_fixed (st_cell s (nm_loc (snd kv))) = true).
    { induction l as [|n l IH]; simpl; auto. intros d Hd Hl. apply IH; auto.
      intros kv. clear -Hd Hl. induction d as [|[k v] d IHd]; simpl.
      - intros [<-|[]]. simpl. auto.
      - destruct (String.eqb k (nm_name n)); simpl.
        + intros [<-|H]; simpl; auto. apply Hd; simpl; auto.
        + intros [<-|H]; [apply Hd; simpl; auto|]. apply IHd; auto. intros kv' H'; apply Hd; simpl; auto. }
    apply forallb_forall. intros kv. apply (G (kernel_params k) []); simpl; tauto. }
  rewrite F. reflexivity.
Qed.
