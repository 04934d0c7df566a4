(** Property theorems C01-C09, C11 (construction), C13, C14 (queries). *)
From Coq Require Import Lia Lra.
From Verif Require Import Base HyperModel HyperSpec HyperProofs NamedModel NamedSpec NamedProofs HyperLemmas.
Local Open Scope R_scope.
Local Open Scope string_scope.

(** * C01: construction succeeds exactly on the documented arguments, and the object reports them.
    (Single-process run; the MPI broadcast is C04_mpi_consistent.) *)
Theorem C01_constructor_exact : forall e v b p, root e = None ->
  (param_init e v b = Ok p <->
   exists bo, bounds_mean b bo /\ value_means e bo v (p_val p) /\
     p_fixed p = match bo with None => true | Some _ => false end /\
     p_bounds p = match bo with None => (Fin 0, Fin 0) | Some q => q end).
Proof. exact param_init_ok. Qed.
Print Assumptions C01_constructor_exact.

(** Documented argument types are rejected with ValueError only, except that sampling over an
    infinite range is numpy's OverflowError. *)
Theorem C01_rejections : forall e v b er, documented_val v -> documented_bounds b ->
  param_init e v b = Err er -> er = ValueError \/ (er = OverflowError /\ exists s, v = PStr s).
Proof. exact param_init_err. Qed.
Print Assumptions C01_rejections.

(** Other Python values can raise a different exception. *)
Theorem C01_always_value_error_refuted :
  param_init ex_env PObj (PStr "fixed") = Err TypeError /\
  param_init ex_env (PNum (Fin 1)) PGen = Err TypeError.
Proof. exact (conj none_value_is_type_error generator_bounds_type_error). Qed.
Print Assumptions C01_always_value_error_refuted.

(** Exactly which one: a bound that is a complex number or an integer beyond the floating-point range is converted after the checks, the lower
    bound first; a value of a type without a length is converted directly. *)
Theorem C01_unconvertible_bounds : forall e v x y,
  param_init e v (PList [PComplex; PNum y]) = Err TypeError /\ param_init e v (PList [PNum x; PComplex]) = Err TypeError /\
  param_init e v (PList [PHuge; PComplex]) = Err OverflowError /\ param_init e v (PList [PComplex; PHuge]) = Err TypeError /\
  param_init e v (PArr [PNum x; PHuge]) = Err OverflowError.
Proof. intros. repeat split. Qed.
Print Assumptions C01_unconvertible_bounds.

Theorem C01_unconvertible_value : forall e b bo, bounds_mean b bo ->
  param_init e PComplex b = Err TypeError /\ param_init e PHuge b = Err OverflowError /\ param_init e PObj b = Err TypeError /\
  param_init e PGen b = Err TypeError /\ (forall n, param_init e (PSet n) b = Err ValueError) /\ (forall l, param_init e (PDict l) b = Err ValueError).
Proof.
  intros e b bo B.
  assert (Q : exists q fx, set_bounds b = Ok (q, fx)).
  { destruct B as [|b lo hi P N]; [do 2 eexists; reflexivity|].
    assert (G : num_gtb lo hi = false).
    { destruct (num_gtb lo hi) eqn:G; [|reflexivity]. exfalso. apply N. clear -G.
      destruct lo, hi; cbn in G; try discriminate; try constructor. unfold Rltb in G. destruct (Rlt_dec _ _); [assumption|discriminate]. }
    exists (lo, hi), false. destruct P; cbn; rewrite ?G; reflexivity. }
  destruct Q as (q & fx & Q). unfold param_init. rewrite Q. cbn. repeat split.
Qed.
Print Assumptions C01_unconvertible_value.

Example C01_sat : root ex_env = None /\
  bounds_mean (PList [PNum (Fin 0); PNum (Fin 2)]) (Some (Fin 0, Fin 2)) /\
  value_means ex_env (Some (Fin 0, Fin 2)) (PNum (Fin 1)) (Fin 1).
Proof.
  repeat split.
  - constructor; [constructor|]. intros H; inversion H; lra.
  - constructor. split; intros H; inversion H; lra.
Qed.

(** * C02 *)
Theorem C02_bounds_invariant : forall ops l,
  (l < st_next (run ops empty_store))%nat -> within_bounds (st_cell (run ops empty_store) l).
Proof. exact history_within. Qed.
Print Assumptions C02_bounds_invariant.

Example C02_sat : exists ops l, (l < st_next (run ops empty_store))%nat /\
  List.length ops = 3%nat /\ p_fixed (st_cell (run ops empty_store) l) = false.
Proof.
  exists [ONew ex_env (PNum (Fin 1)) (PList [PNum (Fin 1); PNum (Fin 1)]); ONamed 0; OCopy 0 1], 1%nat.
  destruct (degenerate_accepted ex_env 1) as [p [E [F _]]].
  assert (R : step empty_store (ONew ex_env (PNum (Fin 1)) (PList [PNum (Fin 1); PNum (Fin 1)])) =
              st_new empty_store p) by (cbv [step]; rewrite E; reflexivity).
  unfold run. cbn [fold_left]. rewrite R. clear R E.
  destruct p as [v q f]; simpl in F; subst f. simpl. repeat split. lia.
Qed.

(** * C03: the documented rejection of lower = upper does not happen *)
Theorem C03_equal_bounds_accepted_refuted : forall e x,
  exists p, param_init e (PNum (Fin x)) (PList [PNum (Fin x); PNum (Fin x)]) = Ok p /\
    p_fixed p = false /\ p_bounds p = (Fin x, Fin x).
Proof. exact degenerate_accepted. Qed.
Print Assumptions C03_equal_bounds_accepted_refuted.

Theorem C03_inverted_bounds_rejected_partial : forall e v lo hi, hi < lo ->
  param_init e v (PList [PNum (Fin lo); PNum (Fin hi)]) = Err ValueError.
Proof. exact strictly_wrong_rejected. Qed.
Print Assumptions C03_inverted_bounds_rejected_partial.

(** * C04 *)
Theorem C04_sample_in_bounds : forall e lo hi,
  lo <= hi -> root e = None -> lo <= uniform e lo hi <= hi ->
  exists p, param_init e (PStr "sample") (PList [PNum (Fin lo); PNum (Fin hi)]) = Ok p /\
            exists x, p_val p = Fin x /\ lo <= x <= hi.
Proof. exact sample_in_bounds. Qed.
Print Assumptions C04_sample_in_bounds.

Theorem C04_log_sample_in_bounds : forall e lo hi,
  0 < lo -> lo <= hi -> root e = None -> ln lo <= uniform e (ln lo) (ln hi) <= ln hi ->
  exists p, param_init e (PStr "log_sample") (PList [PNum (Fin lo); PNum (Fin hi)]) = Ok p /\
            exists x, p_val p = Fin x /\ lo <= x <= hi.
Proof. exact log_sample_in_bounds. Qed.
Print Assumptions C04_log_sample_in_bounds.

Theorem C04_mpi_consistent : forall e b s p r,
  root e = Some r -> param_init e (PStr s) b = Ok p -> p_val p = r.
Proof. exact sample_mpi_consistent. Qed.
Print Assumptions C04_mpi_consistent.

Example C04_sat : root ex_env = None /\ 1 <= uniform ex_env 1 2 <= 2 /\
  ln 1 <= uniform ex_env (ln 1) (ln 2) <= ln 2.
Proof. simpl. repeat split; try lra. rewrite ln_1. apply Rlt_le, ln_lt_2 || (left; apply (Rlt_trans _ (/2)); [lra|apply ln_lt_2]). Qed.

(** * C05 *)
Theorem C05_opt_params_are_the_free_ones : forall s m, m_noise m <> NNull ->
  get_opt_params s m = Ok
    (let l := filter (free s) (declared m) in
     (map nm_name l, map (fun n => p_val (st_cell s (nm_loc n))) l,
      map (fun n => p_bounds (st_cell s (nm_loc n))) l)).
Proof. exact get_opt_params_eq. Qed.
Print Assumptions C05_opt_params_are_the_free_ones.

Theorem C05_names_distinct : forall m, built m -> NoDup (map nm_name (declared m)).
Proof. exact built_nodup. Qed.
Print Assumptions C05_names_distinct.

Example C05_sat : built ex_model /\ m_noise ex_model <> NNull /\
  get_opt_params ex_store ex_model =
  Ok (["length_scale1"; "noise"], [Fin 1; Fin 1], [(Fin 0, Fin 2); (Fin 0, Fin 2)]).
Proof. split; [exact ex_built|]. split; [discriminate|exact ex_opt]. Qed.

(** * C06 *)
Theorem C06_fixed_iff_nothing_to_optimize : forall s m, built m -> m_noise m <> NNull ->
  exists b, model_fixed s m = Ok b /\ (b = true <-> get_opt_params s m = Ok ([], [], [])).
Proof. exact model_fixed_iff. Qed.
Print Assumptions C06_fixed_iff_nothing_to_optimize.

Example C06_sat : built ex_model /\ m_noise ex_model <> NNull /\
  model_fixed ex_store ex_model = Ok false /\ model_fixed empty_store ex_model = Ok true.
Proof. split; [exact ex_built|]. split; [discriminate|]. split; reflexivity. Qed.

(** [VectorParameter.fixed] cannot be used for the same question: it answers yes for every vector, also one with a free element. *)
Theorem C06_vector_fixed_refuted : (forall s v, vec_fixed s v = true) /\
  exists s v, (exists n, In n (v_elems v) /\ p_fixed (st_cell s (nm_loc n)) = false) /\ vec_fixed s v = true.
Proof.
  split; [reflexivity|]. exists ex_store, (mkVec "length_scale" (declared ex_model)). split; [|reflexivity].
  eexists. split; [cbn; right; left; reflexivity|reflexivity].
Qed.
Print Assumptions C06_vector_fixed_refuted.

(** * C07 *)
Theorem C07_apply_fn : forall B (n : named) (fn : dict num -> result B) s kw,
  exists kw', named_apply_fn n fn (values s) kw = fn kw' /\
    forall k, dget kw' k =
      if String.eqb k (nm_name n)
      then Some (kw_or kw (nm_name n) (p_val (st_cell s (nm_loc n)))) else dget kw k.
Proof. exact @apply_fn_receives. Qed.
Print Assumptions C07_apply_fn.

Theorem C07_late_binding : forall B (n : named) (fn : dict num -> result B) s ops kw,
  named_apply_fn n fn (values (run ops s)) kw =
  fn (setdefault kw (nm_name n) (p_val (st_cell (run ops s) (nm_loc n)))).
Proof. exact @late_binding. Qed.
Print Assumptions C07_late_binding.

Theorem C07_embedding : forall B D D' (n : named) (fn : D' -> dict num -> result B)
  (deform : D -> dict num -> result D') s dists kw,
  exists params rest,
    named_embed n fn deform (values s) dists kw = bind (deform dists params) (fun d => fn d rest) /\
    (forall k, dget params k =
      if String.eqb k (nm_name n)
      then Some (kw_or kw (nm_name n) (p_val (st_cell s (nm_loc n)))) else None) /\
    (forall k, dget rest k = if String.eqb k (nm_name n) then None else dget kw k).
Proof. exact @embed_receives. Qed.
Print Assumptions C07_embedding.

Theorem C07_vector_embedding : forall B D D' (v : nvec) (fn : D' -> dict num -> result B)
  (deform : D -> dict num -> result D') s dists kw name srcs s0,
  v = snd (vec_init s0 name srcs) ->
  exists params rest,
    vec_embed v fn deform (values s) dists kw = bind (deform dists params) (fun d => fn d rest) /\
    (forall n, In n (v_elems v) -> dget params (nm_name n) =
        Some (kw_or kw (nm_name n) (p_val (st_cell s (nm_loc n))))) /\
    (forall k, dget rest k = if String.prefix name k then None else dget kw k).
Proof. exact @vec_embed_receives. Qed.
Print Assumptions C07_vector_embedding.

Theorem C07_vector_apply_fn : forall B (v : nvec) (fn : dict num -> result B) s kw name srcs s0,
  v = snd (vec_init s0 name srcs) ->
  exists kw', vec_apply_fn v fn (values s) kw = fn kw' /\
    (forall n, In n (v_elems v) -> dget kw' (nm_name n) = Some (kw_or kw (nm_name n) (p_val (st_cell s (nm_loc n))))) /\
    (forall k, String.prefix name k = false -> dget kw' k = dget kw k).
Proof. exact @vec_apply_receives. Qed.
Print Assumptions C07_vector_apply_fn.

Example C07_sat : named_apply_fn (mkNamed "noise" 4) (fun kw => Ok kw) (values ex_store) [("other", Fin 9)]
  = Ok [("other", Fin 9); ("noise", Fin 1)].
Proof. reflexivity. Qed.

(** * C08 (the vector that divides the features; the deformation itself is in KernelProps) *)
Theorem C08_initial_segment_partial : forall V (s0 : store) name srcs (cur : nat -> V) kw m v,
  v = snd (vec_init s0 name srcs) -> dict_ok kw ->
  map fst (filter (fun kv => String.prefix name (fst kv)) kw) =
     map (fun i => name ++ str_nat i) (seq 0 m) -> (m <= List.length srcs)%nat ->
  vec_call v cur kw = map (fun n => kw_or kw (nm_name n) (cur (nm_loc n))) (v_elems v).
Proof. exact @vec_call_built. Qed.
Print Assumptions C08_initial_segment_partial.

Example C08_sat : vec_call ex_vec (values ex_store) [("length_scale0", Fin 5); ("noise", Fin 3)]
  = [Fin 5; Fin 1; Fin 1].
Proof. reflexivity. Qed.

Theorem C08_any_subset_refuted :
  let v := snd (vec_init empty_store "length_scale" [0; 0]%nat) in
  forall a b, let cur := fun l : nat => if Nat.eqb l 0 then a else b in
  forall x : num,
  vec_call v cur [("length_scale1", x)] = [x; a] /\
  map (fun n => kw_or [("length_scale1", x)] (nm_name n) (cur (nm_loc n))) (v_elems v) = [a; x].
Proof. exact vec_call_swapped. Qed.
Print Assumptions C08_any_subset_refuted.

Theorem C08_any_order_refuted :
  let v := snd (vec_init empty_store "length_scale" [0; 0]%nat) in
  forall (cur : nat -> num) x y,
  vec_call v cur [("length_scale1", y); ("length_scale0", x)] = [y; x].
Proof. exact vec_call_reordered. Qed.
Print Assumptions C08_any_order_refuted.

(** * C09 *)
Theorem C09_vector_names_distinct : forall s name srcs,
  NoDup (map nm_name (v_elems (snd (vec_init s name srcs)))).
Proof.
  intros. destruct (vec_init_elems s name srcs) as [_ [-> _]].
  apply vec_names_nodup, seq_NoDup.
Qed.
Print Assumptions C09_vector_names_distinct.

Theorem C09_hierarchical_names_distinct_partial : forall name i j i' j',
  (i < 10)%nat -> (i' < 10)%nat ->
  hier_vec_name name i j = hier_vec_name name i' j' -> i = i' /\ j = j'.
Proof. exact hier_vec_name_inj. Qed.
Print Assumptions C09_hierarchical_names_distinct_partial.

Theorem C09_hierarchical_names_refuted :
  hier_vec_name "length_scale" 1 10 = hier_vec_name "length_scale" 11 0.
Proof. exact hier_vec_collision. Qed.
Print Assumptions C09_hierarchical_names_refuted.

Example C09_sat : map nm_name (v_elems ex_vec) = ["length_scale0"; "length_scale1"; "length_scale2"].
Proof. reflexivity. Qed.

(** * C11: construction check *)
Theorem C11_negative_entries_rejected : forall l r, heteroscedastic_init (TArr l) = r ->
  (r = Ok l /\ (forall x, In x l -> ~ nlt x (Fin 0))) \/
  (r = Err ValueError /\ exists x, In x l /\ nlt x (Fin 0)).
Proof. exact heteroscedastic_init_ok. Qed.
Print Assumptions C11_negative_entries_rejected.

(** * C13 *)
Theorem C13_optimizable_bounds_nonnegative_partial : forall e v b p,
  homoscedastic_init e v b = Ok p -> p_fixed p = false ->
  ~ nlt (fst (p_bounds p)) (Fin 0) /\ ~ nlt (snd (p_bounds p)) (Fin 0) /\
  (fst (p_bounds p) <> NaN -> ~ nlt (p_val p) (Fin (- / 100000))).
Proof. exact homoscedastic_free_nonneg. Qed.
Print Assumptions C13_optimizable_bounds_nonnegative_partial.

Theorem C13_fixed_negative_refuted :
  homoscedastic_init ex_env (PNum (Fin (-1))) (PStr "fixed") =
  Ok (mkParam (Fin (-1)) (Fin 0, Fin 0) true).
Proof. exact negative_noise_fixed. Qed.
Print Assumptions C13_fixed_negative_refuted.

Theorem C13_tolerance_negative_refuted : exists p,
  homoscedastic_init ex_env (PNum (Fin (- / 200000))) (PList [PNum (Fin 0); PNum (Fin 1)]) = Ok p /\
  p_fixed p = false /\ p_val p = Fin (- / 200000) /\ nlt (p_val p) (Fin 0).
Proof. exact negative_noise_free. Qed.
Print Assumptions C13_tolerance_negative_refuted.

Example C13_sat : exists p,
  homoscedastic_init ex_env (PNum (Fin (- / 200000))) (PList [PNum (Fin 0); PNum (Fin 1)]) = Ok p /\
  p_fixed p = false.
Proof. destruct negative_noise_free as [p [H1 [H2 _]]]. exists p; auto. Qed.

(** * C14: a NullNoise model cannot be queried *)
Theorem C14_queries_refuted : forall s k,
  get_opt_params s (mkModel k NNull) = Err NotImplementedError /\
  ((forall n, In n (kernel_params k) -> p_fixed (st_cell s (nm_loc n)) = true) ->
   model_fixed s (mkModel k NNull) = Err AttributeError).
Proof. exact (fun s k => conj (proj1 (null_noise_queries s k)) (null_noise_fixed_model s k)). Qed.
Print Assumptions C14_queries_refuted.
