(** Proofs about configuration and backend dispatch. *)
From Coq Require Import Lia.
From Verif Require Import Base ConfigModel ConfigSpec.
Local Open Scope string_scope.
Local Open Scope list_scope.

Lemma dget_dset {V} (d : dict V) k v k' : dget (dset d k v) k' = if String.eqb k k' then Some v else dget d k'.
Proof.
  induction d as [|[a w] d IH]; cbn.
  - destruct (String.eqb k k'); reflexivity.
  - destruct (String.eqb_spec a k) as [->|N]; cbn.
    + destruct (String.eqb k k'); reflexivity.
    + rewrite IH. destruct (String.eqb_spec a k') as [->|]; auto.
      destruct (String.eqb_spec k k'); congruence.
Qed.

Lemma mem_in s l : mem s l = true <-> List.In s l.
Proof.
  unfold mem. rewrite existsb_exists. split.
  - intros (x & Hx & E). apply String.eqb_eq in E. subst. auto.
  - intros H. exists s. split; auto. apply String.eqb_refl.
Qed.

Lemma mem_backends b : mem b backends = true <-> is_backend b.
Proof. rewrite mem_in. unfold is_backend, backends. cbn. intuition congruence. Qed.
Lemma mem_ftypes b : mem b ftypes = true <-> is_ftype b.
Proof. rewrite mem_in. unfold is_ftype, ftypes. cbn. intuition congruence. Qed.

(** ** Import *)
Lemma bool_env_ok env var : (forall v, dget env var = Some v -> boolean_word v) -> exists b, bool_env env var = Ok b.
Proof.
  intros H. unfold bool_env. destruct (dget env var) as [v|]; [|eauto].
  specialize (H v eq_refl). unfold boolean_word in H.
  destruct (mem (lower v) ["y"; "yes"; "t"; "true"; "on"; "1"]) eqn:E; [eauto|].
  destruct (mem (lower v) ["n"; "no"; "f"; "false"; "off"; "0"]) eqn:E2; [eauto|].
  exfalso. assert (N1 : ~ List.In (lower v) ["y"; "yes"; "t"; "true"; "on"; "1"]) by (rewrite <- mem_in; congruence).
  assert (N2 : ~ List.In (lower v) ["n"; "no"; "f"; "false"; "off"; "0"]) by (rewrite <- mem_in; congruence).
  cbn in *. intuition.
Qed.
Lemma bool_env_bad env var v : dget env var = Some v -> ~ boolean_word v -> bool_env env var = Err ValueError.
Proof.
  intros H N. unfold bool_env. rewrite H. unfold boolean_word in N.
  destruct (mem (lower v) ["y"; "yes"; "t"; "true"; "on"; "1"]) eqn:E.
  { exfalso. apply N. apply mem_in in E. cbn in *. intuition. }
  destruct (mem (lower v) ["n"; "no"; "f"; "false"; "off"; "0"]) eqn:E2; auto.
  exfalso. apply N. apply mem_in in E2. cbn in *. intuition.
Qed.
Lemma bool_env_total env var : (exists b, bool_env env var = Ok b) \/ bool_env env var = Err ValueError.
Proof. unfold bool_env. destruct (dget env var); eauto. destruct (mem _ _); eauto. destruct (mem _ _); eauto. Qed.
Lemma bool_env_inv env var b : bool_env env var = Ok b -> forall v, dget env var = Some v -> boolean_word v.
Proof.
  unfold bool_env. intros H v Hv. rewrite Hv in H. unfold boolean_word.
  destruct (mem (lower v) ["y"; "yes"; "t"; "true"; "on"; "1"]) eqn:E.
  - apply mem_in in E. cbn in *. intuition.
  - destruct (mem (lower v) ["n"; "no"; "f"; "false"; "off"; "0"]) eqn:E2; [|discriminate]. apply mem_in in E2. cbn in *. intuition.
Qed.

Ltac env1 v := let H := fresh "B" in let b := fresh "b" in
  destruct (bool_env_total _ v) as [[b H]|H].

(** What a successful import leaves behind. *)
Definition good_import (env : dict string) (installed : string -> bool) (c : cfg) : Prop :=
  dget (c_state c) "muygpys_backend" = Some (CStr (getenv env "MUYGPYS_BACKEND" "numpy")) /\
  dget (c_state c) "muygpys_ftype" = Some (CStr (getenv env "MUYGPYS_FTYPE" "64")) /\
  dget (c_state c) "muygpys_jax_enabled" = Some (CBool (installed "jax")) /\
  dget (c_state c) "muygpys_hnswlib_enabled" = Some (CBool (installed "hnswlib")) /\
  dget (c_state c) "muygpys_mpi_enabled" = Some (CBool (installed "mpi4py")) /\
  dget (c_state c) "muygpys_torch_enabled" = Some (CBool (installed "torch")) /\
  c_values c = c_state c /\ c_tls c = [] /\ c_loaded c = [].

Lemma import_char env installed acc :
  let b := getenv env "MUYGPYS_BACKEND" "numpy" in
  let f := getenv env "MUYGPYS_FTYPE" "64" in
  (valid_environment env /\ is_backend b /\ dependency_present installed b /\ is_ftype f /\
   exists c, import_muygpys env installed acc = Ok c /\ good_import env installed c) \/
  (~ (valid_environment env /\ is_backend b /\ dependency_present installed b /\ is_ftype f) /\
   import_muygpys env installed acc = Err ValueError).
Proof.
  intros b f.
  assert (BAD : forall var, List.In var boolean_vars -> bool_env env var = Err ValueError ->
     ~ (valid_environment env /\ is_backend b /\ dependency_present installed b /\ is_ftype f)).
  { intros var Hv E (V & _). destruct (bool_env_ok env var) as [x Ex]; [intros v Hd; apply (V var v Hv Hd)|congruence]. }
  unfold import_muygpys, define_bool.
  destruct (bool_env_total env "MUYGPYS_JAX_ENABLED") as [[b1 B1]|B1]; [|right; split; [apply (BAD "MUYGPYS_JAX_ENABLED"); cbn; auto|rewrite B1; reflexivity]].
  destruct (bool_env_total env "MUYGPYS_GPU_ENABLED") as [[b2 B2]|B2]; [|right; split; [apply (BAD "MUYGPYS_GPU_ENABLED"); cbn; auto|rewrite B1, B2; reflexivity]].
  destruct (bool_env_total env "MUYGPYS_HNSWLIB_ENABLED") as [[b3 B3]|B3]; [|right; split; [apply (BAD "MUYGPYS_HNSWLIB_ENABLED"); cbn; auto|rewrite B1, B2, B3; destruct (installed "jax"), acc; reflexivity]].
  destruct (bool_env_total env "MUYGPYS_MPI_ENABLED") as [[b4 B4]|B4]; [|right; split; [apply (BAD "MUYGPYS_MPI_ENABLED"); cbn; auto|rewrite B1, B2, B3, B4; destruct (installed "jax"), acc; reflexivity]].
  destruct (bool_env_total env "MUYGPYS_TORCH_ENABLED") as [[b5 B5]|B5]; [|right; split; [apply (BAD "MUYGPYS_TORCH_ENABLED"); cbn; auto 10|rewrite B1, B2, B3, B4, B5; destruct (installed "jax"), acc; reflexivity]].
  assert (V : valid_environment env).
  { intros var v Hin Hd. cbn in Hin.
    destruct Hin as [<-|[<-|[<-|[<-|[<-|[]]]]]]; eauto using bool_env_inv. }
  rewrite B1, B2, B3, B4, B5. unfold define_enum. fold (getenv env "MUYGPYS_BACKEND" "numpy"). fold b.
  fold (getenv env "MUYGPYS_FTYPE" "64"). fold f.
  destruct (mem b backends) eqn:MB.
  2:{ right. split; [intros (_ & H & _); apply mem_backends in H; congruence|].
      destruct (installed "jax"), acc; reflexivity. }
  apply mem_backends in MB.
  assert (D : forall c, dget (c_state c) "muygpys_backend" = Some (CStr b) ->
     dget (c_state c) "muygpys_jax_enabled" = Some (CBool (installed "jax")) ->
     dget (c_state c) "muygpys_torch_enabled" = Some (CBool (installed "torch")) ->
     dget (c_state c) "muygpys_mpi_enabled" = Some (CBool (installed "mpi4py")) ->
     (check_backend c = Ok tt /\ dependency_present installed b) \/ (check_backend c = Err ValueError /\ ~ dependency_present installed b)).
  { intros c H1 H2 H3 H4. unfold check_backend. rewrite H1. unfold flag_of, dependency_present.
    destruct MB as [E|[E|[E|E]]]; rewrite E; cbn [String.eqb Ascii.eqb Bool.eqb].
    - left. split; auto. repeat split; discriminate.
    - rewrite H2. destruct (installed "jax"); [left|right]; split; auto; [repeat split; try discriminate; auto|intros (H & _); specialize (H eq_refl); discriminate].
    - rewrite H3. destruct (installed "torch"); [left|right]; split; auto; [repeat split; try discriminate; auto|intros (_ & H & _); specialize (H eq_refl); discriminate].
    - rewrite H4. destruct (installed "mpi4py"); [left|right]; split; auto; [repeat split; try discriminate; auto|intros (_ & _ & H); specialize (H eq_refl); discriminate]. }
  assert (FT : forall (c : cfg), (mem f ftypes = true /\ is_ftype f) \/ (mem f ftypes = false /\ ~ is_ftype f)).
  { intros _. destruct (mem f ftypes) eqn:E; [left; split; auto; apply mem_ftypes; auto|right; split; auto; rewrite <- mem_ftypes; congruence]. }
  clear BAD B1 B2 B3 B4 B5.
  destruct (installed "jax") eqn:IJ.
  - destruct acc; cbn -[check_backend mem];
    (match goal with |- context [check_backend ?c] => destruct (D c) as [[-> DP]|[-> DP]]; auto; set (C := c) end;
     [|right; split; [tauto|reflexivity]]; cbn -[mem];
     destruct (FT C) as [[-> F]|[-> F]]; [|right; split; [tauto|reflexivity]]; left;
     split; auto; split; auto; split; auto; split; auto; eexists; split; [reflexivity|];
     unfold good_import; rewrite IJ; cbn; repeat split; reflexivity).
  - cbn -[check_backend mem];
    (match goal with |- context [check_backend ?c] => destruct (D c) as [[-> DP]|[-> DP]]; auto; set (C := c) end;
     [|right; split; [tauto|reflexivity]]; cbn -[mem];
     destruct (FT C) as [[-> F]|[-> F]]; [|right; split; [tauto|reflexivity]]; left;
     split; auto; split; auto; split; auto; split; auto; eexists; split; [reflexivity|];
     unfold good_import; rewrite IJ; cbn; repeat split; reflexivity).
Qed.

(** ** Histories *)
Section H.
Variable importable : string -> string -> bool.

Lemma uop_ind2 (P : uop -> Prop) :
  (forall n v, P (UUpdate n v)) -> (forall p f, P (UImport p f)) ->
  (forall n v body, Forall P body -> P (UWith n v body)) ->
  (forall body, Forall P body -> P (UTry body)) -> forall o, P o.
Proof.
  intros H1 H2 H3 H4. fix IH 1. intros [n v|p f|n v body|body]; [apply H1|apply H2| |].
  - apply H3. induction body as [|o l IHl]; constructor; [apply IH|apply IHl].
  - apply H4. induction body as [|o l IHl]; constructor; [apply IH|apply IHl].
Qed.

Lemma uexec_with c n v body : uexec importable c (UWith n v body) =
  if validate n v then
    let (c', e) := urun importable (with_enter c n v) body in (with_exit (dget (c_tls c) n) c' n, e)
  else (c, Some ValueError).
Proof.
  reflexivity.
Qed.
Lemma uexec_try c body : uexec importable c (UTry body) = (fst (urun importable c body), None).
Proof. reflexivity. Qed.

Section inv.
  Variable I : cfg -> Prop.
  Variables upd wth : string -> Prop.
  Hypothesis Hu : forall c n v c', I c -> upd n -> c_update c n v = Ok c' -> I c'.
  Hypothesis Hi : forall c p fs l, I c -> dget (c_loaded c) p = None -> collect importable c p fs = Ok l ->
     I (mkCfg (c_values c) (c_state c) (c_tls c) (dset (c_loaded c) p l)).
  Hypothesis He : forall c n v, I c -> wth n -> I (with_enter c n v).
  Hypothesis Hx : forall c n prev, I c -> wth n -> I (with_exit prev c n).

  Lemma fold_and l : fold_right and True (map (mentions_only upd wth) l) -> Forall (mentions_only upd wth) l.
  Proof. induction l; cbn; intros; constructor; intuition. Qed.

  Lemma urun_inv_of l : Forall (fun o => forall c, mentions_only upd wth o -> I c -> I (fst (uexec importable c o))) l ->
    Forall (mentions_only upd wth) l -> forall c, I c -> I (fst (urun importable c l)).
  Proof.
    induction l as [|o l IH]; intros HF HM c Hc; cbn [urun]; auto.
    inversion HF; inversion HM; subst. specialize (H1 c H5 Hc).
    destruct (uexec importable c o) as [c' [e|]]; cbn in *; auto.
  Qed.

  Lemma uexec_inv o : forall c, mentions_only upd wth o -> I c -> I (fst (uexec importable c o)).
  Proof.
    induction o using uop_ind2; intros c Hm Hc.
    - cbn. destruct (c_update c n v) eqn:E; cbn; auto. eapply Hu; eauto.
    - cbn. destruct (dget (c_loaded c) p) eqn:E; cbn; auto. destruct (collect importable c p f) eqn:E2; cbn; auto. eapply Hi; eauto.
    - rewrite uexec_with. destruct Hm as [Hn Hm]. apply fold_and in Hm. destruct (validate n v); cbn; auto.
      pose proof (urun_inv_of body H Hm (with_enter c n v) (He c n v Hc Hn)) as Q.
      destruct (urun importable (with_enter c n v) body) as [c' e]. cbn in *. apply Hx; auto.
    - rewrite uexec_try. cbn in Hm. apply fold_and in Hm. cbn. apply urun_inv_of; auto.
  Qed.

  Lemma urun_inv l : program_only upd wth l -> forall c, I c -> I (fst (urun importable c l)).
  Proof.
    intros Hp. apply urun_inv_of; apply Forall_forall; [intros; apply uexec_inv; auto|auto].
  Qed.
End inv.

Lemma any_program l : program_only (fun _ => True) (fun _ => True) l.
Proof.
  intros o _. induction o using uop_ind2; cbn; auto.
  - split; auto. induction H; cbn; auto.
  - induction H; cbn; auto.
Qed.

Lemma collect_inv c p fs l : collect importable c p fs = Ok l ->
  exists b, dget (c_state c) "muygpys_backend" = Some (CStr b) /\ is_backend b /\ importable p b = true /\ from_backend p b l.
Proof.
  unfold collect. destruct (dget (c_state c) "muygpys_backend") as [[b| |]|]; try discriminate.
  destruct (mem b backends) eqn:M; [|discriminate]. destruct (importable p b) eqn:IM; [|discriminate].
  intros [= <-]. exists b. split; auto. split; [apply mem_backends; auto|]. split; auto. exists fs. reflexivity.
Qed.

(** Every imported package takes all its functions from one backend. *)
Lemma history_one_backend l c c' e : c_loaded c = [] -> urun importable c l = (c', e) ->
  forall p fns, dget (c_loaded c') p = Some fns -> exists b, is_backend b /\ importable p b = true /\ from_backend p b fns.
Proof.
  intros H0 HR.
  pose proof (urun_inv (fun c => forall p fns, dget (c_loaded c) p = Some fns -> exists b, is_backend b /\ importable p b = true /\ from_backend p b fns)
    (fun _ => True) (fun _ => True)) as Q.
  change c' with (fst (c', e)). rewrite <- HR. apply Q; auto.
  - intros c0 n v c1 H _ E. unfold c_update in E. destruct (dget (c_values c0) n); [|discriminate]. injection E as <-. exact H.
  - intros c0 p fs l0 H N E p' fns. cbn [c_loaded]. rewrite dget_dset. destruct (String.eqb_spec p p') as [<-|]; [|apply H].
    intros [= <-]. destruct (collect_inv _ _ _ _ E) as (b & _ & Hb & Hi & Hf). eauto.
  - intros c0 n [p|] H _; exact H.
  - apply any_program.
  - rewrite H0. discriminate.
Qed.

(** Imports are never redone. *)
Lemma history_stable l c c' e p fns : dget (c_loaded c) p = Some fns -> urun importable c l = (c', e) -> dget (c_loaded c') p = Some fns.
Proof.
  intros H0 HR. change c' with (fst (c', e)). rewrite <- HR.
  apply (urun_inv (fun c => dget (c_loaded c) p = Some fns) (fun _ => True) (fun _ => True)); auto.
  - intros c0 n v c1 H _ E. unfold c_update in E. destruct (dget (c_values c0) n); [|discriminate]. injection E as <-. exact H.
  - intros c0 p' fs l0 H N E. cbn [c_loaded]. rewrite dget_dset. destruct (String.eqb_spec p' p) as [->|]; auto. congruence.
  - intros c0 n [q|] H _; exact H.
  - apply any_program.
Qed.

(** As long as the backend option is not touched, one backend serves every package. *)
Lemma history_same_backend l c c' e b : c_loaded c = [] -> dget (c_state c) "muygpys_backend" = Some (CStr b) ->
  program_only (fun n => n <> "muygpys_backend") (fun n => n <> "muygpys_backend") l -> urun importable c l = (c', e) ->
  forall p fns, dget (c_loaded c') p = Some fns -> is_backend b /\ from_backend p b fns.
Proof.
  intros H0 Hb Hp HR.
  pose proof (urun_inv (fun c => dget (c_state c) "muygpys_backend" = Some (CStr b) /\
     forall p fns, dget (c_loaded c) p = Some fns -> is_backend b /\ from_backend p b fns)
    (fun n => n <> "muygpys_backend") (fun n => n <> "muygpys_backend")) as Q.
  change c' with (fst (c', e)). rewrite <- HR. apply Q; auto.
  - intros c0 n v c1 [H1 H2] N E. unfold c_update in E. destruct (dget (c_values c0) n); [|discriminate]. injection E as <-.
    cbn [c_state c_loaded]. split; auto. rewrite dget_dset. destruct (String.eqb_spec n "muygpys_backend"); congruence.
  - intros c0 p fs l0 [H1 H2] N E. cbn [c_state c_loaded]. split; auto.
    intros p' fns. rewrite dget_dset. destruct (String.eqb_spec p p') as [<-|]; [|apply H2].
    intros [= <-]. destruct (collect_inv _ _ _ _ E) as (b' & E' & Hb' & Hi & Hf).
    rewrite H1 in E'. injection E' as <-. auto.
  - intros c0 n v [H1 H2] N. cbn [c_state c_loaded with_enter]. split; auto. rewrite dget_dset. destruct (String.eqb_spec n "muygpys_backend"); congruence.
  - intros c0 n pv [H1 H2] N. destruct pv; cbn [c_state c_loaded with_exit]; (split; auto; rewrite dget_dset; destruct (String.eqb_spec n "muygpys_backend"); congruence).
  - split; auto. rewrite H0. discriminate.
Qed.

(** Without context managers the state the library consults is the configured value. *)
Lemma history_consistent l c c' e : c_values c = c_state c -> c_tls c = [] ->
  program_only (fun _ => True) (fun _ => False) l -> urun importable c l = (c', e) ->
  forall n, read_option c' n = dget (c_state c') n.
Proof.
  intros H1 H2 Hp HR.
  pose proof (urun_inv (fun c => c_values c = c_state c /\ c_tls c = []) (fun _ => True) (fun _ => False)) as Q.
  assert (G : c_values c' = c_state c' /\ c_tls c' = []).
  { change c' with (fst (c', e)). rewrite <- HR. apply Q; auto.
    - intros c0 n v c1 [A B] _ E. unfold c_update in E. destruct (dget (c_values c0) n); [|discriminate]. injection E as <-.
      cbn. split; auto. rewrite A. reflexivity.
    - contradiction.
    - contradiction. }
  intros n. unfold read_option. destruct G as [G1 G2]. rewrite G1, G2. reflexivity.
Qed.
End H.

(** ** Calls through the dtype wrapper *)
Lemma bind_pos_spec {V} sig (args : list V) d rest : bind_pos sig args = Some (d, rest) ->
  exists used, sig = used ++ rest /\ map fst d = used /\ map snd d = args.
Proof.
  revert sig d rest. induction args as [|a args IH]; intros sig d rest H; cbn [bind_pos] in H.
  - destruct sig; inversion H; subst; exists []; auto.
  - destruct sig as [|n sig]; [discriminate|]. cbn [bind_pos] in H.
    destruct (bind_pos sig args) as [[d0 rest0]|] eqn:E; [|inversion H]. inversion H; subst.
    destruct (IH _ _ _ E) as (used & -> & H1 & H2). exists (n :: used). cbn. rewrite H1, H2. auto.
Qed.

Lemma forallb_app_true {A} (f : A -> bool) l x : forallb f (l ++ [x]) = forallb f l && f x.
Proof. rewrite forallb_app. cbn. rewrite andb_true_r. reflexivity. Qed.

(** Keyword dtype: passed through untouched. *)
Lemma fix_type_explicit {V} (dtype d : V) (k : call V) : dget (k_kwargs k) "dtype" = Some d -> fix_type dtype k = k.
Proof. intros H. destruct k as [a kw]. unfold fix_type, setdefault. cbn in *. rewrite H. reflexivity. Qed.

Lemma dget_app_l {V} (d1 d2 : dict V) k v : dget d1 k = Some v -> dget (d1 ++ d2) k = Some v.
Proof. induction d1 as [|[a w] d1 IH]; cbn; [discriminate|]. destruct (String.eqb a k); auto. Qed.
Lemma dget_app_r {V} (d1 d2 : dict V) k : dget d1 k = None -> dget (d1 ++ d2) k = dget d2 k.
Proof. induction d1 as [|[a w] d1 IH]; cbn; auto. destruct (String.eqb a k); auto. discriminate. Qed.
Lemma dget_none {V} (d : dict V) k : ~ List.In k (map fst d) -> dget d k = None.
Proof.
  induction d as [|[a w] d IH]; cbn; auto. intros H. destruct (String.eqb_spec a k); [subst; exfalso; auto|apply IH; auto].
Qed.

(** No dtype given: the default is bound and every other argument is as in the unwrapped call. *)
Lemma fix_type_default {V} sig (dtype : V) (k : call V) d : NoDup sig -> bind_call sig k = Ok d ->
  dget d "dtype" = None -> List.In "dtype" sig ->
  bind_call sig (fix_type dtype k) = Ok (d ++ [("dtype", dtype)]) /\
  dget (d ++ [("dtype", dtype)]) "dtype" = Some dtype /\
  forall n, n <> "dtype" -> dget (d ++ [("dtype", dtype)]) n = dget d n.
Proof.
  intros ND H Hn Hs. unfold bind_call in *. destruct k as [args kw]. cbn [fix_type k_args k_kwargs] in *.
  destruct (bind_pos sig args) as [[d0 rest]|] eqn:E; [|discriminate].
  destruct (forallb (fun kv => mem (fst kv) rest) kw) eqn:F; [|discriminate]. injection H as <-.
  assert (N1 : dget d0 "dtype" = None).
  { destruct (dget d0 "dtype") eqn:Q; auto. rewrite (dget_app_l _ _ _ _ Q) in Hn. discriminate. }
  assert (N2 : dget kw "dtype" = None) by (rewrite dget_app_r in Hn; auto).
  unfold setdefault. rewrite N2. rewrite forallb_app_true, F. cbn [fst andb].
  destruct (bind_pos_spec _ _ _ _ E) as (used & -> & HU & HA).
  assert (M : mem "dtype" rest = true).
  { apply mem_in. apply in_app_or in Hs as [Hs|Hs]; auto. exfalso.
    rewrite <- HU in Hs. apply in_map_iff in Hs as ([x v] & Ex & Hx). cbn in Ex. subst x.
    clear -N1 Hx. induction d0 as [|[a w] d0 IH]; cbn in *; auto.
    destruct (String.eqb_spec a "dtype"); [discriminate|]. destruct Hx as [Hx|Hx]; [congruence|auto]. }
  rewrite M. rewrite app_assoc. split; auto. split.
  - rewrite dget_app_r; auto.
  - intros n Hne. destruct (dget (d0 ++ kw) n) eqn:Q; [apply dget_app_l; auto|].
    rewrite dget_app_r by auto. cbn [dget]. destruct (String.eqb_spec "dtype" n); congruence.
Qed.

(** Positional dtype: the wrapper's keyword clashes with it. *)
Lemma fix_type_positional {V} sig (dtype : V) (k : call V) d0 rest : NoDup sig -> bind_pos sig (k_args k) = Some (d0, rest) ->
  List.In "dtype" (map fst d0) -> dget (k_kwargs k) "dtype" = None -> bind_call sig (fix_type dtype k) = Err TypeError.
Proof.
  intros ND E Hin Hk. unfold bind_call, fix_type. cbn [k_args k_kwargs]. rewrite E. unfold setdefault. rewrite Hk.
  rewrite forallb_app_true. cbn [fst].
  destruct (bind_pos_spec _ _ _ _ E) as (used & -> & HU & _).
  assert (M : mem "dtype" rest = false).
  { destruct (mem "dtype" rest) eqn:Q; auto. apply mem_in in Q. exfalso. rewrite HU in Hin.
    clear -ND Hin Q. induction used as [|a used IH]; cbn in *; auto. inversion ND; subst.
    destruct Hin as [E0|Hin]; auto. subst a. apply H1. apply in_or_app; auto. }
  rewrite M, andb_false_r. reflexivity.
Qed.

(** A function without a dtype parameter: every call raises. *)
Lemma fix_type_unsupported {V} sig (dtype : V) (k : call V) : ~ List.In "dtype" sig -> bind_call sig (fix_type dtype k) = Err TypeError.
Proof.
  intros Hs. unfold bind_call, fix_type. cbn [k_args k_kwargs].
  destruct (bind_pos sig (k_args k)) as [[d0 rest]|] eqn:E; auto.
  destruct (bind_pos_spec _ _ _ _ E) as (used & -> & HU & _).
  assert (M : mem "dtype" rest = false).
  { destruct (mem "dtype" rest) eqn:Q; auto. apply mem_in in Q. exfalso. apply Hs. apply in_or_app; auto. }
  assert (F : forall kw : dict V, dget kw "dtype" <> None -> forallb (fun kv => mem (fst kv) rest) kw = false).
  { induction kw as [|[a w] kw IH]; cbn; [congruence|]. destruct (String.eqb_spec a "dtype") as [->|]; [rewrite M; auto|].
    intros H. rewrite IH by auto. apply andb_false_r. }
  rewrite F; auto. unfold setdefault. destruct (dget (k_kwargs k) "dtype") eqn:Q; [congruence|].
  rewrite dget_app_r by auto. cbn. congruence.
Qed.

(** ** The GPU flag, context validation, positional arguments *)
Lemma bool_env_yes env var b : bool_env env var = Ok b -> (b = true <-> env_says_yes env var).
Proof.
  unfold bool_env, env_says_yes. destruct (dget env var) as [v|].
  - destruct (mem (lower v) ["y"; "yes"; "t"; "true"; "on"; "1"]) eqn:E.
    + intros H. injection H as <-. split; auto. intros _. exists v. split; auto. apply mem_in, E.
    + destruct (mem (lower v) ["n"; "no"; "f"; "false"; "off"; "0"]); [|discriminate].
      intros H. injection H as <-. split; [discriminate|]. intros (w & Hw & Hin). injection Hw as <-.
      apply mem_in in Hin. congruence.
  - intros H. injection H as <-. split; [discriminate|]. intros (w & Hw & _). discriminate.
Qed.

Lemma import_gpu env installed acc c : import_muygpys env installed acc = Ok c ->
  exists g, dget (c_state c) "muygpys_gpu_enabled" = Some (CBool g) /\
    (g = true <-> installed "jax" = true /\ (acc = true \/ env_says_yes env "MUYGPYS_GPU_ENABLED")).
Proof.
  unfold import_muygpys, define_bool.
  destruct (bool_env env "MUYGPYS_JAX_ENABLED") as [b1|]; [|discriminate].
  destruct (bool_env env "MUYGPYS_GPU_ENABLED") as [b2|] eqn:B2; [|discriminate].
  pose proof (bool_env_yes _ _ _ B2) as Y. clear B2.
  destruct (bool_env env "MUYGPYS_HNSWLIB_ENABLED") as [b3|]; [|destruct (installed "jax"), acc; discriminate].
  destruct (bool_env env "MUYGPYS_MPI_ENABLED") as [b4|]; [|destruct (installed "jax"), acc; discriminate].
  destruct (bool_env env "MUYGPYS_TORCH_ENABLED") as [b5|]; [|destruct (installed "jax"), acc; discriminate].
  unfold define_enum. fold (getenv env "MUYGPYS_BACKEND" "numpy"). set (b := getenv env "MUYGPYS_BACKEND" "numpy").
  fold (getenv env "MUYGPYS_FTYPE" "64"). set (f := getenv env "MUYGPYS_FTYPE" "64").
  destruct (mem b backends); [|destruct (installed "jax"), acc; discriminate].
  destruct (mem f ftypes); [|destruct (installed "jax"), acc; cbn -[check_backend];
    (match goal with |- context [check_backend ?c] => destruct (check_backend c) end); discriminate].
  destruct (installed "jax"); [destruct acc|]; cbn -[check_backend];
    (match goal with |- context [check_backend ?c] => destruct (check_backend c) end); try discriminate;
    intros H; injection H as <-; cbn; eexists; (split; [reflexivity|]).
  - tauto.
  - rewrite Y. intuition discriminate.
  - intuition discriminate.
Qed.

Lemma with_refused importable c n v body rest :
  (n = "muygpys_backend" -> exists s, v = CStr s /\ ~ is_backend s) ->
  (n = "muygpys_ftype" -> exists s, v = CStr s /\ ~ is_ftype s) ->
  (n = "muygpys_backend" \/ n = "muygpys_ftype") ->
  urun importable c (UWith n v body :: rest) = (c, Some ValueError).
Proof.
  intros Hb Hf Hn. cbn [urun]. rewrite uexec_with.
  assert (E : validate n v = false).
  { unfold validate. destruct Hn as [->| ->]; cbn [String.eqb Ascii.eqb Bool.eqb].
    - destruct (Hb eq_refl) as (s & -> & N). destruct (mem s backends) eqn:E; auto. apply mem_backends in E. contradiction.
    - destruct (Hf eq_refl) as (s & -> & N). destruct (mem s ftypes) eqn:E; auto. apply mem_ftypes in E. contradiction. }
  rewrite E. reflexivity.
Qed.

Lemma with_accepted importable c n v : (n = "muygpys_backend" -> exists s, v = CStr s /\ is_backend s) ->
  (n = "muygpys_ftype" -> exists s, v = CStr s /\ is_ftype s) ->
  forall body, uexec importable c (UWith n v body) =
    let (c', e) := urun importable (with_enter c n v) body in (with_exit (dget (c_tls c) n) c' n, e).
Proof.
  intros Hb Hf body. rewrite uexec_with.
  assert (E : validate n v = true).
  { unfold validate. destruct (String.eqb_spec n "muygpys_backend") as [->|N].
    - destruct (Hb eq_refl) as (s & -> & I1). apply mem_backends, I1.
    - destruct (String.eqb_spec n "muygpys_ftype") as [->|N']; auto.
      destruct (Hf eq_refl) as (s & -> & I1). apply mem_ftypes, I1. }
  rewrite E. reflexivity.
Qed.

Lemma fix_type_positions {V} sig n (dtype : V) (args : list V) : List.In (sig, n) positions_before_dtype ->
  ((List.length args <= n)%nat -> bind_call sig (fix_type dtype (mkCall args [])) =
     Ok (combine sig args ++ [("dtype", dtype)])) /\
  ((n < List.length args)%nat -> bind_call sig (fix_type dtype (mkCall args [])) = Err TypeError).
Proof.
  intros H. cbn in H.
  repeat destruct H as [H|H]; try contradiction; injection H as <- <-; clear;
    (do 8 (destruct args as [|? args]; [split; intros H; cbn in H; first [reflexivity|lia]|]));
    (split; intros H; cbn in H; first [lia|reflexivity]).
Qed.
