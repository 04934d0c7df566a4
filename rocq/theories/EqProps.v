(** C59: model equality. *)
From Coq Require Import Lia Lra.
From Verif Require Import Base NdModel HyperModel NamedModel NamedSpec EqModel EqSpec EqProofs.
Local Open Scope string_scope.
Local Open Scope list_scope.

(** A heap with two fixed length scales of one, a smoothness of one half, and a NaN length scale; these are
    the values the public constructor gives. *)
Definition ex_fixed (v : num) : param := mkParam v (Fin 0, Fin 0) true.
Definition ex_store : store := mkStore 4 (fun l =>
  match l with 0 | 1 => ex_fixed (Fin 1) | 2 => ex_fixed (Fin (1/2)) | _ => ex_fixed NaN end).
Definition ex_rbf : eq_model := mkEq [] (KRbf (LSScalar (mkNamed "length_scale" 0))) ENull (Fin 1).
Definition ex_matern : eq_model :=
  mkEq [] (KMatern (LSScalar (mkNamed "length_scale" 1)) (mkNamed "smoothness" 2) M05) ENull (Fin 1).
Definition ex_nan : eq_model := mkEq [] (KRbf (LSScalar (mkNamed "length_scale" 3))) ENull (Fin 1).
Definition ex_hetero : eq_model :=
  mkEq [] (KRbf (LSScalar (mkNamed "length_scale" 0))) (EHetero (mkNd [2] (fun _ => Fin 1))) (Fin 1).

Lemma ex_built_rbf : built_eq ex_rbf. Proof. split; cbn; auto. constructor. reflexivity. Qed.
Lemma ex_built_matern : built_eq ex_matern. Proof. split; cbn; auto. constructor. reflexivity. Qed.
Lemma ex_built_nan : built_eq ex_nan. Proof. split; cbn; auto. constructor. reflexivity. Qed.
Lemma ex_built_hetero : built_eq ex_hetero. Proof. split; cbn; auto. constructor. reflexivity. Qed.
Example ex_values e :
  param_init e (PNum (Fin 1)) (PStr "fixed") = Ok (ex_fixed (Fin 1)) /\
  param_init e (PNum NaN) (PStr "fixed") = Ok (ex_fixed NaN).
Proof. split; reflexivity. Qed.

(** C59: [a == b] is True exactly when the classes are the same, every kernel hyperparameter of [a] is one
    of [b] with the same value, and the noises and scales are the same numbers. *)
Theorem C59_true_iff : forall s a b, built_eq a -> built_eq b ->
  (py_eq s a b = Ok true <->
   e_class a = e_class b /\
   (forall h v, hyper s a h v -> v <> NaN /\ hyper s b h v) /\
   (exists v, v <> NaN /\ one_noise s a v /\ one_noise s b v) /\
   agree (e_scale a) (e_scale b)).
Proof. exact eq_true_iff. Qed.
Print Assumptions C59_true_iff.

(** C59: every model without NaN and with a single noise value equals itself. *)
Theorem C59_reflexive_partial : forall s a v, built_eq a ->
  (forall h w, hyper s a h w -> w <> NaN) -> one_noise s a v -> v <> NaN -> e_scale a <> NaN ->
  py_eq s a a = Ok true.
Proof. exact eq_refl_. Qed.
Print Assumptions C59_reflexive_partial.
Example C59_reflexive_example : py_eq ex_store ex_matern ex_matern = Ok true.
Proof.
  apply (C59_reflexive_partial ex_store ex_matern (Fin 0)); cbn; try congruence; try exact ex_built_matern.
  intros h w (n & [<-|[<-|[]]] & _ & <-); cbn; congruence.
Qed.

(** C59: [a == b] and [b == a] give the same answer (or raise the same exception) whenever the two kernels
    have the same hyperparameter names. *)
Theorem C59_symmetric_partial : forall s a b, built_eq a -> built_eq b -> same_names a b ->
  py_eq s a b = py_eq s b a.
Proof. exact eq_sym_. Qed.
Print Assumptions C59_symmetric_partial.
Example C59_symmetric_example : same_names ex_rbf ex_nan /\
  py_eq ex_store ex_rbf ex_nan = Ok false /\ py_eq ex_store ex_nan ex_rbf = Ok false.
Proof. split; [intros h; cbn; tauto|]. split; reflexivity. Qed.

(** C59: equality is transitive, with no side condition. *)
Theorem C59_transitive : forall s a b c, built_eq a -> built_eq b -> built_eq c ->
  py_eq s a b = Ok true -> py_eq s b c = Ok true -> py_eq s a c = Ok true.
Proof. exact eq_trans_. Qed.
Print Assumptions C59_transitive.

(** C59, refuted: an RBF model equals a Matern model, and the converse comparison raises KeyError. *)
Theorem C59_symmetry_refuted : exists s a b, built_eq a /\ built_eq b /\
  py_eq s a b = Ok true /\ py_eq s b a = Err KeyError /\
  hyper s b "smoothness" (Fin (1/2)) /\ (forall v, ~ hyper s a "smoothness" v).
Proof.
  exists ex_store, ex_rbf, ex_matern. split; [exact ex_built_rbf|]. split; [exact ex_built_matern|].
  split; [|split; [|split]].
  - apply C59_true_iff; [exact ex_built_rbf|exact ex_built_matern|].
    split; [reflexivity|]. split; [|split].
    + intros h v (n & [<-|[]] & <- & <-). split; [cbn; congruence|].
      exists (mkNamed "length_scale" 1). cbn. auto.
    + exists (Fin 0). cbn. split; [congruence|auto].
    + split; cbn; congruence.
  - unfold py_eq, model_eq. cbn. unfold Reqb. destruct (Req_EM_T 1 1); [reflexivity|congruence].
  - exists (mkNamed "smoothness" 2). cbn. auto.
  - intros v (n & [<-|[]] & E & _). discriminate E.
Qed.
Print Assumptions C59_symmetry_refuted.

(** C59, refuted: comparing models when the left one has a hyperparameter the right one lacks never
    gives True, and may raise KeyError. *)
Theorem C59_missing_hyperparameter : forall s a b, built_eq a -> built_eq b -> e_class a = e_class b ->
  (exists h, In h (map nm_name (kernel_declares (e_kernel a))) /\ ~ In h (map nm_name (kernel_declares (e_kernel b)))) ->
  py_eq s a b = Err KeyError \/ py_eq s a b = Ok false \/ py_eq s a b = Err ValueError.
Proof. exact eq_missing_raises. Qed.
Print Assumptions C59_missing_hyperparameter.

(** C59, refuted: a NaN hyperparameter (which the constructor accepts) makes a model differ from itself. *)
Theorem C59_reflexive_nan_refuted : exists s a, built_eq a /\ py_eq s a a = Ok false.
Proof. exists ex_store, ex_nan. split; [exact ex_built_nan|reflexivity]. Qed.
Print Assumptions C59_reflexive_nan_refuted.

(** C59, refuted: a model with heteroscedastic noise of two or more entries cannot be compared with itself. *)
Theorem C59_reflexive_heteroscedastic_refuted : forall s a t, built_eq a ->
  (forall h w, hyper s a h w -> w <> NaN) ->
  e_noise a = EHetero t -> 2 <= nprod (shape t) -> py_eq s a a = Err ValueError.
Proof. exact eq_hetero_raises. Qed.
Print Assumptions C59_reflexive_heteroscedastic_refuted.
Example C59_heteroscedastic_example : py_eq ex_store ex_hetero ex_hetero = Err ValueError.
Proof.
  apply (C59_reflexive_heteroscedastic_refuted ex_store ex_hetero (mkNd [2] (fun _ => Fin 1))); auto.
  - exact ex_built_hetero.
  - intros h w (n & [<-|[]] & _ & <-). cbn. congruence.
Qed.
Example C59_transitive_example : py_eq ex_store ex_rbf ex_rbf = Ok true /\ py_eq ex_store ex_rbf ex_matern = Ok true.
Proof.
  split; apply C59_true_iff; try exact ex_built_rbf; try exact ex_built_matern;
    (split; [reflexivity|]; split; [|split; [exists (Fin 0); cbn; split; [congruence|auto]|split; cbn; congruence]]);
    intros h v (n & [<-|[]] & <- & <-); (split; [cbn; congruence|]).
  - exists (mkNamed "length_scale" 0). cbn. auto.
  - exists (mkNamed "length_scale" 1). cbn. auto.
Qed.
