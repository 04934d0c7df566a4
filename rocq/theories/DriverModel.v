(** Model of the model-making drivers of examples/regress.py and examples/classify.py.
    What the drivers call -- the MuyGPS constructor, NN_Wrapper, fixed(), batch sampling with
    tensor construction and the optimizer, optimize_scale -- are parameters. *)
From Verif Require Import Base.

Section Driver.
Variables spec model : Type.
(** MuyGPS(...) of a specification dict; model.fixed(). *)
Variable make : spec -> result model.
Variable fixed : model -> result bool.
(** NN_Wrapper(train_features, nn_count, nn_kwargs). *)
Variable lookup : result unit.
(** sample_batch / get_balanced_batch and make_train_tensors. *)
Variable batch : result unit.
(** opt_fn on the batch; [Some i] is the call for response i. *)
Variable opt : option nat -> model -> result model.
(** optimize_scale of a univariate / multivariate model. *)
Variable scale : model -> result model.
Variable mscale : list model -> result (list model).

(** examples/regress.py:131-191 [make_regressor]. *)
Definition make_regressor (k : spec) : result model :=
  let! _ := lookup in
  let! m := make k in
  let! f := fixed m in
  if f then Ok m
  else let! _ := batch in let! m' := opt None m in scale m'.

(** examples/classify.py:126-182 [make_classifier]. *)
Definition make_classifier (k : spec) : result model :=
  let! _ := lookup in
  let! m := make k in
  let! f := fixed m in
  if f then Ok m
  else let! _ := batch in opt None m.

(** gp/multivariate_muygps.py:88-97 [MultivariateMuyGPS.fixed]: the list comprehension asks
    every model. *)
Definition all_fixed (ms : list model) : result bool :=
  let! fs := sequence (map fixed ms) in Ok (forallb (fun b => b) fs).

(** The loop "for i, muygps in enumerate(mmuygps.models)" (regress.py:345-360,
    classify.py:327-341). *)
Fixpoint opt_each (i : nat) (ms : list model) : result (list model) :=
  match ms with
  | [] => Ok []
  | m :: ms' =>
    let! f := fixed m in
    let! m' := (if f then Ok m else opt (Some i) m) in
    let! rest := opt_each (S i) ms' in
    Ok (m' :: rest)
  end.

(** regress.py:305-379 / classify.py:283-351: [targets_shape] is train_targets.shape, whose
    unpacking into two names raises ValueError unless there are two axes. *)
Definition make_multivariate (rescale : bool) (targets_shape : list nat) (ks : list spec) : result (list model) :=
  match targets_shape with
  | [_; response_count] =>
    if negb (response_count =? List.length ks) then Err ValueError
    else
      let! _ := lookup in
      let! ms := sequence (map make ks) in
      let! f := all_fixed ms in
      if f then Ok ms
      else
        let! _ := batch in
        let! ms' := opt_each 0 ms in
        if rescale then mscale ms' else Ok ms'
  | _ => Err ValueError
  end.
Definition make_multivariate_regressor := make_multivariate true.
Definition make_multivariate_classifier := make_multivariate false.

(** The k_kwargs argument and the kind of model returned. *)
Inductive kwargs := KDict (k : spec) | KList (ks : list spec) | KTuple (ks : list spec) | KOther.
Inductive made := Univariate (m : model) | Multivariate (ms : list model).

(** regress.py:416-456 [_decide_and_make_regressor]. *)
Definition decide_and_make_regressor (targets_shape : list nat) (k : kwargs) : result made :=
  match k with
  | KList ks | KTuple ks => rmap Multivariate (make_multivariate_regressor targets_shape ks)
  | KDict d => rmap Univariate (make_regressor d)
  | KOther => Err ValueError
  end.

(** classify.py:354-394 [_decide_and_make_classifier]: only a list selects the multivariate
    path. *)
Definition decide_and_make_classifier (targets_shape : list nat) (k : kwargs) : result made :=
  match k with
  | KList ks => rmap Multivariate (make_multivariate_classifier targets_shape ks)
  | KDict d => rmap Univariate (make_classifier d)
  | KTuple _ | KOther => Err ValueError
  end.
End Driver.
Arguments KDict {spec} k. Arguments KList {spec} ks. Arguments KTuple {spec} ks. Arguments KOther {spec}.
Arguments Univariate {model} m. Arguments Multivariate {model} ms.
