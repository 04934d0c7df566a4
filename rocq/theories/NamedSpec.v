(** Specification vocabulary for named hyperparameters. *)
From Verif Require Import Base HyperModel NamedModel.

(** The parameters a model declares, in declaration order: length scale(s), smoothness, noise. *)
Definition declared (m : model) : list named :=
  (match m_kernel m with
   | KRbf ls => ls_elems ls
   | KMatern ls n _ => ls_elems ls ++ [n]
   end ++
   match m_noise m with NHomo n => [n] | _ => [] end)%list.

Definition free (s : store) (n : named) : bool := negb (p_fixed (st_cell s (nm_loc n))).

(** Models as the public constructors build them. *)
Inductive built_ls : length_scale -> Prop :=
| bl_scalar n : nm_name n = "length_scale"%string -> built_ls (LSScalar n)
| bl_vector v : v_name v = "length_scale"%string ->
    map nm_name (v_elems v) = map (fun i => ("length_scale" ++ str_nat i)%string) (seq 0 (List.length (v_elems v))) ->
    built_ls (LSVector v)
| bl_hier v : v_name v = "length_scale"%string ->
    map nm_name (v_elems v) = map (fun i => ("length_scale" ++ str_nat i)%string) (seq 0 (List.length (v_elems v))) ->
    built_ls (LSHier v).

Definition built (m : model) : Prop :=
  built_ls (k_ls (m_kernel m)) /\
  match m_kernel m with KMatern _ n _ => nm_name n = "smoothness"%string | _ => True end /\
  match m_noise m with NHomo n => nm_name n = "noise"%string | _ => True end.

(** What keyword lookup with a default should give. *)
Definition kw_or {V} (kw : dict V) (name : string) (default : V) : V :=
  match dget kw name with Some v => v | None => default end.
