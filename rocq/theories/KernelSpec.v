(** Specification vocabulary for kernels (documentation of gp/kernels/rbf.py and matern.py,
    gp/deformation/isotropy.py and anisotropy.py). *)
From Verif Require Import Base NdModel RSum TensorSpec HyperModel NamedModel NamedSpec TensorModel KernelModel.
Local Open Scope R_scope.

(** The closed forms of the Matern family at a (deformed) distance [d]. *)
Definition matern_half (d : R) : R := exp (- d).
Definition matern_three_halves (d : R) : R := (1 + sqrt 3 * d) * exp (- (sqrt 3 * d)).
Definition matern_five_halves (d : R) : R :=
  (1 + sqrt 5 * d + 5 * d ^ 2 / 3) * exp (- (sqrt 5 * d)).
Definition gaussian (d : R) : R := exp (- d ^ 2 / 2).

(** A correlation function on nonnegative distances. *)
Definition correlation (k : R -> R) : Prop :=
  k 0 = 1 /\ (forall d, 0 <= d -> 0 < k d <= 1) /\ (forall d, 0 <= d -> k d = 1 -> d = 0) /\
  (forall d d', 0 <= d -> d < d' -> k d' < k d).

(** Squared distance after dividing every feature by its own length scale. *)
Definition scaled_sqdist (F : nat) (l x y : nat -> R) : R :=
  rsum F (fun f => ((x f - y f) / l f) ^ 2).

(** Which formula a Matern kernel must use (documentation of matern.py:84-116). *)
Inductive formula := Half | ThreeHalves | FiveHalves | Infinite | General.
Definition formula_for (p : param) : formula :=
  if p_fixed p then
    match p_val p with
    | PInf => Infinite
    | Fin r => if Req_EM_T r (1/2) then Half else if Req_EM_T r (3/2) then ThreeHalves
               else if Req_EM_T r (5/2) then FiveHalves else General
    | _ => General
    end
  else General.

(** The Matern function of smoothness nu at distance d, for given Gamma and Bessel-K functions. *)
Definition matern_bessel (gamma : R -> R) (kv : R -> R -> R) (nu d : R) : R :=
  Rpower 2 (1 - nu) / gamma nu * Rpower (sqrt (2 * nu) * d) nu * kv nu (sqrt (2 * nu) * d).

(** The value a Matern kernel must take at distance d; the general form is evaluated a machine
    epsilon away from zero. *)
Definition matern_value (gamma : R -> R) (kv : R -> R -> R) (f : formula) (nu d : R) : R :=
  match f with
  | Half => matern_half d
  | ThreeHalves => matern_three_halves d
  | FiveHalves => matern_five_halves d
  | Infinite => gaussian d
  | General => matern_bessel gamma kv nu (if Req_EM_T d 0 then / 2 ^ 52 else d)
  end.

(** Textbook values of Gamma and Bessel-K at the half integers. *)
Definition half_integer_facts (gamma : R -> R) (kv : R -> R -> R) : Prop :=
  gamma (1/2) = sqrt PI /\ gamma (3/2) = sqrt PI / 2 /\ gamma (5/2) = 3 * sqrt PI / 4 /\
  forall x, 0 < x ->
    kv (1/2) x = sqrt (PI / (2 * x)) * exp (- x) /\
    kv (3/2) x = sqrt (PI / (2 * x)) * exp (- x) * (1 + 1 / x) /\
    kv (5/2) x = sqrt (PI / (2 * x)) * exp (- x) * (1 + 3 / x + 3 / x ^ 2).

Definition metric_of (d : deformation) : metric :=
  match d with Iso m _ | DiffIso m _ | Aniso m _ => m end.

(** The length scale that must divide feature [f]. *)
Definition scale_of (d : deformation) (cur : nat -> R) (kw : dict R) (f : nat) : R :=
  match d with
  | Iso _ n | DiffIso _ n => kw_or kw "length_scale" (cur (nm_loc n))
  | Aniso _ v => nth f (map (fun e => kw_or kw (nm_name e) (cur (nm_loc e))) (v_elems v)) 0
  end.

(** Deformations as the constructors build them, for data with [F] features.  For an anisotropic
    one, the length scales given by keyword are length_scale0 .. length_scale<j-1>, in order
    (possibly none): see C08 for what happens otherwise. *)
Definition deformation_ok (d : deformation) (F : nat) (kw : dict R) : Prop :=
  match d with
  | Iso _ n | DiffIso _ n => nm_name n = "length_scale"%string
  | Aniso _ v => exists s0 srcs j,
      v = snd (vec_init s0 "length_scale" srcs) /\ List.length srcs = F /\ dict_ok kw /\ (j <= F)%nat /\
      map fst (filter (fun e => String.prefix "length_scale" (fst e)) kw) =
        map (fun i => ("length_scale" ++ str_nat i)%string) (seq 0 j)
  end.

Definition positive_scales (d : deformation) (F : nat) (cur : nat -> R) (kw : dict R) : Prop :=
  forall f, (f < F)%nat -> 0 < scale_of d cur kw f.

(** The deformed distance between two points. *)
Definition deformed (m : metric) (F : nat) (l x y : nat -> R) : R :=
  match m with L2 => sqrt (scaled_sqdist F l x y) | F2 => scaled_sqdist F l x y end.
