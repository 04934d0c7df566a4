(** Model of hierarchical (knot) hyperparameters: gp/hyperparameter/experimental/hierarchical.py, and of the
    isotropic deformation that consumes them (gp/deformation/isotropy.py:46-89). *)
From Verif Require Import Base NdModel RSum LinAlgModel HyperModel NamedModel TensorModel KernelModel FlowModel.
Local Open Scope R_scope.
Local Open Scope string_scope.

(** np.eye(n) times a number. *)
Definition scaled_eye (s : R) (n : nat) : nd R :=
  mkNd [n; n] (fun idx => match idx with [i; j] => if Nat.eqb i j then s * 1 else s * 0 | _ => 0 end).

(** np.linalg.solve(K, v) with a vector right-hand side. *)
Definition solve_vec (ls : lsolver) (K v : nd R) : result (nd R) :=
  match shape K, shape v with
  | [n; n'], [m] =>
      if Nat.eqb n n' then
        if Nat.eqb m n then
          match ls n 1%nat (fun i j => at_ K [i; j]) (fun i _ => at_ v [i]) with
          | Some X => Ok (mkNd [n] (fun idx => match idx with [i] => X i 0%nat | _ => 0 end))
          | None => Err LinAlgError
          end
        else Err ValueError
      else Err LinAlgError
  | _, _ => Err ValueError
  end.

(** Matrix @ vector. *)
Definition matvec (A v : nd R) : result (nd R) :=
  match shape A, shape v with
  | [b; n], [m] => if Nat.eqb n m
      then Ok (mkNd [b] (fun idx => match idx with [i] => rsum n (fun j => at_ A [i; j] * at_ v [j]) | _ => 0 end))
      else Err ValueError
  | _, _ => Err ValueError
  end.

(** The higher-level kernel object: its deformation, and its call in the current state of its own parameters. *)
Record hkernel := mkHK { hk_def : deformation; hk_call : (nat -> R) -> nd R -> result (nd R) }.

(** A [NamedHierarchicalParameter] (hierarchical.py:95-103). *)
Record hier := mkHier { h_count : nat; h_features : nd R; h_params : nvec; h_Kin : nd R; h_kernel : hkernel }.

(** [HierarchicalParameter.__init__] (35-58) followed by [NamedHierarchicalParameter.__init__] (95-103);
    [params] are the named knot parameters.  [len] of a 0-d array is a TypeError. *)
Definition hier_init (hk : hkernel) (cur : nat -> R) (features : nd R) (params : nvec) : result hier :=
  match shape features with
  | [] => Err TypeError
  | m :: _ =>
      if negb (Nat.eqb (List.length (v_elems params)) m) then Err ValueError
      else
        let! D := deform_pairwise (hk_def hk) features (arange m) in
        let! K := hk_call hk cur D in
        Ok (mkHier (List.length (v_elems params)) features params K hk)
  end.

(** [NamedHierarchicalParameter.__call__] (108-124).  [cur] gives the current values of all parameter objects,
    [noise] the current value of the noise parameter; [h_Kin] was computed by the constructor. *)
Definition hier_call (ls : lsolver) (cur : nat -> R) (noise : R) (h : hier) (batch : nd R) (kw : dict R) : result (nd R) :=
  let params := fst (vec_filter (h_params h) cur kw) in
  let! K := bop Rplus (h_Kin h) (scaled_eye noise (h_count h)) in
  let! sol := solve_vec ls K (vec 0 (vec_call (h_params h) cur params)) in
  match shape batch, shape (h_features h) with
  | b :: _, m :: _ =>
      let! D := deform_crosswise (hk_def (h_kernel h)) batch (h_features h) (arange b) (arange m) in
      let! C := hk_call (h_kernel h) cur D in
      let! y := matvec C sol in
      Ok (squeeze y)
  | _, _ => Err IndexError
  end.

(** [filter_kwargs] (126-130): [batch] is the keyword batch_features, when given. *)
Definition hier_filter (ls : lsolver) (cur : nat -> R) (noise : R) (h : hier) (batch : option (nd R)) (kw : dict R)
  : result (nd R * dict R) :=
  let (params, rest) := vec_filter (h_params h) cur kw in
  match batch with
  | None => Err KeyError
  | Some bf => let! v := hier_call ls cur noise h bf params in Ok (v, rest)
  end.

(** [Isotropy.__call__] (isotropy.py:60-89) with an array of length scales: a 0-d array acts as a number, otherwise the
    array is indexed with (slice, None, ..., None). *)
Definition isotropy_call_array (m : metric) (dists l : nd R) : result (nd R) :=
  match shape l with
  | [] => Ok (apply_length_scale m dists (at_ l []))
  | b :: r =>
      match shape dists with
      | [] => Err IndexError
      | _ :: ds => bop (fun x y => scale_entry m y x) dists (mkNd (b :: map (fun _ => 1%nat) ds ++ r)%list
          (fun idx => at_ l (hd 0%nat idx :: skipn (S (List.length ds)) idx)))
      end
  end.

(** [apply_embedding_fn] (139-147), then the elementwise function of the kernel. *)
Definition hier_embed (ls : lsolver) (m : metric) (cur : nat -> R) (noise : R) (h : hier)
  (fn : nd R -> dict R -> result (nd R)) (dists : nd R) (batch : option (nd R)) (kw : dict R) : result (nd R) :=
  let! vr := hier_filter ls cur noise h batch kw in
  let! d := isotropy_call_array m dists (fst vr) in
  fn d (snd vr).

(** RBF and Matern kernels over an isotropic deformation with a hierarchical length scale (rbf.py:86-110,
    matern.py:139-168). *)
Definition hier_rbf (ls : lsolver) (m : metric) (cur : nat -> R) (noise : R) (h : hier) (dists : nd R) (batch : option (nd R))
  (kw : dict R) : result (nd R) :=
  hier_embed ls m cur noise h (fun x _ => Ok (ndmap rbf_entry x)) dists batch kw.
Definition hier_matern (gamma : R -> R) (kv : R -> R -> R) (ls : lsolver) (m : metric) (sm : named) (c : matern_fn)
  (cur : nat -> R) (noise : R) (h : hier) (dists : nd R) (batch : option (nd R)) (kw : dict R) : result (nd R) :=
  hier_embed ls m cur noise h (fun x rest => named_apply_fn sm (matern_backend gamma kv c x) cur rest) dists batch kw.
