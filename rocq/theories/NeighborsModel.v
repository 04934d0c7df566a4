(** Model of nearest-neighbour lookup (/repo/src/MuyGPyS/neighbors.py) and of batch sampling
    (optimize/batch.py).  Points are rows of reals, a data set is the list of its rows.
    External: sklearn's NearestNeighbors and hnswlib (per query row), numpy's random choice. *)
From Verif Require Import Base.
Local Open Scope string_scope.

Definition point := list R.

(** Keyword values: strings, numbers, anything else. *)
Inductive nnval := VStr (s : string) | VNum (r : R) | VOther (n : nat).

(** str.lower on ASCII letters. *)
Definition lower_char (c : Ascii.ascii) : Ascii.ascii :=
  let n := Ascii.nat_of_ascii c in
  if (65 <=? n)%nat && (n <=? 90)%nat then Ascii.ascii_of_nat (n + 32) else c.
Fixpoint lower (s : string) : string :=
  match s with EmptyString => EmptyString | String c s' => String (lower_char c) (lower s') end.

(** An array argument of one or two dimensions (other ranks raise ValueError on unpacking,
    neighbors.py:86): 1-d data become a column (neighbors.py:83-85, 241-242). *)
Inductive data := D1 (v : list R) | D2 (rows : list point) | DOther.
Definition as_rows (d : data) : result (list point) :=
  match d with
  | D1 v => Ok (map (fun x => [x]) v)
  | D2 rows => Ok rows
  | DOther => Err ValueError
  end.

Inductive nn_method := Exact (ctor : dict nnval) | Hnsw (space : nnval).

(** [NN_Wrapper] objects. *)
Record nn_wrapper := mkNN {
  nn_train : list point;
  nn_count : nat;
  nn_meth : nn_method
}.

Definition exact_keys : list string :=
  ["radius"; "algorithm"; "leaf_size"; "metric"; "p"; "metric_params"; "n_jobs"].

(** Constructor keywords for sklearn (neighbors.py:89-106). *)
Definition exact_ctor (nn_count : nat) (kw : dict nnval) : dict nnval :=
  let d := filter (fun e => existsb (String.eqb (fst e)) exact_keys) kw in
  let d := dset d "n_neighbors" (VNum (INR (nn_count + 1))) in
  dset d "n_jobs" (match dget d "n_jobs" with Some v => v | None => VNum (-1) end).

(** [NN_Wrapper.__init__] (neighbors.py:73-127); sklearn's [fit] raises ValueError on a data set without
    rows. *)
Definition nn_init (hnswlib_enabled : bool) (train : data) (nn_count : nat) (method : string)
  (kw : dict nnval) : result nn_wrapper :=
  let! rows := as_rows train in
  if String.eqb (lower method) "exact" then
    if (List.length rows =? 0)%nat then Err ValueError
    else Ok (mkNN rows nn_count (Exact (exact_ctor nn_count kw)))
  else if String.eqb (lower method) "hnsw" then
    if hnswlib_enabled then
      Ok (mkNN rows nn_count (Hnsw (match dget kw "space" with Some v => v | None => VStr "l2" end)))
    else Err ModuleNotFoundError
  else Err NotImplementedError.

(** sklearn's [metric] and [p] attributes with their defaults. *)
Definition sk_metric (ctor : dict nnval) : nnval :=
  match dget ctor "metric" with Some v => v | None => VStr "minkowski" end.
Definition sk_p (ctor : dict nnval) : nnval :=
  match dget ctor "p" with Some v => v | None => VNum 2 end.

(** neighbors.py:248 [self.nbrs.metric == "minkowski" and self.nbrs.p == 2]. *)
Definition is_minkowski2 (ctor : dict nnval) : bool :=
  match sk_metric ctor, sk_p ctor with
  | VStr m, VNum p => String.eqb m "minkowski" && Reqb p 2
  | _, _ => false
  end.

Section Lookup.
(** sklearn: (index, distance) pairs for one query row; hnswlib likewise. *)
Variable knn : dict nnval -> list point -> point -> nat -> list (nat * R).
Variable hnsw : nnval -> list point -> point -> nat -> list (nat * R).

(** One row of [_get_nns] (neighbors.py:241-262). *)
Definition query_row (w : nn_wrapper) (q : point) (k : nat) : list (nat * R) :=
  match nn_meth w with
  | Exact ctor =>
      let r := knn ctor (nn_train w) q k in
      if is_minkowski2 ctor then map (fun e => (fst e, (snd e ^ 2)%R)) r else r
  | Hnsw space => hnsw space (nn_train w) q k
  end.

(** sklearn's kneighbors raises ValueError on a query without rows ("Found array with 0 sample(s)") and
    on n_neighbors = 0 ("Expected n_neighbors > 0"); hnswlib answers both with empty arrays. *)
Definition refuses (w : nn_wrapper) (qs : list point) (k : nat) : bool :=
  match nn_meth w with
  | Exact _ => (List.length qs =? 0)%nat || (k =? 0)%nat
  | Hnsw _ => false
  end.

(** [_get_nns] (neighbors.py:213-264): both libraries raise when more neighbours are requested than
    there are points (ValueError in sklearn, RuntimeError in hnswlib, reported as ValueError here). *)
Definition get_nns_k (w : nn_wrapper) (qs : list point) (k : nat)
  : result (list (list nat) * list (list R)) :=
  if (List.length (nn_train w) <? k)%nat || refuses w qs k then Err ValueError
  else let rows := map (fun q => query_row w q k) qs in
       Ok (map (map fst) rows, map (map snd) rows).

(** [get_nns] (neighbors.py:129-167). *)
Definition get_nns (w : nn_wrapper) (test : data) : result (list (list nat) * list (list R)) :=
  let! rows := as_rows test in get_nns_k w rows (nn_count w).

(** [get_batch_nns] (neighbors.py:169-211): fancy indexing raises IndexError out of range, and the
    first column of the answer is dropped. *)
Definition get_batch_nns (w : nn_wrapper) (batch : list nat)
  : result (list (list nat) * list (list R)) :=
  if forallb (fun i => (i <? List.length (nn_train w))%nat) batch then
    let! r := get_nns_k w (map (fun i => nth i (nn_train w) []) batch) (nn_count w + 1) in
    Ok (map (@tl nat) (fst r), map (@tl R) (snd r))
  else Err IndexError.

(** ** optimize/batch.py *)

(** [sample_batch] (batch.py:183-228); [drawn] is what np.random.choice returned. *)
Definition sample_batch (w : nn_wrapper) (batch_count train_count : nat) (drawn : list nat)
  : result (list nat * list (list nat)) :=
  let idx := if (batch_count <? train_count)%nat then drawn else seq 0 train_count in
  let! r := get_batch_nns w idx in Ok (idx, fst r).

(** astype(int64) of a float: truncation towards zero. *)
Definition trunc (r : R) : Z := if Rle_dec 0 r then Int_part r else (- Int_part (- r))%Z.

(** np.max / np.min along a row of integers; an empty row raises ValueError. *)
Definition zmax (l : list Z) : option Z :=
  match l with [] => None | a :: l' => Some (fold_left Z.max l' a) end.
Definition zmin (l : list Z) : option Z :=
  match l with [] => None | a :: l' => Some (fold_left Z.min l' a) end.

(** The nonconstant mask entry of one neighbourhood (batch.py:99-108, 149-155); labels[nn] with an
    index out of range raises IndexError. *)
Definition nonconstant_row (labels : list R) (nn : list nat) : result bool :=
  if forallb (fun i => (i <? List.length labels)%nat) nn then
    let ls := map (fun i => trunc (nth i labels 0%R)) nn in
    match zmax ls, zmin ls with
    | Some a, Some b => Ok (negb (Z.eqb a b))
    | _, _ => Err ValueError
    end
  else Err IndexError.

(** arr[mask]. *)
Definition select {A} (mask : list bool) (l : list A) : list A :=
  map snd (filter (fun e => fst e) (combine mask l)).

(** [full_filtered_batch] (batch.py:76-112). *)
Definition full_filtered_batch (w : nn_wrapper) (labels : list R)
  : result (list nat * list (list nat)) :=
  let idx := seq 0 (List.length labels) in
  let! r := get_batch_nns w idx in
  let! mask := sequence (map (nonconstant_row labels) (fst r)) in
  Ok (select mask idx, select mask (fst r)).

(** np.unique of a list of floats: sorted, distinct. *)
Fixpoint insert_uniq (x : R) (l : list R) : list R :=
  match l with
  | [] => [x]
  | y :: l' => if Reqb x y then l else if Rltb x y then x :: l else y :: insert_uniq x l'
  end.
Definition unique (l : list R) : list R := fold_right insert_uniq [] l.

(** np.where(mask & (labels == c))[0]. *)
Definition candidates (mask : list bool) (labels : list R) (c : R) : list nat :=
  filter (fun i => nth i mask false && Reqb (nth i labels 0%R) c) (seq 0 (List.length labels)).

(** [sample_balanced_batch] (batch.py:115-180); [draw j pop n] is what np.random.choice(pop, n)
    returned for class number [j].  int(a / b) is integer division (exact below 2^53). *)
Definition sample_balanced_batch (w : nn_wrapper) (labels : list R) (batch_count : nat)
  (draw : nat -> list nat -> nat -> list nat) : result (list nat * list (list nat)) :=
  let idx := seq 0 (List.length labels) in
  let! r := get_batch_nns w idx in
  let! mask := sequence (map (nonconstant_row labels) (fst r)) in
  let classes := unique labels in
  if (List.length classes =? 0)%nat then Err ZeroDivisionError
  else
    let each := (batch_count / List.length classes)%nat in
    let chosen := flat_map (fun j =>
      let pop := candidates mask labels (nth j classes 0%R) in
      draw j pop (Nat.min (List.length pop) each)) (seq 0 (List.length classes)) in
    Ok (chosen, map (fun i => nth i (fst r) []) chosen).

(** [get_balanced_batch] (batch.py:25-73). *)
Definition get_balanced_batch (w : nn_wrapper) (labels : list R) (batch_count : nat)
  (draw : nat -> list nat -> nat -> list nat) : result (list nat * list (list nat)) :=
  if (batch_count <? List.length labels)%nat then sample_balanced_batch w labels batch_count draw
  else full_filtered_batch w labels.
End Lookup.
