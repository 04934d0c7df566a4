(** Model of the data helpers shipped for the tests and tutorials (/repo/src/MuyGPyS/_test/utils.py).  Assertion helpers and option lists
    are not modelled. *)
From Verif Require Import Base NdModel RSum LinAlgModel NoiseModel NeighborsModel ClassifyModel ClassTrainModel MpiModel.
Local Open Scope R_scope.

(** utils.py:57-74 [_sq_rel_err]; a zero [tru] is not modelled further (numpy returns inf or nan). *)
Definition sq_rel_err (tru est : R) : R := ((tru - est) / tru) ^ 2.

(** A data dict: "input" and "output" ("labels" where present). *)
Record data_dict := mkData { d_input : nd R; d_output : nd R }.

(** np.random.choice(pop, k, replace=False); [draw] is what the generator returned. *)
Definition choice (draw : list nat -> nat -> list nat) (pop : list nat) (k : nat) : result (list nat) :=
  if (k <=? List.length pop)%nat then Ok (draw pop k) else Err ValueError.

(** t[rows, :]: IndexError without a second axis or with a row out of range. *)
Definition take_rows (t : nd R) (rows : list nat) : result (nd R) :=
  match shape t with
  | n :: m :: rest =>
    if forallb (fun i => (i <? n)%nat) rows
    then Ok (mkNd (List.length rows :: m :: rest) (fun idx => match idx with a :: l => at_ t (nth a rows 0%nat :: l) | [] => 0 end))
    else Err IndexError
  | _ => Err IndexError
  end.

(** utils.py:201-231 [_subsample]. *)
Definition subsample (draw : list nat -> nat -> list nat) (data : data_dict) (sample_count : nat) : result data_dict :=
  match shape (d_input data) with
  | [] => Err IndexError
  | count :: _ =>
    let! samples := choice draw (seq 0 count) sample_count in
    let! x := take_rows (d_input data) samples in
    let! y := take_rows (d_output data) samples in
    Ok (mkData x y)
  end.

(** utils.py:234-282 [_balanced_subsample]; [draw j] is the generator's answer for class number [j]. *)
Definition balanced_subsample (draw : nat -> list nat -> nat -> list nat) (data : data_dict) (sample_count : nat) : result data_dict :=
  let! labels := argmax_labels (d_output data) in
  let classes := unique labels in
  let class_count := List.length classes in
  if (class_count =? 0)%nat then Err ZeroDivisionError
  else
    let each_sample_count := Z.to_nat (int_true_div sample_count class_count) in
    let class_indices := map (fun c => filter (fun i => Reqb (nth i labels 0) c) (seq 0 (List.length labels))) classes in
    let sample_sizes := map (fun arr => Nat.min (List.length arr) each_sample_count) class_indices in
    let! drawn := sequence (map (fun i => choice (draw i) (nth i class_indices []) (nth i sample_sizes 0%nat)) (seq 0 class_count)) in
    let balanced_samples := List.concat drawn in
    let! x := take_rows (d_input data) balanced_samples in
    let! y := take_rows (d_output data) balanced_samples in
    Ok (mkData x y).

(** utils.py:285-296 [_normalize].  A zero row (nan in numpy) is not modelled: division by zero is an arbitrary real here. *)
Definition normalize (X : nd R) : result (nd R) :=
  match shape X with
  | [n; f] => Ok (mkNd [n; f] (fun idx => match idx with
      | [i; j] => at_ X [i; j] * sqrt (INR f / rsum f (fun k => at_ X [i; k] ^ 2))
      | _ => 0 end))
  | _ => Err IndexError
  end.

(** utils.py:112-151 [_make_gaussian_dict] given the two random matrices: outputs and labels; 1 / 0 is not reached because argmax of an empty
    row raises first. *)
Definition make_dict (locations observations : nd R) (categorical : bool) : result (data_dict * list R) :=
  let! labels := argmax_labels observations in
  match shape observations with
  | [n; c] =>
    let out := if categorical
      then mkNd [n; c] (fun idx => match idx with
        | [i; j] => (if Reqb (INR j) (nth i labels 0) then 1 else 0) - 1 / INR c
        | _ => 0 end)
      else observations in
    Ok (mkData locations out, labels)
  | _ => Err ValueError
  end.

(** utils.py:332-374 [_get_scale]: the values generated, one per neighbourhood. *)
Definition get_scale_one (ls : lsolver) (Kin col : nd R) (noise_variance : R) (n j : nat) : result R :=
  let Y := mkNd [n; 1%nat] (fun idx => match idx with i :: _ => at_ col [j; i; 0%nat] | [] => 0 end) in
  let Kj := mkNd (tl (shape Kin)) (fun idx => at_ Kin (j :: idx)) in
  let! K := bop Rplus Kj (ndmap (Rmult noise_variance) (eye n)) in
  let! X := np_solve ls K Y in
  Ok (rsum n (fun i => at_ Y [i; 0%nat] * at_ X [i; 0%nat])).

(** utils.py:299-330 [_get_scale_series]: unpacking a shape that has not three entries raises ValueError; so does storing a value that is not
    a number; indexing [j] past the first axis of Kin, or a Kin that has not three axes, raises IndexError.  With no neighbours numpy divides 0 by 0 (nan). *)
Definition get_scale_series (ls : lsolver) (Kin col : nd R) (noise_variance : R) : result (list R) :=
  match shape col with
  | [b; n; o] =>
    let! l := sequence (map (fun j =>
      match shape Kin with
      | [bk; _; _] => if (o =? 0)%nat || negb (j <? bk)%nat then Err IndexError else get_scale_one ls Kin col noise_variance n j
      | _ => Err IndexError
      end) (seq 0 b)) in
    Ok (map (fun s => s / INR n) l)
  | _ => Err ValueError
  end.

(** utils.py:412-433 [_make_heteroscedastic_test_nugget]. *)
Definition make_heteroscedastic_test_nugget (batch_count nn_count : nat) (magnitude : R) : nd R :=
  ndmap (Rmult magnitude) (mkNd [batch_count; nn_count] (fun _ => 1)).
