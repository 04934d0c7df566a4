(** Model of examples/classify.py (prediction) and examples/two_class_classify_uq.py. *)
From Verif Require Import Base NdModel LinAlgModel TensorModel.
Local Open Scope R_scope.

(** np.max / np.min of the n+1 numbers f 0 .. f n (NaN not modelled). *)
Fixpoint np_max (n : nat) (f : nat -> R) : R :=
  match n with O => f O | S n' => Rmax (np_max n' f) (f n) end.
Fixpoint np_min (n : nat) (f : nat -> R) : R :=
  match n with O => f O | S n' => Rmin (np_min n' f) (f n) end.

(** np.argmax over the n+1 numbers f 0 .. f n: the first position of the maximum. *)
Fixpoint np_argmax (n : nat) (f : nat -> R) : nat :=
  match n with O => O | S n' => let a := np_argmax n' f in if Rltb (f a) (f n) then n else a end.

(** classify.py:581-583, two_class_classify_uq.py:391-393: nonconstant_mask of a
    (test, nn, class) label tensor -- the maximum and minimum of the *first* label column. *)
Definition nonconstant (w : nat) (L : nd R) (x : nat) : bool :=
  negb (Reqb (np_max (w - 1) (fun j => at_ L [x; j; O])) (np_min (w - 1) (fun j => at_ L [x; j; O]))).

(** np.where(mask)[0]. *)
Definition where_ (t : nat) (mask : nat -> bool) : list nat := filter mask (seq 0 t).
(** Position of row x among the selected rows. *)
Definition rank (mask : nat -> bool) (x : nat) : nat := List.length (where_ x mask).

(** An index vector holding the listed rows; test_nn_indices[mask]. *)
Definition index_vector (l : list nat) : nd Z :=
  mkNd [List.length l] (fun idx => match idx with [i] => Z.of_nat (nth i l O) | _ => 0%Z end).
Definition select_rows (t : nd Z) (l : list nat) : nd Z :=
  mkNd (List.length l :: tl (shape t))
       (fun idx => match idx with i :: rest => at_ t (nth i l O :: rest) | [] => 0%Z end).

(** out[mask] = v for k selected rows of row shape [sh]: numpy broadcasts v to k :: sh or
    raises ValueError. *)
Definition fits_rows {A} (v : nd A) (k : nat) (sh : list nat) : bool :=
  match bshape (shape v) (k :: sh) with Some s => list_eqb s (k :: sh) | None => false end.

(** classify.py:537-607 [classify_any].  [surrogate ix nn] is
    posterior_mean_from_indices(surrogate, ix, nn, test, train, labels); [test_nn] is what
    get_nns(test_features) returned.  The np.full of line 580 is overwritten in every row. *)
Definition classify_any (surrogate : nd Z -> nd Z -> result (nd R)) (labels : nd R) (test_nn : nd Z)
  : result (nd R) :=
  match shape labels with
  | [train_count; class_count] =>
    if (train_count =? 0)%nat then Err IndexError
    else if (class_count =? 0)%nat then Err ValueError
    else
      let! L := take labels test_nn in
      match shape L with
      | [t; w; _] =>
        if ((w =? 0) && negb (t =? 0))%nat%bool then Err ValueError
        else
          let mask := nonconstant w L in
          let todo := where_ t mask in
          let k := List.length todo in
          if (k =? 0)%nat
          then Ok (mkNd [t; class_count] (fun idx => match idx with [x; c] => at_ L [x; O; c] | _ => 0 end))
          else
            let! P := surrogate (index_vector todo) (select_rows test_nn todo) in
            if fits_rows P k [class_count]
            then Ok (mkNd [t; class_count] (fun idx => match idx with
                   | [x; c] => if mask x then at_ P (bidx (shape P) [rank mask x; c]) else at_ L [x; O; c]
                   | _ => 0 end))
            else Err ValueError
      | _ => Err IndexError
      end
  | _ => Err ValueError
  end.

(** two_class_classify_uq.py:346-423 [classify_two_class_uq]; the means buffer has exactly two
    columns, so a label matrix with other than one or two columns raises ValueError (a constant
    row is assigned by broadcasting). *)
Definition classify_two_class_uq (surrogate : nd Z -> nd Z -> result (nd R * nd R)) (labels : nd R)
  (test_nn : nd Z) : result (nd R * nd R) :=
  let! L := take labels test_nn in
  match shape L with
  | [t; w; class_count] =>
    if (class_count =? 0)%nat then Err IndexError
    else if ((w =? 0) && negb (t =? 0))%nat%bool then Err ValueError
    else
      let mask := nonconstant w L in
      let todo := where_ t mask in
      let k := List.length todo in
      let const_ok := ((class_count =? 1) || (class_count =? 2))%nat%bool in
      if negb const_ok then Err ValueError
      else
        let lab x c := at_ L [x; O; if (class_count =? 1)%nat then O else c] in
        if (k =? 0)%nat
        then Ok (mkNd [t; 2%nat] (fun idx => match idx with [x; c] => lab x c | _ => 0 end),
                 mkNd [t] (fun _ => 0))
        else
          let! (P, V) := surrogate (index_vector todo) (select_rows test_nn todo) in
          if fits_rows P k [2%nat] then
            if fits_rows V k [] then
              Ok (mkNd [t; 2%nat] (fun idx => match idx with
                    | [x; c] => if mask x then at_ P (bidx (shape P) [rank mask x; c]) else lab x c
                    | _ => 0 end),
                  mkNd [t] (fun idx => match idx with
                    | [x] => if mask x then at_ V (bidx (shape V) [rank mask x]) else 0
                    | _ => 0 end))
            else Err ValueError
          else Err ValueError
  | _ => Err IndexError
  end.

(** two_class_classify_uq.py:251-291 [make_masks]: one row of booleans per cutoff. *)
Definition in_mask (p v cut mid : R) : bool := (Rltb (p - cut * v) mid && Rltb mid (p + cut * v))%bool.
Definition make_masks (predictions : nd R) (cutoffs : list R) (variances : nd R) (mid_value : R)
  : result (list (list bool)) :=
  match shape predictions with
  | [t; c] =>
    let! v := reshape variances [t] in
    match cutoffs with
    | [] => Ok []
    | _ =>
      if (c <? 2)%nat then Err IndexError
      else Ok (map (fun cut => map (fun x => in_mask (at_ predictions [x; 1%nat]) (at_ v [x]) cut mid_value)
                                   (seq 0 t)) cutoffs)
    end
  | _ => Err ValueError
  end.

(** np.mean of a boolean selection; NaN when nothing is selected. *)
Definition count_true (l : list bool) : nat := List.length (filter (fun b => b) l).
Definition bool_mean (l : list bool) : num :=
  match l with [] => NaN | _ => Fin (INR (count_true l) / INR (List.length l)) end.
(** l[mask]; IndexError when the lengths differ. *)
Definition masked {A} (l : list A) (mask : list bool) : list A := map fst (filter snd (combine l mask)).

(** two_class_classify_uq.py:327-331: rows predicted correctly. *)
Definition correct_rows (predictions labels : nd R) : result (list bool) :=
  match shape predictions, shape labels with
  | [t; S c], [t'; S c'] =>
    if (t =? t')%nat then
      Ok (map (fun x => np_argmax c (fun i => at_ predictions [x; i]) =?
                        np_argmax c' (fun i => at_ labels [x; i]))%nat (seq 0 t))
    else Err ValueError
  | _, _ => Err ValueError
  end.

(** two_class_classify_uq.py:332-343: one report row per mask. *)
Definition uq_row (correct : list bool) (mask : list bool) : result (num * num * num) :=
  if (List.length mask =? List.length correct)%nat then
    let n := count_true mask in
    let amb := if (n =? 0)%nat then Fin 0 else bool_mean (masked correct mask) in
    Ok (Fin (INR n), amb, bool_mean (masked correct (map negb mask)))
  else Err IndexError.
Definition do_uq (predictions labels : nd R) (masks : list (list bool)) : result (num * list (num * num * num)) :=
  let! correct := correct_rows predictions labels in
  let! rows := sequence (map (uq_row correct) masks) in
  Ok (bool_mean correct, rows).

(** two_class_classify_uq.py:483 cutv = np.linspace(0.01, 20, 1999). *)
Definition grid_count : nat := Z.to_nat 1999.
Definition cutv (i : nat) : R := 1 / 100 + INR i * ((20 - 1 / 100) / 1998).

(** two_class_classify_uq.py:487-513: the interval used in training, and the two error rates.
    np.sqrt of a negative variance is NaN and every comparison with NaN is False; Coq's sqrt
    returns 0 there and the strict comparisons are then False too. *)
Definition in_train_interval (m v cut : R) : bool :=
  (Rltb (m - cut * sqrt v) 0 && Rltb 0 (m + cut * sqrt v))%bool.
Definition num_one_minus (a : num) : num := match a with Fin r => Fin (1 - r) | _ => a end.
Definition alpha (mean var : list R) (incorrect : list bool) (cut : R) : num :=
  num_one_minus (bool_mean (masked (map (fun mv => in_train_interval (fst mv) (snd mv) cut) (combine mean var)) incorrect)).
Definition beta (mean var : list R) (correct : list bool) (cut : R) : num :=
  bool_mean (masked (map (fun mv => in_train_interval (fst mv) (snd mv) cut) (combine mean var)) correct).

(** two_class_classify_uq.py:470-523 [train_two_class_interval] after regress_from_indices:
    [mean1] is the second column of the means, [correct] compares 2*argmax-1 with the targets. *)
Definition train_cutoffs (mean1 var : list R) (correct : list bool)
  (objectives : list ((nat -> num) -> (nat -> num) -> nat -> nat -> Z)) : result (list R) :=
  let incorrect := map negb correct in
  let al := fun i => alpha mean1 var incorrect (cutv i) in
  let be := fun i => beta mean1 var correct (cutv i) in
  sequence (map (fun f => match norm_index grid_count (f al be (count_true correct) (count_true incorrect)) with
                          | Some i => Ok (cutv i) | None => Err IndexError end) objectives).

(** NaN-propagating arithmetic and np.argmin, which returns the first NaN if there is one. *)
Definition num_lin (a : R) (x : num) (b : R) (y : num) : num :=
  match x, y with Fin u, Fin v => Fin (a * u + b * v) | _, _ => NaN end.
Definition is_nan (x : num) : bool := match x with NaN => true | _ => false end.
Fixpoint np_argmin (n : nat) (f : nat -> num) : nat :=
  match n with
  | O => O
  | S n' => let a := np_argmin n' f in
            if is_nan (f a) then a else if is_nan (f n) then n
            else if num_ltb (f n) (f a) then n else a
  end.

(** two_class_classify_uq.py:46-60 example_lambdas. *)
Definition weighted_objective (a : R) (al be : nat -> num) (correct incorrect : nat) : Z :=
  Z.of_nat (np_argmin (grid_count - 1) (fun i => num_lin a (al i) 1 (be i))).
Definition counted_objective (al be : nat -> num) (correct incorrect : nat) : Z :=
  Z.of_nat (np_argmin (grid_count - 1) (fun i => num_lin (INR incorrect) (al i) (INR correct) (be i))).
Definition example_lambdas : list ((nat -> num) -> (nat -> num) -> nat -> nat -> Z) :=
  [weighted_objective 1; weighted_objective 2; weighted_objective 4; weighted_objective 10; counted_objective].
