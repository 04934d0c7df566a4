(** Model of the simulation samplers used by the tutorials (/repo/src/MuyGPyS/_test/sampler.py).  Plotting is not modelled, except for the
    array that _make_im hands to the plotting library. *)
From Flocq Require Import Core.
From Verif Require Import Base NdModel RSum NoiseModel LibSpec MpiModel BenchModel.
Local Open Scope R_scope.

(** Python's [int(n * ratio)] with a float [ratio]: the product is rounded to double precision, then truncated toward zero.  The exponent range
    of doubles is not modelled. *)
Definition int_mul (n : nat) (ratio : R) : Z := Ztrunc (round radix2 (FLX_exp 53) ZnearestE (INR n * ratio)).

(** The loop of SamplerBase.__init__ (sampler.py:26-28): one element of every slice sfl[i * interval : (i + 1) * interval]; np.random.choice
    of an empty array is a ValueError.  [pick i l] is the element drawn from [l] in iteration [i]. *)
Fixpoint split_loop (pick : nat -> list nat -> nat) (sfl : list nat) (interval i fuel : nat) : result (list nat) :=
  match fuel with
  | O => Ok []
  | S fuel =>
    match firstn interval (skipn (i * interval) sfl) with
    | [] => Err ValueError
    | slice => let! rest := split_loop pick sfl interval (S i) fuel in Ok (pick i slice :: rest)
    end
  end.

(** [SamplerBase.__init__] (sampler.py:19-29): training and test masks.  [sfl] is rng.permutation(np.arange(data_count)). *)
Definition sampler_split (data_count : nat) (train_ratio : R) (sfl : list nat) (pick : nat -> list nat -> nat)
  : result (list bool * list bool) :=
  let interval_count := int_mul data_count train_ratio in
  if (interval_count =? 0)%Z then Err ZeroDivisionError
  else
    let! chosen :=
      if (interval_count <? 0)%Z then Ok []
      else split_loop pick sfl (Z.to_nat (int_true_div data_count (Z.to_nat interval_count))) 0 (Z.to_nat interval_count) in
    let train_mask := map (fun i => existsb (Nat.eqb i) chosen) (seq 0 data_count) in
    Ok (train_mask, map negb train_mask).

(** Boolean indexing t[mask] on the first axis. *)
Definition true_positions (mask : list bool) : list nat := filter (fun i => nth i mask false) (seq 0 (List.length mask)).
Definition mask_rows (t : nd R) (mask : list bool) : result (nd R) :=
  match shape t with
  | [] => Err IndexError
  | n :: rest =>
    if (n =? List.length mask)%nat
    then Ok (mkNd (List.length (true_positions mask) :: rest)
           (fun idx => match idx with a :: l => at_ t (nth a (true_positions mask) 0%nat :: l) | [] => 0 end))
    else Err IndexError
  end.

(** np.linspace(0, 1, n). *)
Definition linspace01 (n : nat) : nd R := mkNd [n] (fun idx => match idx with [j] => INR j / INR (n - 1) | _ => 0 end).

(** The grid of UnivariateSampler2D (sampler.py:253-261): xx, yy = np.meshgrid(x, x), so xx[i, j] = x[j] and yy[i, j] = x[i]. *)
Definition grid_rows (x : nat -> R) (p : nat) : list (R * R) :=
  flat_map (fun i => map (fun j => (x j, x i)) (seq 0 p)) (seq 0 p).
Definition grid2 (p : nat) : nd R :=
  let rows := grid_rows (fun j => at_ (linspace01 p) [j]) p in
  mkNd [List.length rows; 2%nat] (fun idx => match idx with
    | [r; O] => fst (nth r rows (0, 0)) | [r; _] => snd (nth r rows (0, 0)) | _ => 0 end).

(** A sampler object: all rows, masks, the GP to draw from and the value of the measurement noise (a scalar noise model). *)
Record sampler := mkSampler {
  sm_x : nd R; sm_train_mask : list bool; sm_test_mask : list bool; sm_train : nd R; sm_test : nd R; sm_gp : bench_gp; sm_noise : R
}.

(** The common part of UnivariateSampler.__init__ (sampler.py:51-59) and UnivariateSampler2D.__init__ (sampler.py:250-267). *)
Definition make_sampler (x : nd R) (data_count : nat) (train_ratio : R) (sfl : list nat) (pick : nat -> list nat -> nat)
  (K : libkernel) (cur : nat -> R) (noise : noise_model) (measurement_noise : R) : result sampler :=
  let! masks := sampler_split data_count train_ratio sfl pick in
  let! test := mask_rows x (snd masks) in
  let! train := mask_rows x (fst masks) in
  Ok (mkSampler x (fst masks) (snd masks) train test (benchmark_gp K cur noise) measurement_noise).

(** UnivariateSampler (sampler.py:35-60) and UnivariateSampler2D (sampler.py:238-267). *)
Definition univariate_sampler (data_count : nat) := make_sampler (linspace01 data_count) data_count.
Definition univariate_sampler_2d (points_per_dim : nat) := make_sampler (grid2 points_per_dim) (points_per_dim * points_per_dim).

Section Sample.
Variables (gamma : R -> R) (kv : R -> R -> R).

(** [sample] (sampler.py:72-78, 272-278): (train_responses, test_responses).  [z] and [e] are standard normal draws; np.random.normal(0, s)
    is s times such a draw, and a ValueError when s < 0. *)
Definition sampler_sample (ch : cholesky_fn) (s : sampler) (z e : nat -> R) : result (nd R * nd R) :=
  let! y := benchmark_sample gamma kv ch (sm_gp s) (sm_x s) z in
  let! test_responses := mask_rows y (sm_test_mask s) in
  let! clean := mask_rows y (sm_train_mask s) in
  if Rlt_dec (sm_noise s) 0 then Err ValueError
  else Ok (mkNd (shape clean) (fun idx => at_ clean idx + sm_noise s * e (hd 0%nat idx)), test_responses).
End Sample.

(** [get_interval] (sampler.py:187-190): the positions with lb <= x <= ub. *)
Definition get_interval (lb ub : R) (n : nat) (ys : nat -> R) : list nat :=
  filter (fun i => if Rle_dec lb (ys i) then if Rle_dec (ys i) ub then true else false else false) (seq 0 n).

(** [_make_im] (sampler.py:381-399), the image; [None] is -inf.  [im[mask] = array] needs one value per selected position, or a single value. *)
Definition make_im (p : nat) (array : nd R) (mask : option (list bool)) (add_inf : bool) : result (nd (option R)) :=
  match mask with
  | Some mask =>
    if negb (List.length mask =? p * p)%nat then Err IndexError
    else
      let k := List.length (true_positions mask) in
      let! value := match shape array with
        | [] => Ok (fun _ => at_ array [])
        | [m] => if (m =? k)%nat then Ok (fun a => at_ array [a])
                 else if (m =? 1)%nat then Ok (fun _ => at_ array [0%nat]) else Err ValueError
        | _ => Err ValueError
        end in
      Ok (mkNd [p; p] (fun idx => match idx with
        | [i; j] =>
          let r := (i * p + j)%nat in
          if nth r mask false then Some (value (List.length (true_positions (firstn r mask))))
          else if add_inf then None else Some 0
        | _ => None end))
  | None =>
    let! im := reshape array [p; p] in
    Ok (mkNd [p; p] (fun idx => Some (at_ im idx)))
  end.
