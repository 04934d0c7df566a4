(** Batched linear algebra on [nd R]: the numpy calls used by the GP code. *)
From Verif Require Import Base NdModel RSum.

Definition mat := nat -> nat -> R.

(** The two trailing axes of [t] at batch index [x]. *)
Definition slice2 (t : nd R) (x : list nat) : mat := fun i j => at_ t (x ++ [i; j]).

(** np.linalg.solve for one matrix is an external routine (LAPACK gesv):
    [lsolve n k A B] is [Some X] or [None] for "Singular matrix" (LinAlgError). *)
Definition lsolver := nat -> nat -> mat -> mat -> option mat.

Fixpoint list_eqb (l1 l2 : list nat) : bool :=
  match l1, l2 with
  | [], [] => true
  | a :: l1', b :: l2' => Nat.eqb a b && list_eqb l1' l2'
  | _, _ => false
  end.

Definition is_some {A} (o : option A) : bool := match o with Some _ => true | None => false end.

(** np.linalg.solve(K, B) for K : bs+(n,n), B : bs+(n,k).
    Simplification: batch shapes must be equal (numpy would also broadcast them);
    every caller in the modelled code passes equal batch shapes. *)
Definition np_solve (ls : lsolver) (K B : nd R) : result (nd R) :=
  match rev (shape K), rev (shape B) with
  | n :: n' :: rK, k :: m :: rB =>
    if (n =? n') && (m =? n) && list_eqb rK rB then
      let bs := rev rK in
      if forallb (fun q => is_some (ls n k (slice2 K (unravel bs q)) (slice2 B (unravel bs q))))
                 (seq 0 (nprod bs))
      then Ok (mkNd (shape B) (fun idx =>
             match rev idx with
             | j :: i :: rx =>
               match ls n k (slice2 K (rev rx)) (slice2 B (rev rx)) with
               | Some X => X i j | None => 0%R end
             | _ => 0%R
             end))
      else Err LinAlgError
    else Err ValueError
  | _, _ => Err LinAlgError
  end.

(** ndarray.swapaxes(-2, -1). *)
Definition swap_last {A} (l : list A) : list A :=
  match rev l with b :: a :: r => rev (a :: b :: r) | _ => l end.
Definition swapaxes_last (t : nd R) : nd R :=
  mkNd (swap_last (shape t)) (fun idx => at_ t (swap_last idx)).

(** A @ B on the two trailing axes. Simplification: equal batch shapes. *)
Definition np_matmul (A B : nd R) : result (nd R) :=
  match rev (shape A), rev (shape B) with
  | m :: p :: rA, q :: m' :: rB =>
    if (m =? m') && list_eqb rA rB then
      Ok (mkNd (rev rA ++ [p; q]) (fun idx =>
        match rev idx with
        | j :: i :: rx => rsum m (fun l => at_ A (rev rx ++ [i; l]) * at_ B (rev rx ++ [l; j]))%R
        | _ => 0%R
        end))
    else Err ValueError
  | _, _ => Err ValueError
  end.
