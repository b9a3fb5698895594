(** Exact linear solver standing for [numpy.linalg.solve].

    LAPACK's gesv (LU with partial pivoting, floating point) is replaced by an exact
    Gaussian elimination over R: eliminate the last unknown, taking as pivot row the
    first row with a non-zero entry in that column.  As numpy, it fails (LinAlgError)
    when no pivot exists.  Correctness (soundness, completeness, uniqueness) is proved
    in LinalgFacts.v, so nothing depends on the elimination order. *)
From Verif Require Import Base.

(** First row index [p < n] with [A p c <> 0]. *)
Fixpoint find_pivot (n : nat) (A : mat) (c : nat) : option nat :=
  match n with
  | O => None
  | S m => match find_pivot m A c with
           | Some p => Some p
           | None => if Req_EM_T (A m c) 0 then None else Some m
           end
  end.

Definition swap_ix (p q i : nat) : nat :=
  if Nat.eqb i p then q else if Nat.eqb i q then p else i.

(** Solve [A x = b] for the leading [n x n] block. *)
Fixpoint solve (n : nat) (A : mat) (b : vec) : option vec :=
  match n with
  | O => Some (fun _ => 0)
  | S m =>
      match find_pivot (S m) A m with
      | None => None
      | Some p =>
          let A' := fun i j => A (swap_ix p m i) j in
          let b' := fun i => b (swap_ix p m i) in
          let piv := A' m m in
          let A'' := fun i j => A' i j - A' i m / piv * A' m j in
          let b'' := fun i => b' i - A' i m / piv * b' m in
          match solve m A'' b'' with
          | None => None
          | Some x => Some (vupd x m ((b' m - rsum m (fun j => A' m j * x j)) / piv))
          end
      end
  end.

Definition unit_vec (j : nat) : vec := fun i => if Nat.eqb i j then 1 else 0.

(** [numpy.linalg.inv] of the leading block: column [j] solves [A x = e_j].  The default
    in the inner match is unreachable: solvability does not depend on the right-hand
    side ([LinalgFacts.solve_some_any]). *)
Definition inv (n : nat) (A : mat) : option mat :=
  match solve n A (fun _ => 0) with
  | None => None
  | Some _ => Some (fun i j => match solve n A (unit_vec j) with Some x => x i | None => 0 end)
  end.
