(** Shared vocabulary of the model: exceptions as values, decidable comparisons on
    [R], finite sums, vectors and matrices.  Nothing here is specific to pycba. *)
From Coq Require Export Reals List ZArith Lia Lra Bool.
Export ListNotations.
Open Scope R_scope.

(** Python exception classes the modelled code can raise. *)
Inductive exc :=
| ValueError | KeyError | IndexError | TypeError | AttributeError
| NotImplementedError | NameError | AssertionError
| LinAlgError            (* numpy.linalg.LinAlgError *)
| ZeroDivisionError
| Uninitialised.         (* not an exception: reading an np.empty cell never written *)

Inductive result (A : Type) := Ok (a : A) | Err (e : exc).
Arguments Ok {A}. Arguments Err {A}.

Definition rbind {A B} (x : result A) (f : A -> result B) : result B :=
  match x with Ok a => f a | Err e => Err e end.
Notation "'do' x <- e ; f" := (rbind e (fun x => f))
  (at level 200, x name, e at level 100, f at level 200).

Definition is_ok {A} (x : result A) : Prop := exists a, x = Ok a.

(** [mapM f l]: left-to-right map, first exception wins. *)
Fixpoint mapM {A B} (f : A -> result B) (l : list A) : result (list B) :=
  match l with
  | [] => Ok []
  | a :: t => do b <- f a; do bs <- mapM f t; Ok (b :: bs)
  end.

(** Left-to-right fold whose step may raise. *)
Fixpoint foldM {A S} (f : S -> A -> result S) (l : list A) (s : S) : result S :=
  match l with
  | [] => Ok s
  | a :: t => do s' <- f s a; foldM f t s'
  end.

(** Indexing that raises IndexError out of range. *)
Definition get {A} (l : list A) (i : nat) : result A :=
  match nth_error l i with Some a => Ok a | None => Err IndexError end.

Definition Rltb (x y : R) : bool := if Rlt_dec x y then true else false.
Definition Rleb (x y : R) : bool := if Rle_dec x y then true else false.
Definition Reqb (x y : R) : bool := if Req_EM_T x y then true else false.

(** Sum of [f 0 .. f (n-1)]. *)
Fixpoint rsum (n : nat) (f : nat -> R) : R :=
  match n with O => 0 | S m => rsum m f + f m end.

(** Sum of a list. *)
Definition lsum (l : list R) : R := fold_right Rplus 0 l.

Definition vec := nat -> R.
Definition mat := nat -> nat -> R.

(** [k @ d] restricted to the first [n] columns. *)
Definition mulmv (n : nat) (A : mat) (x : vec) : vec :=
  fun i => rsum n (fun j => A i j * x j).

Definition vupd (v : vec) (i : nat) (x : R) : vec :=
  fun j => if Nat.eqb j i then x else v j.

(** Vectors and 4x4 matrices given by literal entries. *)
Definition vec4 (a b c d : R) : vec :=
  fun i => match i with 0%nat => a | 1%nat => b | 2%nat => c | 3%nat => d | _ => 0 end.
Definition mat4 (r0 r1 r2 r3 : vec) : mat :=
  fun i => match i with 0%nat => r0 | 1%nat => r1 | 2%nat => r2 | 3%nat => r3
           | _ => fun _ => 0 end.

(** numpy.isclose with rtol = 0. *)
Definition isclose0 (a b atol : R) : bool := Rleb (Rabs (a - b)) atol.
(** numpy.isclose(a, b, rtol, atol): |a-b| <= atol + rtol*|b|. *)
Definition isclose (rtol atol a b : R) : bool := Rleb (Rabs (a - b)) (atol + rtol * Rabs b).
