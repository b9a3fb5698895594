(** Model of src/pycba/analysis.py [BeamAnalysis]: forces, validation, assembly, boundary
    conditions, solution, reactions, stability check and its cache. *)
From Verif Require Import Base Linalg SectionModel FlexModel LoadModel FoundationModel
  ElementModel UtilsModel BeamModel.
Open Scope R_scope.

(** Effect of [f[p:p+4] -= v] and of [k[p:p+4, p:p+4] += kb]. *)
Definition sub4 (f : vec) (p : nat) (v : vec) : vec :=
  fun i => if Nat.leb p i && Nat.ltb i (p + 4) then f i - v (i - p)%nat else f i.
Definition add_block (k : mat) (p : nat) (kb : mat) : mat :=
  fun i j => if Nat.leb p i && Nat.ltb i (p + 4) && (Nat.leb p j && Nat.ltb j (p + 4))
             then k i j + kb (i - p)%nat (j - p)%nat else k i j.

Section Gauss.
Variable gl : nat -> list (R * R).

(** analysis.py:588-612 [_forces], for [n] members. *)
Definition an_forces (b : beam) (n : nat) : result vec :=
  do ls <- parsed_loads b;
  foldM (fun f i => do m <- member_at b i;
                    do r <- span_ref gl m (loads_of ls i);
                    Ok (sub4 f (2 * i) r)) (seq 0 n) (fun _ => 0).

(** analysis.py:614-654 [_validate]. *)
Definition an_validate (rs : list R) (ds : list (option R)) (f : vec) (ndof : nat) : result unit :=
  foldM (fun _ i =>
    do r <- get rs i;
    if Rltb 0 r then
      do d <- get ds i;
      match d with
      | Some _ => if Reqb (f i) 0 then Ok tt else Err ValueError
      | None => Ok tt
      end
    else Ok tt) (seq 0 ndof) tt.

(** analysis.py:656-686 [_assemble]. *)
Definition an_assemble (b : beam) (n : nat) : result mat :=
  do k <- foldM (fun k i => do m <- member_at b i;
                            do kb <- span_k gl m;
                            Ok (add_block k (2 * i) kb)) (seq 0 n) (fun _ _ => 0);
  foldM (fun k i => do r <- get (b_R b) i;
                    if Rltb 0 r
                    then Ok (fun p q => if Nat.eqb p i && Nat.eqb q i then k p q + r else k p q)
                    else Ok k) (seq 0 (2 * (n + 1))) k.
End Gauss.

(** analysis.py:688-735 [_apply_bc]: prescribed value of a DOF, if any. *)
Definition bc_value (rs : list R) (ds : list (option R)) (i : nat) : result (option R) :=
  do d <- get ds i;
  match d with
  | Some v => Ok (Some v)
  | None => do r <- get rs i; if Rltb r 0 then Ok (Some 0) else Ok None
  end.
(** analysis.py:727-734: elimination of one DOF. *)
Definition eliminate (k : mat) (f : vec) (i : nat) (di : R) : mat * vec :=
  (fun p q => if Nat.eqb p i && Nat.eqb q i then 1
              else if Nat.eqb p i || Nat.eqb q i then 0 else k p q,
   fun p => if Nat.eqb p i then di else f p - k p i * di).
Definition an_apply_bc (rs : list R) (ds : list (option R)) (ndof : nat) (k : mat) (f : vec)
    : result (mat * vec) :=
  foldM (fun kf i => do c <- bc_value rs ds i;
                     match c with
                     | Some di => Ok (eliminate (fst kf) (snd kf) i di)
                     | None => Ok kf
                     end) (seq 0 ndof) (k, f).

(** analysis.py:787-816 [_solver]. *)
Definition an_solver (ndof : nat) (k : mat) (f : vec) : result vec :=
  match solve ndof k f with Some d => Ok d | None => Err ValueError end.

(** analysis.py:737-785 [_reactions]: reactions at fixed DOFs and spring forces. *)
Definition an_reactions (rs : list R) (ndof : nat) (k : mat) (d f : vec) : result (list R * list R) :=
  do rv <- mapM (get rs) (seq 0 ndof);
  Ok (map (fun i => mulmv ndof k d i - f i) (filter (fun i => Rltb (nth i rv 0) 0) (seq 0 ndof)),
      map (fun i => - nth i rv 0 * d i) (filter (fun i => Rltb 0 (nth i rv 0)) (seq 0 ndof))).

(** What analyze() stores in BeamResults before tabulating members. *)
Record output := { o_d : vec; o_R : list R; o_Rs : list R }.

(** analysis.py:181-207: the analysis object. *)
Record analysis := {
  an_beam : beam; an_n : nat; an_npts : nat; an_checked : option nat; an_out : option output }.

Definition an_ndof (a : analysis) : nat := (2 * (an_n a + 1))%nat.

(** analysis.py:69-207 [__init__]; a missing eletype becomes ones (183-184). *)
Definition analysis_init (c : ctor) : result analysis :=
  do b <- beam_init c;
  Ok {| an_beam := b; an_n := b_nspans b; an_npts := 100; an_checked := None; an_out := None |}.

Definition with_beam (a : analysis) (b : beam) : analysis :=
  {| an_beam := b; an_n := an_n a; an_npts := an_npts a; an_checked := an_checked a; an_out := an_out a |}.
Definition with_checked (a : analysis) (v : option nat) : analysis :=
  {| an_beam := an_beam a; an_n := an_n a; an_npts := an_npts a; an_checked := v; an_out := an_out a |}.
Definition with_npts (a : analysis) (n : nat) : analysis :=
  {| an_beam := an_beam a; an_n := an_n a; an_npts := n; an_checked := an_checked a; an_out := an_out a |}.
Definition with_out (a : analysis) (o : output) : analysis :=
  {| an_beam := an_beam a; an_n := an_n a; an_npts := an_npts a; an_checked := an_checked a; an_out := Some o |}.

(** analysis.py:544-551: the free DOFs. *)
Fixpoint free_dofs (rs : list R) (ds : list (option R)) (is : list nat) : result (list nat) :=
  match is with
  | [] => Ok []
  | i :: t =>
      do r <- get rs i;
      do fixed <- (if Rltb r 0 then Ok true
                   else do d <- get ds i; Ok (match d with Some _ => true | None => false end));
      do l <- free_dofs rs ds t;
      Ok (if fixed : bool then l else i :: l)
  end.

Section Analysis.
Variable gl : nat -> list (R * R).
(** Outcome of the eigenvalue test of analysis.py:554-556 on an [n x n] matrix:
    [true] when the largest eigenvalue magnitude is zero or the smallest is below 1e-12
    of it.  numpy's eigvalsh is not modelled: the theorems hold for any such test. *)
Variable ill : nat -> mat -> bool.

(** analysis.py:508-561 [_check_stability]. *)
Definition check_stability (k : mat) (rs : list R) (ds : list (option R)) (ndof : nat) : result unit :=
  do fr <- free_dofs rs ds (seq 0 ndof);
  match fr with
  | [] => Ok tt
  | _ => if ill (length fr) (fun i j => k (nth i fr 0%nat) (nth j fr 0%nat)) then Err ValueError else Ok tt
  end.

(** analysis.py:563-586 [is_stable].  Exceptions other than ValueError propagate. *)
Definition is_stable (a : analysis) : analysis * result bool :=
  let b := an_beam a in
  match (do k <- an_assemble gl b (an_n a); check_stability k (b_R b) (b_D b) (an_ndof a)) with
  | Ok _ => (with_checked a (Some (b_version b)), Ok true)
  | Err ValueError => (a, Ok false)
  | Err e => (a, Err e)
  end.

Definition opt_eqb (x : option nat) (y : nat) : bool :=
  match x with Some z => Nat.eqb z y | None => false end.

(** analysis.py:406-466 [analyze] up to the reactions (member tabulation is in
    ResultsModel.v).  [npts]: None or an integer. *)
Definition analyze_core (a : analysis) (npts : option nat) (check : bool) : analysis * result output :=
  let a := match npts with Some p => if Nat.ltb 3 p then with_npts a p else a | None => a end in
  let b := an_beam a in
  let N := an_ndof a in
  match (do f <- an_forces gl b (an_n a);
         do _ <- an_validate (b_R b) (b_D b) f N;
         do k <- an_assemble gl b (an_n a);
         Ok (f, k)) with
  | Err e => (a, Err e)
  | Ok (f, k) =>
    let skip := negb check || opt_eqb (an_checked a) (b_version b) in
    match (if skip then Ok tt else check_stability k (b_R b) (b_D b) N) with
    | Err e => (a, Err e)
    | Ok _ =>
      let a := if skip then a else with_checked a (Some (b_version b)) in
      (a, do kf <- an_apply_bc (b_R b) (b_D b) N k f;
          do d <- an_solver N (fst kf) (snd kf);
          do r <- an_reactions (b_R b) N k d f;
          Ok {| o_d := d; o_R := fst r; o_Rs := snd r |})
    end
  end.

(** results.py:116-148 [_member_analysis], first part: end forces of member [i]. *)
Definition member_forces (b : beam) (d : vec) (i : nat) : result vec :=
  do ls <- parsed_loads b;
  do m <- member_at b i;
  do kb <- span_k gl m;
  do r <- span_ref gl m (loads_of ls i);
  Ok (fun p => mulmv 4 kb (fun q => d (2 * i + q)%nat) p + r p).
End Analysis.
