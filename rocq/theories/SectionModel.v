(** Model of src/pycba/section.py: segment-built variable rigidity. *)
From Coq Require Import String.
From Verif Require Import Base.
Open Scope R_scope.

(** numpy.polyval: coefficients highest order first (Horner). *)
Definition polyval (coeffs : list R) (x : R) : R :=
  fold_left (fun acc c => acc * x + c) coeffs 0.

(** section.py:50-68 [_Piece]. *)
Record piece := { p_x0 : R; p_x1 : R; p_coeffs : list R; p_degree : nat }.

(** section.py:67-68 [_Piece.__call__]. *)
Definition piece_eval (p : piece) (x : R) : R := polyval (p_coeffs p) x.

(** section.py:117-121: the state of a [SectionEI]. *)
Record sect := {
  s_pieces : list piece;
  s_joins : list R;
  s_kinks : list R;
  s_x0 : R;
  s_end : R }.

(** section.py:117-121: empty section. *)
Definition sect_empty : sect :=
  {| s_pieces := []; s_joins := []; s_kinks := []; s_x0 := 0; s_end := 0 |}.

(** The [ei] argument of add_segment (section.py:142): scalar, array or callable. *)
Inductive eiarg := EScalar (r : R) | EArr (l : list R) | EFun (f : R -> R).

(** np.asarray(ei, dtype=float).ravel(); a callable cannot be converted (TypeError). *)
Definition ei_ravel (e : eiarg) : result (list R) :=
  match e with EScalar r => Ok [r] | EArr l => Ok l | EFun _ => Err TypeError end.

(** section.py:278-283 [_scalar]. *)
Definition ei_scalar (e : eiarg) : result R :=
  do l <- ei_ravel e;
  match l with [r] => Ok r | _ => Err ValueError end.

(** section.py:285-288 [_check_positive]. *)
Definition check_positive (l : list R) : result unit :=
  if existsb (fun v => Rleb v 0) l then Err ValueError else Ok tt.

(** section.py:199: all np.diff(x) > 0. *)
Fixpoint strictly_incr (x : list R) : bool :=
  match x with
  | a :: ((b :: _) as t) => negb (Rleb (b - a) 0) && strictly_incr t
  | _ => true
  end.

(** section.py:235-241: one linear piece per consecutive station pair. *)
Fixpoint linear_pieces (x y : list R) : list piece :=
  match x, y with
  | xa :: ((xb :: _) as xt), ya :: ((yb :: _) as yt) =>
      let slope := (yb - ya) / (xb - xa) in
      {| p_x0 := xa; p_x1 := xb; p_coeffs := [slope; ya - slope * xa]; p_degree := 1 |}
        :: linear_pieces xt yt
  | _, _ => []
  end.

(** section.py:242-243: interior stations are kinks. *)
Definition interior (x : list R) : list R := removelast (tl x).

Definition head_R (x : list R) : R := hd 0 x.
Definition last_R (x : list R) : R := last x 0.

(** numpy.linspace(a, b, n) for n >= 2. *)
Definition linspace (a b : R) (n : nat) : list R :=
  map (fun i => a + INR i * ((b - a) / INR (n - 1))) (seq 0 n).

Section Polyfit.
(** numpy.polyfit(x, y, deg): least-squares fit, not modelled; any function. *)
Variable polyfit : list R -> list R -> nat -> list R.

(** section.py:138-273 [add_segment].  The [seg_type] string is compared literally.
    The state is only changed at the very end, as in the code (lines 265-272). *)
Definition add_segment (s : sect) (seg_type : string) (x : list R) (ei : eiarg)
    (degree : option nat) : result sect :=
  if negb (String.eqb seg_type "const"%string || String.eqb seg_type "linear"%string
           || String.eqb seg_type "pwl"%string || String.eqb seg_type "poly"%string) then Err ValueError
  else if Nat.ltb (length x) 2 then Err ValueError
  else if negb (strictly_incr x) then Err ValueError
  else
    let x0 := head_R x in
    let x1 := last_R x in
    let anchor := match s_pieces s with [] => 0 | _ => s_end s end in
    if negb (isclose0 x0 anchor (1e-9 * Rmax 1 (Rabs anchor))) then Err ValueError
    else
      do nw <-
        (if String.eqb seg_type "const"%string then
           do v <- ei_scalar ei;
           do _ <- check_positive [v];
           Ok ([{| p_x0 := x0; p_x1 := x1; p_coeffs := [v]; p_degree := 0 |}], [])
         else if String.eqb seg_type "linear"%string || String.eqb seg_type "pwl"%string then
           do arr <- ei_ravel ei;
           if negb (Nat.eqb (length arr) (length x)) then Err ValueError
           else if String.eqb seg_type "linear"%string && negb (Nat.eqb (length x) 2) then Err ValueError
           else
             do _ <- check_positive arr;
             Ok (linear_pieces x arr, interior x)
         else (* poly *)
           match ei with
           | EFun f =>
               let deg := match degree with None => 8%nat | Some d => d end in
               let xs := linspace x0 x1 (deg + 2) in
               let ys := map f xs in
               do _ <- check_positive ys;
               Ok ([{| p_x0 := x0; p_x1 := x1; p_coeffs := polyfit xs ys deg; p_degree := deg |}], [])
           | _ =>
               do arr <- ei_ravel ei;
               if negb (Nat.eqb (length arr) (length x)) then Err ValueError
               else
                 do _ <- check_positive arr;
                 let deg := match degree with None => (length x - 1)%nat | Some d => d end in
                 Ok ([{| p_x0 := x0; p_x1 := x1; p_coeffs := polyfit x arr deg; p_degree := deg |}], [])
           end);
      Ok {| s_pieces := s_pieces s ++ fst nw;
            s_joins := s_joins s ++ [x1];
            s_kinks := s_kinks s ++ snd nw;
            s_x0 := match s_joins s with [] => x0 | _ => s_x0 s end;
            s_end := x1 |}.
End Polyfit.

(** section.py:293-296 [length]. *)
Definition sect_length (s : sect) : R := s_end s - s_x0 s.

(** Insertion sort, for sorted(...) / np.unique on reals. *)
Fixpoint insert_R (x : R) (l : list R) : list R :=
  match l with
  | [] => [x]
  | y :: t => if Rle_dec x y then x :: l else y :: insert_R x t
  end.
Definition sort_R (l : list R) : list R := fold_right insert_R [] l.

(** section.py:313-314: keep an entry when it exceeds its predecessor by more than tol
    (predecessor in the sorted array, kept or not). *)
Fixpoint keep_gaps (tol prev : R) (l : list R) : list R :=
  match l with
  | [] => []
  | b :: t => if Rltb tol (b - prev) then b :: keep_gaps tol b t else keep_gaps tol b t
  end.

(** section.py:298-314 [breakpoints]. *)
Definition breakpoints (s : sect) : list R :=
  match sort_R (s_x0 s :: s_joins s ++ s_kinks s) with
  | [] => []
  | b :: t => b :: keep_gaps (1e-9 * Rmax 1 (sect_length s)) b t
  end.

(** section.py:321-329 [is_constant]. *)
Definition is_constant (s : sect) : bool :=
  match s_pieces s with
  | [] => false
  | p :: _ =>
      if existsb (fun q => Nat.ltb 0 (p_degree q)) (s_pieces s) then false
      else forallb (fun q => isclose 1e-5 1e-8 (last (p_coeffs q) 0) (last (p_coeffs p) 0))
                   (s_pieces s)
  end.

(** section.py:331-354 [validate_length] with the default atol. *)
Definition validate_length (s : sect) (L : R) : result unit :=
  match s_pieces s with
  | [] => Err ValueError
  | _ => if isclose0 (sect_length s) L (1e-6 * Rmax 1 (Rabs L)) then Ok tt else Err ValueError
  end.

(** section.py:384-388: first piece whose interval (widened by 1e-12) contains x. *)
Fixpoint find_piece (ps : list piece) (x : R) : option piece :=
  match ps with
  | [] => None
  | p :: t => if Rleb (p_x0 p - 1e-12) x && Rleb x (p_x1 p + 1e-12) then Some p
              else find_piece t x
  end.

(** section.py:356-399 [__call__] at one point.  A point that no branch assigns keeps
    the np.empty value: [Err Uninitialised]. *)
Definition sect_eval (s : sect) (x : R) : result R :=
  match s_pieces s with
  | [] => Err ValueError
  | p0 :: _ =>
      match find_piece (s_pieces s) x with
      | Some p => Ok (piece_eval p x)
      | None =>
          if Rltb x (s_x0 s) then Ok (piece_eval p0 x)
          else if Rltb (s_end s) x then Ok (piece_eval (last (s_pieces s) p0) x)
          else Err Uninitialised
      end
  end.

(** beam.py / load.py accept a scalar or a SectionEI as rigidity. *)
Inductive rigid := RConst (EI : R) | RSect (s : sect).
