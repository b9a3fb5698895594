(** Model of src/pycba/prestress.py: tendon profiles and their equivalent loads
    (lines 55-424).  Plotting (lines 427-538) is not modelled. *)
From Verif Require Import Base LoadModel.
Open Scope R_scope.

(** prestress.py:55 [_TOL]. *)
Definition tol : R := 1e-9.

(** Python's [x / y] on floats. *)
Definition pydiv (x y : R) : result R := if Reqb y 0 then Err ZeroDivisionError else Ok (x / y).

(** prestress.py:58-78 [_Seg]. *)
Record seg := { sg_x1 : R; sg_x2 : R; sg_e1 : R; sg_e2 : R; sg_epp : R }.
(** prestress.py:68-70 [length]. *)
Definition seg_length (s : seg) : R := sg_x2 s - sg_x1 s.
(** prestress.py:72-75 [slope_start]. *)
Definition slope_start (s : seg) : result R :=
  do q <- pydiv (sg_e2 s - sg_e1 s) (seg_length s);
  Ok (q - 5e-1 * sg_epp s * seg_length s).
(** prestress.py:77-78 [slope_end]. *)
Definition slope_end (s : seg) : result R :=
  do q <- slope_start s; Ok (q + sg_epp s * seg_length s).

(** prestress.py:81-86 [_parabola_through]. *)
Definition parabola_through (x1 e1 x2 e2 xm em : R) : result R :=
  do f01 <- pydiv (em - e1) (xm - x1);
  do f12 <- pydiv (e2 - em) (x2 - xm);
  pydiv (2 * (f12 - f01)) (x2 - x1).

(** The profile dataclasses: prestress.py:92-117, 152-176, 214-237, 256-281. *)
Inductive profile :=
| Parabola (e_left e_mid e_right c_left c_right : R)
| CompoundParabola (e_left e_mid e_right a b c : R)
| Harp (e_left e_mid e_right a c_left c_right : R)
| DoubleHarp (e_left e_1 e_2 e_right a b c_left c_right : R).

(** The [cantilever] argument: the strings "left" and "right" (the free tip's side). *)
Inductive tip := TipLeft | TipRight.

Definition flat_if (c x1 x2 e : R) : list seg :=
  if Rltb tol c then [{| sg_x1 := x1; sg_x2 := x2; sg_e1 := e; sg_e2 := e; sg_epp := 0 |}] else [].

(** prestress.py:119-149 [Parabola.segments]. *)
Definition parabola_segments (el em er cl cr L : R) (cant : option tip) : result (list seg) :=
  match cant with
  | Some TipRight =>
      let x1 := cl in let x2 := L in let Le := x2 - x1 in
      do epp <- pydiv (2 * (er - el)) (Le ^ 2);
      Ok (flat_if cl 0 x1 el ++
          [{| sg_x1 := x1; sg_x2 := x2; sg_e1 := el; sg_e2 := er; sg_epp := epp |}])
  | Some TipLeft =>
      let x1 := 0 in let x2 := L - cr in let Le := x2 - x1 in
      do epp <- pydiv (2 * (el - er)) (Le ^ 2);
      Ok ([{| sg_x1 := x1; sg_x2 := x2; sg_e1 := el; sg_e2 := er; sg_epp := epp |}] ++
          flat_if cr x2 L er)
  | None =>
      let x1 := cl in let x2 := L - cr in let Le := x2 - x1 in
      if Rleb Le tol then Err ValueError
      else
        let xm := 5e-1 * (x1 + x2) in
        do epp <- parabola_through x1 el x2 er xm em;
        Ok (flat_if cl 0 x1 el ++
            [{| sg_x1 := x1; sg_x2 := x2; sg_e1 := el; sg_e2 := er; sg_epp := epp |}] ++
            flat_if cr x2 L er)
  end.

(** prestress.py:178-211 [CompoundParabola.segments]. *)
Definition compound_segments (el em er a b c L : R) (cant : option tip) : result (list seg) :=
  match cant with
  | Some _ => Err NotImplementedError
  | None =>
      let d := L - b in
      if negb (Rltb 0 a && Rltb a c && Rltb c d && Rltb d L)%bool then Err ValueError
      else
        do ac <- pydiv a c;
        let a1 := ac * (em - el) in
        let a2 := (em - el) - a1 in
        do bd <- pydiv b d;
        let a4 := bd * (em - er) in
        let a3 := (em - er) - a4 in
        let e_a := el + a1 in
        let e_d := er + a4 in
        do epp1 <- pydiv (2 * a1) (a ^ 2);
        do epp2 <- pydiv (- (2) * a2) ((c - a) ^ 2);
        do epp3 <- pydiv (- (2) * a3) ((d - c) ^ 2);
        do epp4 <- pydiv (2 * a4) (b ^ 2);
        Ok [{| sg_x1 := 0; sg_x2 := a; sg_e1 := el; sg_e2 := e_a; sg_epp := epp1 |};
            {| sg_x1 := a; sg_x2 := c; sg_e1 := e_a; sg_e2 := em; sg_epp := epp2 |};
            {| sg_x1 := c; sg_x2 := d; sg_e1 := em; sg_e2 := e_d; sg_epp := epp3 |};
            {| sg_x1 := d; sg_x2 := L; sg_e1 := e_d; sg_e2 := er; sg_epp := epp4 |}]
  end.

Definition line (x1 x2 e1 e2 : R) : seg :=
  {| sg_x1 := x1; sg_x2 := x2; sg_e1 := e1; sg_e2 := e2; sg_epp := 0 |}.

(** prestress.py:239-253 [Harp.segments]. *)
Definition harp_segments (el em er a cl cr L : R) : result (list seg) :=
  let xb := a in let xl := cl in let xr := L - cr in
  if negb (Rltb xl xb && Rltb xb xr)%bool then Err ValueError
  else Ok (flat_if cl 0 xl el ++ [line xl xb el em; line xb xr em er] ++ flat_if cr xr L er).

(** prestress.py:283-298 [DoubleHarp.segments]. *)
Definition double_harp_segments (el e1 e2 er a b cl cr L : R) : result (list seg) :=
  let xa := a in let xb := b in let xl := cl in let xr := L - cr in
  if negb (Rltb xl xa && Rltb xa xb && Rltb xb xr)%bool then Err ValueError
  else Ok (flat_if cl 0 xl el ++ [line xl xa el e1; line xa xb e1 e2; line xb xr e2 er]
           ++ flat_if cr xr L er).

(** Dispatch of [prof.segments(L, cant)]. *)
Definition segments (p : profile) (L : R) (cant : option tip) : result (list seg) :=
  match p with
  | Parabola el em er cl cr => parabola_segments el em er cl cr L cant
  | CompoundParabola el em er a b c => compound_segments el em er a b c L cant
  | Harp el em er a cl cr => harp_segments el em er a cl cr L
  | DoubleHarp el e1 e2 er a b cl cr => double_harp_segments el e1 e2 er a b cl cr L
  end.

(** prestress.py:360-366 and 419-424 [_cantilever_side]: [rs] the restraint list. *)
Definition cantilever_side (rs : list R) (i : nat) : result (option tip) :=
  do r0 <- get rs (2 * i);
  do left <- (if Reqb r0 0 then do r1 <- get rs (2 * i + 1); Ok (Reqb r1 0) else Ok false);
  if (left : bool) then Ok (Some TipLeft)
  else
    do r2 <- get rs (2 * (i + 1));
    do right <- (if Reqb r2 0 then do r3 <- get rs (2 * (i + 1) + 1); Ok (Reqb r3 0) else Ok false);
    if (right : bool) then Ok (Some TipRight) else Ok None.

(** prestress.py:369-383: the loads of one span, appended to [LM]; [prev] is
    [prev_end_slope]. *)
Fixpoint span_rows (span : Z) (Li Fi : R) (segs : list seg) (prev : option R) : result (list row) :=
  match segs with
  | [] => Ok []
  | s :: t =>
      let rows :=
        if Rltb tol (Rabs (sg_epp s)) then
          let w := Fi * sg_epp s in
          if (Rleb (sg_x1 s) tol && Rleb (Li - tol) (sg_x2 s))%bool then [Row span 1 [w]]
          else [Row span 3 [w; sg_x1 s; seg_length s]]
        else [] in
      do kink <-
        (match prev with
         | None => Ok []
         | Some q =>
             do s0 <- slope_start s;
             let d := s0 - q in
             if (Rltb tol (Rabs d) && Rltb tol (sg_x1 s) && Rltb (sg_x1 s) (Li - tol))%bool
             then Ok [Row span 2 [Fi * d; sg_x1 s]] else Ok []
         end);
      do q1 <- slope_end s;
      do rest <- span_rows span Li Fi t (Some q1);
      Ok (rows ++ kink ++ rest)
  end.

(** What [equivalent_loads] remembers between spans: eccentricity, force and slope at the
    first and the last end ([None]: never assigned). *)
Record anchors := { an_first : option (R * R * R); an_last : option (R * R * R) }.

(** prestress.py:355-390: the loop over the spans from number [i]. *)
Fixpoint spans_rows (rs L F : list R) (i : nat) (ps : list (option profile)) (acc : list row * anchors)
  : result (list row * anchors) :=
  match ps with
  | [] => Ok acc
  | None :: t => spans_rows rs L F (i + 1) t acc
  | Some p :: t =>
      do Li <- get L i; do Fi <- get F i;
      do cant <- cantilever_side rs i;
      do segs <- segments p Li cant;
      do rows <- span_rows (Z.of_nat i + 1) Li Fi segs None;
      do s0 <- get segs 0;
      do first <- (match an_first (snd acc) with
                   | Some f => Ok (Some f)
                   | None => do q <- slope_start s0; Ok (Some (sg_e1 s0, Fi, q))
                   end);
      let sl := last segs s0 in
      do q1 <- slope_end sl;
      spans_rows rs L F (i + 1) t
        (fst acc ++ rows, {| an_first := first; an_last := Some (sg_e2 sl, Fi, q1) |})
  end.

(** The [force] argument: scalar or one value per span. *)
Inductive force := FScalar (f : R) | FSpans (fs : list R).

Definition both_zero (rs : list R) (k : nat) : result bool :=
  do r0 <- get rs k; if Reqb r0 0 then do r1 <- get rs (k + 1); Ok (Reqb r1 0) else Ok false.

(** prestress.py:314-408 [equivalent_loads]: [L] the member lengths and [rs] the restraints of
    the beam.  [first_slope]/[last_slope] are unbound when no span is stressed
    (UnboundLocalError, a NameError); without a stressed span there is no anchorage row. *)
Definition equivalent_loads (L : list R) (rs : list R) (f : force) (ps : list (option profile)) : result (list row) :=
  let n := length L in
  if negb (Nat.eqb (length ps) n) then Err ValueError
  else
    let F := match f with FScalar x => repeat x n | FSpans fs => fs end in
    if negb (Nat.eqb (length F) n) then Err ValueError
    else
      do st <- spans_rows rs L F 0 ps ([], {| an_first := None; an_last := None |});
      do left_free <- both_zero rs 0;
      do right_free <- both_zero rs (2 * n);
      do Ln <- match L with [] => Ok 0 | _ => Ok (last L 0) end;
      let m1 := match an_first (snd st) with
                | Some (e, Fe, _) => if Rltb tol (Rabs e) then [Row 1 4 [Fe * e; 0]] else []
                | None => [] end in
      let m2 := match an_last (snd st) with
                | Some (e, Fe, _) => if Rltb tol (Rabs e) then [Row (Z.of_nat n) 4 [- Fe * e; Ln]] else []
                | None => [] end in
      do p1 <- (if (left_free : bool) then
                  match an_first (snd st) with
                  | Some (_, Fe, q) => Ok (if Rltb tol (Rabs q) then [Row 1 2 [Fe * q; 0]] else [])
                  | None => Err NameError
                  end else Ok []);
      do p2 <- (if (right_free : bool) then
                  match an_last (snd st) with
                  | Some (_, Fe, q) => Ok (if Rltb tol (Rabs q) then [Row (Z.of_nat n) 2 [- Fe * q; Ln]] else [])
                  | None => Err NameError
                  end else Ok []);
      Ok (fst st ++ m1 ++ m2 ++ p1 ++ p2).

(** prestress.py:411-416 [_eval_e]: the drape drawn by [plot_tendon]. *)
Fixpoint eval_e (segs : list seg) (x : R) : result R :=
  match segs with
  | [] => Ok 0
  | s :: t =>
      if (Rleb (sg_x1 s - tol) x && Rleb x (sg_x2 s + tol))%bool then
        do q <- slope_start s;
        Ok (sg_e1 s + q * (x - sg_x1 s) + 5e-1 * sg_epp s * (x - sg_x1 s) ^ 2)
      else eval_e t x
  end.
