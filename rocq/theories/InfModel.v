(** Model of src/pycba/inf_lines.py: influence lines. *)
From Coq Require Import ZArith String.
From Verif Require Import Base Linalg SectionModel FlexModel LoadModel FoundationModel ElementModel UtilsModel BeamModel
  AnalysisModel ResultsModel EnvelopeModel VehicleModel BridgeModel.
Open Scope R_scope.
Local Notation length := List.length.
Local Open Scope list_scope.

(** The object (inf_lines.py:15-44): the beam analysis, the beam's length, the stored results
    and positions.  The shear points of the analysis stay empty. *)
Record il := { il_a : analysis; il_L : R; il_res : list bres; il_pos : list R }.
Definition il_ctor (L : list R) (EI : ei_arg) (rs : list R) (types : list etarg) : ctor :=
  {| ct_L := L; ct_EI := EI; ct_R := Some rs; ct_LM := None; ct_types := types; ct_D := None; ct_sup := None; ct_GAv := GNone; ct_kf := KNone |}.
Definition il_init (L : list R) (EI : ei_arg) (rs : list R) (types : list etarg) : result il :=
  do a <- analysis_init (il_ctor L EI rs types);
  Ok {| il_a := a; il_L := b_length (an_beam a); il_res := []; il_pos := [] |}.

(** inf_lines.py:128: cumsum of the span lengths after a zero. *)
Fixpoint cumsum_from (x : R) (Ls : list R) : list R := x :: match Ls with [] => [] | L :: t => cumsum_from (x + L) t end.
(** inf_lines.py:130-133 [idx_mask]: number of entries equal to -1 before each of them, zero
    elsewhere. *)
Fixpoint mask_from (k : nat) (rs : list R) : list nat :=
  match rs with
  | [] => []
  | r :: t => if Reqb r (-1) then k :: mask_from (S k) t else 0%nat :: mask_from k t
  end.
(** restraints[::2] and restraints[1::2]. *)
Fixpoint evens {A} (l : list A) : list A := match l with [] => [] | x :: [] => [x] | x :: _ :: t => x :: evens t end.
Definition odds {A} (l : list A) : list A := evens (List.tl l).
(** numpy.where(l == x)[0]. *)
Definition where_eq (x : R) (l : list R) : list nat := filter (fun i => Reqb (nth i l 0) x) (seq 0 (length l)).

(** inf_lines.py:145-190, with [load_effect.upper()]. *)
Inductive effect := EffV | EffR | EffMR | EffM.
Definition effect_of (s : string) : effect :=
  let u := upper s in
  if String.eqb u "V" then EffV else if String.eqb u "R" then EffR else if String.eqb u "MR" then EffMR else EffM.

Section IL.
Variable gl : nat -> list (R * R).
Variable ill : nat -> mat -> bool.

(** inf_lines.py:76-91: one load position after another. *)
Fixpoint il_loop (a : analysis) (lv : R) (ps pos : list R) (rs : list bres) : (analysis * list R * list bres) * result unit :=
  match ps with
  | [] => ((a, pos, rs), Ok tt)
  | p :: t =>
      match get_local_span_coords (an_beam a) p with
      | Err e => ((a, pos ++ [p], rs), Err e)
      | Ok (ispan, x) =>
          let lv := if Z.eqb ispan (-1) then 0 else lv in
          match analyze gl ill (with_beam a (set_loads (an_beam a) [Row (ispan + 1) 2 [lv; x; 0]])) (fun _ => []) None true with
          | (a', Err e) => ((a', pos ++ [p], rs), Err e)
          | (a', Ok r) => il_loop a' lv t (pos ++ [p]) (rs ++ [r])
          end
      end
  end.
(** inf_lines.py:46-91 [create_ils].  A zero step raises here (with a numpy length it gives a
    not-a-number, which round refuses with another exception). *)
Definition create_ils (s : il) (step : option R) (lv : R) : il * result unit :=
  let st := match step with Some x => x | None => il_L s / 100 end in
  if Reqb st 0 then ({| il_a := il_a s; il_L := il_L s; il_res := []; il_pos := il_pos s |}, Err ZeroDivisionError)
  else
    let npts := Z.to_nat (py_round (il_L s / st) + 1) in
    let '((a, pos, rs), r) := il_loop (il_a s) lv (map (fun i => INR i * st) (seq 0 npts)) (il_pos s) [] in
    ({| il_a := a; il_L := il_L s; il_res := rs; il_pos := pos |}, r).

(** inf_lines.py:149-190: index in the reactions vector of the support nearest to [poi];
    [off] is 0 for vertical supports and 1 for rotational ones, [ints]: the restraints are
    integers, so that the mask is an integer array (numpy refuses a float index). *)
Definition support_index (ints : bool) (b : beam) (poi : R) (off : nat) : result nat :=
  let nodes := cumsum_from 0 (b_lengths b) in
  let sups := where_eq (-1) (match off with O => evens (b_R b) | _ => odds (b_R b) end) in
  do locs <- mapM (get nodes) sups;
  match locs with
  | [] => Err ValueError
  | _ =>
      do c <- get locs (argmin (map (fun x => Rabs (x - poi)) locs));
      do n <- get (where_eq c nodes) 0;
      do k <- get (mask_from 0 (b_R b)) (2 * n + off);
      if ints then Ok k else Err IndexError
  end.
(** inf_lines.py:138-143: the member and the station read for shears and moments. *)
Definition station_index (b : beam) (rs : list bres) (poi : R) : result (nat * nat) :=
  do sp <- get_local_span_coords b poi;
  let ispan := if Z.eqb (fst sp) (-1) then (b_nspans b - 1)%nat else Z.to_nat (fst sp) in
  do r0 <- get rs 0;
  do m <- get (br_mem r0) ispan;
  match List.tl (removelast (r_x m)) with
  | [] => Err ValueError
  | inner => Ok (ispan, (argmin (map (fun x => Rabs (x - poi)) inner) + 1)%nat)
  end.
(** inf_lines.py:93-194 [get_il]. *)
Definition get_il (ints : bool) (s : il) (poi : R) (eff : string) : il * result (list R * list R) :=
  let '(s, c) := match il_res s with [] => create_ils s None 1 | _ => (s, Ok tt) end in
  let b := an_beam (il_a s) in
  (s,
   do _ <- c;
   do ik <- station_index b (il_res s) poi;
   do eta <- match effect_of eff with
             | EffV => mapM (fun r => do m <- get (br_mem r) (fst ik); get (r_V m) (snd ik)) (il_res s)
             | EffM => mapM (fun r => do m <- get (br_mem r) (fst ik); get (r_M m) (snd ik)) (il_res s)
             | EffR => do k <- support_index ints b poi 0; mapM (fun r => get (br_R r) k) (il_res s)
             | EffMR => do k <- support_index ints b poi 1; mapM (fun r => get (br_R r) k) (il_res s)
             end;
   Ok (il_pos s, eta)).
End IL.
