(** Model of src/pycba/bridge.py: vehicle traverses and critical values. *)
From Coq Require Import ZArith.
From Verif Require Import Base Linalg SectionModel FlexModel LoadModel FoundationModel ElementModel UtilsModel BeamModel
  AnalysisModel ResultsModel EnvelopeModel VehicleModel.
Open Scope R_scope.

(** Python's [round]: nearest integer, ties to even. *)
Definition py_round (x : R) : Z :=
  let f := Int_part x in
  let d := x - IZR f in
  if Rltb d (1/2) then f else if Rltb (1/2) d then (f + 1)%Z else if Z.even f then f else (f + 1)%Z.

(** bridge.py:14-20 [_vertical_support_xs]. *)
Fixpoint support_xs_from (i : nat) (x : R) (Ls rs : list R) : result (list R) :=
  do r <- get rs (2 * i);
  let here := if Reqb r 0 then [] else [x] in
  match Ls with
  | [] => Ok here
  | L :: t => do rest <- support_xs_from (i + 1) (x + L) t rs; Ok (here ++ rest)
  end.
Definition vertical_support_xs (b : beam) : result (list R) := support_xs_from 0 0 (b_lengths b) (b_R b).

(** Python's sorted set of floats. *)
Fixpoint insert_pt (p : R) (l : list R) : list R :=
  match l with
  | [] => [p]
  | q :: t => if Rltb p q then p :: l else if Reqb p q then l else q :: insert_pt p t
  end.
Definition sorted_set (l : list R) : list R := fold_left (fun acc p => insert_pt p acc) l [].

(** bridge.py:23-74 [resolve_shear_points]; the mapping of member indices to coordinates is a
    function, empty where the dictionary has no entry.  The coordinates of a member are
    collected in the order of the sorted global points, so that sorting them again changes
    nothing. *)
Definition resolve_shear_points (b : beam) (points : option (list R)) (dv : option R) : result ((nat -> list R) * list R) :=
  do sup <- match dv with
            | Some d => do xs <- vertical_support_xs b; Ok (flat_map (fun x0 => [x0 - d; x0 + d]) xs)
            | None => Ok []
            end;
  let all := match points with Some p => p | None => [] end ++ sup in
  let pts := sorted_set (filter (fun g => (Rltb 0 g && Rltb g (b_length b))%bool) all) in
  do loc <- mapM (get_local_span_coords b) pts;
  Ok (fun i => map snd (filter (fun p => Z.eqb (fst p) (Z.of_nat i)) loc), pts).

(** The object (bridge.py:87-119).  [bg_sps] stands for the shear points armed on the beam
    analysis; the static loads are the rows the analysis had when it was given. *)
Record bridge := { bg_ba : option analysis; bg_veh : option vehicle; bg_static : list row; bg_pos : list R;
  bg_results : list bres; bg_spx : list R; bg_sps : nat -> list R }.
Definition bridge_init (ba : option analysis) (veh : option vehicle) : bridge :=
  {| bg_ba := ba; bg_veh := veh; bg_static := match ba with Some a => b_LM (an_beam a) | None => [] end; bg_pos := []; bg_results := [];
     bg_spx := []; bg_sps := fun _ => [] |}.
(** bridge.py:156-174 (also 153) and 197-211.  Shear points still armed on the analysis that is
    set are not modelled: every run replaces them. *)
Definition set_bridge (g : bridge) (a : analysis) : bridge :=
  {| bg_ba := Some a; bg_veh := bg_veh g; bg_static := b_LM (an_beam a); bg_pos := bg_pos g; bg_results := bg_results g; bg_spx := bg_spx g; bg_sps := fun _ => [] |}.
Definition set_vehicle (g : bridge) (v : vehicle) : bridge :=
  {| bg_ba := bg_ba g; bg_veh := Some v; bg_static := bg_static g; bg_pos := bg_pos g; bg_results := bg_results g; bg_spx := bg_spx g; bg_sps := bg_sps g |}.

(** bridge.py:284-309 [_axle_LM]. *)
Definition axle_LM (b : beam) (v : vehicle) (pos : R) : result (list row) :=
  do rs <- mapM (fun cw => do sp <- get_local_span_coords b (pos - fst cw);
                           Ok (if Z.eqb (fst sp) (-1) then [] else [Row (fst sp + 1) 2 [snd cw; snd sp; 0]])) (combine (v_coords v) (v_axw v));
  Ok (concat rs).

(** bridge.py:311-337 [_interval_udl_LM]; [x] is the coordinate of the left end of span [i]. *)
Fixpoint interval_from (i : nat) (x : R) (Ls : list R) (xa xb w : R) : list row :=
  match Ls with
  | [] => []
  | L :: t =>
      let lo := Rmax xa x in
      let hi := Rmin xb (x + L) in
      (if Rltb 1e-9 (hi - lo) then [Row (Z.of_nat i + 1) 3 [w; lo - x; hi - lo]] else []) ++ interval_from (i + 1) (x + L) t xa xb w
  end.
(** [range(beam.no_spans)] has as many entries as there are lengths on a constructed beam. *)
Definition interval_udl_LM (b : beam) (xa xb w : R) : list row := interval_from 0 0 (firstn (b_nspans b) (b_lengths b)) xa xb w.

(** bridge.py:449-469 [_validate_clearances]; infinite and NaN distances are not modelled. *)
Inductive clr := ClNone | ClPair (back front : R) | ClBad.
Definition validate_clearances (c : clr) : result (R * R) :=
  match c with
  | ClNone => Ok (0, 0)
  | ClBad => Err ValueError
  | ClPair b f => if (Rltb b 0 || Rltb f 0)%bool then Err ValueError else Ok (b, f)
  end.
(** bridge.py:562-579: the lane load at one position. *)
Definition lane_rows (b : beam) (v : vehicle) (c : clr) (bf : R * R) (w pos : R) : list row :=
  let length := b_length b in
  match c with
  | ClNone => interval_udl_LM b 0 length w
  | _ =>
      let excl_lo := (pos - v_L v) - fst bf in
      let excl_hi := pos + snd bf in
      (if Rltb 0 excl_lo then interval_udl_LM b 0 (Rmin excl_lo length) w else []) ++
      (if Rltb excl_hi length then interval_udl_LM b (Rmax excl_hi 0) length w else [])
  end.

(** bridge.py:263-282: what the caller gives as shear points. *)
Inductive sparg := SpDict (d : nat -> list R) | SpPoints (p : option (list R)).

Section Runs.
Variable gl : nat -> list (R * R).
Variable ill : nat -> mat -> bool.

Definition with_sps (g : bridge) (spx : list R) (sps : nat -> list R) : bridge :=
  {| bg_ba := bg_ba g; bg_veh := bg_veh g; bg_static := bg_static g; bg_pos := bg_pos g; bg_results := bg_results g; bg_spx := spx; bg_sps := sps |}.
Definition with_run (g : bridge) (a : analysis) (pos : list R) (rs : list bres) : bridge :=
  {| bg_ba := Some a; bg_veh := bg_veh g; bg_static := bg_static g; bg_pos := pos; bg_results := rs; bg_spx := bg_spx g; bg_sps := bg_sps g |}.

(** bridge.py:263-282 [_apply_shear_points]. *)
Definition apply_shear_points (b : beam) (sp : sparg) (dv : option R) : result ((nat -> list R) * list R) :=
  match sp, dv with
  | SpDict d, _ => Ok (d, [])
  | SpPoints None, None => Ok (fun _ => [], [])
  | SpPoints p, _ => resolve_shear_points b p dv
  end.

(** bridge.py:339-359 [_single_analysis] and 581-583: one position, with the rows [rows] on
    top of the static loads. *)
Definition run_rows (a : analysis) (static : list row) (sps : nat -> list R) (rows : result (list row)) : analysis * result bres :=
  match rows with
  | Err e => (a, Err e)
  | Ok rs => analyze gl ill (with_beam a (set_loads (an_beam a) (add_LM static rs))) sps None true
  end.
(** bridge.py:427-438, 557-586: the positions one after another; the lists are those of the
    object. *)
Fixpoint traverse (a : analysis) (static : list row) (sps : nat -> list R) (rows : beam -> R -> result (list row)) (ps : list R)
    (pos : list R) (rs : list bres) : (analysis * list R * list bres) * result unit :=
  match ps with
  | [] => ((a, pos, rs), Ok tt)
  | p :: t =>
      match run_rows a static sps (rows (an_beam a) p) with
      | (a', Err e) => ((a', pos ++ [p], rs), Err e)
      | (a', Ok r) => traverse a' static sps rows t (pos ++ [p]) (rs ++ [r])
      end
  end.
(** bridge.py:412-442, 544-590. *)
Definition run_positions (g : bridge) (rows : vehicle -> beam -> R -> result (list row)) (step : R) (pstart pend : option R)
    (sp : sparg) (dv : option R) : bridge * result env :=
  match bg_ba g, bg_veh g with
  | None, _ => (g, Err ValueError)
  | Some _, None => (g, Err ValueError)
  | Some a, Some v =>
      let g := with_run g a [] [] in
      match apply_shear_points (an_beam a) sp dv with
      | Err e => (g, Err e)
      | Ok (sps, spx) =>
          let g := with_sps g spx sps in
          let p0 := match pstart with Some p => p | None => 0 end in
          let p1 := match pend with Some p => p | None => b_length (an_beam a) + v_L v end in
          if Reqb step 0 then (g, Err ZeroDivisionError)
          else
            let npts := Z.to_nat (py_round ((p1 - p0) / step) + 1) in
            let ps := map (fun i => p0 + INR i * step) (seq 0 npts) in
            match traverse a (bg_static g) sps (rows v) ps [] [] with
            | ((a', pos, rs), Err e) => (with_sps (with_run g a' pos rs) spx (fun _ => []), Err e)
            | ((a', pos, rs), Ok _) => (with_sps (with_run g a' pos rs) spx (fun _ => []), env_init rs)
            end
      end
  end.
(** bridge.py:361-447 [run_vehicle], without the plots. *)
Definition run_vehicle (g : bridge) (step : R) (pstart pend : option R) (sp : sparg) (dv : option R) : bridge * result env :=
  run_positions g (fun v b p => axle_LM b v p) step pstart pend sp dv.
(** bridge.py:471-595 [run_load_model], without the plots. *)
Definition run_load_model (g : bridge) (step w : R) (c : clr) (pstart pend : option R) (sp : sparg) (dv : option R) : bridge * result env :=
  match validate_clearances c with
  | Err e => (g, Err e)
  | Ok bf => run_positions g (fun v b p => do r <- axle_LM b v p; Ok (r ++ lane_rows b v c bf w p)) step pstart pend sp dv
  end.
(** bridge.py:213-261 [static_vehicle], without the plot. *)
Definition static_vehicle (g : bridge) (pos : R) (sp : sparg) (dv : option R) : bridge * result bres :=
  match bg_ba g, bg_veh g with
  | None, _ => (g, Err ValueError)
  | Some _, None => (g, Err ValueError)
  | Some a, Some v =>
      match apply_shear_points (an_beam a) sp dv with
      | Err e => (g, Err e)
      | Ok (sps, spx) =>
          let (a', r) := run_rows a (bg_static g) sps (axle_LM (an_beam a) v pos) in
          (with_sps (with_run g a' (bg_pos g) (bg_results g)) spx (fun _ => []), r)
      end
  end.
End Runs.

(** * Critical values (bridge.py:597-730) *)
(** numpy [max], [min], [argmax], [argmin]; the first position of the extreme. *)
Definition np_max (l : list R) : result R := match l with [] => Err ValueError | _ => Ok (row_max l) end.
Definition np_min (l : list R) : result R := match l with [] => Err ValueError | _ => Ok (row_min l) end.
Fixpoint index_of (x : R) (l : list R) : nat :=
  match l with [] => 0 | y :: t => if Reqb y x then 0%nat else S (index_of x t) end.
Definition argmax (l : list R) : nat := index_of (row_max l) l.
Definition argmin (l : list R) : nat := index_of (row_min l) l.

Record crit := { cr_val : R; cr_at : R; cr_pos : list R; cr_co : R }.
Record shear_entry := { se_x : R; se_Vmax_left : R; se_Vmax_right : R; se_Vmin_left : R; se_Vmin_right : R;
  se_Vmax : R; se_Vmin : R; se_support : option (R * bool) (* coordinate, and whether the section is left of it *) }.
Record crits := { cv_Mmax : crit; cv_Mmin : crit; cv_Vmax : crit; cv_Vmin : crit; cv_nsup : nat;
  cv_Rmax : list (R * R); cv_Rmin : list (R * R); cv_shear : list shear_entry }.

(** bridge.py:636-656: the analyses whose extreme is close to the envelope's. *)
Definition close_runs (f : bres -> list R) (ext : list R -> result R) (v : R) (rs : list bres) : result (list nat) :=
  do es <- mapM (fun r => ext (f r)) rs;
  Ok (map fst (filter (fun p => isclose 1e-5 1e-8 (snd p) v) (combine (seq 0 (length rs)) es))).
Definition one_crit (g : bridge) (x curve co : list R) (arg : list R -> nat) (v : R) (idx : list nat) : result crit :=
  do at_ <- get x (arg curve);
  do ps <- mapM (get (bg_pos g)) idx;
  do c <- get co (arg curve);
  Ok {| cr_val := v; cr_at := at_; cr_pos := ps; cr_co := c |}.
(** bridge.py:688-696: reaction extremes with the position of the first analysis attaining it. *)
Definition reaction_crit (g : bridge) (ext : list R -> result R) (arg : list R -> nat) (row : list R) : result (R * R) :=
  do v <- ext row; do p <- get (bg_pos g) (arg row); Ok (v, p).
(** bridge.py:707-727, one shear point. *)
Definition shear_block (b : beam) (e : env) (xg : R) : result (list shear_entry) :=
  let idx := seq 0 (length (e_x e)) in
  let left := filter (fun k => Rltb (nth k (e_x e) 0) xg) idx in
  let right := filter (fun k => Rltb xg (nth k (e_x e) 0)) idx in
  match left, right with
  | [], _ => Ok []
  | _, [] => Ok []
  | _, _ =>
      let il := nth (argmax (map (fun k => nth k (e_x e) 0) left)) left 0%nat in
      let ir := nth (argmin (map (fun k => nth k (e_x e) 0) right)) right 0%nat in
      do a <- get (e_Vmax e) il; do b1 <- get (e_Vmax e) ir; do c <- get (e_Vmin e) il; do d <- get (e_Vmin e) ir;
      do sx <- vertical_support_xs b;
      Ok [{| se_x := xg; se_Vmax_left := a; se_Vmax_right := b1; se_Vmin_left := c; se_Vmin_right := d;
             se_Vmax := Rmax a b1; se_Vmin := Rmin c d;
             se_support := match sx with [] => None | _ => let s := nth (argmin (map (fun x => Rabs (x - xg)) sx)) sx 0 in Some (s, Rltb xg s) end |}]
  end.
Definition critical_values (g : bridge) (e : env) : result crits :=
  do Mmax <- np_max (e_Mmax e); do Mmin <- np_min (e_Mmin e); do Vmax <- np_max (e_Vmax e); do Vmin <- np_min (e_Vmin e);
  do i1 <- close_runs (fun r => r_M (br_all r)) np_max Mmax (bg_results g);
  do i2 <- close_runs (fun r => r_M (br_all r)) np_min Mmin (bg_results g);
  do i3 <- close_runs (fun r => r_V (br_all r)) np_max Vmax (bg_results g);
  do i4 <- close_runs (fun r => r_V (br_all r)) np_min Vmin (bg_results g);
  if existsb (fun l => match l with [] => true | _ => false end) [i1; i2; i3; i4] then Err ValueError
  else
    do c1 <- one_crit g (e_x e) (e_Mmax e) (e_VcoMmax e) argmax Mmax i1;
    do c2 <- one_crit g (e_x e) (e_Mmin e) (e_VcoMmin e) argmin Mmin i2;
    do c3 <- one_crit g (e_x e) (e_Vmax e) (e_McoVmax e) argmax Vmax i3;
    do c4 <- one_crit g (e_x e) (e_Vmin e) (e_McoVmin e) argmin Vmin i4;
    do rmax <- mapM (fun i => do row <- get (e_Rmax e) i; reaction_crit g np_max argmax row) (seq 0 (e_nsup e));
    do rmin <- mapM (fun i => do row <- get (e_Rmin e) i; reaction_crit g np_min argmin row) (seq 0 (e_nsup e));
    do sh <- match bg_spx g, bg_ba g with
             | [], _ => Ok []
             | pts, Some a => do l <- mapM (shear_block (an_beam a) e) pts; Ok (concat l)
             | _, None => Err AttributeError
             end;
    Ok {| cv_Mmax := c1; cv_Mmin := c2; cv_Vmax := c3; cv_Vmin := c4; cv_nsup := e_nsup e; cv_Rmax := rmax; cv_Rmin := rmin; cv_shear := sh |}.

(** bridge.py:732-793 [envelopes_ratios]. *)
Definition get_ratio (a b : list R) : list R :=
  map2 (fun x y => Rabs (if negb (isclose 0 1e-3 y 0) then x / y else 0)) a b.
Record ratios := { rt_x : list R; rt_Mmax : list R; rt_Mmin : list R; rt_Vmax : list R; rt_Vmin : list R; rt_nsup : nat; rt_R : list (R * R) }.
Definition envelopes_ratios (trial ref : env) : result ratios :=
  if (negb (Nat.eqb (e_npts ref) (e_npts trial)) || negb (Nat.eqb (e_nsup ref) (e_nsup trial)))%bool then Err ValueError
  else
    let maxvals := get_ratio (e_Rmaxval trial) (e_Rmaxval ref) in
    let minvals := get_ratio (e_Rminval trial) (e_Rminval ref) in
    do rs <- mapM (fun i => do x <- get maxvals i; do y <- get minvals i; Ok (x, y)) (seq 0 (e_nsup ref));
    Ok {| rt_x := e_x ref; rt_Mmax := get_ratio (e_Mmax trial) (e_Mmax ref); rt_Mmin := get_ratio (e_Mmin trial) (e_Mmin ref);
          rt_Vmax := get_ratio (e_Vmax trial) (e_Vmax ref); rt_Vmin := get_ratio (e_Vmin trial) (e_Vmin ref); rt_nsup := e_nsup ref; rt_R := rs |}.
