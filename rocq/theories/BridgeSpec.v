(** Independent specification of vehicle traverses, lane loads and critical values. *)
From Coq Require Import ZArith Sorted.
From Verif Require Import Base Linalg SectionModel LoadModel LoadSpec FoundationModel ElementModel UtilsModel BeamModel BeamSpec AnalysisModel AnalysisSpec ResultsModel ResultsSpec
  EnvelopeModel EnvelopeSpec VehicleModel VehicleSpec LoadCasesModel LoadCasesSpec BridgeModel.
Open Scope R_scope.

(** A beam whose derived attributes agree with its positive span lengths. *)
Record deck (b : beam) : Prop := {
  dk_n : b_nspans b = List.length (b_lengths b);
  dk_len : b_length b = node_at b (b_nspans b);
  dk_term : b_terminal b = map (node_at b) (seq 0 (b_nspans b + 1));
  dk_some : (1 <= b_nspans b)%nat;
  dk_pos : Forall (Rlt 0) (b_lengths b) }.
Definition deck_length (b : beam) : R := node_at b (b_nspans b).

(** Positions (global coordinate) and weights of the axles with the first axle at [pos]; those
    on the deck. *)
Definition axles_at (v : vehicle) (pos : R) : list (R * R) := map (fun a => (pos - fst a, snd a)) (axles v).
Definition within (lo hi x : R) : bool := if Rle_dec lo x then if Rle_dec x hi then true else false else false.
Definition on_deck (b : beam) (ps : list (R * R)) : list (R * R) := filter (fun p => within 0 (deck_length b) (fst p)) ps.

(** The row of a point load at a global position: the point at a support belongs to the span
    on its right, the end of the deck to the last span. *)
Definition axle_row (b : beam) (p : R * R) (r : row) : Prop :=
  exists i x, r = Row (Z.of_nat i + 1) 2 [snd p; x; 0] /\ (i < b_nspans b)%nat /\ fst p = node_at b i + x /\
    0 <= x /\ (x < nth i (b_lengths b) 0 \/ x = nth i (b_lengths b) 0 /\ i = (b_nspans b - 1)%nat).
Definition axle_rows (b : beam) (v : vehicle) (pos : R) (rows : list row) : Prop :=
  Forall2 (axle_row b) (on_deck b (axles_at v pos)) rows.
(** Point force of a row. *)
Definition row_force (r : row) : R :=
  match parse_row r with Ok [(_, LPL P _)] => P | _ => 0 end.

(** [k + 1] positions from [p0]. *)
Definition positions (p0 step : R) (k : nat) : list R := map (fun i => p0 + INR i * step) (seq 0 (S k)).
Definition given (d : R) (o : option R) : R := match o with Some x => x | None => d end.

(** The analysis [a], with the given loads instead of its own. *)
Definition analysed_with (gl : nat -> list (R * R)) (ill : nat -> mat -> bool) (a : analysis) (sps : nat -> list R) (rows : list row) : result bres :=
  snd (analyze gl ill (with_beam a (set_loads (an_beam a) rows)) sps None true).

(** A row loading a part of one span. *)
Definition udl_row (b : beam) (w : R) (r : row) : Prop :=
  exists i a c, parse_row r = Ok [(Z.of_nat i, LPUDL w a c)] /\ (i < b_nspans b)%nat /\ 0 <= a /\ 0 < c /\ a + c <= nth i (b_lengths b) 0.
(** The uniform load of intensity [w] outside the zone from [z0] to [z1]: right up to
    1e-9 from the ends of the zone, and no other load. *)
Definition covers_outside (b : beam) (z0 z1 w : R) (rows : list row) : Prop :=
  Forall (udl_row b w) rows /\
  forall i x, (i < b_nspans b)%nat -> 0 < x < nth i (b_lengths b) 0 ->
    (node_at b i + x < z0 - length_tol \/ z1 + length_tol < node_at b i + x -> loading (b_lengths b) rows i x = w) /\
    (z0 < node_at b i + x < z1 -> loading (b_lengths b) rows i x = 0).
Definition covers_all (b : beam) (w : R) (rows : list row) : Prop :=
  Forall (udl_row b w) rows /\
  forall i x, (i < b_nspans b)%nat -> 0 < x < nth i (b_lengths b) 0 -> loading (b_lengths b) rows i x = w.
Definition lane (b : beam) (v : vehicle) (c : clr) (w pos : R) (rows : list row) : Prop :=
  match c with
  | ClNone => covers_all b w rows
  | ClPair back front => covers_outside b (pos - v_L v - back) (pos + front) w rows
  | ClBad => False
  end.

(** Closeness of numpy.isclose with its default tolerances. *)
Definition close (x y : R) : Prop := Rabs (x - y) <= 1e-8 + 1e-5 * Rabs y.

(** [m] is the greatest (least) entry of [l]. *)
Definition greatest (l : list R) (m : R) : Prop := In m l /\ forall x, In x l -> x <= m.
Definition least (l : list R) (m : R) : Prop := In m l /\ forall x, In x l -> m <= x.

(** Critical value [c] of the effect [f], with the companion effect [h], over the analyses [vr]
    made at the positions [ps]; [ext l m]: [m] is the extreme of [l]. *)
Record governs (ext : list R -> R -> Prop) (f h : bres -> list R) (xs : list R) (ps : list R) (vr : list bres) (c : crit) : Prop := {
  (* the extreme of all the values of all the analyses *)
  gv_val : ext (flat_map f vr) (cr_val c);
  (* attained at the reported station by an analysis whose position is reported and whose
     companion value is the reported one *)
  gv_at : exists k j, (k < List.length xs)%nat /\ (j < List.length vr)%nat /\ cr_at c = nth k xs 0 /\
    nth k (nth j (map f vr) []) 0 = cr_val c /\ In (nth j ps 0) (cr_pos c) /\
    (cr_val c <> 0 -> nth k (nth j (map h vr) []) 0 = cr_co c);
  (* the reported positions are those of the analyses whose extreme is close to it *)
  gv_pos : exists js, cr_pos c = map (fun j => nth j ps 0) js /\ StronglySorted lt js /\
    forall j, In j js <-> (j < List.length vr)%nat /\ exists m, ext (nth j (map f vr) []) m /\ close m (cr_val c) }.
Definition reaction_governs (larger : bool) (i : nat) (ps : list R) (vr : list bres) (vp : R * R) : Prop :=
  (if larger then largest else smallest) (R_at i) vr (fst vp) /\
  exists j, (j < List.length vr)%nat /\ snd vp = nth j ps 0 /\ (fst vp <> 0 -> nth i (nth j (map br_R vr) []) 0 = fst vp).

(** ** Shear sections *)
(** Coordinates of the vertical supports, rigid or elastic. *)
Definition vertical_support (b : beam) (s : R) : Prop :=
  exists i, (i <= b_nspans b)%nat /\ restraint b (2 * i) <> 0 /\ s = node_at b i.
(** The sections asked for: the given coordinates and those at the given distance from a
    support, inside the deck. *)
Definition requested (b : beam) (points : option (list R)) (dv : option R) (x : R) : Prop :=
  0 < x < deck_length b /\
  ((exists l, points = Some l /\ In x l) \/ exists d s, dv = Some d /\ vertical_support b s /\ (x = s - d \/ x = s + d)).

(** [xs k] is the nearest station before (after) [x]. *)
Definition just_before (xs : list R) (x : R) (k : nat) : Prop :=
  (k < List.length xs)%nat /\ nth k xs 0 < x /\ forall y, In y xs -> y < x -> y <= nth k xs 0.
Definition just_after (xs : list R) (x : R) (k : nat) : Prop :=
  (k < List.length xs)%nat /\ x < nth k xs 0 /\ forall y, In y xs -> x < y -> nth k xs 0 <= y.
Record section_shear (b : beam) (e : env) (x : R) (s : shear_entry) : Prop := {
  ss_x : se_x s = x;
  ss_left : exists k, just_before (e_x e) x k /\ se_Vmax_left s = nth k (e_Vmax e) 0 /\ se_Vmin_left s = nth k (e_Vmin e) 0;
  ss_right : exists k, just_after (e_x e) x k /\ se_Vmax_right s = nth k (e_Vmax e) 0 /\ se_Vmin_right s = nth k (e_Vmin e) 0;
  ss_max : se_Vmax s = Rmax (se_Vmax_left s) (se_Vmax_right s);
  ss_min : se_Vmin s = Rmin (se_Vmin_left s) (se_Vmin_right s);
  ss_support : match se_support s with
    | None => forall y, ~ vertical_support b y
    | Some (y, onleft) => vertical_support b y /\ (forall y', vertical_support b y' -> Rabs (y - x) <= Rabs (y' - x)) /\ (onleft = true <-> x < y)
    end }.

(** An analysis of a deck without elastic foundations. *)
Record bridge_model (a : analysis) : Prop := {
  bm_deck : deck (an_beam a);
  bm_n : an_n a = b_nspans (an_beam a);
  bm_npts : (0 < an_npts a)%nat;
  bm_kf : forall i mb, (i < b_nspans (an_beam a))%nat -> member_at (an_beam a) i = Ok mb -> mb_kf mb = None }.

(** What the shear points given to a run ask for: the extra stations [sps i] of member [i] (local
    coordinates) and the sections [pts] to report. *)
Definition shear_sections (b : beam) (sp : sparg) (dv : option R) (sps : nat -> list R) (pts : list R) : Prop :=
  match sp, dv with
  | SpDict d, _ => sps = d /\ pts = []
  | SpPoints None, None => (forall i, sps i = []) /\ pts = []
  | SpPoints p, _ => StronglySorted Rlt pts /\ (forall x, In x pts <-> requested b p dv x) /\
      forall i x, In x (sps i) <-> (i < b_nspans b)%nat /\ 0 <= x < nth i (b_lengths b) 0 /\ requested b p dv (node_at b i + x)
  end.

(** The outcome of a traverse of [k + 1] positions: [g] before, [g'] and the envelope [e] after;
    [loads b p rows]: [rows] are the loads of position [p]. *)
Record traversed (gl : nat -> list (R * R)) (ill : nat -> mat -> bool) (loads : beam -> R -> list row -> Prop)
    (g : bridge) (a : analysis) (v : vehicle) (step : R) (pstart pend : option R) (sps : nat -> list R) (g' : bridge) (e : env) (k : nat) : Prop := {
  (* evenly spaced positions from the start to within half a step of the end *)
  tv_pos : bg_pos g' = positions (given 0 pstart) step k;
  tv_end : Rabs (given (deck_length (an_beam a) + v_L v) pend - (given 0 pstart + INR k * step)) <= Rabs step / 2;
  (* one result per position: of the static loads and the loads of that position *)
  tv_res : Forall2 (fun p r => exists rows, loads (an_beam a) p rows /\ analysed_with gl ill a sps (bg_static g ++ rows)%list = Ok r) (bg_pos g') (bg_results g');
  (* the envelope of these results *)
  tv_env : envelope_of (bg_results g') e;
  tv_nres : e_nres e = S k;
  (* static loads and vehicle are kept, no shear points stay armed; the analysis keeps its model
     with the loads of the last position *)
  tv_static : bg_static g' = bg_static g;
  tv_veh : bg_veh g' = Some v;
  tv_sps : forall i, bg_sps g' i = [];
  tv_ba : exists a' rows, bg_ba g' = Some a' /\ loads (an_beam a) (given 0 pstart + INR k * step) rows /\
    an_beam a' = set_loads (an_beam a) (bg_static g ++ rows)%list /\ an_n a' = an_n a /\ an_npts a' = an_npts a }.
(** Axles of [v], and axles with a lane load. *)
Definition axle_loads (v : vehicle) (b : beam) (p : R) (rows : list row) : Prop := axle_rows b v p rows.
Definition axle_lane_loads (v : vehicle) (c : clr) (w : R) (b : beam) (p : R) (rows : list row) : Prop :=
  exists ax ln, rows = (ax ++ ln)%list /\ axle_rows b v p ax /\ lane b v c w p ln.

(** The critical values [c] of the analyses [vr] at the positions [ps]. *)
Record critical (b : beam) (e : env) (ps : list R) (vr : list bres) (pts : list R) (c : crits) : Prop := {
  ct_Mmax : governs greatest (fun r => r_M (br_all r)) (fun r => r_V (br_all r)) (e_x e) ps vr (cv_Mmax c);
  ct_Mmin : governs least (fun r => r_M (br_all r)) (fun r => r_V (br_all r)) (e_x e) ps vr (cv_Mmin c);
  ct_Vmax : governs greatest (fun r => r_V (br_all r)) (fun r => r_M (br_all r)) (e_x e) ps vr (cv_Vmax c);
  ct_Vmin : governs least (fun r => r_V (br_all r)) (fun r => r_M (br_all r)) (e_x e) ps vr (cv_Vmin c);
  ct_nsup : cv_nsup c = e_nsup e /\ length (cv_Rmax c) = e_nsup e /\ length (cv_Rmin c) = e_nsup e;
  ct_R : forall i, (i < e_nsup e)%nat ->
    reaction_governs true i ps vr (nth i (cv_Rmax c) (0, 0)) /\ reaction_governs false i ps vr (nth i (cv_Rmin c) (0, 0));
  ct_shear : Forall2 (section_shear b e) pts (cv_shear c) }.

(** ** Envelope ratios *)
(** Ratio of the magnitudes, 0 where the reference vanishes (within 1e-3). *)
Definition ratio_of (trial ref q : R) : Prop := (Rabs ref <= 1e-3 /\ q = 0) \/ (1e-3 < Rabs ref /\ q * Rabs ref = Rabs trial).
Definition ratio_list (trial ref q : list R) : Prop :=
  length q = length ref /\ forall i, (i < length ref)%nat -> ratio_of (nth i trial 0) (nth i ref 0) (nth i q 0).
Record shaped (e : env) : Prop := {
  sh_Mmax : length (e_Mmax e) = e_npts e; sh_Mmin : length (e_Mmin e) = e_npts e; sh_Vmax : length (e_Vmax e) = e_npts e; sh_Vmin : length (e_Vmin e) = e_npts e;
  sh_Rmax : length (e_Rmaxval e) = e_nsup e; sh_Rmin : length (e_Rminval e) = e_nsup e }.
Record ratios_of (trial ref : env) (q : ratios) : Prop := {
  ro_x : rt_x q = e_x ref;
  ro_Mmax : ratio_list (e_Mmax trial) (e_Mmax ref) (rt_Mmax q); ro_Mmin : ratio_list (e_Mmin trial) (e_Mmin ref) (rt_Mmin q);
  ro_Vmax : ratio_list (e_Vmax trial) (e_Vmax ref) (rt_Vmax q); ro_Vmin : ratio_list (e_Vmin trial) (e_Vmin ref) (rt_Vmin q);
  ro_nsup : rt_nsup q = e_nsup ref;
  ro_Rmax : ratio_list (e_Rmaxval trial) (e_Rmaxval ref) (map fst (rt_R q)); ro_Rmin : ratio_list (e_Rminval trial) (e_Rminval ref) (map snd (rt_R q)) }.
