(** Independent specification of the diagrams drawn: what a reader sees on the page. *)
From Coq Require Import String.
From Verif Require Import Base Linalg SectionModel LoadModel FoundationModel ElementModel UtilsModel BeamModel AnalysisModel UnitsModel ResultsModel EnvelopeModel EnvelopeSpec VehicleModel BridgeModel BridgeSpec InfModel ModalModel NonlinModel ShapeFacts PlotModel.
Open Scope R_scope.
Local Notation length := List.length.
Local Open Scope list_scope.

(** Height on the page, upwards positive, at which a value is drawn. *)
Definition height (a : axes) (y : R) : R := if ax_inverted a then - y else y.
(** The lines of a panel: colour, horizontal positions and heights. *)
Definition line : Type := string * (list R * list R).
Definition page (a : axes) : list line := map (fun c => (cu_color c, (cu_x c, map (height a) (cu_y c)))) (ax_curves a).

(** The line of zero height along the beam. *)
Definition beam_line (L : R) : line := ("k"%string, ([0; L], [0; 0])).
(** Positive values below the line (sagging moments), or above it. *)
Definition below (x y : list R) : list R * list R := (x, map Ropp y).
Definition above (x y : list R) : list R * list R := (x, y).
(** The diagram of each kind: moments below; shears above; deflections above, in display units, at
    the stations within the members. *)
Definition shape (us : unit_system) (r : bres) (k : kind) : list R * list R :=
  match k with
  | KM => below (r_x (br_all r)) (r_M (br_all r))
  | KV => above (r_x (br_all r)) (r_V (br_all r))
  | KD => above (flat_map (fun m => removelast (tl (r_x m))) (br_mem r))
                (flat_map (fun m => map (fun d => d * us_disp_scale us) (removelast (tl (r_D m)))) (br_mem r))
  end.
Definition label (us : unit_system) (k : kind) : string := match k with KM => moment_axis us | KV => shear_axis us | KD => deflection_axis us end.

(** Results of a completed analysis of a beam of length [L]. *)
Definition results_of (L : R) (r : bres) : Prop :=
  exists gl ill a sps npts check a', analyze gl ill a sps npts check = (a', Ok r) /\ (0 < an_npts a')%nat /\ sound_grid (an_beam a) /\ L = b_length (an_beam a').

(** The backends, and the defaults that calls of [set_backend] can leave. *)
Definition is_backend (s : string) : Prop := (s = "matplotlib" \/ s = "plotly")%string.
Inductive default_backend (installed : bool) : string -> Prop :=
| db_start : default_backend installed "matplotlib"
| db_set d name : default_backend installed d -> default_backend installed (fst (set_backend installed d name)).
(** A call that draws with matplotlib: its backend is known and not plotly. *)
Definition on_matplotlib (bk : string) (backend : option string) : Prop := resolve_backend bk backend = Ok "matplotlib"%string.

(** Axes on which the diagrams of one kind were drawn by successive calls: colour, units and results
    of each. *)
Inductive overlaid (installed : bool) (bk : string) (us0 : unit_system) (k : kind) (L : R) : list (string * unit_system * bres) -> axes -> Prop :=
| ol_new r units backend color us a : on_matplotlib bk backend -> resolve us0 units = Ok us ->
    plot_diagram installed bk us0 L (Some r) k None units backend color = inl (Some a) -> overlaid installed bk us0 k L [(color, us, r)] a
| ol_more l a L' r units backend color us a' : overlaid installed bk us0 k L l a -> on_matplotlib bk backend -> resolve us0 units = Ok us ->
    plot_diagram installed bk us0 L' (Some r) k (Some a) units backend color = inl (Some a') -> overlaid installed bk us0 k L (l ++ [(color, us, r)]) a'.

(** The diagrams among the panels of a figure, from the top. *)
Definition diagrams (ps : list panel) : list axes := flat_map (fun p => match p with PDiagram a => [a] | _ => [] end) ps.

(** Each value of [ys] lies between those of [lo] and [hi] at the same station. *)
Definition between (lo ys hi : list R) : Prop := length lo = length ys /\ length hi = length ys /\ forall k, (k < length ys)%nat -> nth k lo 0 <= nth k ys 0 <= nth k hi 0.

(** Positions of the axles that load a deck of length [L], the first axle at [pos]. *)
Definition loading_axles (b : beam) (v : vehicle) (pos : R) : list R := map fst (on_deck b (axles_at v pos)).

(** History of a reaction over the analyses of a traverse: its upward and its downward part. *)
Definition upward (i : nat) (vr : list bres) : list R := map (fun r => Rmax 0 (R_at i r)) vr.
Definition downward (i : nat) (vr : list bres) : list R := map (fun r => Rmin 0 (R_at i r)) vr.
(** The mark at a position where the history [ys] has its extreme. *)
Definition marked (ext : list R -> R -> Prop) (pos ys : list R) (m : option (R * R)) : Prop :=
  exists j, (j < length ys)%nat /\ m = Some (nth j pos 0, nth j ys 0) /\ ext ys (nth j ys 0).

(** [band] holds, at each of [n] stations, the extreme of the heights [f] over the analyses up to the
    [i]-th. *)
Definition so_far (ext : list R -> R -> Prop) (f : nat -> bres -> R) (vr : list bres) (i n : nat) (band : list R) : Prop :=
  length band = n /\ forall k, (k < n)%nat -> ext (map (f k) (firstn (S i) vr)) (nth k band 0).
(** The curve of one effect in a frame and the two edges of the band behind it. *)
Definition banded (L : R) (x : list R) (f : nat -> bres -> R) (vr : list bres) (i : nat) (ys : list R) (lines : list line) : Prop :=
  exists hi lo, lines = [beam_line L; ("0.55"%string, above x hi); ("0.55"%string, above x lo); ("r"%string, above x ys)] /\
    so_far greatest f vr i (length x) hi /\ so_far least f vr i (length x) lo.
(** All heights of the lines of a panel lie strictly within the limits of its axis. *)
Definition in_view (lim : R * R) (lines : list line) : Prop :=
  forall c xs ys y, In (c, (xs, ys)) lines -> c <> "k"%string -> In y ys -> fst lim < y < snd lim.
(** The [i]-th frame of the animation of the analyses [rs] made at the positions [pos]: moments hang
    below the line. *)
Definition frame_of (us : unit_system) (L : R) (pos : list R) (x : list R) (rs : list bres) (i : nat) (f : frame) : Prop :=
  fr_pos f = nth i pos 0 /\
  (exists r, nth_error rs i = Some r /\
     banded L x (fun k r => - M_at k r) rs i (map Ropp (r_M (br_all r))) (page (fr_M f)) /\
     banded L x V_at rs i (r_V (br_all r)) (page (fr_V f))) /\
  in_view (fr_Mlim f) (page (fr_M f)) /\ in_view (fr_Vlim f) (page (fr_V f)) /\
  ax_ylabel (fr_M f) = moment_axis us /\ ax_ylabel (fr_V f) = shear_axis us /\ ax_xlabel (fr_V f) = distance_axis us.

(** The values of [v] at the nodes with the coordinates [coords]. *)
Definition nodal (coords : list R) (v : vec) : list R := map v (seq 0 (length coords)).
