(** Model of the diagrams drawn (src/pycba/plotting.py, the plots of analysis.py, results.py,
    bridge.py, inf_lines.py, modal.py and nonlinear.py): which lines are drawn in which panel.
    Simplifications: line widths, fillings, grids, legends, sizes and hover texts are left out;
    showing and saving a figure is not modelled; the schematics of the beam are panels whose
    contents are not repeated here (RenderModel). *)
From Coq Require Import String Ascii.
From Verif Require Import Base Linalg SectionModel LoadModel FoundationModel ElementModel UtilsModel BeamModel AnalysisModel UnitsModel ResultsModel EnvelopeModel VehicleModel BridgeModel InfModel ModalModel NonlinModel.
Open Scope R_scope.
Local Notation length := List.length.
Local Open Scope list_scope.

(** ** Backends (plotting.py:28-71) *)
(** Exceptions raised while plotting: those of [exc], and the one for a missing package. *)
Inductive failure := Raised (e : exc) | ModuleNotFoundError.
Definition of_result {A} (x : result A) : A + failure := match x with Ok a => inl a | Err e => inr (Raised e) end.
(** plotting.py:28. *)
Definition known_backend (s : string) : bool := (String.eqb s "matplotlib" || String.eqb s "plotly")%bool.
(** plotting.py:40-57 [set_backend]: the default afterwards; [installed] tells whether plotly can be
    imported (73-83). *)
Definition set_backend (installed : bool) (d name : string) : string * (unit + failure) :=
  let name := UtilsModel.lower name in
  if known_backend name
  then if (String.eqb name "plotly" && negb installed)%bool then (d, inr ModuleNotFoundError) else (name, inl tt)
  else (d, inr (Raised ValueError)).
(** plotting.py:65-70 [resolve_backend]; the empty string counts as not given. *)
Definition resolve_backend (d : string) (backend : option string) : result string :=
  let name := UtilsModel.lower (match backend with Some s => if String.eqb s "" then d else s | None => d end) in
  if known_backend name then Ok name else Err ValueError.

(** ** Axes *)
(** A panel: the lines drawn so far, whether its y axis points down, its labels, and the vertical
    marks.  The same record stands for the panel of a plotly figure. *)
Record curve := { cu_x : list R; cu_y : list R; cu_color : string }.
Record axes := { ax_curves : list curve; ax_inverted : bool; ax_xlabel : string; ax_ylabel : string; ax_marks : list R }.
Definition new_axes : axes := {| ax_curves := []; ax_inverted := false; ax_xlabel := ""; ax_ylabel := ""; ax_marks := [] |}.
Definition add_curve (c : curve) (a : axes) : axes :=
  {| ax_curves := ax_curves a ++ [c]; ax_inverted := ax_inverted a; ax_xlabel := ax_xlabel a; ax_ylabel := ax_ylabel a; ax_marks := ax_marks a |}.
(** matplotlib's [Axes.plot]: the arrays must be of the same length. *)
Definition plot (x y : list R) (color : string) (a : axes) : result axes :=
  if Nat.eqb (length x) (length y) then Ok (add_curve {| cu_x := x; cu_y := y; cu_color := color |} a) else Err ValueError.
(** [Axes.invert_yaxis] turns the axis round, whatever its direction was. *)
Definition invert_yaxis (a : axes) : axes :=
  {| ax_curves := ax_curves a; ax_inverted := negb (ax_inverted a); ax_xlabel := ax_xlabel a; ax_ylabel := ax_ylabel a; ax_marks := ax_marks a |}.
Definition set_xlabel (s : string) (a : axes) : axes :=
  {| ax_curves := ax_curves a; ax_inverted := ax_inverted a; ax_xlabel := s; ax_ylabel := ax_ylabel a; ax_marks := ax_marks a |}.
Definition set_ylabel (s : string) (a : axes) : axes :=
  {| ax_curves := ax_curves a; ax_inverted := ax_inverted a; ax_xlabel := ax_xlabel a; ax_ylabel := s; ax_marks := ax_marks a |}.
Definition axvline (x : R) (a : axes) : axes :=
  {| ax_curves := ax_curves a; ax_inverted := ax_inverted a; ax_xlabel := ax_xlabel a; ax_ylabel := ax_ylabel a; ax_marks := ax_marks a ++ [x] |}.
(** The zero line of the matplotlib panels. *)
Definition zero_line (L : R) (a : axes) : result axes := plot [0; L] [0; 0] "k" a.
(** numpy: array times number. *)
Definition scaled (s : R) (l : list R) : list R := map (fun d => d * s) l.

(** ** Diagrams of an analysis *)
Inductive kind := KM | KV | KD.
(** analysis.py:1158-1184 [_plot_diagram], matplotlib part. *)
Definition diagram_mpl (us : unit_system) (L : R) (r : bres) (k : kind) (ax : option axes) (color : string) : result axes :=
  let res := br_all r in
  let '(xplot, y, ylabel, invert) :=
    match k with
    | KD => (fst (deflection_curve r), scaled (us_disp_scale us) (snd (deflection_curve r)), deflection_axis us, false)
    | KM => (r_x res, r_M res, moment_axis us, true)
    | KV => (r_x res, r_V res, shear_axis us, false)
    end in
  do a <- match ax with
          | Some a => Ok a
          | None =>
              do a <- zero_line L new_axes;
              let a := set_xlabel (distance_axis us) (set_ylabel ylabel a) in
              Ok (if invert then invert_yaxis a else a)
          end;
  plot xplot y color a.
(** plotting.py:29-38: the colours of the traces. *)
Definition RED : string := "#d62728".
Definition BLUE : string := "#1f77b4".
(** A trace of a plotly figure; [autorange="reversed"] where [invert]. *)
Definition panel_of (x y : list R) (ylabel : string) (invert : bool) : axes :=
  {| ax_curves := [{| cu_x := x; cu_y := y; cu_color := RED |}]; ax_inverted := invert; ax_xlabel := ""; ax_ylabel := ylabel; ax_marks := [] |}.
(** plotting.py:111-180 [diagram_figure], with the deflected shape given. *)
Definition diagram_figure (us : unit_system) (r : bres) (k : kind) : axes :=
  let res := br_all r in
  set_xlabel (distance_axis us)
    match k with
    | KM => panel_of (r_x res) (r_M res) (moment_axis us) true
    | KV => panel_of (r_x res) (r_V res) (shear_axis us) false
    | KD => panel_of (fst (deflection_curve r)) (scaled (us_disp_scale us) (snd (deflection_curve r))) (deflection_axis us) false
    end.
(** analysis.py:1112-1184 [_plot_diagram], behind [plot_bmd], [plot_sfd] and [plot_dsd]; [bk] and [us0]
    are the default backend and units, [res] the results of the object.  Before an analysis nothing is
    drawn. *)
Definition plot_diagram (installed : bool) (bk : string) (us0 : unit_system) (L : R) (res : option bres) (k : kind)
    (ax : option axes) (units : units_arg) (backend : option string) (color : string) : option axes + failure :=
  match res with
  | None => inl None
  | Some r =>
      match resolve_backend bk backend with
      | Err e => inr (Raised e)
      | Ok name =>
          if String.eqb name "plotly"
          then if installed
               then of_result (do us <- resolve us0 units; Ok (Some (diagram_figure us r k)))
               else inr ModuleNotFoundError
          else of_result (do us <- resolve us0 units; do a <- diagram_mpl us L r k ax color; Ok (Some a))
      end
  end.

(** analysis.py:951-1026 [plot_results]. *)
Inductive panel := PBeam | PDiagram (a : axes) | PReactions.
Definition results_mpl (us : unit_system) (L : R) (r : bres) (show_beam show_reactions : bool) : result (list panel) :=
  let res := br_all r in
  do m <- zero_line L new_axes;
  do m <- plot (r_x res) (r_M res) "r" m;
  let m := set_ylabel (moment_axis us) (invert_yaxis m) in
  do v <- zero_line L new_axes;
  do v <- plot (r_x res) (r_V res) "r" v;
  let v := set_ylabel (shear_axis us) v in
  do d <- zero_line L new_axes;
  do d <- plot (fst (deflection_curve r)) (scaled (us_disp_scale us) (snd (deflection_curve r))) "r" d;
  let d := set_ylabel (deflection_axis us) d in
  let d := if show_reactions then d else set_xlabel (distance_axis us) d in
  Ok ((if show_beam then [PBeam] else []) ++ [PDiagram m; PDiagram v; PDiagram d] ++ (if show_reactions then [PReactions] else [])).
(** plotting.py:183-231 [results_figure], with the deflected shape given. *)
Definition results_figure (us : unit_system) (r : bres) : list panel :=
  let res := br_all r in
  [PDiagram (panel_of (r_x res) (r_M res) (moment_axis us) true);
   PDiagram (panel_of (r_x res) (r_V res) (shear_axis us) false);
   PDiagram (set_xlabel (distance_axis us) (panel_of (fst (deflection_curve r)) (scaled (us_disp_scale us) (snd (deflection_curve r))) (deflection_axis us) false))].
(** analysis.py:894-1030 [plot_results]: the panels from the top. *)
Definition plot_results (installed : bool) (bk : string) (us0 : unit_system) (L : R) (res : option bres) (show_beam : bool)
    (units : units_arg) (backend : option string) (show_reactions : bool) : option (list panel) + failure :=
  match res with
  | None => inl None
  | Some r =>
      match resolve_backend bk backend with
      | Err e => inr (Raised e)
      | Ok name =>
          if String.eqb name "plotly"
          then if installed
               then of_result (do us <- resolve us0 units; Ok (Some (results_figure us r)))
               else inr ModuleNotFoundError
          else of_result (do us <- resolve us0 units; do ps <- results_mpl us L r show_beam show_reactions; Ok (Some ps))
      end
  end.

(** ** Envelopes *)
(** [x[-1]]. *)
Definition last_of (l : list R) : result R := match l with [] => Err IndexError | _ => Ok (last l 0) end.
(** Two lines on a zero line. *)
Definition pair_panel (L : R) (x ymax ymin : list R) (ylabel : string) : result axes :=
  do a <- zero_line L new_axes; do a <- plot x ymax "r" a; do a <- plot x ymin "b" a; Ok (set_ylabel ylabel a).
(** results.py:944-972 [Envelopes.plot], matplotlib part; [vr] are the results of the object. *)
Definition envelope_mpl (us : unit_system) (e : env) (vr : list bres) (each : bool) : result (axes * axes) :=
  do L <- last_of (e_x e);
  do m <- pair_panel L (e_x e) (e_Mmax e) (e_Mmin e) (moment_axis us);
  let m := invert_yaxis m in
  do v <- pair_panel L (e_x e) (e_Vmax e) (e_Vmin e) (shear_axis us);
  let v := set_xlabel (distance_axis us) v in
  if each
  then foldM (fun p r => do m <- plot (e_x e) (r_M (br_all r)) "r" (fst p); do v <- plot (e_x e) (r_V (br_all r)) "b" (snd p); Ok (m, v)) vr (m, v)
  else Ok (m, v).
(** plotting.py:234-283 [envelope_figure]. *)
Definition two_traces (x ymax ymin : list R) (ylabel : string) (invert : bool) : axes :=
  {| ax_curves := [{| cu_x := x; cu_y := ymax; cu_color := RED |}; {| cu_x := x; cu_y := ymin; cu_color := BLUE |}];
     ax_inverted := invert; ax_xlabel := ""; ax_ylabel := ylabel; ax_marks := [] |}.
Definition envelope_figure (us : unit_system) (e : env) : axes * axes :=
  (two_traces (e_x e) (e_Mmax e) (e_Mmin e) (moment_axis us) true,
   set_xlabel (distance_axis us) (two_traces (e_x e) (e_Vmax e) (e_Vmin e) (shear_axis us) false)).
(** results.py:911-972 [Envelopes.plot]: the moment and the shear panel. *)
Definition plot_envelope (installed : bool) (bk : string) (us0 : unit_system) (e : env) (vr : list bres) (each : bool)
    (units : units_arg) (backend : option string) : (axes * axes) + failure :=
  if Nat.ltb (e_nres e) 1 then inr (Raised ValueError)
  else
    match resolve_backend bk backend with
    | Err x => inr (Raised x)
    | Ok name =>
        if String.eqb name "plotly"
        then if installed then of_result (do us <- resolve us0 units; Ok (envelope_figure us e)) else inr ModuleNotFoundError
        else of_result (do us <- resolve us0 units; envelope_mpl us e vr each)
    end.
(** results.py:1008-1069 [plot_coincidents]: the two panels, each with its right-hand axis. *)
Definition plot_coincidents (us0 : unit_system) (e : env) (units : units_arg) : result ((axes * axes) * (axes * axes)) :=
  if Nat.ltb (e_nres e) 1 then Err ValueError
  else
    do us <- resolve us0 units;
    do L <- last_of (e_x e);
    do m <- zero_line L new_axes;
    do m <- plot (e_x e) (e_Mmax e) "tab:red" m;
    do m <- plot (e_x e) (e_Mmin e) "tab:blue" m;
    let m := set_ylabel (moment_axis us) (invert_yaxis m) in
    do mc <- plot (e_x e) (e_VcoMmax e) "lightcoral" new_axes;
    do mc <- plot (e_x e) (e_VcoMmin e) "lightskyblue" mc;
    let mc := set_ylabel ("Coincident " ++ shear_axis us)%string mc in
    do v <- zero_line L new_axes;
    do v <- plot (e_x e) (e_Vmax e) "tab:red" v;
    do v <- plot (e_x e) (e_Vmin e) "tab:blue" v;
    let v := set_xlabel (distance_axis us) (set_ylabel (shear_axis us) v) in
    do vc <- plot (e_x e) (e_McoVmax e) "lightcoral" new_axes;
    do vc <- plot (e_x e) (e_McoVmin e) "lightskyblue" vc;
    let vc := set_ylabel ("Coincident " ++ moment_axis us)%string (invert_yaxis vc) in
    Ok ((m, mc), (v, vc)).

(** ** The bridge *)
(** bridge.py:1231-1256 [_mark_reaction_extreme]: the marked point, if any. *)
Definition mark_extreme (arg : list R -> nat) (pos series : list R) : result (option (R * R)) :=
  match series with
  | [] => Ok None
  | _ => do xv <- get pos (arg series); do yv <- get series (arg series); Ok (Some (xv, yv))
  end.
(** bridge.py:1197-1226: the panels of the reactions; histories with the marked extremes, or bars. *)
Inductive reaction_panels := Histories (l : list (axes * option (R * R) * option (R * R))) | Bars (top bottom : list R).
Definition history_panel (L : R) (pos : list R) (rmax rmin : list R) : result (axes * option (R * R) * option (R * R)) :=
  do a <- zero_line L new_axes; do a <- plot pos rmax "r" a; do a <- plot pos rmin "b" a;
  do t <- mark_extreme BridgeModel.argmax pos rmax; do u <- mark_extreme BridgeModel.argmin pos rmin;
  Ok (a, t, u).
(** [Rmax.shape[1]]. *)
Definition columns (e : env) : nat := match e_Rmax e with [] => e_nres e | row :: _ => length row end.
(** bridge.py:1148-1229 [plot_envelopes]; [L] is the length of the beam and [pos] the positions kept by
    the bridge.  Labels of the reactions are left out; a figure without rows is refused. *)
Definition plot_envelopes (us0 : unit_system) (L : R) (pos : list R) (e : env) (units : units_arg) : result (axes * axes * reaction_panels) :=
  do us <- resolve us0 units;
  do m <- pair_panel L (e_x e) (e_Mmax e) (e_Mmin e) (moment_axis us);
  let m := invert_yaxis m in
  do v <- pair_panel L (e_x e) (e_Vmax e) (e_Vmin e) (shear_axis us);
  let v := set_xlabel (distance_axis us) v in
  if Nat.eqb (length pos) (columns e)
  then if Nat.eqb (e_nsup e) 0 then Err ValueError
       else do l <- mapM (fun p => history_panel L pos (fst p) (snd p)) (combine (e_Rmax e) (e_Rmin e)); Ok (m, v, Histories l)
  else Ok (m, v, Bars (e_Rmaxval e) (e_Rminval e)).

(** bridge.py:853-873: the diagrams of [plot_static], on axes without lines or on those given. *)
Definition on_deck_xs (L : R) (v : vehicle) (pos : R) : list R :=
  filter (fun x => (Rleb 0 x && Rleb x L)%bool) (map (fun c => pos - c) (v_coords v)).
Definition static_diagrams (us : unit_system) (L : R) (v : vehicle) (pos : R) (r : bres) (m s : axes) : result (axes * axes) :=
  let res := br_all r in
  do m <- zero_line L m;
  do m <- plot (r_x res) (map Ropp (r_M res)) "r" m;
  let m := set_ylabel (moment_axis us) (fold_left (fun a x => axvline x a) (on_deck_xs L v pos) m) in
  do s <- zero_line L s;
  do s <- plot (r_x res) (r_V res) "r" s;
  let s := set_xlabel (distance_axis us) (set_ylabel (shear_axis us) (fold_left (fun a x => axvline x a) (on_deck_xs L v pos) s)) in
  Ok (m, s).
(** bridge.py:930-953: in the schematic of [plot_static], a wheel at every axle and an arrow at every
    axle on the deck. *)
Definition wheels (v : vehicle) (pos : R) : list R := map (fun c => pos - c) (v_coords v).
Definition load_arrows (L : R) (v : vehicle) (pos : R) : list R := on_deck_xs L v pos.
Section Runs.
Variables (gl : nat -> list (R * R)) (ill : nat -> mat -> bool).
(** bridge.py:339-359 [_single_analysis] (no shear points are armed), as called by [plot_static] on a
    figure of its own (831-839). *)
Definition plot_static (us0 : unit_system) (g : bridge) (pos : R) (units : units_arg) : bridge * result (axes * axes) :=
  match resolve us0 units with
  | Err e => (g, Err e)
  | Ok us =>
      match bg_ba g, bg_veh g with
      | None, _ => (g, Err ValueError)
      | Some _, None => (g, Err ValueError)
      | Some a, Some v =>
          match run_rows gl ill a (bg_static g) (bg_sps g) (axle_LM (an_beam a) v pos) with
          | (a', Err e) => (with_run g a' (bg_pos g) (bg_results g), Err e)
          | (a', Ok r) => (with_run g a' (bg_pos g) (bg_results g), static_diagrams us (b_length (an_beam a')) v pos r new_axes new_axes)
          end
      end
  end.
(** bridge.py:213-261 [static_vehicle] with [plotflag]: the results returned are those the analysis has
    at the end, after [plot_static]. *)
Definition static_vehicle_plot (us0 : unit_system) (g : bridge) (pos : R) (sp : sparg) (dv : option R) : bridge * result bres :=
  match static_vehicle gl ill g pos sp dv with
  | (g', Err e) => (g', Err e)
  | (g', Ok _) =>
      match bg_ba g', bg_veh g' with
      | Some a, Some v =>
          match plot_static us0 g' pos UNone with
          | (g2, Err e) => (g2, Err e)
          | (g2, Ok _) => (g2, snd (run_rows gl ill a (bg_static g') (bg_sps g') (axle_LM (an_beam a) v pos)))
          end
      | _, _ => (g', Err ValueError)   (* unreachable: [static_vehicle] has succeeded *)
      end
  end.
End Runs.

(** ** The animation of a traverse (bridge.py:1059-1146 [animate]) *)
(** np.maximum.accumulate and np.minimum.accumulate along the first axis. *)
Fixpoint accumulate (f : R -> R -> R) (acc : list R) (rows : list (list R)) : list (list R) :=
  match rows with [] => [] | r :: t => let acc := map2 f acc r in acc :: accumulate f acc t end.
Definition accumulated (f : R -> R -> R) (rows : list (list R)) : list (list R) :=
  match rows with [] => [] | r :: t => r :: accumulate f r t end.
(** bridge.py:1080-1083 [_lims]. *)
Definition lims (lo_arr hi_arr : list R) : result (R * R) :=
  do lo <- np_min lo_arr; do hi <- np_max hi_arr;
  let span := if Rltb lo hi then hi - lo else Rabs hi + 1 in
  Ok (lo - 0.08 * span, hi + 0.08 * span).
(** A frame: position of the vehicle, the moment panel and the shear panel with the limits of their
    y axes. *)
Record frame := { fr_pos : R; fr_M : axes; fr_V : axes; fr_Mlim : R * R; fr_Vlim : R * R }.
(** bridge.py:1096-1107 [_draw_effect]. *)
Definition draw_effect (L : R) (x y emin emax : list R) (ylabel : string) : result axes :=
  do a <- zero_line L new_axes; do a <- plot x emax "0.55" a; do a <- plot x emin "0.55" a; do a <- plot x y "r" a;
  Ok (set_ylabel ylabel a).
(** bridge.py:1066-1136: the frames drawn from the stored positions and results.  [np.array] of rows of
    different lengths is refused. *)
Definition frames (us : unit_system) (L : R) (pos : list R) (rs : list bres) : result (list frame) :=
  match rs with
  | [] => Err IndexError
  | r0 :: _ =>
      let x := r_x (br_all r0) in
      let bmd := map (fun r => map Ropp (r_M (br_all r))) rs in
      let sfd := map (fun r => r_V (br_all r)) rs in
      if negb (forallb (fun row => Nat.eqb (length row) (length (hd [] bmd))) bmd && forallb (fun row => Nat.eqb (length row) (length (hd [] sfd))) sfd)%bool then Err ValueError
      else
        let emax_b := accumulated Rmax bmd in let emin_b := accumulated Rmin bmd in
        let emax_s := accumulated Rmax sfd in let emin_s := accumulated Rmin sfd in
        do lb <- lims (last emin_b []) (last emax_b []);
        do ls <- lims (last emin_s []) (last emax_s []);
        mapM (fun i =>
          do p <- get pos i;
          do yb <- get bmd i; do lo <- get emin_b i; do hi <- get emax_b i;
          do mb <- draw_effect L x yb lo hi (moment_axis us);
          do ys <- get sfd i; do lo <- get emin_s i; do hi <- get emax_s i;
          do sb <- draw_effect L x ys lo hi (shear_axis us);
          Ok {| fr_pos := p; fr_M := mb; fr_V := set_xlabel (distance_axis us) sb; fr_Mlim := lb; fr_Vlim := ls |}) (seq 0 (length pos))
  end.
(** bridge.py:1013-1146 [animate]: the frames shown by the animation. *)
Definition animate (gl : nat -> list (R * R)) (ill : nat -> mat -> bool) (us0 : unit_system) (g : bridge) (step : R) (pstart pend : option R) (units : units_arg) : bridge * result (list frame) :=
  match resolve us0 units with
  | Err e => (g, Err e)
  | Ok us =>
      match run_vehicle gl ill g step pstart pend (SpPoints None) None with
      | (g', Err e) => (g', Err e)
      | (g', Ok _) => (g', match bg_ba g' with Some a => frames us (b_length (an_beam a)) (bg_pos g') (bg_results g') | None => Err AttributeError end)
      end
  end.

(** ** Influence lines, modes, plastic moments *)
(** inf_lines.py:226-237 [plot_il], after reading the line [xy]. *)
Definition il_panel (us : unit_system) (L : R) (xy : list R * list R) (ax : option axes) : result axes :=
  do a <- zero_line L (match ax with Some a => a | None => new_axes end);
  do a <- plot (fst xy) (snd xy) "r" a;
  Ok (set_xlabel (distance_axis us) (set_ylabel "Influence Ordinate" a)).
(** nonlinear.py:113-161 [plot_moments]; [coords] are the coordinates of the nodes, of which there is at
    least one. *)
Definition plot_moments (us0 : unit_system) (coords : list R) (r : nlresult) (ax : option axes) (units : units_arg) : result axes :=
  let arr (v : vec) := map v (seq 0 (length coords)) in
  do us <- resolve us0 units;
  do L <- last_of coords;
  do a <- zero_line L (match ax with Some a => a | None => new_axes end);
  do a <- foldM (fun a v => plot coords (arr v) "r" a) (nr_mom_hist r) a;
  do a <- plot coords (arr (nr_moments r)) "r" a;
  Ok (set_xlabel (distance_axis us) (set_ylabel (moment_axis us) (invert_yaxis a))).
