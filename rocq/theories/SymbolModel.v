(** Model of the support symbols of the matplotlib schematic and of the picture of the
    reactions: src/pycba/render.py [_draw_support_mpl] and its helpers, [_draw_hinge_mpl],
    [render_reactions_mpl]; src/pycba/analysis.py [plot_reactions].  Not modelled: colours,
    line widths, fonts, drawing order. *)
From Coq Require Import ZArith String.
From Verif Require Import Base SectionModel ElementModel BeamModel AnalysisModel ResultsModel UnitsModel RenderModel InPlotModel SchemModel.
Local Notation length := List.length.
Local Open Scope list_scope.
Open Scope R_scope.

(** What is put on the axes: a polyline, a filled polygon, a disc, the lower half of a disc. *)
Inductive shape :=
| SLine (pts : list (R * R))
| SPoly (pts : list (R * R))
| SDisc (c : R * R) (r : R)
| SHalf (c : R * R) (r : R).

(** render.py:684-689 [_ground_mpl] with [n = 6]. *)
Definition ground_mpl (xc ytop width : R) : list shape :=
  let hs := width * 0.16 in
  SLine [(xc - width / 2, ytop); (xc + width / 2, ytop)]
  :: map (fun xi => SLine [(xi, ytop); (xi + hs, ytop - hs)]) (linspace (xc - width / 2) (xc + width / 2 - width / 6) 6).

(** render.py:691-702 [_spring_mpl]. *)
Definition spring_mpl (xc sh : R) : list shape :=
  let ys := linspace 0 (- (0.95 * sh)) 13 in
  let xs := map (fun k => if (Nat.eqb k 0 || Nat.eqb k (length ys - 1))%bool then xc
                          else xc + (if Nat.odd k then 0.22 * sh else - (0.22 * sh))) (seq 0 (length ys)) in
  [SLine (combine xs ys); SLine [(xc, - (0.95 * sh)); (xc, - (1.2 * sh))]].

(** render.py:637-646 [_rot_spring_mpl]; [t[-1]] is the end of the interval. *)
Definition rot_spring_mpl (x sh : R) : list shape :=
  let cy := 0.48 * sh in
  let t_end := 3 * 2 * PI in
  [SLine [(x, 0); (x, cy - 0.3 * sh)];
   SLine (map (fun t => let r := 0.03 * sh + 0.3 * sh * (t / t_end) in (x + r * cos t, cy + r * sin t)) (linspace 0 t_end 220))].

(** render.py:648-659 [_pin_marker_mpl]. *)
Definition pin_marker_mpl (x sh : R) (end_ : bool) : shape := if end_ then SDisc (x, 0) (0.17 * sh) else SHalf (x, 0) (0.17 * sh).

(** render.py:552-635 [_draw_support_mpl]. *)
Definition draw_support (sh : R) (s : support) : list shape :=
  let x := s_x s in
  let end_ := (s_left s || s_right s)%bool in
  let top := if end_ then 0 else - (0.2 * sh) in
  let rest := pin_marker_mpl x sh end_ :: if s_rot s then rot_spring_mpl x sh else [] in
  match s_kind s with
  | KPin =>
      SPoly [(x, top); (x - 0.5 * sh, top - sh); (x + 0.5 * sh, top - sh)] :: ground_mpl x (top - sh) (1.5 * sh) ++ rest
  | KRoller =>
      SPoly [(x, top); (x - 0.5 * sh, top - 0.7 * sh); (x + 0.5 * sh, top - 0.7 * sh)]
      :: map (fun dx => SDisc (x + dx, top - 0.86 * sh) (0.15 * sh)) [- (0.27 * sh); 0.27 * sh]
      ++ ground_mpl x (top - 1.02 * sh) (1.5 * sh) ++ rest
  | KFixed =>
      let side := if s_right s then 1 else -1 in
      SLine [(x, - sh); (x, sh)]
      :: map (fun yi => SLine [(x, yi); (x + side * 0.4 * sh, yi + 0.4 * sh)]) (linspace (- sh) sh 6)
  | KSpring | KTorsion => spring_mpl x sh ++ ground_mpl x (- (1.2 * sh)) (1.3 * sh)
  | KGuided =>
      [SLine [(x - 0.5 * sh, - (0.3 * sh)); (x + 0.5 * sh, - (0.3 * sh))]; SLine [(x - 0.5 * sh, - (0.6 * sh)); (x + 0.5 * sh, - (0.6 * sh))]]
      ++ ground_mpl x (- (0.6 * sh)) (1.3 * sh)
  end.

(** render.py:704-707 [_draw_hinge_mpl]. *)
Definition draw_hinge (sh : R) (h : hinge) : shape := SDisc (h_x h, 0) (0.18 * sh).

(** render.py:360-363: the symbols that [render_mpl] draws, one list per support. *)
Definition support_symbols (pic : schem) : list (list shape) := map (draw_support (0.05 * sc_L pic)) (sc_supports pic).
Definition hinge_symbols (pic : schem) : list shape := map (draw_hinge (0.05 * sc_L pic)) (sc_hinges pic).

Section Reactions.
(** Python's [f"{x:g}"], [chr n] beyond ASCII. *)
Variable g : R -> string.
Variable uni : nat -> string.

(** render.py:478: length of an arrow. *)
Definition react_length (sh fvmax Rv : R) : R := sh * (2.2 + 1.3 * (if Reqb fvmax 0 then 1 else Rabs Rv / fvmax)).
(** render.py:476-508: one vertical reaction. *)
Record react_glyph := { rg_arrow : arrow; rg_text : caption }.
Definition draw_reaction (us : unit_system) (sh fvmax x Rv : R) : react_glyph :=
  let y0 := 1.7 * sh in
  let len := react_length sh fvmax Rv in
  {| rg_arrow := if Rleb 0 Rv then {| ar_tail := (x, - y0 - len); ar_head := (x, - y0) |}
                 else {| ar_tail := (x, - y0); ar_head := (x, - y0 - len) |};
     rg_text := {| ca_at := (x, - y0 - len - 0.3 * sh); ca_text := fmt_force g us (round_sig (Rabs Rv)) |} |}.
(** render.py:509-511: one moment reaction. *)
Definition draw_turning (us : unit_system) (sh x Mr : R) : moment_glyph :=
  draw_moment g us (1.2 * sh) sh true {| m_span := 0; m_x := x; m_M := round_sig Mr |}.

(** The picture of the reactions: the schematic, the arrows and the limits after the overlay. *)
Record react_pic := { rp_schem : schem; rp_forces : list react_glyph; rp_moments : list moment_glyph; rp_ylim : R * R }.
(** render.py:444-516 [render_reactions_mpl] with [show_val = True]. *)
Definition render_reactions (us : unit_system) (p : plotter) (pic : schem) (vert mom : list (nat * R)) : result react_pic :=
  let sh := 0.05 * pl_L p in
  let fvmax := fold_left Rmax (map (fun q => Rabs (snd q)) vert) 0 in
  do vs <- mapM (fun q => do x <- get (pl_x p) (fst q); Ok (draw_reaction us sh fvmax x (snd q))) vert;
  let lmax := fold_left (fun m q => Rmax m (react_length sh fvmax (snd q))) vert (2.2 * sh) in
  do ms <- mapM (fun q => do x <- get (pl_x p) (fst q); Ok (draw_turning us sh x (snd q))) mom;
  let need := - (1.7 * sh + lmax + 1 * sh) in
  let ymin := fst (sc_ylim pic) in
  Ok {| rp_schem := pic; rp_forces := vs; rp_moments := ms; rp_ylim := (if Rltb need ymin then need else ymin, snd (sc_ylim pic)) |}.

(** analysis.py:1063-1110 [plot_reactions]; [res] is [self._beam_results]; [None] stands for the
    message that there is nothing to plot. *)
Definition plot_reactions (us0 : unit_system) (b : beam) (res : option bres) (u : units_arg) : result (option react_pic) :=
  match res with
  | None => Ok None
  | Some br =>
      do us <- resolve us0 u;
      do p <- beam_plotter b (GivenRows []);
      do pic <- render_mpl g uni us0 p {| mo_dimensions := false; mo_labels := true; mo_values := true; mo_supports := true; mo_units := USystem us |};
      do vm <- reactions_by_node b {| o_d := br_D br; o_R := br_R br; o_Rs := br_Rs br |};
      do rp <- render_reactions us p pic (fst vm) (snd vm);
      Ok (Some rp)
  end.
End Reactions.
