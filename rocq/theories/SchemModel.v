(** Model of the matplotlib schematic of a beam: src/pycba/render.py [render_mpl] and the
    functions that draw load glyphs, dimensions, load extents and foundations.  A picture is
    the list of the glyphs: points in data coordinates, arrows from tail to head, texts with
    their anchor.  Not modelled: colours, line widths, fonts, the hatching of the ground; the
    shapes of the support symbols are in SymbolModel. *)
From Coq Require Import ZArith String.
From Verif Require Import Base SectionModel ElementModel BeamModel FoundationModel BridgeModel UnitsModel RenderModel InPlotModel.
Local Notation length := List.length.
Local Open Scope list_scope.
Open Scope R_scope.

Record arrow := { ar_tail : R * R; ar_head : R * R }.
Record caption := { ca_at : R * R; ca_text : string }.

(** numpy.sign. *)
Definition sgn (w : R) : R := if Rltb 0 w then 1 else if Rltb w 0 then -1 else 0.
(** numpy.radians. *)
Definition radians (d : R) : R := d * PI / 180.

Section Schem.
(** Python's [f"{x:g}"], [chr n] beyond ASCII. *)
Variable g : R -> string.
Variable uni : nat -> string.

(** render.py:366-367: largest intensity and force, 0 if there is none. *)
Definition top_w (l : list dload) : R := fold_left (fun m d => Rmax m (Rmax (Rabs (d_w0 d)) (Rabs (d_w1 d)))) l 0.
Definition top_P (l : list pload) : R := fold_left (fun m q => Rmax m (Rabs (p_P q))) l 0.

(** render.py:711, 409: length of the arrow of a force. *)
Definition arrow_length (L pmax P : R) : R := 0.16 * L * (if Reqb pmax 0 then 1 else 0.55 + 0.45 * Rabs P / pmax).

(** render.py:710-731 [_draw_point_mpl]. *)
Record point_glyph := { pg_arrow : arrow; pg_text : option caption }.
Definition draw_point (us : unit_system) (L pmax sh : R) (show : bool) (q : pload) : point_glyph :=
  let up := Rleb 0 (p_P q) in
  let tail := if up then arrow_length L pmax (p_P q) else - arrow_length L pmax (p_P q) in
  {| pg_arrow := {| ar_tail := (p_x q, tail); ar_head := (p_x q, 0) |};
     pg_text := if show then Some {| ca_at := (p_x q, tail + (if up then 0.3 * sh else - (0.3 * sh))); ca_text := fmt_force g us (Rabs (p_P q)) |} else None |}.

(** render.py:738-741: height at an end of a distributed load. *)
Definition dist_height (L wm w : R) : R := if Reqb wm 0 then 0 else sgn w * (0.07 * L) * (0.35 + 0.65 * Rabs w / wm).
(** render.py:756: number of intervals between arrows. *)
Definition dist_gaps (L x0 x1 : R) : nat := if Rltb x0 x1 then Z.to_nat (Z.max 2 (trunc ((x1 - x0) / (0.06 * L)))) else 2%nat.
(** render.py:733-786 [_draw_dist_mpl]. *)
Record dist_glyph := { dg_top : (R * R) * (R * R); dg_area : list (R * R); dg_arrows : list arrow; dg_text : option caption }.
Definition draw_dist (us : unit_system) (L wm : R) (show : bool) (d : dload) : dist_glyph :=
  let x0 := d_x0 d in
  let x1 := d_x1 d in
  let h0 := dist_height L wm (d_w0 d) in
  let h1 := dist_height L wm (d_w1 d) in
  let at_x x := if Reqb x1 x0 then h0 else h0 + (h1 - h0) * (x - x0) / (x1 - x0) in
  let text := if Rltb (Rabs (d_w0 d - d_w1 d)) (/ 10^9) then fmt_distributed g us (Rabs (d_w0 d)) None
              else fmt_distributed g us (Rabs (d_w0 d)) (Some (Rabs (d_w1 d))) in
  {| dg_top := ((x0, h0), (x1, h1));
     dg_area := [(x0, 0); (x0, h0); (x1, h1); (x1, 0)];
     dg_arrows := map (fun x => {| ar_tail := (x, at_x x); ar_head := (x, 0) |})
                    (filter (fun x => negb (Rltb (Rabs (at_x x)) (/ 10^9))) (linspace x0 x1 (dist_gaps L x0 x1 + 1)));
     dg_text := if show then Some {| ca_at := (0.5 * (x0 + x1), Rmax h0 h1 + 0.25 * (0.07 * L)); ca_text := text |} else None |}.

(** render.py:788-834 [_draw_moment_mpl]: a tick, an arc (centre, radius, angles in degrees)
    and an arrowhead (tip and the two other corners). *)
Record moment_glyph := { mg_tick : (R * R) * (R * R); mg_centre : R * R; mg_radius : R; mg_arc : R * R;
  mg_tip : R * R; mg_back : (R * R) * (R * R); mg_text : option caption }.
Definition draw_moment (us : unit_system) (r sh : R) (show : bool) (q : mload) : moment_glyph :=
  let x := m_x q in
  let th1 := -50 in
  let th2 := 230 in
  let ccw := Rleb 0 (m_M q) in
  let a := radians (if ccw then th2 else th1) in
  let tip := (x + r * cos a, r * sin a) in
  let tang := a + (if ccw then PI / 2 else - (PI / 2)) in
  let back := tang + PI in
  let size := 0.5 * sh in
  {| mg_tick := ((x, - (0.22 * sh)), (x, 0.22 * sh));
     mg_centre := (x, 0); mg_radius := r; mg_arc := (th1, th2); mg_tip := tip;
     mg_back := ((fst tip + size * cos (back + radians 22), snd tip + size * sin (back + radians 22)),
                 (fst tip + size * cos (back - radians 22), snd tip + size * sin (back - radians 22)));
     mg_text := if show then Some {| ca_at := (x, r + 0.5 * sh); ca_text := fmt_moment g us (Rabs (m_M q)) |} else None |}.

(** render.py:836-879 [_draw_dimensions_mpl], [_draw_load_extent_mpl]: a double arrow with two
    ticks and the length. *)
Record dim_line := { dl_y : R; dl_x0 : R; dl_x1 : R; dl_tick : R; dl_text : caption }.
Definition dimension (yd tick drop x0 x1 : R) : dim_line :=
  {| dl_y := yd; dl_x0 := x0; dl_x1 := x1; dl_tick := tick;
     dl_text := {| ca_at := (0.5 * (x0 + x1), yd - drop); ca_text := (g (x1 - x0) ++ " m")%string |} |}.
Definition draw_dimensions (p : plotter) (sh : R) : result (list dim_line) :=
  mapM (fun i => do x0 <- get (pl_x p) i; do x1 <- get (pl_x p) (i + 1); Ok (dimension (- (2.3 * sh)) (0.3 * sh) (0.15 * sh) x0 x1))
       (seq 0 (b_nspans (pl_beam p))).
Definition draw_extent (sh : R) (d : dload) : dim_line := dimension (- (1.55 * sh)) (0.22 * sh) (0.12 * sh) (d_x0 d) (d_x1 d).

(** [int(np.clip(v, lo, hi))]. *)
Definition clip (v lo hi : Z) : nat := Z.to_nat (Z.min hi (Z.max lo v)).
(** render.py:661-682 [_draw_foundations_mpl]: places of the springs, ends of the ground line. *)
Record ground := { gr_springs : list R; gr_from : R; gr_to : R; gr_y : R }.
Definition draw_foundations (p : plotter) (sh : R) : result (list ground) :=
  do gs <- mapM (fun ik =>
        match snd ik with
        | None => Ok []
        | Some _ =>
            do x0 <- get (pl_x p) (fst ik);
            do x1 <- get (pl_x p) (fst ik + 1);
            Ok [{| gr_springs := linspace x0 x1 (clip (py_round ((x1 - x0) / (1.4 * sh))) 3 18);
                   gr_from := x0; gr_to := x1; gr_y := - (1.25 * sh) |}]
        end) (numbered (b_kf (pl_beam p)));
  Ok (concat gs).

(** render.py:376-391: letters of the supported nodes; the flag says that the text starts there
    (it ends there otherwise). *)
Definition draw_letter (sh : R) (s : support) : caption * bool :=
  ({| ca_at := (s_x s + (if s_right s then 0.8 * sh else - (0.8 * sh)), - (0.55 * sh)); ca_text := chr uni (65 + s_node s) |}, s_right s).

Fixpoint filterM {A} (f : A -> result bool) (l : list A) : result (list A) :=
  match l with
  | [] => Ok []
  | a :: t => do b <- f a; do r <- filterM f t; Ok (if b then a :: r else r)
  end.

(** render.py:403-433: the limits of the axes. *)
Definition heights_above (L pmax : R) (d : drawn) : list R :=
  0 :: map (fun q => arrow_length L pmax (p_P q)) (filter (fun q => Rleb 0 (p_P q)) (dr_pts d))
    ++ map (fun _ => 0.07 * L) (filter (fun q => (Rleb 0 (d_w0 q) || Rleb 0 (d_w1 q))%bool) (dr_dist d))
    ++ map (fun _ => 0.045 * L) (dr_moms d).
Definition heights_below (L pmax : R) (d : drawn) : list R :=
  0 :: map (fun q => arrow_length L pmax (p_P q)) (filter (fun q => negb (Rleb 0 (p_P q))) (dr_pts d))
    ++ map (fun _ => 0.07 * L) (filter (fun q => (Rltb (d_w0 q) 0 || Rltb (d_w1 q) 0)%bool) (dr_dist d))
    ++ map (fun _ => 0.045 * L) (dr_moms d).
Definition lmax (l : list R) : R := fold_right Rmax 0 l.   (* of a list that holds 0 *)
Definition no_loads (d : drawn) : bool :=
  match dr_pts d, dr_dist d, dr_moms d with [], [], [] => true | _, _, _ => false end.
Definition y_limits (L sh pmax : R) (d : drawn) (partial : list dload) (show_supports dims show : bool) : R * R :=
  let above := lmax (heights_above L pmax d) in
  let below := lmax (heights_below L pmax d) in
  let lbl := 1.4 * sh in
  let sup := if negb show_supports then - (0.3 * sh) else if dims then - (3 * sh)
             else if (show && negb (Nat.eqb (length partial) 0))%bool then - (2.2 * sh) else - (1.6 * sh) in
  (if Rltb (/ 10^12) below then Rmin sup (- (below + lbl)) else sup, above + if no_loads d then 0.9 * sh else lbl).

(** render.py:288-442 [render_mpl]; [us0] is the default unit system. *)
Record schem := { sc_beam : option (list (R * R)); sc_L : R; sc_grounds : list ground; sc_supports : list support; sc_hinges : list hinge;
  sc_dist : list dist_glyph; sc_points : list point_glyph; sc_moments : list moment_glyph; sc_letters : list (caption * bool);
  sc_dims : list dim_line; sc_extents : list dim_line; sc_xlim : R * R; sc_ylim : R * R; sc_xlabel : string }.
Record mpl_opts := { mo_dimensions : bool; mo_labels : bool; mo_values : bool; mo_supports : bool; mo_units : units_arg }.
Definition render_mpl (us0 : unit_system) (p : plotter) (o : mpl_opts) : result schem :=
  do us <- resolve us0 (mo_units o);
  let L := pl_L p in
  if Rleb L 0 then Err ValueError else
  let sh := 0.05 * L in
  let d := pl_loads p in
  do prof <- depth_profile sh (b_lengths (pl_beam p)) (b_EIs (pl_beam p));
  do gr <- (if mo_supports o then draw_foundations p sh else Ok []);
  let wm := top_w (dr_dist d) in
  let pm := top_P (dr_pts d) in
  do dims <- (if mo_dimensions o then draw_dimensions p sh else Ok []);
  do partial <- filterM (is_partial_dist p) (dr_dist d);
  Ok {| sc_beam := prof; sc_L := L; sc_grounds := gr;
        sc_supports := if mo_supports o then pl_supports p else [];
        sc_hinges := if mo_supports o then pl_hinges p else [];
        sc_dist := map (draw_dist us L wm (mo_values o)) (dr_dist d);
        sc_points := map (draw_point us L pm sh (mo_values o)) (dr_pts d);
        sc_moments := map (draw_moment us (0.045 * L) sh (mo_values o)) (dr_moms d);
        sc_letters := if (mo_labels o && mo_supports o)%bool then map (draw_letter sh) (pl_supports p) else [];
        sc_dims := dims; sc_extents := if mo_values o then map (draw_extent sh) partial else [];
        sc_xlim := (- (0.06 * L), 1.06 * L);
        sc_ylim := y_limits L sh pm d partial (mo_supports o) (mo_dimensions o) (mo_values o);
        sc_xlabel := distance_axis us |}.
End Schem.
