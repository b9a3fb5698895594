(** Specification of what the matplotlib schematic of a beam should show. *)
From Coq Require Import ZArith String Ascii.
From Verif Require Import Base SectionModel ElementModel BeamModel BeamSpec AnalysisSpec UnitsModel BridgeSpec RenderModel RenderSpec InPlotModel SchemModel.
Local Notation length := List.length.
Local Open Scope list_scope.
Open Scope R_scope.

(** A printed number with its unit, if the unit system has one. *)
Definition worth (number unit : string) : string :=
  match unit with EmptyString => number | _ => (number ++ " " ++ unit)%string end.

(** ** Forces *)
(** How far the arrow of a force reaches from the beam. *)
Definition reach (gl : point_glyph) : R := Rabs (snd (ar_tail (pg_arrow gl))).
(** A vertical arrow whose head is where the force acts: from above for a force that is not
    upwards, from below for one that is; the magnitude is printed beyond the tail. *)
Record force_shown (g : R -> string) (us : unit_system) (L : R) (show : bool) (q : pload) (gl : point_glyph) : Prop := {
  fs_head : ar_head (pg_arrow gl) = (p_x q, 0);
  fs_x : fst (ar_tail (pg_arrow gl)) = p_x q;
  fs_above : 0 <= p_P q -> 0 < snd (ar_tail (pg_arrow gl));
  fs_below : p_P q < 0 -> snd (ar_tail (pg_arrow gl)) < 0;
  fs_reach : reach gl <= 0.16 * L;
  fs_quiet : show = false -> pg_text gl = None;
  fs_text : show = true -> exists y, pg_text gl = Some {| ca_at := (p_x q, y); ca_text := worth (g (Rabs (p_P q))) (us_force us) |} /\
    reach gl < Rabs y /\ 0 < y * snd (ar_tail (pg_arrow gl)) }.

(** ** Distributed loads *)
(** The height [h] is on the side of the intensity [w]. *)
Definition same_side (h w : R) : Prop := (0 < w -> 0 < h) /\ (w < 0 -> h < 0) /\ (w = 0 -> h = 0).
(** The end heights of a drawn distributed load. *)
Definition left_height (gl : dist_glyph) : R := snd (fst (dg_top gl)).
Definition right_height (gl : dist_glyph) : R := snd (snd (dg_top gl)).
(** Height and intensity at the fraction [t] of the loaded length. *)
Definition along (a b t : R) : R := a + (b - a) * t.
Record dist_shown (g : R -> string) (us : unit_system) (L : R) (show : bool) (q : dload) (gl : dist_glyph) : Prop := {
  ds_top : dg_top gl = ((d_x0 q, left_height gl), (d_x1 q, right_height gl));
  ds_area : dg_area gl = [(d_x0 q, 0); fst (dg_top gl); snd (dg_top gl); (d_x1 q, 0)];
  ds_left : same_side (left_height gl) (d_w0 q) /\ Rabs (left_height gl) <= 0.07 * L;
  ds_right : same_side (right_height gl) (d_w1 q) /\ Rabs (right_height gl) <= 0.07 * L;
  (** vertical arrows onto the beam from the top line, at equal distances from end to end,
      none where the top line meets the beam *)
  ds_arrows : d_x0 q < d_x1 q -> exists n, (2 <= n)%nat /\ forall a, In a (dg_arrows gl) <->
    exists k, (k <= n)%nat /\ let t := INR k / INR n in let x := along (d_x0 q) (d_x1 q) t in let h := along (left_height gl) (right_height gl) t in
      / 10^9 <= Rabs h /\ a = {| ar_tail := (x, h); ar_head := (x, 0) |};
  ds_quiet : show = false -> dg_text gl = None;
  ds_same : show = true -> d_w0 q = d_w1 q -> exists at_, dg_text gl = Some {| ca_at := at_; ca_text := worth (g (Rabs (d_w0 q))) (us_distributed us) |} /\
    fst at_ = (d_x0 q + d_x1 q) / 2;
  ds_differ : show = true -> / 10^9 <= Rabs (d_w0 q - d_w1 q) -> Rabs (d_w0 q) <> Rabs (d_w1 q) ->
    exists at_, dg_text gl = Some {| ca_at := at_; ca_text := worth (g (Rabs (d_w0 q)) ++ "→" ++ g (Rabs (d_w1 q)))%string (us_distributed us) |} /\
    fst at_ = (d_x0 q + d_x1 q) / 2 }.

(** ** Moments *)
Definition minus (a b : R * R) : R * R := (fst a - fst b, snd a - snd b).
Definition cross (a b : R * R) : R := fst a * snd b - snd a * fst b.
Definition dot (a b : R * R) : R := fst a * fst b + snd a * snd b.
Definition middle (a b : R * R) : R * R := ((fst a + fst b) / 2, (snd a + snd b) / 2).
(** The direction in which the arrowhead points. *)
Definition heading (gl : moment_glyph) : R * R := minus (mg_tip gl) (middle (fst (mg_back gl)) (snd (mg_back gl))).
(** The point of the circle at [t] degrees. *)
Definition circle_point (gl : moment_glyph) (t : R) : R * R :=
  (fst (mg_centre gl) + mg_radius gl * cos (t * PI / 180), snd (mg_centre gl) + mg_radius gl * sin (t * PI / 180)).
(** An arc around the point where the moment acts, with an arrowhead at one end that turns
    anticlockwise for a moment that is not negative and clockwise for a negative one. *)
Record moment_shown (g : R -> string) (us : unit_system) (L : R) (show : bool) (q : mload) (gl : moment_glyph) : Prop := {
  ms_centre : mg_centre gl = (m_x q, 0);
  ms_radius : 0 < mg_radius gl;
  ms_arc : fst (mg_arc gl) < snd (mg_arc gl) < fst (mg_arc gl) + 360;
  ms_end : mg_tip gl = circle_point gl (if Rle_dec 0 (m_M q) then snd (mg_arc gl) else fst (mg_arc gl));
  ms_tangent : dot (minus (mg_tip gl) (mg_centre gl)) (heading gl) = 0;
  ms_turn : 0 <= m_M q -> 0 < cross (minus (mg_tip gl) (mg_centre gl)) (heading gl);
  ms_back : m_M q < 0 -> cross (minus (mg_tip gl) (mg_centre gl)) (heading gl) < 0;
  ms_quiet : show = false -> mg_text gl = None;
  ms_text : show = true -> exists y, mg_text gl = Some {| ca_at := (m_x q, y); ca_text := worth (g (Rabs (m_M q))) (us_moment us) |} /\ mg_radius gl < y }.

(** ** Dimensions, letters, foundations *)
(** A dimension line below the beam from [x0] to [x1] that says the length in metres. *)
Definition dimensioned (g : R -> string) (x0 x1 : R) (d : dim_line) : Prop :=
  dl_x0 d = x0 /\ dl_x1 d = x1 /\ dl_y d < 0 /\ ca_text (dl_text d) = (g (x1 - x0) ++ " m")%string /\ fst (ca_at (dl_text d)) = (x0 + x1) / 2.
(** The load leaves more than the tolerance of its span free. *)
Definition leaves_free (b : beam) (q : dload) : Prop :=
  exists m, d_span q = Z.of_nat m /\ let tol := / 10^6 * Rmax (deck_length b) 1 in node_at b m + tol < d_x0 q \/ d_x1 q < node_at b (S m) - tol.

Definition alphabet : list string :=
  ["A"; "B"; "C"; "D"; "E"; "F"; "G"; "H"; "I"; "J"; "K"; "L"; "M"; "N"; "O"; "P"; "Q"; "R"; "S"; "T"; "U"; "V"; "W"; "X"; "Y"; "Z"]%string.
(** The letter of a support, below the beam: to the right of the last node, to the left of any
    other. *)
Definition lettered (s : support) (c : caption * bool) : Prop :=
  ((s_node s < 26)%nat -> nth_error alphabet (s_node s) = Some (ca_text (fst c))) /\ snd (ca_at (fst c)) < 0 /\
  (if s_right s then s_x s < fst (ca_at (fst c)) /\ snd c = true else fst (ca_at (fst c)) < s_x s /\ snd c = false).

Definition founded (b : beam) (m : nat) : bool := match nth_error (b_kf b) m with Some (Some _) => true | _ => false end.
(** Springs at equal distances from end to end of member [m], the ground below them. *)
Definition ground_shown (b : beam) (m : nat) (gr : ground) : Prop :=
  gr_from gr = node_at b m /\ gr_to gr = node_at b (S m) /\ gr_y gr < 0 /\
  exists n, (3 <= n <= 18)%nat /\ length (gr_springs gr) = n /\
    forall k, (k < n)%nat -> nth_error (gr_springs gr) k = Some (along (node_at b m) (node_at b (S m)) (INR k / INR (n - 1))).

(** ** Everything drawn *)
Definition caption_points (c : option caption) : list (R * R) := match c with Some c => [ca_at c] | None => [] end.
Definition dim_points (d : dim_line) : list (R * R) :=
  [(dl_x0 d, dl_y d); (dl_x1 d, dl_y d); (dl_x0 d, dl_y d + dl_tick d); (dl_x0 d, dl_y d - dl_tick d);
   (dl_x1 d, dl_y d + dl_tick d); (dl_x1 d, dl_y d - dl_tick d); ca_at (dl_text d)].
Definition arrow_points (a : arrow) : list (R * R) := [ar_tail a; ar_head a].
(** The corners of the load glyphs, the ends of the dimension lines, the springs' ground and the
    places of the texts. *)
Definition marks (pic : schem) : list (R * R) :=
  flat_map (fun gl => arrow_points (pg_arrow gl) ++ caption_points (pg_text gl)) (sc_points pic)
  ++ flat_map (fun gl => dg_area gl ++ flat_map arrow_points (dg_arrows gl) ++ caption_points (dg_text gl)) (sc_dist pic)
  ++ flat_map (fun gl => [fst (mg_tick gl); snd (mg_tick gl); mg_tip gl; fst (mg_back gl); snd (mg_back gl)] ++ caption_points (mg_text gl)) (sc_moments pic)
  ++ map (fun c => ca_at (fst c)) (sc_letters pic)
  ++ flat_map dim_points (sc_dims pic ++ sc_extents pic)
  ++ flat_map (fun gr => [(gr_from gr, gr_y gr); (gr_to gr, gr_y gr)]) (sc_grounds pic).
Definition inside (pic : schem) (pt : R * R) : Prop :=
  fst (sc_xlim pic) <= fst pt <= snd (sc_xlim pic) /\ fst (sc_ylim pic) <= snd pt <= snd (sc_ylim pic).
