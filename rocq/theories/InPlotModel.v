(** Model of what the input and reaction pictures draw: section.py [SectionEI.plot],
    render.py [_round_sig], [_ei_depth_profile] and [render_reactions_mpl], vehicle.py
    [plot_vehicle].  Points, arrows and label values; colours, fonts and axes limits are not
    modelled. *)
From Coq Require Import ZArith.
From Verif Require Import Base SectionModel VehicleModel EnvelopeModel BridgeModel.
Open Scope R_scope.

(** ** section.py:404-521 [plot] *)

(** section.py:469-470: the total drawn length. *)
Definition drawn_length (ps : list piece) : R :=
  let t := lsum (map (fun p => Rmax (p_x1 p - p_x0 p) 0) ps) in if Rltb 0 t then t else 1.
(** section.py:480-482: the points of one piece. *)
Definition piece_curve (n : Z) (total : R) (p : piece) : list (R * R) :=
  let npts := Nat.max 2 (Z.to_nat (py_round (IZR n * (p_x1 p - p_x0 p) / total))) in
  map (fun x => (x, piece_eval p x)) (linspace (p_x0 p) (p_x1 p) npts).
(** section.py:478-510: one curve after another, a riser [(x, from, to)] where a piece starts
    at the end of the previous one with another value. *)
Fixpoint walk_pieces (n : Z) (total len : R) (prev : option (R * R)) (ps : list piece) : list (list (R * R)) * list (R * R * R) :=
  match ps with
  | [] => ([], [])
  | p :: t =>
      let c := piece_curve n total p in
      let y0 := snd (hd (0, 0) c) in
      let y1 := snd (last c (0, 0)) in
      let up := match prev with
                | Some (px, py) =>
                    if (isclose 1e-5 (1e-9 * Rmax 1 len) (p_x0 p) px && negb (isclose 1e-9 0 y0 py))%bool then [(p_x0 p, py, y0)] else []
                | None => []
                end in
      let (cs, rs) := walk_pieces n total len (Some (p_x1 p, y1)) t in
      (c :: cs, up ++ rs)
  end.
Record sect_picture := { sp_curves : list (list (R * R)); sp_risers : list (R * R * R); sp_marks : list R }.
Definition section_plot (n : Z) (show_breakpoints : bool) (s : sect) : result sect_picture :=
  match s_pieces s with
  | [] => Err ValueError
  | _ =>
      let (cs, rs) := walk_pieces n (drawn_length (s_pieces s)) (sect_length s) None (s_pieces s) in
      Ok {| sp_curves := cs; sp_risers := rs; sp_marks := if show_breakpoints then breakpoints s else [] |}
  end.

(** ** render.py:518-549 [_ei_depth_profile] *)

(** render.py:535-544: the samples of one span starting at [off]. *)
Definition depth_samples (off L : R) (e : rigid) : result (list (R * R)) :=
  match e with
  | RSect s => mapM (fun x => do v <- sect_eval s x; Ok (off + x, v)) (linspace 0 L 41)
  | RConst v => Ok [(off + 0, v); (off + L, v)]
  end.
Fixpoint all_samples (off : R) (Ls : list R) (es : list rigid) : result (list (R * R)) :=
  match es with
  | [] => Ok []
  | e :: et =>
      match Ls with
      | [] => Err IndexError
      | L :: Ls' => do h <- depth_samples off L e; do t <- all_samples (off + L) Ls' et; Ok (h ++ t)
      end
  end.
(** render.py:545-549.  The power is that of positive numbers, the theorems ask for positive
    rigidities. *)
Definition depth_profile (sh : R) (Ls : list R) (es : list rigid) : result (option (list (R * R))) :=
  match es with
  | [] => Ok None
  | _ =>
      do xv <- all_samples 0 Ls es;
      let vals := map snd xv in
      let mx := row_max vals in
      if (Rleb mx 0 || Rleb (mx - row_min vals) (1e-6 * mx))%bool then Ok None
      else Ok (Some (map (fun p => (fst p, 6/10 * sh * Rpower (snd p / mx) (1/3))) xv))
  end.

(** ** render.py:46-54 [_round_sig] with four figures; [round] to decimals is that of the
    real number (ties to even). *)
Definition round_to (v : R) (k : Z) : R := IZR (py_round (v * powerRZ 10 k)) / powerRZ 10 k.
Definition round_sig (v : R) : R :=
  if Reqb v 0 then v else round_to v (- Int_part (ln (Rabs v) / ln 10) + 3).

(** ** render.py:444-516 [render_reactions_mpl] *)

(** A straight arrow: abscissa, ordinates of tail and head, and the number on its label. *)
Record varrow := { va_x : R; va_tail : R; va_head : R; va_label : R }.
(** A curved arrow (render.py:788-834): centre, radius, whether it turns counter-clockwise,
    and the number on its label. *)
Record marrow := { ma_x : R; ma_r : R; ma_ccw : bool; ma_label : R }.
Definition vert_arrow (sh fvmax : R) (x Rv : R) : varrow :=
  let y0 := 17/10 * sh in
  let len := sh * (22/10 + 13/10 * (if Reqb fvmax 0 then 1 else Rabs Rv / fvmax)) in
  if Rleb 0 Rv then {| va_x := x; va_tail := - y0 - len; va_head := - y0; va_label := round_sig (Rabs Rv) |}
  else {| va_x := x; va_tail := - y0; va_head := - y0 - len; va_label := round_sig (Rabs Rv) |}.
Definition moment_arrow (sh x Mr : R) : marrow :=
  let m := round_sig Mr in {| ma_x := x; ma_r := 12/10 * sh; ma_ccw := Rleb 0 m; ma_label := Rabs m |}.
Definition reactions_picture (node_x : list R) (sh : R) (vert mom : list (nat * R)) : result (list varrow * list marrow) :=
  let fvmax := fold_left Rmax (map (fun p => Rabs (snd p)) vert) 0 in
  do vs <- mapM (fun p => do x <- get node_x (fst p); Ok (vert_arrow sh fvmax x (snd p))) vert;
  do ms <- mapM (fun p => do x <- get node_x (fst p); Ok (moment_arrow sh x (snd p))) mom;
  Ok (vs, ms).

(** ** vehicle.py:90-162 [plot_vehicle]: per axle the abscissa, the height of the arrow above the
    line it points to, and the number on its label. *)
Definition vehicle_picture (v : vehicle) : list (R * R * R) :=
  let wmax := match v_axw v with [] => 1 | _ => row_max (map Rabs (v_axw v)) end in
  map (fun p => (fst p, 4/10 + 6/10 * (if Reqb wmax 0 then 1 else Rabs (snd p) / wmax), snd p)) (combine (v_coords v) (v_axw v)).
