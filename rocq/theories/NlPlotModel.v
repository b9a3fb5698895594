(** Model of the pictures of a plastic analysis (src/pycba/nonlinear.py:73-422).  Simplifications:
    the picture starts empty; colours, sizes, limits, grids, legends and figures are left out; a
    number written in the picture is kept as the number; the moment diagram is [plot_moments] of
    PlotModel. *)
From Coq Require Import String.
From Verif Require Import Base Linalg UnitsModel ResultsModel VehicleModel NonlinModel PlotModel.
Open Scope R_scope.
Local Notation length := List.length.
Local Open Scope list_scope.

(** nonlinear.py:105-111: what the pictures read of a NonlinearResult; [no_disp] is
    final_displacements, empty unless given. *)
Record nlout := { no_coords : list R; no_supports : list R; no_lambda : R; no_collapsed : bool; no_events : list hevent; no_disp : list R }.
(** nonlinear.py:935-983, 636: the object returned by [analyze]. *)
Definition static_out (a : nba) (r : nlresult) : nlout :=
  {| no_coords := nb_coords a; no_supports := cumsum 0 (nb_L a); no_lambda := nr_lambda r; no_collapsed := nr_collapsed r;
     no_events := nr_events r; no_disp := map (nr_u r) (seq 0 (nb_dof a)) |}.
(** nonlinear.py:1155-1159 [_mr]: the object returned by [analyze_moving]. *)
Definition moving_out (a : nba) (r : nlresult) : nlout :=
  {| no_coords := nb_coords a; no_supports := cumsum 0 (nb_L a); no_lambda := nr_lambda r; no_collapsed := nr_collapsed r;
     no_events := nr_events r; no_disp := [] |}.

(** A picture: the beam line, the curve, the triangles, the two series of markers, the axles
    (position, weight), the labels. *)
Record picture := { pc_beam : list (R * R); pc_curve : list (R * R); pc_supports : list R; pc_yields : list (R * R); pc_hinges : list (R * R);
  pc_axles : list (R * R); pc_title : string; pc_front : option R; pc_xlabel : string; pc_ylabel : string }.
Definition is_kind (k : ekind) (e : hevent) : bool :=
  match k, ev_kind e with InitialYield, InitialYield | PlasticHinge, PlasticHinge => true | _, _ => false end.

(** nonlinear.py:164-184 [_draw_beam]: line and triangles. *)
Definition draw_beam (o : nlout) (L y : R) : list (R * R) * list R := ([(0, y); (L, y)], no_supports o).

(** nonlinear.py:186-243 [plot_hinge_history]. *)
Definition plot_hinge_history (us0 : unit_system) (o : nlout) (moving : bool) (units : units_arg) : result picture :=
  do us <- resolve us0 units;
  do L <- last_of (no_coords o);
  let series k := map (fun e => (ev_x e, ev_lam e)) (filter (is_kind k) (no_events o)) in
  Ok {| pc_beam := if moving then [] else [(0, 1); (L, 1)]; pc_curve := []; pc_supports := [];
        pc_yields := series InitialYield; pc_hinges := series PlasticHinge; pc_axles := []; pc_title := ""; pc_front := None;
        pc_xlabel := distance_axis us; pc_ylabel := if moving then length_axis us "Front axle position" else "Load factor $\lambda$" |}.

(** nonlinear.py:245-332 [plot_beam_state]. *)
Definition plot_beam_state (us0 : unit_system) (o : nlout) (v : option vehicle) (units : units_arg) : result picture :=
  do us <- resolve us0 units;
  do L <- last_of (no_coords o);
  let bs := if Nat.ltb 0 (length (no_supports o)) then draw_beam o L 0 else ([], []) in
  let series k := map (fun e => (ev_x e, 0 + (- (1/2)))) (filter (is_kind k) (no_events o)) in
  let front := no_lambda o in
  let axles := match v with
               | None => []
               | Some v => fold_left (fun acc wc => let x := front - snd wc in if (Rleb 0 x && Rleb x L)%bool then acc ++ [(x, fst wc)] else acc)
                             (combine (v_axw v) (v_coords v)) []
               end in
  Ok {| pc_beam := fst bs; pc_curve := []; pc_supports := snd bs; pc_yields := series InitialYield; pc_hinges := series PlasticHinge; pc_axles := axles;
        pc_title := match v with None => "" | Some _ => ("Vehicle at " ++ (if no_collapsed o then "collapse" else "final"))%string end;
        pc_front := match v with None => None | Some _ => Some front end;
        pc_xlabel := distance_axis us; pc_ylabel := "" |}.

(** nonlinear.py:400-402: sorted(set): one entry per location, rising. *)
Fixpoint insert_loc (x : R) (l : list R) : list R :=
  match l with [] => [x] | y :: t => if Rltb x y then x :: l else if Reqb x y then l else y :: insert_loc x t end.
Definition sorted_set (l : list R) : list R := fold_right insert_loc [] l.
(** nonlinear.py:368: d[0 : 2n : 2]. *)
Definition even_entries (d : list R) (n : nat) : list R := map (fun j => nth (2 * j) d 0) (seq 0 n).
(** nonlinear.py:372. *)
Definition max_abs (l : list R) : R := fold_right Rmax 0 (map Rabs l).
(** nonlinear.py:334-422 [plot_collapse]. *)
Definition plot_collapse (us0 : unit_system) (o : nlout) (scale : option R) (units : units_arg) : result picture :=
  do us <- resolve us0 units;
  do L <- last_of (no_coords o);
  let x := no_coords o in
  let d := no_disp o in
  let dv := if Nat.leb (2 * length x) (length d) then even_entries d (length x) else repeat 0 (length x) in
  let dmax := max_abs dv in
  let s := match scale with Some s => s | None => if Rltb 0 dmax then 12/100 * L / dmax else 1 end in
  let y := map (fun v => v * s) dv in
  let hx := sorted_set (map ev_x (filter (is_kind PlasticHinge) (no_events o))) in
  Ok {| pc_beam := [(0, 0); (L, 0)]; pc_curve := combine x y; pc_supports := no_supports o; pc_yields := [];
        pc_hinges := map (fun xi => (xi, interp xi (combine x y))) hx; pc_axles := [];
        pc_title := if no_collapsed o then "Collapse mechanism" else "Deformed shape"; pc_front := Some (no_lambda o);
        pc_xlabel := distance_axis us; pc_ylabel := "" |}.
