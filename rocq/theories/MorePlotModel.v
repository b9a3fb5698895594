(** Model of what the tendon, mode, ratio and response pictures draw and of the short text
    summaries: prestress.py [plot_tendon], modal.py [plot_modes], [plot_results] and
    [__repr__], bridge.py [plot_ratios] and [_vehicle_spec], load_cases.py
    [plot_response_envelope], beam.py [no_fixed_restraints], [_n_supports] and [__repr__].
    Points and label values; colours, fonts, number formatting, and the schematic of the beam
    in the other panels (render.py) are not modelled. *)
From Coq Require Import String.
From Verif Require Import Base SectionModel LoadModel PrestressModel ModalModel EnvelopeModel BridgeModel VehicleModel CollModel LoadCasesModel.
Local Notation length := List.length.
Open Scope R_scope.

(** matplotlib [ax.plot(x, y)]: arrays of different lengths are refused. *)
Definition polyline (x y : list R) : result (list (R * R)) :=
  if Nat.eqb (length x) (length y) then Ok (combine x y) else Err ValueError.
(** [a[-1]]. *)
Definition last_elt (x : list R) : result R := match x with [] => Err IndexError | _ => Ok (last x 0) end.

(** ** prestress.py:427-538 [plot_tendon] *)

(** The middle panel (centre line, support marks, tendon) and the rows drawn in the lower one. *)
Record tendon_picture := { tp_base : list (R * R); tp_marks : list R; tp_lines : list (list (R * R)); tp_loads : list row }.
(** prestress.py:507-509. *)
Fixpoint support_marks (rs : list R) (offs : list R) (i : nat) : result (list R) :=
  match offs with
  | [] => Ok []
  | x :: t =>
      do free <- both_zero rs (2 * i);
      do rest <- support_marks rs t (i + 1);
      Ok (if (free : bool) then rest else x :: rest)
  end.
(** prestress.py:513-516: one stressed span. *)
Definition tendon_line (rs Ls offs : list R) (i : nat) (p : profile) : result (list (R * R)) :=
  do L <- get Ls i;
  do t <- cantilever_side rs i;
  do segs <- segments p L t;
  let xs := linspace 0 L 80 in
  do es <- mapM (eval_e segs) xs;
  do o <- get offs i;
  polyline (map (fun x => o + x) xs) es.
(** prestress.py:510-516. *)
Fixpoint tendon_lines (rs Ls offs : list R) (i : nat) (ps : list (option profile)) : result (list (list (R * R))) :=
  match ps with
  | [] => Ok []
  | None :: t => tendon_lines rs Ls offs (i + 1) t
  | Some p :: t =>
      do l <- tendon_line rs Ls offs i p;
      do rest <- tendon_lines rs Ls offs (i + 1) t;
      Ok (l :: rest)
  end.
(** prestress.py:470-533.  The offsets are np.cumsum after a zero, as [boundaries]. *)
Definition plot_tendon (Ls rs : list R) (f : force) (ps : list (option profile)) : result tendon_picture :=
  let offs := boundaries Ls in
  do total <- last_elt offs;
  do LM <- equivalent_loads Ls rs f ps;
  do marks <- support_marks rs offs 0;
  do lines <- tendon_lines rs Ls offs 0 ps;
  Ok {| tp_base := [(0, 0); (total, 0)]; tp_marks := marks; tp_lines := lines; tp_loads := LM |}.

(** ** modal.py:99-190 *)

(** modal.py:77 [f]. *)
Definition mode_freqs (r : modal_results) : list R := map (fun w => w / (2 * PI)) (mo_omega r).
(** The base line, and one curve per mode with the mode number and frequency of its label. *)
Record mode_picture := { mp_base : list (R * R); mp_curves : list (list (R * R) * (nat * R)) }.
(** modal.py:99-134 [plot_modes] with a list of non-negative indices. *)
Definition plot_modes (r : modal_results) (modes : list nat) : result mode_picture :=
  do x0 <- get (mo_x r) 0;
  do x1 <- last_elt (mo_x r);
  do cs <- mapM (fun m => do xv <- mode_shape r m; do c <- polyline (fst xv) (snd xv); do f <- get (mode_freqs r) m; Ok (c, ((m + 1)%nat, f))) modes;
  Ok {| mp_base := [(x0, 0); (x1, 0)]; mp_curves := cs |}.
(** modal.py:136-185 [plot_results]: the lower panel; [None] is the default. *)
Definition plot_mode_results (r : modal_results) (modes : option (list nat)) : result mode_picture :=
  plot_modes r (match modes with Some l => l | None => seq 0 (Nat.min 3 (length (mo_omega r))) end).
(** modal.py:187-190 [__repr__]: number of modes, the frequencies shown, and whether an
    ellipsis follows. *)
Definition modal_text (r : modal_results) : nat * list R * bool :=
  let n := length (mo_omega r) in (n, firstn (Nat.min 5 n) (mode_freqs r), Nat.ltb 5 n).

(** ** bridge.py:1258-1328 [plot_ratios] *)

Record ratio_picture := { rp_base : list (R * R); rp_Mmax : list (R * R); rp_Mmin : list (R * R); rp_Vmax : list (R * R); rp_Vmin : list (R * R);
  rp_bars_max : list (nat * R); rp_bars_min : list (nat * R) }.
(** The dictionary made by [envelopes_ratios] has the keys "Rmax0" and "Rmin0" when there is
    at least one reaction (lines 1283-1290). *)
Definition plot_ratios (r : ratios) : result ratio_picture :=
  if Nat.eqb (rt_nsup r) 0 then Err ValueError
  else
    do L <- last_elt (rt_x r);
    do m1 <- polyline (rt_x r) (rt_Mmax r);
    do m2 <- polyline (rt_x r) (rt_Mmin r);
    do v1 <- polyline (rt_x r) (rt_Vmax r);
    do v2 <- polyline (rt_x r) (rt_Vmin r);
    do b1 <- mapM (fun i => do p <- get (rt_R r) i; Ok (i, fst p)) (seq 0 (rt_nsup r));
    do b2 <- mapM (fun i => do p <- get (rt_R r) i; Ok (i, snd p)) (seq 0 (rt_nsup r));
    Ok {| rp_base := [(0, 0); (L, 0)]; rp_Mmax := m1; rp_Mmin := m2; rp_Vmax := v1; rp_Vmin := v2; rp_bars_max := b1; rp_bars_min := b2 |}.

(** ** bridge.py:995-1011 [_vehicle_spec] *)

(** bridge.py:1004-1006: the axles after one of weight [w] that are close to it, and the others. *)
Fixpoint same_run (w : R) (l : list R) : nat * list R :=
  match l with
  | [] => (0%nat, [])
  | v :: t => if isclose 1e-5 1e-8 v w then let (n, rest) := same_run w t in (S n, rest) else (0%nat, l)
  end.
(** bridge.py:1001-1009; [fuel] bounds the number of groups by the number of axles. *)
Fixpoint axle_groups (fuel : nat) (l : list R) : list (nat * R) :=
  match fuel, l with
  | S k, w :: t => let (n, rest) := same_run w t in (S n, w) :: axle_groups k rest
  | _, _ => []
  end.
(** The groups (number, weight) and the total. *)
Definition vehicle_spec (v : vehicle) : list (nat * R) * R := (axle_groups (length (v_axw v)) (v_axw v), v_W v).

(** ** load_cases.py:1225-1278 [plot_response_envelope] *)

Record response_picture := { rs_lines : list (string * list (R * R)); rs_verticals : list R; rs_names : list (R * nat) }.
(** load_cases.py:1243-1249: the line of response [j]. *)
Definition response_line (x : list R) (cases : option (list source)) (j : nat) (row : list R) : result (string * list (R * R)) :=
  do label <- (match cases with Some cs => do c <- get cs j; Ok (source_name c j) | None => Ok ("LC " ++ dec (j + 1))%string end);
  do l <- polyline x row;
  Ok (label, l).
(** load_cases.py:1255-1260: [S1], [S2], ... at the middle of the spans. *)
Definition span_names (bs : list R) : list (R * nat) :=
  map (fun i => (5e-1 * (nth i bs 0 + nth (i + 1) bs 0), (i + 1)%nat)) (seq 0 (length bs - 1)).
Definition plot_response_envelope (x : list R) (B : list (list R)) (neg pos : list R) (beam : option (list R)) (cases : option (list source)) : result response_picture :=
  do ls <- mapM (fun p => response_line x cases (fst p) (snd p)) (combine (seq 0 (length B)) B);
  do n <- polyline x neg;
  do p <- polyline x pos;
  let bs := match beam with Some Ls => boundaries Ls | None => [] end in
  Ok {| rs_lines := ls ++ [("Additive negative envelope"%string, n); ("Additive positive envelope"%string, p)];
        rs_verticals := bs; rs_names := span_names bs |}.

(** ** beam.py:462-491 *)

(** beam.py:462-471 [no_fixed_restraints]. *)
Definition no_fixed_restraints (rs : list R) : nat := length (filter (fun r => Reqb r (-1)) rs).
(** beam.py:473-480 [_n_supports]: [n] spans. *)
Definition n_supports (n : nat) (rs : list R) : nat :=
  length (filter (fun i => (Nat.ltb (2 * i + 1) (length rs) && (negb (Reqb (nth (2 * i) rs 0) 0) || negb (Reqb (nth (2 * i + 1) rs 0) 0)))%bool) (seq 0 (n + 1))).
