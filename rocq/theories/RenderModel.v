(** Model of src/pycba/render.py: what [BeamPlotter] infers from a beam (supports, loads,
    hinges) and the TikZ source it writes; of [BeamAnalysis._reactions_by_node] and of the
    [BeamAnalysis.add_*] helpers of src/pycba/analysis.py.
    The matplotlib backend is in SchemModel and SymbolModel, save_tikz in SaveModel. *)
From Coq Require Import Ascii String DecimalString.
From Verif Require Import Base SectionModel LoadModel ElementModel UtilsModel BeamModel FoundationModel AnalysisModel UnitsModel.
Open Scope R_scope.

(** render.py:37-43: kinds of support symbol. *)
Inductive skind := KPin | KRoller | KFixed | KSpring | KGuided | KTorsion.

(** render.py:58-67 [Support]. *)
Record support := { s_x : R; s_kind : skind; s_node : nat; s_left : bool; s_right : bool; s_rot : bool }.
(** render.py:70-78 [DistLoad]; the span index may be negative. *)
Record dload := { d_span : Z; d_x0 : R; d_x1 : R; d_w0 : R; d_w1 : R }.
(** render.py:81-87 [PointLoad]. *)
Record pload := { p_span : Z; p_x : R; p_P : R }.
(** render.py:90-96 [MomentLoad]. *)
Record mload := { m_span : Z; m_x : R; m_M : R }.
(** render.py:99-104 [Hinge]. *)
Record hinge := { h_x : R; h_node : nat }.

(** Python list indexing with a possibly negative index. *)
Definition py_get {A} (l : list A) (i : Z) : result A := do j <- py_index (List.length l) i; get l j.

(** render.py:190 [has_fixed]: [any] stops at the first fully fixed node, and [R[2i+1]] is
    only read when [R[2i] == -1]. *)
Fixpoint any_fixed (rs : list R) (is : list nat) : result bool :=
  match is with
  | [] => Ok false
  | i :: t =>
      do v <- get rs (2 * i);
      if Reqb v (-1) then do r <- get rs (2 * i + 1); if Reqb r (-1) then Ok true else any_fixed rs t
      else any_fixed rs t
  end.

(** render.py:197-212: symbol of a node and whether a pin is assigned afterwards. *)
Definition support_kind (pin : bool) (v r : R) : option skind * bool :=
  if Reqb v (-1) && Reqb r (-1) then (Some KFixed, pin)
  else if Reqb v (-1) then (if pin then (Some KRoller, pin) else (Some KPin, true))
  else if Rltb 0 v then (Some KSpring, pin)
  else if Reqb v 0 && Reqb r (-1) then (Some KGuided, pin)
  else if Reqb v 0 && Rltb 0 r then (Some KTorsion, pin)
  else (None, pin).

(** render.py:193-226: one pass of the loop. *)
Definition support_step (xs rs : list R) (st : list support * bool) (i : nat) : result (list support * bool) :=
  do v <- get rs (2 * i);
  do r <- get rs (2 * i + 1);
  let (k, pin) := support_kind (snd st) v r in
  match k with
  | None => Ok (fst st, pin)
  | Some k =>
      do x <- get xs i;
      Ok ((fst st ++ [{| s_x := x; s_kind := k; s_node := i; s_left := Nat.eqb i 0;
                         s_right := Nat.eqb i (List.length xs - 1); s_rot := Reqb v (-1) && Rltb 0 r |}])%list, pin)
  end.

(** render.py:183-227 [_infer_supports]. *)
Definition infer_supports (xs rs : list R) : result (list support) :=
  do pin <- any_fixed rs (seq 0 (List.length xs));
  do st <- foldM (support_step xs rs) (seq 0 (List.length xs)) ([], pin);
  Ok (fst st).

(** The four lists collected by [_infer_loads]. *)
Record drawn := { dr_dist : list dload; dr_pts : list pload; dr_moms : list mload; dr_skip : list (Z * load) }.

Definition add_dist (d : drawn) (x : dload) : drawn :=
  {| dr_dist := (dr_dist d ++ [x])%list; dr_pts := dr_pts d; dr_moms := dr_moms d; dr_skip := dr_skip d |}.
Definition add_pt (d : drawn) (x : pload) : drawn :=
  {| dr_dist := dr_dist d; dr_pts := (dr_pts d ++ [x])%list; dr_moms := dr_moms d; dr_skip := dr_skip d |}.
Definition add_mom (d : drawn) (x : mload) : drawn :=
  {| dr_dist := dr_dist d; dr_pts := dr_pts d; dr_moms := (dr_moms d ++ [x])%list; dr_skip := dr_skip d |}.
Definition add_skip (d : drawn) (x : Z * load) : drawn :=
  {| dr_dist := dr_dist d; dr_pts := dr_pts d; dr_moms := dr_moms d; dr_skip := (dr_skip d ++ [x])%list |}.

(** render.py:239-259: one parsed load. *)
Definition draw_load (xs lens : list R) (d : drawn) (p : Z * load) : result drawn :=
  let sp := fst p in
  do off <- py_get xs sp;
  do L <- py_get lens sp;
  Ok match snd p with
     | LUDL w => add_dist d {| d_span := sp; d_x0 := off; d_x1 := off + L; d_w0 := w; d_w1 := w |}
     | LPUDL w a c => add_dist d {| d_span := sp; d_x0 := off + a; d_x1 := off + a + c; d_w0 := w; d_w1 := w |}
     | LTrap w1 w2 a co =>
         match trap_resolve w1 w2 a co L with
         | (w1, w2, _, a, c) =>
             if Rltb 0 c then add_dist d {| d_span := sp; d_x0 := off + a; d_x1 := off + a + c; d_w0 := w1; d_w1 := w2 |}
             else d
         end
     | LPL P a => add_pt d {| p_span := sp; p_x := off + a; p_P := P |}
     | LML m a => add_mom d {| m_span := sp; m_x := off + a; m_M := m |}
     | LIC _ _ => add_skip d p
     | LMaMb _ _ => d   (* never produced by parse_LM *)
     end.

(** render.py:229-260 [_infer_loads]; parse_LM of an empty matrix is the empty list. *)
Definition infer_loads (xs lens : list R) (lm : list row) : result drawn :=
  do ls <- parse_LM lm;
  foldM (draw_load xs lens) ls {| dr_dist := []; dr_pts := []; dr_moms := []; dr_skip := [] |}.

(** render.py:262-278 [_infer_hinges]. *)
Definition released_at (et : list nat) (i : nat) : bool :=
  match nth_error et (i - 1) with Some t => Nat.eqb t 2 || Nat.eqb t 4 | None => false end
  || match nth_error et i with Some t => Nat.eqb t 3 || Nat.eqb t 4 | None => false end.
Definition infer_hinges (xs : list R) (et : list nat) : list hinge :=
  map (fun i => {| h_x := nth i xs 0; h_node := i |}) (filter (released_at et) (seq 1 (List.length xs - 2))).

(** render.py:150-178 [_resolve_lm]: where the loads come from.  The rows that a load case
    or combination lowers to ([to_LM], see LoadCasesModel and CollModel) are given as the
    outcome of that call; a combination without its collection is refused. *)
Inductive source :=
| OwnLoads                                        (* loads=None *)
| GivenRows (lm : list row)
| GivenCase (to_LM : result (list row))
| GivenCombination (to_LM : option (result (list row))).
Definition resolve_lm (b : beam) (s : source) : result (list row) :=
  match s with
  | OwnLoads => Ok (b_LM b)
  | GivenRows lm => Ok lm
  | GivenCase r => r
  | GivenCombination (Some r) => r
  | GivenCombination None => Err ValueError
  end.

(** render.py:135-148 [BeamPlotter.__init__]. *)
Record plotter := { pl_beam : beam; pl_L : R; pl_x : list R; pl_LM : list row; pl_supports : list support;
  pl_loads : drawn; pl_hinges : list hinge }.
Definition beam_plotter (b : beam) (s : source) : result plotter :=
  do lm <- resolve_lm b s;
  do sup <- infer_supports (b_terminal b) (b_R b);
  do d <- infer_loads (b_terminal b) (b_lengths b) lm;
  Ok {| pl_beam := b; pl_L := b_length b; pl_x := b_terminal b; pl_LM := lm; pl_supports := sup; pl_loads := d;
        pl_hinges := infer_hinges (b_terminal b) (b_types b) |}.

(** render.py:280-286 [_is_partial_dist]. *)
Definition is_partial_dist (p : plotter) (d : dload) : result bool :=
  let eps := / 10^6 * Rmax (pl_L p) 1 in
  do a <- py_get (pl_x p) (d_span d);
  do b <- py_get (pl_x p) (d_span d + 1);
  Ok (Rltb (a + eps) (d_x0 d) || Rltb (d_x1 d) (b - eps)).

(** ** TikZ source.  [fmt x] is Python's [f"{x:g}"]; [uni n] is [chr n] beyond ASCII. *)
Section TikZ.
Variable fmt : R -> string.
Variable uni : nat -> string.
Local Open Scope string_scope.

Definition tab : string := String (ascii_of_nat 9) "".
Definition newline : string := String (ascii_of_nat 10) "".
Definition nat_str (n : nat) : string := NilZero.string_of_uint (Nat.to_uint n).
Definition chr (n : nat) : string := if (n <? 128)%nat then String (ascii_of_nat n) "" else uni n.

(** render.py:1029-1031 [_node_name]. *)
Definition node_name (i : nat) : string := if (i <? 26)%nat then chr (97 + i) else "p" ++ nat_str i.

(** render.py:1033-1056 [_support_tikz]. *)
Definition support_tikz (s : support) (nodes : list string) : result string :=
  do n <- get nodes (s_node s);
  Ok match s_kind s with
     | KPin => "\support{1}{" ++ n ++ "};"
     | KRoller => "\support{2ooo}{" ++ n ++ "};"
     | KFixed => "\support{4}{" ++ n ++ "}" ++ (if s_right s then "[90]" else if s_left s then "[-90]" else "") ++ ";"
     | KSpring => "\support{5}{" ++ n ++ "};"
     | KGuided => "\support{3}{" ++ n ++ "}[90];"
     | KTorsion => "\support{6}{" ++ n ++ "};"
     end.

Definition simple_support (s : support) : bool := match s_kind s with KPin | KRoller => true | _ => false end.

(** render.py:1058-1081 [_hinges_tikz]. *)
Definition hinges_tikz (p : plotter) (nodes : list string) : result (list string) :=
  do a <- mapM (fun s =>
            do n <- get nodes (s_node s);
            if s_left s || s_right s then Ok ("\hinge{1}{" ++ n ++ "};")
            else
              do n0 <- get nodes (s_node s - 1);
              do n1 <- get nodes (s_node s + 1);
              Ok ("\hinge{2}{" ++ n ++ "}[" ++ n0 ++ "][" ++ n1 ++ "];"))
          (filter simple_support (pl_supports p));
  do h <- mapM (fun h => do n <- get nodes (h_node h); Ok ("\hinge{1}{" ++ n ++ "};"))
          (filter (fun h => negb (existsb (fun s => Nat.eqb (s_node s) (h_node h)) (filter simple_support (pl_supports p))))
             (pl_hinges p));
  Ok (a ++ h)%list.

(** render.py:1083-1086 [_span_fraction]. *)
Definition span_fraction (xs : list R) (sp : Z) (x : R) : result R :=
  do off <- py_get xs sp;
  do nxt <- py_get xs (sp + 1);
  let L := (nxt - off)%R in
  Ok (if Reqb L 0 then 0%R else ((x - off) / L)%R).

(** f" {unit}" or nothing; f"~{unit}" or nothing. *)
Definition spaced (u : string) : string := if String.eqb u "" then "" else " " ++ u.
Definition tied (u : string) : string := if String.eqb u "" then "" else "~" ++ u.

(** render.py:1092: the largest intensity, 1 if that is 0. *)
Definition wmax (l : list dload) : R :=
  let m := fold_left (fun m d => Rmax m (Rmax (Rabs (d_w0 d)) (Rabs (d_w1 d)))) l 0%R in
  if Reqb m 0 then 1%R else m.

(** f"\\node ({name}) at ($({ni})!{f:g}!({nj})$){{}};" *)
Definition place (p : plotter) (nodes : list string) (name : string) (sp : Z) (x : R) : result string :=
  do ni <- py_get nodes sp;
  do nj <- py_get nodes (sp + 1);
  do f <- span_fraction (pl_x p) sp x;
  Ok ("\node (" ++ name ++ ") at ($(" ++ ni ++ ")!" ++ fmt f ++ "!(" ++ nj ++ ")$){};").

(** render.py:1094-1102: one distributed load. *)
Definition dist_tikz (p : plotter) (nodes : list string) (kd : nat * dload) : result (list string) :=
  let (k, d) := kd in
  let w := wmax (dr_dist (pl_loads p)) in
  do l0 <- place p nodes ("dl" ++ nat_str k ++ "a") (d_span d) (d_x0 d);
  do l1 <- place p nodes ("dl" ++ nat_str k ++ "b") (d_span d) (d_x1 d);
  Ok [l0; l1; "\lineload{1}{dl" ++ nat_str k ++ "a}{dl" ++ nat_str k ++ "b}["
      ++ fmt (0.3 + 0.4 * Rabs (d_w0 d) / w)%R ++ "][" ++ fmt (0.3 + 0.4 * Rabs (d_w1 d) / w)%R ++ "];"].

(** render.py:1108-1125: its annotations. *)
Definition dist_label (p : plotter) (us : unit_system) (kd : nat * dload) : result (list string) :=
  let (k, d) := kd in
  let lbl := if Rltb (Rabs (d_w0 d - d_w1 d)) (/ 10^9) then "$" ++ fmt (Rabs (d_w0 d)) ++ "$" ++ spaced (us_distributed us)
             else "$" ++ fmt (Rabs (d_w0 d)) ++ "\rightarrow" ++ fmt (Rabs (d_w1 d)) ++ "$" ++ spaced (us_distributed us) in
  let note := "\notation{5}{dl" ++ nat_str k ++ "a}{dl" ++ nat_str k ++ "b}[" ++ lbl ++ "][0.5][above=8mm];" in
  do part <- is_partial_dist p d;
  Ok (if part then [note; "\dimensioning{1}{dl" ++ nat_str k ++ "a}{dl" ++ nat_str k ++ "b}{"
                          ++ fmt (- Rmax 0.6 (0.055 * pl_L p))%R ++ "}[$" ++ fmt (d_x1 d - d_x0 d)%R ++ "$" ++ tied (us_length us) ++ "];"]
      else [note]).

(** render.py:1127-1141: one point load. *)
Definition point_tikz (p : plotter) (nodes : list string) (show : bool) (us : unit_system) (kp : nat * pload) : result (list string) :=
  let (k, q) := kp in
  do l <- place p nodes ("pl" ++ nat_str k) (p_span q) (p_x q);
  Ok (l :: ("\begin{scope}[color=red]\load{1}{pl" ++ nat_str k ++ "}[" ++ (if Rleb 0 (p_P q) then "90" else "270") ++ "][18mm]\end{scope}")
      :: (if show then ["\notation{1}{pl" ++ nat_str k ++ "}{$" ++ fmt (Rabs (p_P q)) ++ "$" ++ spaced (us_force us) ++ "}[above=20mm];"] else [])).

(** render.py:1143-1159: one moment. *)
Definition moment_tikz (p : plotter) (nodes : list string) (show : bool) (us : unit_system) (km : nat * mload) : result (list string) :=
  let (k, q) := km in
  do l <- place p nodes ("ml" ++ nat_str k) (m_span q) (m_x q);
  Ok (l :: ("\begin{scope}[color=red]\load{" ++ (if Rleb 0 (m_M q) then "3" else "2") ++ "}{ml" ++ nat_str k ++ "}\end{scope}")
      :: (if show then ["\notation{2}{ml" ++ nat_str k ++ "}{$" ++ fmt (Rabs (m_M q)) ++ "$" ++ spaced (us_moment us) ++ "}[above=5mm];"] else [])).

Definition numbered {A} (l : list A) : list (nat * A) := combine (seq 0 (List.length l)) l.

(** render.py:1088-1160 [_loads_tikz]. *)
Definition loads_tikz (p : plotter) (nodes : list string) (show : bool) (us : unit_system) : result (list string) :=
  let d := pl_loads p in
  do dl <- match dr_dist d with
           | [] => Ok []
           | _ =>
               do ls <- mapM (dist_tikz p nodes) (numbered (dr_dist d));
               do ns <- (if show then mapM (dist_label p us) (numbered (dr_dist d)) else Ok []);
               Ok ("\begin{scope}[color=red]" :: concat ls ++ "\end{scope}" :: concat ns)%list
           end;
  do pl <- mapM (point_tikz p nodes show us) (numbered (dr_pts d));
  do ml <- mapM (moment_tikz p nodes show us) (numbered (dr_moms d));
  Ok (dl ++ concat pl ++ concat ml)%list.

(** render.py:1162-1172 [_wrap_standalone]. *)
Definition wrap_standalone (body : string) : string :=
  "\documentclass[tikz,border=5pt]{standalone}" ++ newline ++ "\usepackage[utf8]{inputenc}" ++ newline
  ++ "\usepackage{stanli}" ++ newline ++ "\usepackage{tikz}" ++ newline
  ++ "\usetikzlibrary{arrows.meta,arrows,positioning,calc,backgrounds}" ++ newline
  ++ "\begin{document}" ++ newline ++ body ++ newline ++ "\end{document}" ++ newline.

Definition opt_block (title : string) (ls : list string) : list string :=
  match ls with [] => [] | _ => (tab ++ title) :: map (append tab) ls end.

(** render.py:966-976: letters of the supported nodes. *)
Definition label_tikz (nodes : list string) (s : support) : result string :=
  do n <- get nodes (s_node s);
  Ok (tab ++ "\notation{1}{" ++ n ++ "}{$" ++ chr (65 + s_node s) ++ "$}["
      ++ (if s_right s then "below right=1mm and 4mm" else "below left=1mm and 4mm") ++ "];").

(** render.py:917-978 [render_tikz]: the lines of the picture.  [scale] is absent when not
    given or zero; [us] is the resolved unit system. *)
Definition tikz_lines (p : plotter) (scale : option R) (dims labels show : bool) (us : unit_system) : result (list string) :=
  let xs := pl_x p in
  let nodes := map node_name (seq 0 (List.length xs)) in
  let beam_line (i : nat) : result string :=
    do a <- get nodes i; do c <- get nodes (i + 1); Ok (tab ++ "\beam{4}{" ++ a ++ "}{" ++ c ++ "};") in
  let dim_line (i : nat) : result string :=
    do a <- get nodes i; do c <- get nodes (i + 1); do x0 <- get xs i; do x1 <- get xs (i + 1);
    Ok (tab ++ "\dimensioning{1}{" ++ a ++ "}{" ++ c ++ "}{" ++ fmt (- Rmax 1 (0.09 * pl_L p))%R ++ "}[$" ++ fmt (x1 - x0)%R ++ "$"
        ++ tied (us_length us) ++ "];") in
  let points := map (fun ix => tab ++ "\point{" ++ node_name (fst ix) ++ "}{" ++ fmt (snd ix) ++ "}{0};") (numbered xs) in
  do beams <- mapM beam_line (seq 0 (b_nspans (pl_beam p)));
  do sup <- mapM (fun s => support_tikz s nodes) (pl_supports p);
  do hin <- hinges_tikz p nodes;
  do lds <- loads_tikz p nodes show us;
  do dm <- (if dims then do ds <- mapM dim_line (seq 0 (b_nspans (pl_beam p))); Ok ((tab ++ "% Dimensions") :: ds) else Ok []);
  do lb <- (if labels then do ls <- mapM (label_tikz nodes) (pl_supports p); Ok ((tab ++ "% Labels") :: ls) else Ok []);
  Ok ("\begin{tikzpicture}[background rectangle/.style={fill=white}, show background rectangle]"
      :: match scale with Some s => if Reqb s 0 then [] else [(tab ++ "\scaling{" ++ fmt s ++ "};")%string] | None => [] end
      ++ (tab ++ "% Nodes")%string :: points
      ++ (tab ++ "% Beam")%string :: beams
      ++ (tab ++ "% Supports")%string :: map (append tab) sup
      ++ opt_block "% Hinges" hin
      ++ opt_block "% Loads" lds
      ++ dm ++ lb ++ ["\end{tikzpicture}"])%list.

(** render.py:978-981. *)
Definition render_tikz (p : plotter) (standalone : bool) (scale : option R) (dims labels show : bool) (us : unit_system) : result string :=
  do ls <- tikz_lines p scale dims labels show us;
  let body := String.concat newline ls in
  Ok (if standalone then wrap_standalone body else body).
End TikZ.

(** ** analysis.py:1032-1061 [_reactions_by_node] *)

(** The walk over the restraints: [ir] and [is] count the reactions and springs read. *)
Fixpoint spread (rs : list R) (react springs : list R) : result (list R) :=
  match rs with
  | [] => Ok []
  | r :: t =>
      if Rltb r 0 then
        match react with v :: react' => do f <- spread t react' springs; Ok (v :: f) | [] => Err IndexError end
      else if Rltb 0 r then
        match springs with v :: springs' => do f <- spread t react springs'; Ok (v :: f) | [] => Err IndexError end
      else do f <- spread t react springs; Ok (0 :: f)
  end.

(** A dict of node to value, in key order; entries not above 1e-6 are left out. *)
Definition by_node (full : list R) (q : nat) : list (nat * R) :=
  filter (fun nv => Rltb (/ 10^6) (Rabs (snd nv)))
    (map (fun n => (n, nth (2 * n + q) full 0)) (seq 0 (List.length full / 2))).

Definition reactions_by_node (b : beam) (o : output) : result (list (nat * R) * list (nat * R)) :=
  do full <- spread (b_R b) (o_R o) (o_Rs o);
  Ok (by_node full 0, by_node full 1).

(** ** analysis.py:278-404: helpers that append one load *)
Inductive helper :=
| AddUDL (i : Z) (w : R)
| AddPL (i : Z) (p a : R)
| AddPUDL (i : Z) (w a c : R)
| AddML (i : Z) (m a : R)
| AddIC (i : Z) (kappa : list R)          (* a scalar is the one-coefficient list *)
| AddTrap (i : Z) (w1 w2 : R) (a c : option R).

Definition helper_row (h : helper) : result row :=
  match h with
  | AddUDL i w => Ok (Row i 1 [w])
  | AddPL i p a => Ok (Row i 2 [p; a])
  | AddPUDL i w a c => Ok (Row i 3 [w; a; c])
  | AddML i m a => Ok (Row i 4 [m; a])
  | AddIC i k => Ok (Row i 6 k)
  | AddTrap i w1 w2 (Some a) None => Err ValueError
  | AddTrap i w1 w2 (Some a) (Some c) => Ok (Row i 5 [w1; w2; a; c])
  | AddTrap i w1 w2 None _ => Ok (Row i 5 [w1; w2])
  end.

Definition add_helper (a : analysis) (h : helper) : result analysis :=
  do r <- helper_row h; Ok (with_beam a (add_load (an_beam a) r)).
