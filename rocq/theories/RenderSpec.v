(** Independent specification of what a schematic of a beam should show. *)
From Coq Require Import ZArith Ascii String.
From Verif Require Import Base SectionModel LoadModel LoadSpec ElementModel UtilsModel BeamModel BeamSpec AnalysisModel AnalysisSpec ResultsModel ResultsSpec
  BridgeSpec RenderModel.
Open Scope R_scope.

(** ** Supports and hinges *)

(** The restraint codes of the documentation: -1 fixed, 0 free, positive spring stiffness. *)
Definition documented (b : beam) : Prop := Forall (fun r => r = -1 \/ r = 0 \/ 0 < r) (b_R b).

(** Vertical and rotational restraint of node [i]. *)
Definition vert (b : beam) (i : nat) : R := restraint b (2 * i).
Definition rot (b : beam) (i : nat) : R := restraint b (2 * i + 1).
Definition supported (b : beam) (i : nat) : Prop := vert b i <> 0 \/ rot b i <> 0.
Definition clamped_node (b : beam) (i : nat) : Prop := vert b i < 0 /\ rot b i < 0.

(** The symbol that fits the restraints of node [i]; the horizontal restraint goes to the
    clamps or, if there are none, to the first node that rests on a simple support. *)
Definition symbol (b : beam) (i : nat) (k : skind) : Prop :=
  match k with
  | KFixed => clamped_node b i
  | KPin => vert b i < 0 /\ 0 <= rot b i /\ (forall j, (j <= b_nspans b)%nat -> ~ clamped_node b j) /\ (forall j, (j < i)%nat -> 0 <= vert b j)
  | KRoller => vert b i < 0 /\ 0 <= rot b i /\ ((exists j, (j <= b_nspans b)%nat /\ clamped_node b j) \/ exists j, (j < i)%nat /\ vert b j < 0)
  | KSpring => 0 < vert b i
  | KGuided => vert b i = 0 /\ rot b i < 0
  | KTorsion => vert b i = 0 /\ 0 < rot b i
  end.

(** One symbol per supported node, from left to right, at its place and of its kind. *)
Record shows_supports (b : beam) (sup : list support) : Prop := {
  sh_nodes : map s_node sup = filter (fun i => negb (Reqb (vert b i) 0 && Reqb (rot b i) 0)) (seq 0 (b_nspans b + 1));
  sh_each : forall s, In s sup -> s_x s = node_at b (s_node s) /\ symbol b (s_node s) (s_kind s) /\
    (s_left s = true <-> s_node s = 0%nat) /\ (s_right s = true <-> s_node s = b_nspans b) /\
    (s_rot s = true <-> vert b (s_node s) < 0 /\ 0 < rot b (s_node s)) }.

(** Member ends that transmit no moment (member types 2 and 4: right; 3 and 4: left). *)
Definition loose_right (b : beam) (m : nat) : Prop := nth_error (b_types b) m = Some 2%nat \/ nth_error (b_types b) m = Some 4%nat.
Definition loose_left (b : beam) (m : nat) : Prop := nth_error (b_types b) m = Some 3%nat \/ nth_error (b_types b) m = Some 4%nat.

(** ** Loads *)

(** Ordinate at [x] of a drawn distributed load. *)
Definition ordinate (q : dload) (x : R) : R :=
  if Rlt_dec x (d_x0 q) then 0 else if Rlt_dec (d_x1 q) x then 0
  else d_w0 q + (d_w1 q - d_w0 q) * ((x - d_x0 q) / (d_x1 q - d_x0 q)).

Definition of_span {A} (sp : A -> Z) (m : nat) (l : list A) : list A := filter (fun q => Z.eqb (sp q) (Z.of_nat m)) l.

Definition is_curvature (ld : load) : bool := match ld with LIC _ _ => true | _ => false end.

(** What is drawn on span [m] is the action [A] on it: intensity (except possibly at finitely
    many places), forces and moments. *)
Record shows_action (b : beam) (m : nat) (d : drawn) (A : action) : Prop := {
  sa_dist : exists ends, forall t, 0 <= t <= span_length b m -> ~ In t ends ->
    lsum (map (fun q => ordinate q (node_at b m + t)) (of_span d_span m (dr_dist d))) = intensity A t;
  sa_forces : map (fun q => (p_P q, p_x q - node_at b m)) (of_span p_span m (dr_pts d)) = forces A;
  sa_moments : map (fun q => (m_M q, m_x q - node_at b m)) (of_span m_span m (dr_moms d)) = moments A }.

(** The part of the beam between the ends of span [m]. *)
Definition in_span (b : beam) (m : nat) (x : R) : Prop := node_at b m <= x <= node_at b (S m).

(** Loads given on the spans of the beam (1-based rows). *)
Definition on_spans (b : beam) (ls : list (Z * load)) : Prop := Forall (fun p => (0 <= fst p < Z.of_nat (b_nspans b))%Z) ls.

(** ** Helpers that add one load: what their documentation says, on a span of length [L]. *)
Definition meant (L : R) (h : helper) : option action :=
  let over (a c : R) (f : R -> R) := fun x => if Rlt_dec x a then 0 else if Rlt_dec (a + c) x then 0 else f x in
  match h with
  | AddUDL _ w => Some {| intensity := fun _ => w; forces := []; moments := [] |}
  | AddPL _ p a => Some {| intensity := fun _ => 0; forces := [(p, a)]; moments := [] |}
  | AddPUDL _ w a c => Some {| intensity := over a c (fun _ => w); forces := []; moments := [] |}
  | AddML _ m a => Some {| intensity := fun _ => 0; forces := []; moments := [(m, a)] |}
  | AddIC _ _ => Some no_action
  | AddTrap _ w1 w2 None None => Some {| intensity := over 0 L (fun x => w1 + (w2 - w1) * (x / L)); forces := []; moments := [] |}
  | AddTrap _ w1 w2 (Some a) (Some c) => Some {| intensity := over a c (fun x => w1 + (w2 - w1) * ((x - a) / c)); forces := []; moments := [] |}
  | AddTrap _ _ _ (Some _) None => None
  | AddTrap _ w1 w2 None (Some c) => Some {| intensity := over 0 c (fun x => w1 + (w2 - w1) * (x / c)); forces := []; moments := [] |}
  end.
Definition helper_span (h : helper) : Z :=
  match h with
  | AddUDL i _ | AddPL i _ _ | AddPUDL i _ _ _ | AddML i _ _ | AddIC i _ | AddTrap i _ _ _ _ => i
  end.

(** ** TikZ source *)
Section Names.
Local Open Scope string_scope.
(** The text before the first [c]. *)
Fixpoint before (c : Ascii.ascii) (s : string) : string :=
  match s with EmptyString => "" | String d t => if Ascii.eqb d c then "" else String d (before c t) end.
(** The rest of [s] after the prefix [p], if it starts with it. *)
Fixpoint after (p s : string) : option string :=
  match p, s with
  | EmptyString, _ => Some s
  | String a p', String c s' => if Ascii.eqb a c then after p' s' else None
  | _, EmptyString => None
  end.
(** The name that a line of the picture declares: [\point{name}...] or [\node (name) ...]. *)
Definition declared (line : string) : list string :=
  match after (tab ++ "\point{") line with
  | Some r => [before "}"%char r]
  | None => match after (tab ++ "\node (") line with Some r => [before ")"%char r] | None => [] end
  end.

(** The digits of a numeral; stanli's support types by kind of symbol. *)
Definition digits (n : nat) : string := nat_str n.
Definition stanli (k : skind) : string :=
  match k with KPin => "1" | KRoller => "2ooo" | KFixed => "4" | KSpring => "5" | KGuided => "3" | KTorsion => "6" end.

(** The lines [ls] draw, with [name i] the name of node [i] and [fmt] the printing of numbers:
    every node at its place, every span, every support symbol at its node, and every load at
    the point of its span where it acts, forces and moments with their sense. *)
Definition spot (fmt : R -> string) (name : nat -> string) (what : string) (m : nat) (f : R) : string :=
  tab ++ "\node (" ++ what ++ ") at ($(" ++ name m ++ ")!" ++ fmt f ++ "!(" ++ name (S m) ++ ")$){};".
Record pictures (fmt : R -> string) (name : nat -> string) (b : beam) (p : plotter) (ls : list string) : Prop := {
  pic_nodes : forall i, (i <= b_nspans b)%nat -> In (tab ++ "\point{" ++ name i ++ "}{" ++ fmt (node_at b i) ++ "}{0};") ls;
  pic_spans : forall m, (m < b_nspans b)%nat -> In (tab ++ "\beam{4}{" ++ name m ++ "}{" ++ name (S m) ++ "};") ls;
  pic_supports : forall s, In s (pl_supports p) -> exists r, In (tab ++ "\support{" ++ stanli (s_kind s) ++ "}{" ++ name (s_node s) ++ "}" ++ r) ls;
  pic_forces : forall k q m, nth_error (dr_pts (pl_loads p)) k = Some q -> p_span q = Z.of_nat m -> (m < b_nspans b)%nat ->
    exists f, In (spot fmt name ("pl" ++ digits k) m f) ls /\ (node_at b m + f * span_length b m)%R = p_x q /\
      In (tab ++ "\begin{scope}[color=red]\load{1}{pl" ++ digits k ++ "}[" ++ (if Rle_dec 0 (p_P q) then "90" else "270") ++ "][18mm]\end{scope}") ls;
  pic_moments : forall k q m, nth_error (dr_moms (pl_loads p)) k = Some q -> m_span q = Z.of_nat m -> (m < b_nspans b)%nat ->
    exists f, In (spot fmt name ("ml" ++ digits k) m f) ls /\ (node_at b m + f * span_length b m)%R = m_x q /\
      In (tab ++ "\begin{scope}[color=red]\load{" ++ (if Rle_dec 0 (m_M q) then "3" else "2") ++ "}{ml" ++ digits k ++ "}\end{scope}") ls;
  pic_dist : forall k q m, nth_error (dr_dist (pl_loads p)) k = Some q -> d_span q = Z.of_nat m -> (m < b_nspans b)%nat ->
    exists f g r, In (spot fmt name ("dl" ++ digits k ++ "a") m f) ls /\ In (spot fmt name ("dl" ++ digits k ++ "b") m g) ls /\
      (node_at b m + f * span_length b m)%R = d_x0 q /\ (node_at b m + g * span_length b m)%R = d_x1 q /\
      In (tab ++ "\lineload{1}{dl" ++ digits k ++ "a}{dl" ++ digits k ++ "b}" ++ r) ls }.
End Names.

(** No load reaches past the end of its span ([on_member] lets a partial UDL do so). *)
Definition fits (b : beam) (p : Z * load) : Prop :=
  exists m, (m < b_nspans b)%nat /\ fst p = Z.of_nat m /\ on_member (span_length b m) (snd p) /\
    match snd p with LPUDL _ a c => a + c <= span_length b m | _ => True end.
(** Everything drawn for a span lies on it. *)
Record placed (b : beam) (d : drawn) : Prop := {
  pc_dist : forall q, In q (dr_dist d) -> exists m, (m < b_nspans b)%nat /\ d_span q = Z.of_nat m /\ in_span b m (d_x0 q) /\ in_span b m (d_x1 q) /\ d_x0 q <= d_x1 q;
  pc_pts : forall q, In q (dr_pts d) -> exists m, (m < b_nspans b)%nat /\ p_span q = Z.of_nat m /\ in_span b m (p_x q);
  pc_moms : forall q, In q (dr_moms d) -> exists m, (m < b_nspans b)%nat /\ m_span q = Z.of_nat m /\ in_span b m (m_x q) }.
