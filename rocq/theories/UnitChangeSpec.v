(** Independent specification of the change of units: the same beam with lengths and forces
    measured in other units. *)
From Verif Require Import Base Linalg SectionModel LoadModel ElementModel UtilsModel BeamModel AnalysisModel AnalysisSpec ResultsModel.
Open Scope R_scope.

(** One old unit of length is [u_len] new ones, one old unit of force [u_for] new ones. *)
Record units := { u_len : R; u_for : R }.
Definition proper (u : units) : Prop := 0 < u_len u /\ 0 < u_for u.
Definition nn : units := {| u_len := 1000; u_for := 1000 |}.

Section Units.
Variable u : units.

(** The numbers that measure a length, a force, a moment, a load per length, a bending
    rigidity in the new units. *)
Definition len (x : R) : R := u_len u * x.
Definition frc (x : R) : R := u_for u * x.
Definition mom (x : R) : R := u_for u * u_len u * x.
Definition per (x : R) : R := u_for u / u_len u * x.
Definition rig (x : R) : R := u_for u * u_len u ^ 2 * x.
(** Coefficient [k] of a polynomial [sum k_j x^j] in a coordinate, its value measured by [c]. *)
Fixpoint coeffs_up (c : R) (ks : list R) : list R :=
  match ks with [] => [] | k :: t => c * k :: coeffs_up (c / u_len u) t end.

(** Values that vary along a member: as given, with coefficients from the highest power down. *)
Definition piece_units (c : R) (p : piece) : piece :=
  {| p_x0 := len (p_x0 p); p_x1 := len (p_x1 p); p_coeffs := rev (coeffs_up c (rev (p_coeffs p))); p_degree := p_degree p |}.
Definition sect_units (c : R) (s : sect) : sect :=
  {| s_pieces := map (piece_units c) (s_pieces s); s_joins := map len (s_joins s); s_kinks := map len (s_kinks s);
     s_x0 := len (s_x0 s); s_end := len (s_end s) |}.
Definition rigid_units (c : R) (e : rigid) : rigid :=
  match e with RConst x => RConst (c * x) | RSect s => RSect (sect_units c s) end.
Definition ei_units (e : rigid) : rigid := rigid_units (u_for u * u_len u ^ 2) e.
Definition ga_units (e : rigid) : rigid := rigid_units (u_for u) e.

(** A row of the load matrix, by type: uniform, point, partial uniform, moment, trapezoidal
    and imposed curvature. *)
Definition args_units (t : Z) (args : list R) : list R :=
  match t, args with
  | 1%Z, w :: l => per w :: l
  | 2%Z, P :: l => frc P :: map len l
  | 3%Z, w :: l => per w :: map len l
  | 4%Z, m :: l => mom m :: map len l
  | 5%Z, w1 :: w2 :: l => per w1 :: per w2 :: map len l
  | 6%Z, ks => coeffs_up (1 / u_len u) ks
  | _, l => l
  end.
Definition row_units (r : row) : row :=
  match r with Row s t args => Row s t (args_units t args) | r => r end.

(** Degree of freedom [i] is a deflection if even, a rotation if odd: measures of its
    displacement, of a force on it and of a spring at it. *)
Definition dis (i : nat) (x : R) : R := if Nat.even i then len x else x.
Definition act (i : nat) (x : R) : R := if Nat.even i then frc x else mom x.
Definition spring_units (i : nat) (r : R) : R := if Rlt_dec 0 r then (if Nat.even i then per r else mom r) else r.
Fixpoint from {A B} (f : nat -> A -> B) (i : nat) (l : list A) : list B :=
  match l with [] => [] | a :: t => f i a :: from f (S i) t end.

Definition beam_units (b : beam) : beam :=
  {| b_lengths := map len (b_lengths b); b_EIs := map ei_units (b_EIs b); b_GAv := map (option_map ga_units) (b_GAv b);
     b_kf := map (option_map (fun k => u_for u / u_len u ^ 2 * k)) (b_kf b); b_types := b_types b; b_nspans := b_nspans b;
     b_length := len (b_length b); b_terminal := map len (b_terminal b);
     b_R := from spring_units 0 (b_R b); b_D := from (fun i => option_map (dis i)) 0 (b_D b);
     b_LM := map row_units (b_LM b); b_version := b_version b |}.
Definition analysis_units (a : analysis) : analysis :=
  {| an_beam := beam_units (an_beam a); an_n := an_n a; an_npts := an_npts a; an_checked := None; an_out := None |}.

(** The displacements, reactions and end forces of [b] in the old and in the new units. *)
Definition output_units (b : beam) (n : nat) (o o' : output) : Prop :=
  (forall i, (i < 2 * (n + 1))%nat -> o_d o' i = dis i (o_d o i)) /\
  length (o_R o') = length (o_R o) /\ length (o_Rs o') = length (o_Rs o) /\
  forall i, (i < 2 * (n + 1))%nat -> reported (beam_units b) o' i = act i (reported b o i).
Definition ends_units (e e' : vec) : Prop := forall p, (p < 4)%nat -> e' p = act p (e p).

(** Results along a member: stations, moments, shears; rotations and deflections at the
    stations between the two closing ones. *)
Definition member_units (r r' : mres) : Prop :=
  r_x r' = map len (r_x r) /\ r_M r' = map mom (r_M r) /\ r_V r' = map frc (r_V r) /\
  inner (r_R r') = inner (r_R r) /\ inner (r_D r') = map len (inner (r_D r)).

(** The results of a whole analysis. *)
Definition out_of (r : bres) : output := {| o_d := br_D r; o_R := br_R r; o_Rs := br_Rs r |}.
Definition results_units (b : beam) (n : nat) (r r' : bres) : Prop :=
  output_units b n (out_of r) (out_of r') /\ Forall2 member_units (br_mem r) (br_mem r').

(** The arguments of the constructor in the new units. *)
Definition support_units (s : support) : support :=
  match s with SupPair l => SupPair (from spring_units 0 l) | SupName n => SupName n end.
Definition ctor_units (c : ctor) : ctor :=
  {| ct_L := map len (ct_L c);
     ct_EI := match ct_EI c with EIAll e => EIAll (ei_units e) | EIEach l => EIEach (map ei_units l) end;
     ct_R := option_map (from spring_units 0) (ct_R c); ct_LM := option_map (map row_units) (ct_LM c);
     ct_types := ct_types c; ct_D := option_map (from (fun i => option_map (dis i)) 0) (ct_D c);
     ct_sup := option_map (map support_units) (ct_sup c);
     ct_GAv := match ct_GAv c with GNone => GNone | GAll g => GAll (ga_units g) | GEach l => GEach (map (option_map ga_units) l) end;
     ct_kf := match ct_kf c with KNone => KNone | KAll k => KAll (u_for u / u_len u ^ 2 * k)
              | KEach l => KEach (map (option_map (fun k => u_for u / u_len u ^ 2 * k)) l) end |}.
(** Rigidities that are positive numbers, or vary along the whole member of length [L] by one
    polynomial that is positive on it. *)
Definition whole (L : R) (e : rigid) : Prop :=
  match e with
  | RConst c => 0 < c
  | RSect s => exists p, s_pieces s = [p] /\ p_x0 p = 0 /\ p_x1 p = L /\ s_joins s = [L] /\ s_kinks s = [] /\ s_x0 s = 0 /\ s_end s = L /\
      forall x, 0 <= x <= L -> 0 < piece_eval p x
  end.
Definition whole_shear (L : R) (g : option rigid) : Prop := match g with Some e => whole L e | None => True end.
(** Beams of such members, without foundation. *)
Definition plain (b : beam) : Prop :=
  Forall (fun l => 0 < l) (b_lengths b) /\ Forall2 whole (b_lengths b) (b_EIs b) /\
  Forall2 whole_shear (b_lengths b) (b_GAv b) /\ Forall (fun k => k = None) (b_kf b).
(** Constructor arguments of such beams. *)
Definition plain_ctor (c : ctor) : Prop :=
  Forall (fun l => 0 < l) (ct_L c) /\
  match ct_EI c with EIAll e => Forall (fun l => whole l e) (ct_L c) | EIEach es => forall l e, In (l, e) (combine (ct_L c) es) -> whole l e end /\
  match ct_GAv c with GNone => True | GAll g => Forall (fun l => whole l g) (ct_L c)
  | GEach gs => forall l g, In (l, g) (combine (ct_L c) gs) -> whole_shear l g end /\
  match ct_kf c with KNone => True | KAll _ => False | KEach l => Forall (fun k => k = None) l end.
End Units.

(** The stability test of analysis.py:554-556 with exact eigenvalues: the largest magnitude is
    zero, or the smallest is less than 1e-12 of it. *)
Definition eigenvalue (n : nat) (A : mat) (mu : R) : Prop :=
  exists y : vec, (exists i, (i < n)%nat /\ y i <> 0) /\ forall i, (i < n)%nat -> mulmv n A y i = mu * y i.
Definition exact_test (ill : nat -> mat -> bool) : Prop :=
  forall n A, (forall i j, (i < n)%nat -> (j < n)%nat -> A i j = A j i) ->
    (ill n A = true <-> (forall mu, eigenvalue n A mu -> mu = 0) \/
       exists mu nu, eigenvalue n A mu /\ eigenvalue n A nu /\ Rabs mu < 1e-12 * Rabs nu).
