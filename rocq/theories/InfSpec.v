(** Independent specification of influence lines. *)
From Coq Require Import ZArith String.
From Verif Require Import Base Linalg SectionModel LoadModel LoadSpec FoundationModel ElementModel UtilsModel BeamModel BeamSpec AnalysisModel AnalysisSpec ResultsModel ResultsSpec
  VehicleModel BridgeModel BridgeSpec InfModel.
Open Scope R_scope.
Local Notation length := List.length.
Local Open Scope list_scope.

(** Member in which the effect at [p] is read: the one to the right of a node; beyond the ends
    of the beam, the last. *)
Definition member_of (b : beam) (p : R) (i : nat) : Prop :=
  (i < b_nspans b)%nat /\ (node_at b i <= p < node_at b (i + 1) \/ (p < 0 \/ deck_length b <= p) /\ i = (b_nspans b - 1)%nat).
(** [k] is the first of the entries of [xs] between [lo] and [hi] that are nearest to [p]. *)
Definition nearest (f : nat -> R) (P : nat -> Prop) (p : R) (k : nat) : Prop :=
  P k /\ forall j, P j -> Rabs (f k - p) <= Rabs (f j - p) /\ ((j < k)%nat -> Rabs (f k - p) < Rabs (f j - p)).
(** Station of a member at which an effect at [p] is read: not the first or the last one, whose
    values are zero to close the diagram. *)
Definition read_station (xs : list R) (p : R) (k : nat) : Prop :=
  nearest (fun j => nth j xs 0) (fun j => (1 <= j /\ j + 1 < length xs)%nat) p k.
(** Nearest node held vertically ([off] 0) or against rotation ([off] 1). *)
Definition read_support (b : beam) (off : nat) (p : R) (n : nat) : Prop :=
  nearest (node_at b) (fun m => (m <= b_nspans b)%nat /\ restraint b (2 * m + off) = -1) p n.

(** The names of the effects: letters in either case; any other name stands for the moment. *)
Definition effect_named (s : string) (e : effect) : Prop :=
  let V := ["V"; "v"]%string in let R := ["R"; "r"]%string in let MR := ["MR"; "Mr"; "mR"; "mr"]%string in
  match e with EffV => In s V | EffR => In s R | EffMR => In s MR | EffM => ~ In s (V ++ R ++ MR) end.

(** The effect named [eff] at [p] has the value [v] in the results [r]. *)
Definition diagram_value (b : beam) (f : mres -> list R) (r : bres) (p v : R) : Prop :=
  exists i m k, member_of b p i /\ nth_error (br_mem r) i = Some m /\ read_station (r_x m) p k /\ nth_error (f m) k = Some v.
Definition reaction_value (b : beam) (off : nat) (r : bres) (p v : R) : Prop :=
  exists n, read_support b off p n /\ nth_error (br_R r) (rank (fun j => Rltb (restraint b j) 0) (2 * n + off)) = Some v.
Definition effect_value (b : beam) (r : bres) (p : R) (eff : effect) (v : R) : Prop :=
  match eff with
  | EffV => diagram_value b r_V r p v
  | EffM => diagram_value b r_M r p v
  | EffR => reaction_value b 0 r p v
  | EffMR => reaction_value b 1 r p v
  end.

(** Point loads, each at one of the positions [xs]. *)
Definition loads_at (b : beam) (xs : list R) (loads : list (nat * R)) (rows : list row) : Prop :=
  Forall2 (fun jP r => (fst jP < length xs)%nat /\ axle_row b (nth (fst jP) xs 0, snd jP) r) loads rows.
(** Restraint codes with one meaning: held (-1), free (0) or sprung. *)
Definition plain_restraints (b : beam) : Prop := Forall (fun r => r = -1 \/ 0 <= r) (b_R b).

(** [eta] predicts the effect at [p] of point loads at the positions [xs], in multiples of a
    load [lv]. *)
Definition predicts (gl : nat -> list (R * R)) (ill : nat -> mat -> bool) (a : analysis) (lv : R) (p : R) (eff : effect) (xs eta : list R) : Prop :=
  length xs = length eta /\
  forall loads rows, loads_at (an_beam a) xs loads rows ->
    exists r v, analysed_with gl ill a (fun _ => []) rows = Ok r /\ effect_value (an_beam a) r p eff v /\
      lv * v = lsum (map (fun jP => snd jP * nth (fst jP) eta 0) loads).

(** What every influence-line object keeps to: a model of a deck without settlements. *)
Record il_valid (s : il) : Prop := {
  iv_model : bridge_model (il_a s);
  iv_free : no_settlement (an_beam (il_a s));
  iv_length : il_L s = deck_length (an_beam (il_a s)) }.
(** The positions of one creation: from the left end in equal steps to within half a step of
    the right end. *)
Definition il_steps (b : beam) (step : R) (xs : list R) : Prop :=
  exists k, xs = positions 0 step k /\ Rabs (deck_length b - INR k * step) <= step / 2.
Definition step_of (b : beam) (step : option R) : R := given (deck_length b / 100) step.
(** The restraint codes that reactions are looked up by. *)
Definition readable (b : beam) (ints : bool) (eff : effect) : Prop :=
  match eff with
  | EffV | EffM => True
  | EffR => ints = true /\ length (b_R b) = (2 * (b_nspans b + 1))%nat /\ exists n, (n <= b_nspans b)%nat /\ restraint b (2 * n) = -1
  | EffMR => ints = true /\ length (b_R b) = (2 * (b_nspans b + 1))%nat /\ exists n, (n <= b_nspans b)%nat /\ restraint b (2 * n + 1) = -1
  end.
