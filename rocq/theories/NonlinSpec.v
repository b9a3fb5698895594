(** Independent specification of the plastic analysis. *)
From Coq Require Import ZArith Sorted.
From Coquelicot Require Import Coquelicot.
From Verif Require Import Base SectionModel LoadModel VehicleModel ElementSpec AnalysisSpec FoundSpec NonlinModel.
Open Scope R_scope.

(** * The mesh *)
(** Where span [i] starts (span [n] is the end of the beam). *)
Definition start (Ls : list R) (i : nat) : R := rsum i (fun j => nth j Ls 0).
Definition coord (a : nba) (j : nat) : R := nth j (nb_coords a) 0.
Definition element_h (a : nba) (e : nat) : R := nth e (nb_eL a) 0.
(** Element [e] lies in span [i]. *)
Definition lies_in (a : nba) (e i : nat) : Prop := start (nb_L a) i <= coord a e /\ coord a (e + 1) <= start (nb_L a) (i + 1).
(** The value an argument (a number or a list) gives to span [i]. *)
Definition for_span (v : narg) (i : nat) (x : R) : Prop := match v with NScalar r => x = r | NList l => nth_error l i = Some x end.
Definition rigidity (v : eiargs) (i : nat) (x : R) : Prop :=
  match v with EIOne e => e = RConst x | EIList l => nth_error l i = Some (RConst x) end.
Definition made (a : nba) (Ls : list R) (EI : eiargs) (rs : list R) (Mp : narg) (My : option narg) (q mesh_size : R) : Prop :=
  nba_init Ls EI rs Mp My q mesh_size = Ok a /\ Ls <> [] /\ Forall (Rlt 0) Ls.
(** A mesh: nodes from 0 rising by the element lengths. *)
Record meshed (a : nba) : Prop := {
  me_nodes : nb_nodes a = S (nb_elems a);
  me_some : (1 <= nb_elems a)%nat;
  me_first : coord a 0 = 0;
  me_step : forall e, (e < nb_elems a)%nat -> coord a (e + 1) = coord a e + element_h a e;
  me_positive : forall e, (e < nb_elems a)%nat -> 0 < element_h a e;
  me_last : coord a (nb_elems a) = start (nb_L a) (length (nb_L a)) }.

(** * Nodal forces *)
(** Work of nodal forces on a motion of the mesh (deflection and rotation of each node). *)
Definition work (a : nba) (F u : vec) : R := rsum (nb_dof a) (fun i => F i * u i).
(** Deflection of the mesh at [x]: cubic in each element. *)
Definition deflects (a : nba) (u : vec) (x y : R) : Prop :=
  exists e w, (e < nb_elems a)%nat /\ coord a e <= x <= coord a (e + 1) /\ cubic_between (element_h a e) (ends u e) w /\ y = w (x - coord a e).
(** The straight line between the nodes of element [e]. *)
Definition chord_at (a : nba) (u : vec) (e : nat) (x : R) : R := u (2 * e)%nat + (u (2 * (e + 1))%nat - u (2 * e)%nat) * (x / element_h a e).
(** The whole beam moves rigidly. *)
Definition moves_rigidly (a : nba) (al be : R) (u : vec) : Prop :=
  forall j, (j < nb_nodes a)%nat -> u (2 * j)%nat = al + be * coord a j /\ u (2 * j + 1)%nat = be.
(** Work that a load does on the rigid motion [al + be x]. *)
Inductive load_work (a : nba) (al be : R) : row -> R -> Prop :=
| lw_udl s w rest W : (1 <= s <= Z.of_nat (length (nb_L a)))%Z ->
    is_RInt (fun x => - w * (al + be * x)) (start (nb_L a) (Z.to_nat (s - 1))) (start (nb_L a) (Z.to_nat s)) W ->
    load_work a al be (Row s 1 (w :: rest)) W
| lw_pl s P p rest : (1 <= s <= Z.of_nat (length (nb_L a)))%Z ->
    0 <= start (nb_L a) (Z.to_nat (s - 1)) + p <= start (nb_L a) (length (nb_L a)) ->
    (forall j, (j < nb_nodes a)%nat -> coord a j = start (nb_L a) (Z.to_nat (s - 1)) + p \/ 1e-10 <= Rabs (coord a j - (start (nb_L a) (Z.to_nat (s - 1)) + p))) ->
    load_work a al be (Row s 2 (P :: p :: rest)) (- P * (al + be * (start (nb_L a) (Z.to_nat (s - 1)) + p))).

(** * The course of an analysis *)
(** Moment as a fraction of the capacity. *)
Definition ratio (a : nba) (M : vec) (j : nat) : R := Rabs (M j) / nth j (nb_Mp a) 0.
Definition capacities (a : nba) : Prop := forall j, (j < nb_nodes a)%nat -> 0 < nth j (nb_Mp a) 0.
(** A history: the factor (or position) and nodal moments of each update, in order. *)
Definition hist := list (R * vec).
Definition reached (a : nba) (h : hist) (j : nat) (g : R) : Prop := exists t, In t h /\ g <= ratio a (snd t) j.
(** The stiffness ratio of the element end that node [j] owns: its right end for node 0,
    otherwise the end at its left. *)
Definition owned (Re : mat) (j : nat) : R := match j with O => Re 0%nat 0%nat | S e => Re e 1%nat end.
(** Degradation between yield and full plasticity. *)
Definition degraded (q gy g r : R) : Prop :=
  (g <= gy /\ r = 1) \/ (gy < g /\ 1 <= g /\ r = q) \/ (gy < g < 1 /\ r = q + (1 - q) * ((1 - g) / (1 - gy))).
(** Stiffness after the history [h]: degraded by the last moment if that is the largest so
    far, elastic otherwise. *)
Definition stiffness_after (a : nba) (h : hist) (Re : mat) : Prop :=
  (forall e, (1 <= e)%nat -> Re e 0%nat = 1) /\
  forall j, (j < nb_nodes a)%nat ->
    (h = [] -> owned Re j = 1) /\
    (forall pre t, h = pre ++ [t] ->
       ((forall t', In t' pre -> ratio a (snd t') j <= ratio a (snd t) j) -> degraded (nb_q a) (nb_gy a j) (ratio a (snd t) j) (owned Re j)) /\
       ((exists t', In t' pre /\ ratio a (snd t) j < ratio a (snd t') j) -> owned Re j = 1)).
Definition threshold (a : nba) (j : nat) (k : ekind) : R := match k with InitialYield => nb_gy a j | PlasticHinge => 1 end.
(** Event [ev] is due to the update [t] that follows the history [pre]. *)
Definition due (a : nba) (pre : hist) (t : R * vec) (ev : hevent) : Prop :=
  (ev_node ev < nb_nodes a)%nat /\ ev_lam ev = fst t /\ ev_x ev = coord a (ev_node ev) /\
  threshold a (ev_node ev) (ev_kind ev) <= ratio a (snd t) (ev_node ev) /\
  ~ reached a pre (ev_node ev) (threshold a (ev_node ev) (ev_kind ev)).
(** The events of a history: one when a node first reaches yield, one when it first reaches
    its capacity, those of one update together, yield before hinge. *)
Inductive events_of (a : nba) : hist -> list hevent -> Prop :=
| eo_nil : events_of a [] []
| eo_step pre t evs new : events_of a pre evs ->
    (forall ev, In ev new <-> due a pre t ev) ->
    NoDup (map (fun ev => (ev_node ev, ev_kind ev)) new) ->
    (forall l1 e1 l2 e2 l3, new = l1 ++ e1 :: l2 ++ e2 :: l3 -> ev_node e1 = ev_node e2 -> ev_kind e1 = InitialYield) ->
    events_of a (pre ++ [t]) (evs ++ new).

(** Strictly rising factors. *)
Definition rising_to (l : list R) (b : R) : Prop :=
  (forall i, (S i < length l)%nat -> nth i l 0 < nth (S i) l 0) /\ (forall x, In x l -> 0 < x <= b).

(** * Equilibrium *)
(** Element end forces [f] that balance: each element on its own, and every unrestrained DOF
    with the load; the nodal moments [M] are those at the left of each node. *)
Record balanced (a : nba) (F M : vec) (f : nat -> vec) : Prop := {
  ba_force : forall e, (e < nb_elems a)%nat -> f e 0%nat + f e 2%nat = 0;
  ba_moment : forall e, (e < nb_elems a)%nat -> f e 1%nat + f e 3%nat + f e 2%nat * element_h a e = 0;
  ba_node : forall i, (i < nb_dof a)%nat -> ~ In i (nb_bc a) -> nodal_sum (nb_elems a) f i = F i;
  ba_left : M 0%nat = f 0%nat 1%nat;
  ba_others : forall e, (e < nb_elems a)%nat -> M (S e) = f e 3%nat }.

(** * Mechanisms *)
Definition slope (a : nba) (u : vec) (e : nat) : R := (u (2 * (e + 1))%nat - u (2 * e)%nat) / element_h a e.
Definition held (a : nba) (u : vec) : Prop := forall i, In i (nb_bc a) -> u i = 0.
(** Deflections straight between nodes; at a node without hinge the elements stay in line
    with the node's rotation. *)
Definition hinged_motion (a : nba) (hinges : list nat) (u : vec) : Prop :=
  held a u /\
  (forall e, (e < nb_elems a)%nat ->
    (~ In e hinges -> u (2 * e + 1)%nat = slope a u e) /\ (~ In (e + 1)%nat hinges -> u (2 * (e + 1) + 1)%nat = slope a u e)).
Definition sways (a : nba) (u : vec) : Prop := exists j, (j < nb_nodes a)%nat /\ u (2 * j)%nat <> 0.
(** Exact rank. *)
Definition rank_exact (rd : nat -> mat -> bool) : Prop :=
  forall n A, rd n A = true <-> exists u : vec, (exists i, (i < n)%nat /\ u i <> 0) /\ forall i, (i < n)%nat -> rsum n (fun j => A i j * u j) = 0.
(** [x] for elements of span [i], nothing for the others. *)
Definition share (a : nba) (i e : nat) (x : R) : R :=
  if Rle_dec (start (nb_L a) i) (coord a e) then if Rle_dec (coord a (e + 1)) (start (nb_L a) (i + 1)) then x else 0 else 0.
(** Rotation of the beam at node [j] that is not followed by the element whose end the node
    owns. *)
Definition hinge_angle (a : nba) (u : vec) (j : nat) : R :=
  match j with O => u 1%nat - slope a u 0 | S e => u (2 * (e + 1) + 1)%nat - slope a u e end.
(** Elements straight; an end with stiffness left keeps in line with its node. *)
Definition loose_motion (a : nba) (Re : mat) (u : vec) : Prop :=
  held a u /\
  forall e, (e < nb_elems a)%nat ->
    (Re e 0%nat <> 0 -> u (2 * e + 1)%nat = slope a u e) /\ (Re e 1%nat <> 0 -> u (2 * (e + 1) + 1)%nat = slope a u e).

(** * Observed runs *)
(** The entries whose number, counted from 1, is a multiple of [k]. *)
Definition every {A} (k : nat) (l : list A) : list A :=
  map snd (filter (fun t => (Nat.ltb 0 k && Nat.eqb (fst t mod k) 0)%bool) (combine (seq 1 (length l)) l)).
(** All updates of a run that recorded each of its steps: the recorded ones, and after a
    collapse possibly the last. *)
Definition updates (r : nlresult) (h : hist) : Prop :=
  length (nr_lam_hist r) = length (nr_mom_hist r) /\
  (h = combine (nr_lam_hist r) (nr_mom_hist r) \/ (nr_collapsed r = true /\ h = combine (nr_lam_hist r) (nr_mom_hist r) ++ [(nr_lambda r, nr_moments r)])).
(** The results that do not depend on what is recorded. *)
Definition same_outcome (r r' : nlresult) : Prop :=
  nr_lambda r = nr_lambda r' /\ nr_collapsed r = nr_collapsed r' /\ nr_events r = nr_events r' /\ nr_moments r = nr_moments r' /\ nr_R r = nr_R r' /\ nr_u r = nr_u r'.
(** Events in order of factor (or position). *)
Definition chronological (evs : list hevent) : Prop := StronglySorted Rle (map ev_lam evs).
Definition once_each (evs : list hevent) : Prop := NoDup (map (fun ev => (ev_node ev, ev_kind ev)) evs).
(** Every hinge event comes after the yield event of its node. *)
Definition yield_first (evs : list hevent) : Prop :=
  forall l1 ev l2, evs = l1 ++ ev :: l2 -> ev_kind ev = PlasticHinge -> exists y, In y l1 /\ ev_node y = ev_node ev /\ ev_kind y = InitialYield.
(** Nodes with a hinge event, in order. *)
Definition hinge_nodes (evs : list hevent) : list nat := map ev_node (filter (fun ev => match ev_kind ev with PlasticHinge => true | InitialYield => false end) evs).
(** Hinges farther apart than twice the smallest element. *)
Definition apart (a : nba) (hs : list nat) : Prop :=
  exists h, (exists e, (e < nb_elems a)%nat /\ h = element_h a e) /\ (forall e, (e < nb_elems a)%nat -> h <= element_h a e) /\
    forall i j, In i hs -> In j hs -> i <> j -> 2 * h < Rabs (coord a i - coord a j).

(** * Moving loads *)
(** Axle weights, their distances behind the front, and the length of what moves. *)
Inductive carries : moving -> list R -> list R -> R -> Prop :=
| ca_axle P : carries (MAxle P) [P] [0] 0
| ca_vehicle v : carries (MVehicle v) (v_axw v) (v_coords v) (v_L v).

(** * Arguments *)
(** One number per span. *)
Definition per_span (v : narg) (n : nat) : Prop := forall i, (i < n)%nat -> exists x, for_span v i x.
Definition constants (v : eiargs) (n : nat) : Prop :=
  match v with EIOne e => exists x, e = RConst x | EIList l => (n <= length l)%nat /\ forall e, In e l -> exists x, e = RConst x end.
Definition has_section (v : eiargs) : Prop :=
  match v with EIOne e => exists s, e = RSect s | EIList l => exists s, In (RSect s) l end.
(** The yield moment of span [i]: as given, or the capacity over 1.15. *)
Definition yields_at (Mp : narg) (My : option narg) (i : nat) (x : R) : Prop :=
  match My with Some m => for_span m i x | None => exists p, for_span Mp i p /\ x = p / (115/100) end.
(** Elements longer than the code's tolerance. *)
Definition no_slivers (a : nba) : Prop := forall e, (e < nb_elems a)%nat -> 1e-10 < element_h a e.
