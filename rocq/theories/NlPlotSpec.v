(** Independent specification of the pictures of a plastic analysis. *)
From Coq Require Import Sorted.
From Verif Require Import Base LoadModel VehicleModel NonlinModel NonlinSpec NlPlotModel.
Open Scope R_scope.

(** The curve shows the deflections [w] of the nodes, [c] times enlarged. *)
Definition shows_shape (a : nba) (w : nat -> R) (c : R) (pts : list (R * R)) : Prop :=
  length pts = nb_nodes a /\ forall j, (j < nb_nodes a)%nat -> nth j pts (0, 0) = (coord a j, c * w j).
(** Enlarged so that the largest deflection is 12 % of the beam length. *)
Definition fills (a : nba) (w : nat -> R) (c : R) : Prop :=
  (forall j, (j < nb_nodes a)%nat -> Rabs (c * w j) <= 12/100 * nb_total a) /\
  exists j, (j < nb_nodes a)%nat /\ Rabs (c * w j) = 12/100 * nb_total a.
Definition moved (a : nba) (w : nat -> R) : Prop := exists j, (j < nb_nodes a)%nat /\ w j <> 0.
(** One marker for each node with a plastic hinge, from left to right, on the curve. *)
Definition hinges_on (w : nat -> R) (c : R) (evs : list hevent) (pts : list (R * R)) : Prop :=
  StronglySorted Rlt (map fst pts) /\
  forall x y, In (x, y) pts <-> exists e, In e evs /\ ev_kind e = PlasticHinge /\ x = ev_x e /\ y = c * w (ev_node e).
(** One marker for each event of kind [k]: its place and its height [h]. *)
Definition series (k : ekind) (h : hevent -> R) (evs : list hevent) (pts : list (R * R)) : Prop :=
  NoDup (map fst pts) /\ forall x y, In (x, y) pts <-> exists e, In e evs /\ ev_kind e = k /\ x = ev_x e /\ y = h e.
(** The axles of vehicle [v] that stand on a beam of length [L] when its front is at [front]. *)
Definition axles_on (v : vehicle) (front L : R) (pts : list (R * R)) : Prop :=
  forall x w, In (x, w) pts <-> exists i c, nth_error (v_axw v) i = Some w /\ nth_error (v_coords v) i = Some c /\ x = front - c /\ 0 <= x <= L.
(** Triangles at the ends of all spans. *)
Definition at_joints (Ls : list R) (xs : list R) : Prop := length xs = S (length Ls) /\ forall i, (i <= length Ls)%nat -> nth i xs 0 = start Ls i.
(** A result of the analysis [a], as far as the pictures need it. *)
Definition pictured (a : nba) (o : nlout) : Prop :=
  no_coords o = nb_coords a /\ no_supports o = cumsum 0 (nb_L a) /\ once_each (no_events o) /\
  forall ev, In ev (no_events o) -> (ev_node ev < nb_nodes a)%nat /\ ev_x ev = coord a (ev_node ev).
