(** Independent specification: how two vibrating beams compare. *)
From Verif Require Import Base SectionModel BeamModel ModalModel ModalSpec.
Open Scope R_scope.

(** The beam [b'] has the spans of [b] and is at least as stiff and at most as heavy: no span
    is less rigid or heavier, no support is weaker. *)
Record stiffer (b b' : beam) (EIs EIs' Ls Ls' ms ms' : list R) : Prop := {
  sf_spans : b_nspans b' = b_nspans b;
  sf_span : forall i, (i < b_nspans b)%nat -> nth i Ls' 0 = nth i Ls 0 /\ nth i EIs 0 <= nth i EIs' 0 /\ nth i ms' 0 <= nth i ms 0;
  sf_support : forall q, (q < 2 * (b_nspans b + 1))%nat ->
    restraint b' q = -1 \/ (restraint b q <> -1 /\ spring (restraint b q) <= spring (restraint b' q)) }.

(** The beam [b'] is the beam [b] with the support directions [extra] made rigid. *)
Record held_at (extra : list nat) (b b' : beam) (EIs EIs' Ls Ls' ms ms' : list R) : Prop := {
  ha_spans : b_nspans b' = b_nspans b;
  ha_span : EIs' = EIs /\ Ls' = Ls /\ ms' = ms;
  ha_extra : forall q, In q extra -> (q < 2 * (b_nspans b + 1))%nat /\ restraint b' q = -1;
  ha_others : forall q, (q < 2 * (b_nspans b + 1))%nat -> ~ In q extra -> restraint b' q = restraint b q }.

(** The beam [b'] is the beam [b] with rigidities, masses and lengths multiplied by [a], [m]
    and [l]: springs against deflection (even directions) are multiplied by [a / l^3], those
    against rotation by [a / l]; rigid supports are the same. *)
Record similar (a m l : R) (b b' : beam) (EIs EIs' Ls Ls' ms ms' : list R) : Prop := {
  si_pos : 0 < a /\ 0 < m /\ 0 < l;
  si_spans : b_nspans b' = b_nspans b;
  si_span : forall i, (i < b_nspans b)%nat -> nth i EIs' 0 = a * nth i EIs 0 /\ nth i ms' 0 = m * nth i ms 0 /\ nth i Ls' 0 = l * nth i Ls 0;
  si_rigid : forall q, (q < 2 * (b_nspans b + 1))%nat -> (restraint b' q = -1 <-> restraint b q = -1);
  si_spring : forall q, (q < 2 * (b_nspans b + 1))%nat ->
    spring (restraint b' q) = (if Nat.even q then a / l ^ 3 else a / l) * spring (restraint b q) }.

(** The beam [b'] is [b] seen from the other side. *)
Record reversed (b b' : beam) (EIs EIs' Ls Ls' ms ms' : list R) : Prop := {
  rv_spans : b_nspans b' = b_nspans b;
  rv_span : forall i, (i < b_nspans b)%nat -> let j := (b_nspans b - 1 - i)%nat in
    nth i EIs' 0 = nth j EIs 0 /\ nth i ms' 0 = nth j ms 0 /\ nth i Ls' 0 = nth j Ls 0;
  rv_support : forall k p, (k <= b_nspans b)%nat -> (p < 2)%nat -> restraint b' (2 * k + p) = restraint b (2 * (b_nspans b - k) + p) }.
