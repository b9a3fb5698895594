(** Independent specification of the solved beam: member end forces, nodal equilibrium,
    supports, equilibrium of the whole.  DOF [2i] is the deflection and DOF [2i+1] the
    rotation of node [i]; member [m] joins nodes [m] and [m+1]. *)
From Coquelicot Require Import Coquelicot.
From Verif Require Import Base SectionModel LoadModel LoadSpec ElementModel ElementSpec UtilsModel BeamModel AnalysisModel.
Open Scope R_scope.

(** End displacements of member [m]. *)
Definition ends (d : vec) (m : nat) : vec := fun q => d (2 * m + q)%nat.

(** Sum of the end forces of the members meeting at DOF [i] ([n] members): left end of
    member [i/2], right end of the one before. *)
Definition nodal_sum (n : nat) (ef : nat -> vec) (i : nat) : R :=
  (if Nat.ltb i (2 * n) then ef (i / 2)%nat (i mod 2)%nat else 0)
  + (if Nat.leb 2 i then ef (i / 2 - 1)%nat (2 + i mod 2)%nat else 0).

(** Restraint of a DOF and its prescribed displacement. *)
Definition restraint (b : beam) (i : nat) : R := nth i (b_R b) 0.
Definition prescribed (b : beam) (i : nat) : option R := nth i (b_D b) None.
Definition held (b : beam) (i : nat) : Prop := prescribed b i <> None \/ restraint b i < 0.

(** Force of the elastic support on DOF [i] when it moves by [u]. *)
Definition spring_force (b : beam) (i : nat) (u : R) : R :=
  if Rlt_dec 0 (restraint b i) then - restraint b i * u else 0.

(** End forces of member [m] in the displaced beam: stiffness times end displacements
    plus the forces of its loads. *)
Definition member_state (gl : nat -> list (R * R)) (b : beam) (d : vec) (m : nat) (ef : vec) : Prop :=
  exists ls mb kb r, parsed_loads b = Ok ls /\ member_at b m = Ok mb /\
    span_k gl mb = Ok kb /\ span_ref gl mb (loads_of ls m) = Ok r /\
    forall p, ef p = end_forces kb (ends d m) p + r p.

(** The displacements meet the supports and every other DOF is in equilibrium. *)
Definition equilibrium (gl : nat -> list (R * R)) (b : beam) (n : nat) (d : vec) : Prop :=
  exists ef, (forall m, (m < n)%nat -> member_state gl b d m (ef m)) /\
    forall i, (i < 2 * (n + 1))%nat ->
      match prescribed b i with
      | Some v => d i = v
      | None => if Rlt_dec (restraint b i) 0 then d i = 0
                else nodal_sum n ef i = spring_force b i (d i)
      end.

(** The reaction that an output reports at DOF [i]: outputs list the restrained
    (respectively sprung) DOFs in order. *)
Definition rank (P : nat -> bool) (i : nat) : nat := length (filter P (seq 0 i)).
Definition reported (b : beam) (o : output) (i : nat) : R :=
  if Rlt_dec (restraint b i) 0
  then nth (rank (fun j => Rltb (restraint b j) 0) i) (o_R o) 0
  else if Rlt_dec 0 (restraint b i)
  then nth (rank (fun j => Rltb 0 (restraint b j)) i) (o_Rs o) 0
  else 0.

(** ** Several analyses of one beam *)
Section Runs.
Variable gl : nat -> list (R * R).
Variable ill : nat -> mat -> bool.

(** Set the loads, then analyse. *)
Definition run (a : analysis) (lm : list row) (check : bool) : result output :=
  snd (analyze_core gl ill (with_beam a (set_loads (an_beam a) lm)) None check).

(** Set the loads and the prescribed displacements, then analyse. *)
Definition run_settled (a : analysis) (lm : list row) (ds : list (option R)) (check : bool) : result output :=
  match set_prescribed (set_loads (an_beam a) lm) ds with
  | (b, Ok _) => snd (analyze_core gl ill (with_beam a b) None check)
  | (_, Err e) => Err e
  end.
End Runs.

(** [l] is the entrywise combination [c1 l1 + c2 l2] of lists of the same length. *)
Definition lcomb (c1 : R) (l1 : list R) (c2 : R) (l2 l : list R) : Prop :=
  length l1 = length l /\ length l2 = length l /\
  forall i, nth i l 0 = c1 * nth i l1 0 + c2 * nth i l2 0.

(** The output [o] is [c1 o1 + c2 o2]: displacements of the first [N] DOFs, reactions and
    spring forces. *)
Definition combination (N : nat) (c1 : R) (o1 : output) (c2 : R) (o2 o : output) : Prop :=
  (forall i, (i < N)%nat -> o_d o i = c1 * o_d o1 i + c2 * o_d o2 i) /\
  lcomb c1 (o_R o1) c2 (o_R o2) (o_R o) /\ lcomb c1 (o_Rs o1) c2 (o_Rs o2) (o_Rs o).

(** Same for the end forces of a member. *)
Definition ends_comb (c1 : R) (r1 : result vec) (c2 : R) (r2 r : result vec) : Prop :=
  exists e1 e2 e, r1 = Ok e1 /\ r2 = Ok e2 /\ r = Ok e /\
    forall p, (p < 4)%nat -> e p = c1 * e1 p + c2 * e2 p.

(** No settlement: nothing prescribed, or zero. *)
Definition no_settlement (b : beam) : Prop :=
  forall i, prescribed b i = None \/ prescribed b i = Some 0.

(** Settlement vectors prescribing the same DOFs, and their combinations. *)
Definition same_dofs (D1 D2 : list (option R)) : Prop :=
  Forall2 (fun x y => x = None <-> y = None) D1 D2.
Definition settle_comb (c1 : R) (D1 : list (option R)) (c2 : R) (D2 D : list (option R)) : Prop :=
  same_dofs D1 D /\ same_dofs D2 D /\
  forall i x y z, nth i D1 None = Some x -> nth i D2 None = Some y -> nth i D None = Some z ->
    z = c1 * x + c2 * y.

(** ** The applied load *)
(** Weighted resultant of a list of loads on one span (see [resultant]). *)
Definition span_resultant (L : R) (lds : list load) (g dg : R -> R) (W : R) : Prop :=
  exists ws, Forall2 (fun ld w => resultant L (action_of L ld) g dg w) lds ws /\ W = lsum ws.

Definition span_length (b : beam) (m : nat) : R := nth m (b_lengths b) 0.
(** Coordinate of node [m]. *)
Definition node_x (b : beam) (m : nat) : R := rsum m (span_length b).

Definition beam_resultant (b : beam) (n : nat) (g dg : nat -> R -> R) (W : R) : Prop :=
  exists ls w, parsed_loads b = Ok ls /\
    (forall m, (m < n)%nat -> span_resultant (span_length b m) (loads_of ls m) (g m) (dg m) (w m)) /\
    W = rsum n w.
(** Total load on the beam, and its first moment about the left end of the beam. *)
Definition beam_load (b : beam) (n : nat) (W : R) : Prop :=
  beam_resultant b n (fun _ _ => 1) (fun _ _ => 0) W.
Definition beam_moment (b : beam) (n : nat) (W : R) : Prop :=
  beam_resultant b n (fun m x => node_x b m + x) (fun _ _ => 1) W.

(** The first [n] members of the beam. *)
Definition members (b : beam) (n : nat) (P : member -> Prop) : Prop :=
  forall m mb, (m < n)%nat -> member_at b m = Ok mb -> P mb.
(** Loads of the beam at admissible positions on their spans. *)
Definition loads_on_members (b : beam) (n : nat) : Prop :=
  forall ls m, parsed_loads b = Ok ls -> (m < n)%nat ->
    Forall (on_member (span_length b m)) (loads_of ls m).
(** Displacements are prescribed only at restrained DOFs. *)
Definition settles_supports (b : beam) : Prop :=
  forall i, prescribed b i <> None -> restraint b i < 0.

(** ** Mechanisms *)
(** A DOF that is fixed, prescribed or on a spring. *)
Definition supported (b : beam) (i : nat) : Prop := held b i \/ 0 < restraint b i.

(** A non-zero motion of the nodes that respects all supports and causes no force in any
    member. *)
Definition mechanism (gl : nat -> list (R * R)) (b : beam) (n : nat) (y : vec) : Prop :=
  (exists i, (i < 2 * (n + 1))%nat /\ y i <> 0) /\
  (forall i, (i < 2 * (n + 1))%nat -> supported b i -> y i = 0) /\
  (forall m mb kb p, (m < n)%nat -> member_at b m = Ok mb -> span_k gl mb = Ok kb -> (p < 4)%nat ->
     end_forces kb (ends y m) p = 0).

(** The beam has data: every member has a stiffness and forces for its loads, and the
    support vectors cover all DOFs. *)
Definition well_formed (gl : nat -> list (R * R)) (b : beam) (n : nat) : Prop :=
  (2 * (n + 1) <= length (b_R b))%nat /\ (2 * (n + 1) <= length (b_D b))%nat /\
  exists ls, parsed_loads b = Ok ls /\
    forall m, (m < n)%nat -> exists mb k r, member_at b m = Ok mb /\ span_k gl mb = Ok k /\
      span_ref gl mb (loads_of ls m) = Ok r.

(** Inconsistent input: a DOF with a spring, a prescribed displacement and a non-zero
    nodal load ([nodal_sum] of the members' load vectors, reversed). *)
Definition load_vectors (gl : nat -> list (R * R)) (b : beam) (n : nat) (rf : nat -> vec) : Prop :=
  exists ls, parsed_loads b = Ok ls /\
    forall m, (m < n)%nat -> exists mb, member_at b m = Ok mb /\ span_ref gl mb (loads_of ls m) = Ok (rf m).
Definition inconsistent (gl : nat -> list (R * R)) (b : beam) (n : nat) : Prop :=
  exists rf i, load_vectors gl b n rf /\ (i < 2 * (n + 1))%nat /\
    0 < restraint b i /\ prescribed b i <> None /\ - nodal_sum n rf i <> 0.

(** Work of the equivalent nodal loads of the beam's load matrix on the displacements [d]. *)
Definition load_work (gl : nat -> list (R * R)) (b : beam) (n : nat) (d : vec) (W : R) : Prop :=
  exists rf, load_vectors gl b n rf /\
    W = rsum (2 * (n + 1)) (fun i => - nodal_sum n rf i * d i).

(** ** Histories of one analysis object *)
Inductive op :=
| OSetLoads (lm : list row)
| OAddLoad (r : row)
| OAddSpan (L : R) (EI : rigid) (et : UtilsModel.etarg) (GAv : option rigid) (kf : option R)
| ORestraints (r : list R)
| OPrescribed (d : list (option R))
| OIsStable
| OAnalyze (npts : option nat) (check : bool).

(** The state after one call; a call that raises may still have changed the state. *)
Definition step (gl : nat -> list (R * R)) (ill : nat -> mat -> bool) (a : analysis) (o : op) : analysis :=
  match o with
  | OSetLoads lm => with_beam a (set_loads (an_beam a) lm)
  | OAddLoad r => with_beam a (add_load (an_beam a) r)
  | OAddSpan L EI et GAv kf => with_beam a (fst (add_span (an_beam a) L EI et GAv kf))
  | ORestraints r => with_beam a (set_restraints (an_beam a) r)
  | OPrescribed d => with_beam a (fst (set_prescribed (an_beam a) d))
  | OIsStable => fst (is_stable gl ill a)
  | OAnalyze npts check => fst (analyze_core gl ill a npts check)
  end.
Definition history (gl : nat -> list (R * R)) (ill : nat -> mat -> bool) (a : analysis) (ops : list op) : analysis :=
  fold_left (step gl ill) ops a.

(** Calls that do not touch the structure. *)
Definition load_only (o : op) : Prop :=
  match o with
  | OSetLoads _ | OAddLoad _ | OIsStable | OAnalyze _ _ => True
  | _ => False
  end.

(** The same object with its memory of past checks erased. *)
Definition forget (a : analysis) : analysis := with_checked a None.

(** Prescribed DOFs held at zero instead. *)
Definition zeroed (D : list (option R)) : list (option R) :=
  map (fun d => match d with Some _ => Some 0 | None => None end) D.

(** beam.py:346-372: [restraints] returns the live list; the user assigns into it, the
    version is not bumped. *)
Definition edit_restraints (a : analysis) (r : list R) : analysis :=
  with_beam a (with_R (an_beam a) r (b_version (an_beam a))).

(** A member described by plain numbers. *)
Definition scalar_member (m : member) : Prop :=
  (exists e, mb_EI m = RConst e) /\ (mb_GAv m = None \/ exists g, mb_GAv m = Some (RConst g)).

(** A downward force [P] at node [j] (start of span [j+1] as users count). *)
Definition node_force (P : R) (j : nat) : list row := [Row (Z.of_nat j + 1) 2 [P; 0]].
