(** Property theorems about the recovered member results (C49 to C51, C54).  [gl] is the
    quadrature rule, [ill] the eigenvalue test of the stability check, [sps i] the extra
    shear points requested in member [i]: all arbitrary. *)
From Verif Require Import Base BaseFacts LoadModel LoadSpec ElementModel ElementSpec BeamModel AnalysisModel AnalysisSpec FoundationModel
  AnalysisFacts3 ResultsModel ResultsSpec ResultsFacts.
Open Scope R_scope.

(** C49: the tabulated shear and moment of a member sample curves whose every cut is in
    equilibrium with the span's loads and the end moments [e 1], [e 3]; the shear starts at
    the end force [e 0] (pin-pin members excepted, see C04_pin_pin_refuted). *)
Theorem C49_diagrams : forall gl ill a sps npts check a' br i r mb ls e, gauss_rule gl ->
  analyze gl ill a sps npts check = (a', Ok br) ->
  member_at (an_beam a) i = Ok mb -> sound_member mb -> parsed_loads (an_beam a) = Ok ls ->
  Forall (within_member (mb_L mb)) (loads_of ls i) ->
  nth_error (br_mem br) i = Some r -> member_forces gl (an_beam a) (br_D br) i = Ok e ->
  exists V M, member_curves (node_x (an_beam a) i) r V M /\
    cut_equilibrium (mb_L mb) (actions (mb_L mb) (loads_of ls i)) (V 0) (e 1%nat) (e 3%nat) V M /\
    (mb_type mb <> 4%nat -> V 0 = e 0%nat).
Proof. exact analyze_diagrams. Qed.
Print Assumptions C49_diagrams.

(** An encastre span under a uniform load. *)
Example C49_diagrams_nonvacuous : forall ill, exists a' br e mb, analysis_init ff_ctor = Ok ff /\
  analyze sample_gl ill ff (fun _ => []) None false = (a', Ok br) /\
  member_at (an_beam ff) 0 = Ok mb /\ sound_member mb /\ parsed_loads (an_beam ff) = Ok [(0%Z, LUDL 2)] /\
  Forall (within_member (mb_L mb)) (loads_of [(0%Z, LUDL 2)] 0) /\
  member_forces sample_gl (an_beam ff) (br_D br) 0 = Ok e /\ e 1%nat = 6.
Proof.
  intros ill. destruct (ff_results sample_gl ill (fun _ => [])) as (a' & br & e & E & EP & Ee & E1).
  exists a', br, e. eexists. split; [reflexivity|]. split; [exact E|]. split; [reflexivity|].
  split; [exact (proj1 (proj2 (ff_member 0 _ eq_refl)))|]. split; [reflexivity|].
  split; [constructor; [split; exact I|constructor]|]. split; [exact Ee|exact E1].
Qed.

(** C50: stations of a member without foundation... *)
Theorem C50_station_grid : forall gl ill a sps npts check a' br i r mb,
  analyze gl ill a sps npts check = (a', Ok br) -> (0 < an_npts a')%nat ->
  member_at (an_beam a) i = Ok mb -> 0 <= mb_L mb -> mb_kf mb = None -> nth_error (br_mem br) i = Some r ->
  station_grid (node_x (an_beam a) i) (node_x (an_beam a) (i + 1))
    (an_npts a' + 3 + 2 * inside_points (mb_L mb) (sps i)) (r_x r).
Proof. exact analyze_grid. Qed.
Print Assumptions C50_station_grid.

(** ...at these places... *)
Theorem C50_station_places : forall gl ill a sps npts check a' br i r mb,
  analyze gl ill a sps npts check = (a', Ok br) -> (0 < an_npts a')%nat ->
  member_at (an_beam a) i = Ok mb -> 0 <= mb_L mb -> mb_kf mb = None -> nth_error (br_mem br) i = Some r ->
  forall t, In t (r_x r) <-> exists t', t = node_x (an_beam a) i + t' /\ station_at (mb_L mb) (an_npts a') (sps i) t'.
Proof. exact station_places. Qed.
Print Assumptions C50_station_places.

(** ...of a member on a foundation... *)
Theorem C50_foundation_stations : forall gl ill a sps npts check a' br i r mb kf fe,
  analyze gl ill a sps npts check = (a', Ok br) -> member_at (an_beam a) i = Ok mb -> mb_kf mb = Some kf ->
  foundation_of mb kf = Ok fe -> nth_error (br_mem br) i = Some r ->
  length (r_x r) = (fe_n fe * (Nat.max 2 (round_div (an_npts a') (fe_n fe)) + 3))%nat /\
  length (r_V r) = length (r_x r) /\ length (r_M r) = length (r_x r).
Proof. exact analyze_foundation_stations. Qed.
Print Assumptions C50_foundation_stations.

(** ...and two analyses of beams with the same members share the station array, whatever
    their loads, supports and settlements. *)
Theorem C50_stations_shared : forall gl gl' ill ill' a1 a2 sps p1 p2 c1 c2 a1' a2' r1 r2,
  analyze gl ill a1 sps p1 c1 = (a1', Ok r1) -> analyze gl' ill' a2 sps p2 c2 = (a2', Ok r2) ->
  an_npts a1' = an_npts a2' -> b_lengths (an_beam a1) = b_lengths (an_beam a2) ->
  b_nspans (an_beam a1) = b_nspans (an_beam a2) ->
  (forall i, (i < b_nspans (an_beam a1))%nat -> member_at (an_beam a1) i = member_at (an_beam a2) i) ->
  map r_x (br_mem r1) = map r_x (br_mem r2) /\ r_x (br_all r1) = r_x (br_all r2).
Proof. exact shared_stations. Qed.
Print Assumptions C50_stations_shared.

Example C50_nonvacuous : forall ill sps, exists a' br mb,
  analyze sample_gl ill ff sps None false = (a', Ok br) /\ an_npts a' = 100%nat /\
  member_at (an_beam ff) 0 = Ok mb /\ 0 <= mb_L mb /\ mb_kf mb = None /\ inside_points 6 [0; 2; 3; 7] = 2%nat.
Proof.
  intros ill sps. destruct (ff_results sample_gl ill sps) as (a' & br & e & E & EP & _).
  exists a', br. eexists. split; [exact E|]. split; [exact EP|]. split; [reflexivity|]. cbn [mb_L mb_kf].
  split; [lra|]. split; [reflexivity|]. unfold inside_points, inside. cbn.
  repeat (destruct (Rlt_dec _ _); try lra; cbn). reflexivity.
Qed.

(** C51: reading at a station gives the value of the first station with that coordinate... *)
Theorem C51_at_station : forall xs vs x k, length vs = length xs -> first_station xs x k ->
  read_at x xs vs = nth k vs 0.
Proof. exact read_station. Qed.
Print Assumptions C51_at_station.

(** ...between neighbouring stations it interpolates linearly... *)
Theorem C51_interpolates : forall xs vs x x0 k0 x1 k1, length vs = length xs ->
  first_station xs x0 k0 -> first_station xs x1 k1 -> x0 <= x <= x1 -> x0 < x1 ->
  (forall y, In y xs -> y <= x0 \/ x1 <= y) ->
  read_at x xs vs = nth k0 vs 0 + (nth k1 vs 0 - nth k0 vs 0) * ((x - x0) / (x1 - x0)).
Proof. exact read_between. Qed.
Print Assumptions C51_interpolates.

(** ...so it lies between the neighbouring values... *)
Theorem C51_between : forall xs vs x x0 k0 x1 k1, length vs = length xs ->
  first_station xs x0 k0 -> first_station xs x1 k1 -> x0 <= x <= x1 ->
  (forall y, In y xs -> y <= x0 \/ x1 <= y) ->
  Rmin (nth k0 vs 0) (nth k1 vs 0) <= read_at x xs vs <= Rmax (nth k0 vs 0) (nth k1 vs 0).
Proof. exact read_bounds. Qed.
Print Assumptions C51_between.

(** ...and outside the beam it is the value at the nearer end. *)
Theorem C51_outside : forall xs vs x x0 k0, length vs = length xs -> first_station xs x0 k0 ->
  (x <= x0 /\ (forall y, In y xs -> x0 <= y) \/ x0 <= x /\ (forall y, In y xs -> y <= x0)) ->
  read_at x xs vs = nth k0 vs 0.
Proof. exact read_outside. Qed.
Print Assumptions C51_outside.

(** In the results of an analysis: reading at a station of a member beyond its left end (its
    right end included) gives that member's moment and shear, not a closing zero. *)
Theorem C51_inside_member : forall gl ill a sps npts check a' br,
  analyze gl ill a sps npts check = (a', Ok br) -> (0 < an_npts a')%nat ->
  members (an_beam a) (b_nspans (an_beam a)) (fun mb => 0 < mb_L mb /\ mb_kf mb = None) ->
  forall i r k, nth_error (br_mem br) i = Some r -> (0 < k < length (r_x r) - 1)%nat ->
  node_x (an_beam a) i < nth k (r_x r) 0 ->
  read_at (nth k (r_x r) 0) (r_x (br_all br)) (r_M (br_all br)) = nth k (r_M r) 0 /\
  read_at (nth k (r_x r) 0) (r_x (br_all br)) (r_V (br_all br)) = nth k (r_V r) 0.
Proof. exact read_in_member. Qed.
Print Assumptions C51_inside_member.

(** At the left end of the beam the closing zero is read, always... *)
Theorem C51_left_end_reads_zero : forall gl ill a sps npts check a' br,
  analyze gl ill a sps npts check = (a', Ok br) -> (0 < an_npts a')%nat ->
  members (an_beam a) (b_nspans (an_beam a)) (fun mb => 0 < mb_L mb /\ mb_kf mb = None) ->
  (0 < b_nspans (an_beam a))%nat ->
  read_at 0 (r_x (br_all br)) (r_M (br_all br)) = 0 /\ read_at 0 (r_x (br_all br)) (r_V (br_all br)) = 0.
Proof. exact read_left_end. Qed.
Print Assumptions C51_left_end_reads_zero.

(** ...so the claim about the ends fails there: an encastre span whose end moment is read as
    zero. *)
Theorem C51_left_end_refuted : exists c a a' br e, analysis_init c = Ok a /\
  analyze sample_gl (fun _ _ => false) a (fun _ => []) None false = (a', Ok br) /\
  members (an_beam a) (an_n a) sound_member /\ loads_on_members (an_beam a) (an_n a) /\
  member_forces sample_gl (an_beam a) (br_D br) 0 = Ok e /\
  read_at 0 (r_x (br_all br)) (r_M (br_all br)) <> - e 1%nat.
Proof. exact read_left_wrong. Qed.
Print Assumptions C51_left_end_refuted.

Example C51_nonvacuous : first_station [0; 0; 2; 2; 5] 2 2 /\ first_station [0; 0; 2; 2; 5] 5 4 /\
  (forall y, In y [0; 0; 2; 2; 5] -> y <= 2 \/ 5 <= y) /\
  exists a' br, analyze sample_gl (fun _ _ => false) ff (fun _ => []) None false = (a', Ok br) /\ an_npts a' = 100%nat /\
    members (an_beam ff) (b_nspans (an_beam ff)) (fun mb => 0 < mb_L mb /\ mb_kf mb = None).
Proof.
  split; [|split; [|split]].
  - split; [cbn; lia|]. split; [reflexivity|]. intros [|[|j]] Hj; cbn; try lra. lia.
  - split; [cbn; lia|]. split; [reflexivity|]. intros [|[|[|[|j]]]] Hj; cbn; try lra. lia.
  - intros y Hy. cbn in Hy. destruct Hy as [<-|[<-|[<-|[<-|[<-|[]]]]]]; lra.
  - destruct (ff_results sample_gl (fun _ _ => false) (fun _ => [])) as (a' & br & e & E & EP & _). exists a', br.
    split; [exact E|]. split; [exact EP|]. intros i mb _ Em. destruct (ff_member i mb Em) as (_ & S & _). exact (conj (sm_L _ S) (sm_kf _ S)).
Qed.

(** C54: rotations and deflections ([recovered]). *)
Theorem C54_recovered_deflections : forall gl ill a sps npts check a' br i r mb ls,
  analyze gl ill a sps npts check = (a', Ok br) -> (0 < an_npts a')%nat ->
  member_at (an_beam a) i = Ok mb -> 0 < mb_L mb -> mb_kf mb = None -> parsed_loads (an_beam a) = Ok ls ->
  nth_error (br_mem br) i = Some r ->
  recovered mb (loads_of ls i) (node_x (an_beam a) i)
    (br_D br (2 * i)%nat) (br_D br (2 * i + 1)%nat) (br_D br (2 * i + 2)%nat) r.
Proof. exact analyze_recovered. Qed.
Print Assumptions C54_recovered_deflections.

Example C54_nonvacuous : forall ill sps, exists a' br mb,
  analyze sample_gl ill ff sps None false = (a', Ok br) /\ an_npts a' = 100%nat /\
  member_at (an_beam ff) 0 = Ok mb /\ 0 < mb_L mb /\ mb_kf mb = None.
Proof.
  intros ill sps. destruct (ff_results sample_gl ill sps) as (a' & br & e & E & EP & _).
  exists a', br. eexists. split; [exact E|]. split; [exact EP|]. split; [reflexivity|]. cbn. split; [lra|reflexivity].
Qed.
