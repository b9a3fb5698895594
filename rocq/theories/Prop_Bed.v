(** C61, C62: loads, equilibrium and results of members on an elastic foundation; C54: the
    deflected shape. *)
From Coquelicot Require Import Coquelicot.
From Verif Require Import Base SectionModel LoadModel LoadSpec ElementModel ElementSpec FoundationModel UtilsModel BeamModel AnalysisModel AnalysisSpec
  AnalysisFacts3 FoundSpec ResultsModel ResultsSpec ResultsFacts BedSpec BedFacts BedFacts2 BedFacts3 BedFacts4 BedFacts5.
Open Scope R_scope.

(** C61: the loads of a foundation member act unchanged on its mesh... *)
Theorem C61_loads_on_mesh : forall f, (1 <= fe_n f <= 400)%nat -> 0 < fe_L f ->
  forall lds, Forall (meshed_load (fe_n f) (fe_h f)) lds ->
  exists g, (forall e, (e < fe_n f)%nat -> sub_loads f lds e = Ok (g e)) /\
    cut_into (fe_n f) (fe_h f) (actions (fe_L f) lds) (fun e => actions (fe_h f) (g e)).
Proof. exact (fun f Hn HL lds H => loads_cut_into f (proj1 Hn) HL (proj2 Hn) lds H). Qed.
Print Assumptions C61_loads_on_mesh.

(** ...but a partial uniform load ending near a mesh node is extended to it: here by 5 mm at
    875 m. *)
Theorem C61_snapping_refuted : exists m EI kf ld e sl x, winkler m EI kf /\ within_member (mb_L m) ld /\ bed_load (mb_L m) ld /\
  (e < mesh_size m EI kf)%nat /\ sub_loads (the_mesh m EI kf) [ld] e = Ok sl /\ 0 < x < mesh_step m EI kf /\
  intensity (actions (mesh_step m EI kf) sl) x <> intensity (action_of (mb_L m) ld) (INR e * mesh_step m EI kf + x).
Proof. exact snapped. Qed.
Print Assumptions C61_snapping_refuted.

(** In an analysis: the end forces of a foundation member balance its loads together with the
    subgrade reaction [kf * w] of its deflected shape, in force and in moment. *)
Theorem C61_balance : forall gl ill a sps npts check a' br i mb ls EI kf e,
  analyze gl ill a sps npts check = (a', Ok br) -> member_at (an_beam a) i = Ok mb -> winkler mb EI kf ->
  parsed_loads (an_beam a) = Ok ls -> Forall (meshed_load (mesh_size mb EI kf) (mesh_step mb EI kf)) (loads_of ls i) ->
  member_forces gl (an_beam a) (br_D br) i = Ok e ->
  exists rs d w, mesh_loads gl mb EI kf (loads_of ls i) rs /\ on_mesh mb EI kf rs (ends (br_D br) i) d /\
    mesh_shape (mesh_size mb EI kf) (mesh_step mb EI kf) d w /\
    balances (mb_L mb) (with_subgrade kf w (actions (mb_L mb) (loads_of ls i))) (as_cnl e).
Proof. exact analyze_bed_balance. Qed.
Print Assumptions C61_balance.

(** A free beam on the subgrade under a uniform, a point and a partial uniform load. *)
Example C61_nonvacuous : forall gl ill, exists a' br e ls, analysis_init bed_ctor = Ok bed_an /\
  analyze gl ill bed_an (fun _ => []) None false = (a', Ok br) /\ member_at (an_beam bed_an) 0 = Ok long_member /\
  winkler long_member 1000000000000 4 /\ parsed_loads (an_beam bed_an) = Ok ls /\ loads_of ls 0 = bed_loads /\
  Forall (meshed_load (mesh_size long_member 1000000000000 4) (mesh_step long_member 1000000000000 4)) bed_loads /\
  member_forces gl (an_beam bed_an) (br_D br) 0 = Ok e.
Proof.
  intros gl ill. destruct (bed_results gl ill (fun _ => [])) as (a' & br & e & r & E & _ & Me & _). exists a', br, e. eexists.
  split; [exact bed_init|]. split; [exact E|]. split; [exact bed_at0|]. split; [exact long_winkler|]. split; [exact bed_parsed|]. split; [reflexivity|].
  split; [|exact Me]. rewrite long_size, long_step. exact bed_meshed.
Qed.

(** C62: the results of a foundation member are those of its sub-elements one after the other,
    each recovered from the mesh displacements and its bending end forces. *)
Theorem C62_results : forall gl ill a sps npts check a' br i r mb ls EI kf,
  analyze gl ill a sps npts check = (a', Ok br) -> member_at (an_beam a) i = Ok mb -> winkler mb EI kf ->
  parsed_loads (an_beam a) = Ok ls -> Forall (bed_load (mb_L mb)) (loads_of ls i) -> nth_error (br_mem br) i = Some r ->
  exists rs d bs, mesh_loads gl mb EI kf (loads_of ls i) rs /\ on_mesh mb EI kf rs (ends (br_D br) i) d /\
    r = mres_concat bs /\ length bs = mesh_size mb EI kf /\
    forall e, (e < mesh_size mb EI kf)%nat -> exists bl sl, nth_error bs e = Some bl /\ sub_loads (the_mesh mb EI kf) (loads_of ls i) e = Ok sl /\
      block (node_x (an_beam a) i + INR e * mesh_step mb EI kf) (mesh_step mb EI kf) EI (sub_intervals (an_npts a') (mesh_size mb EI kf))
        (sub_force (k_ebeam EI (mesh_step mb EI kf)) (fun e => cnl_vec (nth e rs cnl_zero)) d e) (ends d e) sl bl.
Proof. exact analyze_blocks. Qed.
Print Assumptions C62_results.

(** At the nodes of the mesh shear ([p = 0]) and moment ([p = 1]) jump by the subgrade
    reaction lumped there. *)
Theorem C62_jumps : forall n EI kf h refs dr d j p,
  mesh_state n (bed_stiffness EI kf h) refs dr d -> (1 <= j < n)%nat -> (p < 2)%nat ->
  sub_force (k_ebeam EI h) refs d (j - 1) (2 + p)%nat + sub_force (k_ebeam EI h) refs d j p =
  - (end_forces (k_found kf h) (ends d (j - 1)) (2 + p)%nat + end_forces (k_found kf h) (ends d j) p).
Proof. exact node_jump. Qed.
Print Assumptions C62_jumps.

Example C62_nonvacuous : forall gl ill, exists a' br r ls, analysis_init bed_ctor = Ok bed_an /\
  analyze gl ill bed_an (fun _ => []) None false = (a', Ok br) /\ member_at (an_beam bed_an) 0 = Ok long_member /\
  winkler long_member 1000000000000 4 /\ parsed_loads (an_beam bed_an) = Ok ls /\ loads_of ls 0 = bed_loads /\
  Forall (bed_load (mb_L long_member)) bed_loads /\ nth_error (br_mem br) 0 = Some r /\ mesh_size long_member 1000000000000 4 = 8%nat.
Proof.
  intros gl ill. destruct (bed_results gl ill (fun _ => [])) as (a' & br & e & r & E & _ & _ & Mr). exists a', br, r. eexists.
  split; [exact bed_init|]. split; [exact E|]. split; [exact bed_at0|]. split; [exact long_winkler|]. split; [exact bed_parsed|]. split; [reflexivity|].
  split; [exact bed_accepted|]. split; [exact Mr|exact long_size].
Qed.

(** A free beam under a uniform load [w] settles by [w / kf] without bending, and the analysis
    finds this settlement.  But the results show the moments of clamped sub-elements, and a
    zero deflection at the end of every sub-element, between the values [- w / kf]. *)
Theorem C62_settlement_refuted : forall gl ill a sps npts check a' br mb ls EI kf w,
  analyze gl ill a sps npts check = (a', Ok br) -> an_n a = 1%nat ->
  (forall i, (i < 4)%nat -> restraint (an_beam a) i = 0 /\ prescribed (an_beam a) i = None) ->
  member_at (an_beam a) 0 = Ok mb -> winkler mb EI kf -> parsed_loads (an_beam a) = Ok ls -> loads_of ls 0 = [LUDL w] ->
  (forall i, (i < 4)%nat -> br_D br i = vec4 (- w / kf) 0 (- w / kf) 0 i) /\
  forall r, nth_error (br_mem br) 0 = Some r -> exists bs, r = mres_concat bs /\ length bs = mesh_size mb EI kf /\
    forall e, (e < mesh_size mb EI kf)%nat -> exists bl, nth_error bs e = Some bl /\
      nth 1 (r_x bl) 0 = node_x (an_beam a) 0 + INR e * mesh_step mb EI kf /\
      nth 1 (r_M bl) 0 = - (w * mesh_step mb EI kf ^ 2 / 12) /\ nth 1 (r_V bl) 0 = w * mesh_step mb EI kf / 2 /\ nth 1 (r_D bl) 0 = - w / kf /\
      last (r_x bl) 0 = node_x (an_beam a) 0 + INR (e + 1) * mesh_step mb EI kf /\ last (r_D bl) 0 = 0.
Proof. exact analyze_uniform. Qed.
Print Assumptions C62_settlement_refuted.

Example C62_settlement_nonvacuous : forall gl ill, exists a' br r ls, analysis_init flat_ctor = Ok flat_an /\
  analyze gl ill flat_an (fun _ => []) None false = (a', Ok br) /\ an_n flat_an = 1%nat /\
  (forall i, (i < 4)%nat -> restraint (an_beam flat_an) i = 0 /\ prescribed (an_beam flat_an) i = None) /\
  member_at (an_beam flat_an) 0 = Ok long_member /\ winkler long_member 1000000000000 4 /\
  parsed_loads (an_beam flat_an) = Ok ls /\ loads_of ls 0 = [LUDL 2] /\ nth_error (br_mem br) 0 = Some r /\ mesh_step long_member 1000000000000 4 = 125.
Proof.
  intros gl ill. destruct (flat_results gl ill (fun _ => [])) as (a' & br & e & r & E & _ & _ & Mr). exists a', br, r. eexists.
  split; [exact flat_init|]. split; [exact E|]. split; [reflexivity|]. split; [intros i Hi; destruct i as [|[|[|[|i]]]]; try lia; split; reflexivity|].
  split; [exact flat_at0|]. split; [exact long_winkler|]. split; [exact flat_parsed|]. split; [reflexivity|]. split; [exact Mr|exact long_step].
Qed.

(** C54: the deflected shape consists of the members' parts, each without the two closing
    stations: it starts at the left node with the node's displacement and ends at the right
    node. *)
Theorem C54_deflection_curve : forall gl ill a sps npts check a' br,
  analyze gl ill a sps npts check = (a', Ok br) -> (0 < an_npts a')%nat ->
  members (an_beam a) (b_nspans (an_beam a)) (fun mb => 0 < mb_L mb /\ mb_kf mb = None) ->
  exists ps, length ps = b_nspans (an_beam a) /\ deflection_curve br = (flat_map fst ps, flat_map snd ps) /\
    forall i r, nth_error (br_mem br) i = Some r -> exists xs ds, nth_error ps i = Some (xs, ds) /\
      curve_piece (node_x (an_beam a) i) (node_x (an_beam a) (i + 1)) (br_D br (2 * i)%nat) xs ds /\
      length xs = (length (r_x r) - 2)%nat /\
      forall k, (k < length xs)%nat -> nth k xs 0 = nth (k + 1) (r_x r) 0 /\ nth k ds 0 = nth (k + 1) (r_D r) 0.
Proof. exact analyze_curve. Qed.
Print Assumptions C54_deflection_curve.

Example C54_curve_nonvacuous : exists a' br, analyze sample_gl (fun _ _ => false) ff (fun _ => []) None false = (a', Ok br) /\ an_npts a' = 100%nat /\
  members (an_beam ff) (b_nspans (an_beam ff)) (fun mb => 0 < mb_L mb /\ mb_kf mb = None).
Proof.
  destruct (ff_results sample_gl (fun _ _ => false) (fun _ => [])) as (a' & br & e & E & EP & _). exists a', br.
  split; [exact E|]. split; [exact EP|]. intros i mb _ Em. destruct (ff_member i mb Em) as (_ & S & _). exact (conj (sm_L _ S) (sm_kf _ S)).
Qed.
