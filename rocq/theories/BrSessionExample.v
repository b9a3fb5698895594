(** Sample programs for C90. *)
From Coq Require Import Lia Lra ZArith.
From Verif Require Import Base BaseFacts Linalg SectionModel LoadModel FoundationModel ElementModel UtilsModel BeamModel AnalysisModel AnalysisSpec ResultsModel ResultsFacts RenderModel SessionModel SessionSpec SessionFacts
  EnvelopeModel VehicleModel VehicleSpec VehicleFacts BridgeModel BridgeSpec BridgeFacts BridgeFacts3 BridgeFacts4 LoadCasesSpec BrSessionModel BrSessionSpec BrSessionFacts.
Open Scope R_scope.

Section B.
Variable gl : nat -> list (R * R).
Variable ill : nat -> mat -> bool.

(** A fixed-fixed beam of 6 m with a uniform load of 2, a bridge analysis of it with a vehicle. *)
Definition br_prog : list bcall := [Plain (NewList [Row 1 1 [2]]); Plain (Construct ff_ctor (Some 0%nat)); NewBridge (Some 0%nat) (Some truck)].
Definition br_state : bstore :=
  {| bs_st := {| st_lists := [[Row 1 1 [2]]]; st_objs := [{| so_an := ff; so_lm := 0; so_res := None |}] |};
     bs_br := [{| bo_ba := Some 0%nat; bo_veh := Some truck; bo_static := 0 |}] |}.
Lemma br_run : brun gl ill br_prog = br_state.
Proof. reflexivity. Qed.

Lemma one_static s q b p o : good gl ill (bs_st s) -> nth_error (bs_br s) q = Some b -> bo_ba b = Some p -> bo_veh b = Some truck -> object (bs_st s) p o -> kin gl ill ff (so_an o) ->
  Forall simple_row (rows_of (bs_st s) (bo_static b)) ->
  exists s' d rw o', bexec gl ill s (Static q 5 (SpPoints None) None) = (s', [d], Ok tt) /\ fst d = (rows_of (bs_st s) (bo_static b) ++ rw)%list /\ axle_rows (an_beam ff) truck 5 rw /\
    good gl ill (bs_st s') /\ object (bs_st s') p o' /\ kin gl ill ff (so_an o').
Proof.
  intros G Hb Hp Hv Ho K F. unfold object in Ho. cbn [bexec]. unfold run_of. rewrite Hb, Hp, Hv, Ho. cbn [apply_shear_points positions_run]. rewrite Ho.
  rewrite (k_beam _ _ _ _ K), (geometric_axles truck). destruct (axle_LM_spec (an_beam ff) truck 5 (bm_deck _ ff_bridge)) as (rw & ER & A). rewrite ER.
  destruct (position_run gl ill (bs_st s) p (bo_static b) o (fun _ => []) rw) as [st' d] eqn:EP.
  destruct (position_spec gl ill _ _ _ _ ff _ _ _ _ G Ho K EP) as (D1 & D2 & G1 & _ & _ & o' & Ho' & _ & _ & K').
  rewrite D1 in D2. destruct (ff_lm_total gl ill (rows_of (bs_st s) (bo_static b) ++ rw) (fun _ => [])) as (r & Er);
    [apply Forall_app; split; [exact F|eapply axle_rows_simple; exact A]|].
  rewrite Er in D2. rewrite D2. exists {| bs_st := st'; bs_br := bs_br s |}, d, rw, o'. split; [reflexivity|]. split; [exact D1|]. split; [exact A|]. split; [exact G1|]. split; [exact Ho'|exact (K' r D2)].
Qed.
Lemma br_good : good gl ill (bs_st br_state).
Proof. rewrite <- br_run. exact (proj1 (bgood_run gl ill br_prog)). Qed.
Lemma br_static : Forall simple_row [Row 1 1 [2]].
Proof. exact ff_static. Qed.

Lemma later_loads : ~ (forall ks k2 p w k q ps sp dv P s' ds d r, adds k2 p w -> drives k q ps sp dv P -> works_on (brun gl ill (ks ++ [Plain k2])) q p ->
  bexec gl ill (brun gl ill (ks ++ [Plain k2])) k = (s', ds, r) -> In d ds -> In w (fst d)).
Proof.
  intros C. set (k := Static 0 5 (SpPoints None) None). set (w := Row 1 1 [7]).
  destruct (one_static br_state 0 {| bo_ba := Some 0%nat; bo_veh := Some truck; bo_static := 0 |} 0 {| so_an := ff; so_lm := 0; so_res := None |} br_good eq_refl eq_refl eq_refl eq_refl (kin_refl gl ill ff) br_static)
    as (s1 & d1 & rw1 & o1 & E1 & _ & _ & G1 & Ho1 & K1).
  set (ks := (br_prog ++ [k])%list).
  assert (R1 : brun gl ill ks = s1) by (unfold ks; rewrite brun_snoc, br_run; unfold k; rewrite E1; reflexivity).
  assert (S0 : static_loads (brun gl ill br_prog) 0 [Row 1 1 [2]]) by (rewrite br_run; eexists; split; reflexivity).
  assert (W0 : works_on (brun gl ill br_prog) 0 0) by (rewrite br_run; eexists; split; reflexivity).
  assert (DK : drives k 0 [5] (SpPoints None) None axle_loads) by constructor.
  assert (E1' : bexec gl ill (brun gl ill br_prog) k = (s1, [d1], Ok tt)) by (rewrite br_run; exact E1).
  destruct (link_cut gl ill br_prog k 0 [5] (SpPoints None) None axle_loads 0 s1 [d1] (Ok tt) DK W0 E1' ltac:(discriminate)) as (_ & _ & LC).
  assert (ST := LC (AddRow 0 w) w 0%nat [Row 1 1 [2]] (ad_row 0 w) S0). clear LC.
  assert (B1 : bs_br s1 = bs_br br_state) by (destruct (drive_driven gl ill br_state k 0 _ _ _ _ _ _ _ ltac:(rewrite <- br_run; apply bgood_run) DK E1) as (_ & X & _); exact X).
  replace (br_prog ++ [k; Plain (AddRow 0 w)])%list with (ks ++ [Plain (AddRow 0 w)])%list in ST by (unfold ks; rewrite <- app_assoc; reflexivity).
  set (s2 := brun gl ill (ks ++ [Plain (AddRow 0 w)])) in *.
  assert (E2 : s2 = {| bs_st := write_list (bs_st s1) (so_lm o1) (rows_of (bs_st s1) (so_lm o1) ++ [w])%list; bs_br := bs_br s1 |}).
  { unfold s2. rewrite brun_snoc, R1. cbn [bexec exec]. unfold on_obj. unfold object in Ho1. rewrite Ho1. reflexivity. }
  destruct ST as (b & Hb & HR). assert (b = {| bo_ba := Some 0%nat; bo_veh := Some truck; bo_static := 0 |}) as -> by (rewrite E2, B1 in Hb; cbn in Hb; injection Hb as <-; reflexivity).
  assert (Ho2 : object (bs_st s2) 0 o1) by (rewrite E2; exact Ho1).
  destruct (one_static s2 0 _ 0 o1 (proj1 (bgood_run gl ill _)) Hb eq_refl eq_refl Ho2 K1 ltac:(rewrite HR; exact br_static)) as (s3 & d & rw & o3 & E3 & D3 & A3 & _).
  assert (I := C ks (AddRow 0 w) 0%nat w k 0%nat [5] (SpPoints None) None axle_loads s3 [d] d (Ok tt) (ad_row 0 w) DK ltac:(eexists; split; [exact Hb|reflexivity]) E3 (or_introl eq_refl)).
  rewrite D3, HR in I. destruct I as [I|I]; [injection I as I; lra|].
  unfold axle_rows in A3. clear - A3 I. revert I. induction A3 as [|x y l m (i & z & -> & _) F IH]; [intros []|]. intros [I|I]; [discriminate|exact (IH I)].
Qed.
Lemma sample_drive : exists s' d rw, bexec gl ill (brun gl ill br_prog) (Static 0 5 (SpPoints None) None) = (s', [d], Ok tt) /\ fst d = (Row 1 1 [2] :: rw)%list /\ axle_rows (an_beam ff) truck 5 rw.
Proof.
  rewrite br_run. destruct (one_static br_state 0 {| bo_ba := Some 0%nat; bo_veh := Some truck; bo_static := 0 |} 0 {| so_an := ff; so_lm := 0; so_res := None |} br_good eq_refl eq_refl eq_refl eq_refl (kin_refl gl ill ff) br_static)
    as (s1 & d1 & rw1 & o1 & E1 & D1 & A1 & _). exists s1, d1, rw1. auto.
Qed.
Lemma sample_ready : works_on (brun gl ill br_prog) 0 0 /\ has_vehicle (brun gl ill br_prog) 0 truck /\ static_loads (brun gl ill br_prog) 0 [Row 1 1 [2]] /\
  same_list (brun gl ill br_prog) 0 0 /\ loads_are (brun gl ill br_prog) 0 [Row 1 1 [2]] /\
  exists o, object (bs_st (brun gl ill br_prog)) 0 o /\ bridge_model (so_an o) /\ (2 * b_nspans (an_beam (so_an o)) < length (b_R (an_beam (so_an o))))%nat /\
    Forall (Rlt length_tol) (b_lengths (an_beam (so_an o))) /\ 0 <= v_L truck.
Proof.
  rewrite br_run. split; [eexists; split; reflexivity|]. split; [eexists; split; reflexivity|]. split; [eexists; split; reflexivity|]. split; [do 2 eexists; repeat split|]. split; [eexists; split; reflexivity|].
  eexists. split; [reflexivity|]. split; [exact ff_bridge|]. split; [cbn; lia|]. split; [exact ff_tol|cbn; lra].
Qed.
End B.
