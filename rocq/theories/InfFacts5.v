(** Sample influence lines, reuse of the object, restraints given as floats. *)
From Coq Require Import ZArith Lra Lia String Ascii.
From Verif Require Import Base BaseFacts Linalg SectionModel LoadModel LoadSpec FoundationModel ElementModel UtilsModel BeamModel BeamSpec AnalysisModel AnalysisSpec ResultsModel ResultsSpec
  ResultsFacts EnvelopeModel VehicleModel BridgeModel BridgeSpec BridgeFacts BridgeFacts4 InfModel InfSpec InfFacts InfFacts2 InfFacts3 InfFacts4.
Open Scope R_scope.
Local Notation length := List.length.
Local Open Scope list_scope.

Section IL.
Variable gl : nat -> list (R * R).
Variable ill : nat -> mat -> bool.

(** ** Encastre span *)
Definition il0_beam : beam := {| b_lengths := [6]; b_EIs := [RConst 2]; b_GAv := [None]; b_kf := [None];
     b_types := [1%nat]; b_nspans := 1; b_length := 0 + 6; b_terminal := [0; 0 + 6];
     b_R := [-1; -1; -1; -1]; b_D := [None; None; None; None]; b_LM := []; b_version := 1 |}.
Definition il0 : il := {| il_a := with_beam ff il0_beam; il_L := 0 + 6; il_res := []; il_pos := [] |}.
Definition il0_made : Prop := il_init [6] (EIAll (RConst 2)) [-1; -1; -1; -1] [EtNum [1%Z]] = Ok il0.
Lemma il0_init : il0_made.
Proof. reflexivity. Qed.
Lemma il0_valid : il_valid il0.
Proof. refine (proj1 (init_valid _ _ _ _ _ il0_init _ _)); [cbn; lia|cbn; repeat constructor; lra]. Qed.
Lemma il0_plain : plain_restraints (an_beam (il_a il0)).
Proof. repeat constructor; lra. Qed.
Lemma il0_readable eff : readable (an_beam (il_a il0)) true eff.
Proof. destruct eff; cbn [readable]; auto; (split; [reflexivity|]; split; [reflexivity|]; exists 0%nat; split; [lia|reflexivity]). Qed.
Lemma il0_same sps lm : analysed_with gl ill (il_a il0) sps lm = analysed_with gl ill ff sps lm.
Proof. reflexivity. Qed.
Lemma point_simple i P x : simple_row (Row i 2 [P; x; 0]).
Proof. eexists. split; [reflexivity|exact I]. Qed.
Lemma il0_runs i P x : exists r, analysed_with gl ill (il_a il0) (fun _ => []) [Row i 2 [P; x; 0]] = Ok r.
Proof. rewrite il0_same. apply ff_lm_total. repeat constructor. apply point_simple. Qed.
Lemma il0_creates step lv : (forall x, step = Some x -> 0 < x) -> exists s1, create_ils gl ill il0 step lv = (s1, Ok tt).
Proof. intros Hs. exact (create_completes gl ill il0 step lv il0_valid Hs il0_runs). Qed.
Lemma il0_axle p P : 0 <= p < 6 -> axle_row (an_beam (il_a il0)) (p, P) (Row 1 2 [P; p; 0]).
Proof. intros H. exists 0%nat, p. split; [reflexivity|]. split; [cbn; lia|]. unfold node_at, lsum. cbn. lra. Qed.

(** ** A second creation on the same object *)
Lemma step_some x : 0 < x -> forall y, Some x = Some y -> 0 < y.
Proof. intros H y E. injection E as <-. exact H. Qed.
Lemma again : exists s s1 s2 xs eta, il_valid s /\ il_pos s = [] /\ create_ils gl ill s (Some 1) 1 = (s1, Ok tt) /\ create_ils gl ill s1 (Some 1) 1 = (s2, Ok tt) /\
  get_il gl ill true s2 3 "M" = (s2, Ok (xs, eta)) /\ (length eta < length xs)%nat.
Proof.
  destruct (il0_creates (Some 1) 1 (step_some 1 Rlt_0_1)) as (s1 & H1). destruct (created gl ill _ _ _ _ il0_valid (step_some 1 Rlt_0_1) H1) as (V1 & new & EP & _ & K & _ & NN).
  assert (R1 : forall i P x, exists r, analysed_with gl ill (il_a s1) (fun _ => []) [Row i 2 [P; x; 0]] = Ok r).
  { intros i P x. rewrite (kin_same gl ill _ _ K). apply il0_runs. }
  destruct (create_completes gl ill s1 (Some 1) 1 V1 (step_some 1 Rlt_0_1) R1) as (s2 & H2).
  assert (PR : plain_restraints (an_beam (il_a s1))) by (rewrite (k_beam _ _ _ _ K); exact il0_plain).
  destruct (read_completes gl ill s1 (Some 1) 1 s2 true 3 "M" V1 (step_some 1 Rlt_0_1) PR I H2) as (xs & eta & HG).
  exists il0, s1, s2, xs, eta. split; [exact il0_valid|]. split; [reflexivity|]. split; [exact H1|]. split; [exact H2|]. split; [exact HG|].
  destruct (superposition gl ill s1 (Some 1) 1 s2 true 3 "M" s2 xs eta V1 (step_some 1 Rlt_0_1) R1_neq_R0 I H2 HG) as (_ & _ & new2 & -> & _ & [L2 _]).
  rewrite app_length, L2, EP. cbn [il0 il_pos app]. destruct new; [congruence|cbn; lia].
Qed.

(** ** Restraints given as floats *)
Lemma support_floats b poi off k : support_index true b poi off = Ok k -> support_index false b poi off = Err IndexError.
Proof.
  unfold support_index. intros H. apply rbind_ok in H as (locs & -> & H). cbn [rbind]. destruct locs as [|x locs]; [discriminate|].
  apply rbind_ok in H as (c & -> & H). cbn [rbind]. apply rbind_ok in H as (n & -> & H). cbn [rbind]. apply rbind_ok in H as (q & -> & _). reflexivity.
Qed.
Lemma rbind_err {A B} (m : result A) (f : A -> result B) e : m = Err e -> rbind m f = Err e.
Proof. intros ->. reflexivity. Qed.
Lemma floats_refused s step lv s1 poi eff : il_valid s -> (forall x, step = Some x -> 0 < x) -> plain_restraints (an_beam (il_a s)) ->
  effect_of eff = EffR \/ effect_of eff = EffMR -> readable (an_beam (il_a s)) true (effect_of eff) ->
  create_ils gl ill s step lv = (s1, Ok tt) -> get_il gl ill false s1 poi eff = (s1, Err IndexError).
Proof.
  intros V Hs PR HE RD HC. destruct (read_completes gl ill s step lv s1 true poi eff V Hs PR RD HC) as (xs & eta & HG).
  destruct (created gl ill s step lv s1 V Hs HC) as (_ & new & _ & _ & _ & U & NN). assert (NR := F2_nonempty _ _ _ U NN).
  unfold get_il in *. destruct (il_res s1) as [|r0 rs] eqn:ER; [congruence|]. rewrite ER in *. cbn [rbind] in *. f_equal. injection HG as HG.
  apply rbind_ok in HG as (ik & -> & HG). cbn [rbind]. apply rbind_ok in HG as (et & HG & _).
  destruct HE as [HE|HE]; rewrite HE in *; apply rbind_err; apply rbind_ok in HG as (k & Hk & _); rewrite (support_floats _ _ _ _ Hk); reflexivity.
Qed.
End IL.

(** The names of effects. *)
Lemma upper_V c : Ascii.eqb (upper_c c) "V" = (Ascii.eqb c "V" || Ascii.eqb c "v")%bool.
Proof. destruct c as [[] [] [] [] [] [] [] []]; reflexivity. Qed.
Lemma upper_R c : Ascii.eqb (upper_c c) "R" = (Ascii.eqb c "R" || Ascii.eqb c "r")%bool.
Proof. destruct c as [[] [] [] [] [] [] [] []]; reflexivity. Qed.
Lemma upper_M c : Ascii.eqb (upper_c c) "M" = (Ascii.eqb c "M" || Ascii.eqb c "m")%bool.
Proof. destruct c as [[] [] [] [] [] [] [] []]; reflexivity. Qed.
Lemma effect_names s : effect_named s (effect_of s).
Proof.
  assert (E1 : forall x a, Ascii.eqb x a = true -> x = a) by (intros x a H; now apply Ascii.eqb_eq).
  assert (E2 : forall x a, Ascii.eqb x a = false -> x <> a) by (intros x a H; now apply Ascii.eqb_neq).
  unfold effect_of, upper. destruct s as [|a s].
  - cbn. intuition discriminate.
  - cbn [smap String.eqb]. rewrite upper_V, upper_R, upper_M.
    destruct s as [|b s]; [|cbn [smap String.eqb]; rewrite upper_R; destruct s as [|c s]; cbn [smap String.eqb]];
    repeat match goal with |- context [Ascii.eqb ?x ?y] => let H := fresh in destruct (Ascii.eqb x y) eqn:H; [apply E1 in H; subst|apply E2 in H]; cbn [orb] end;
    cbn; intuition congruence.
Qed.
Lemma effect_named_iff s e : effect_of s = e <-> effect_named s e.
Proof.
  split; [intros <-; apply effect_names|]. intros H. assert (K := effect_names s). revert H K. destruct (effect_of s), e; try reflexivity; cbn; intros H K; exfalso; intuition (subst; congruence).
Qed.
