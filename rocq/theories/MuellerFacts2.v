(** Mueller-Breslau: point loads, influence lines of reactions, and the shapes themselves. *)
From Coquelicot Require Import Coquelicot.
From Coq Require Import ZArith Lia Lra String.
From Verif Require Import Base BaseFacts Linalg SectionModel FlexModel LoadModel LoadSpec LoadFacts DiagFacts FoundationModel ElementModel ElementSpec
  UtilsModel BeamModel BeamSpec AnalysisModel AnalysisSpec AnalysisFacts2 AnalysisFacts3 DetFacts ResultsModel ResultsSpec ResultsFacts ExactSpec ExactFacts ExactFacts2 ExactFacts3
  VehicleModel BridgeModel BridgeSpec InfModel InfSpec InfFacts2 InfFacts4 InfFacts5 MechFacts CombFacts ConstSectFacts ElementFacts ElementFacts2 MuellerSpec MuellerFacts.
Open Scope R_scope.
Local Notation length := List.length.
Local Open Scope list_scope.

Lemma finite_choice {A} (d : A) (P : nat -> A -> Prop) n : (forall m, (m < n)%nat -> exists x, P m x) -> exists f, forall m, (m < n)%nat -> P m (f m).
Proof.
  induction n as [|n IH]; intros H; [exists (fun _ => d); lia|]. destruct IH as (f & Hf); [auto|]. destruct (H n (Nat.lt_succ_diag_r n)) as (x & Hx).
  exists (fun m => if Nat.eqb m n then x else f m). intros m Hm. destruct (Nat.eqb_spec m n) as [->|D]; [exact Hx|apply Hf; lia].
Qed.

Section Point.
Variables (gl : nat -> list (R * R)) (ill : nat -> mat -> bool) (a : analysis).
Hypothesis G : gauss_rule gl.
Local Notation b := (an_beam a).
Local Notation n := (an_n a).

Lemma shapes_exist j delta check oB : plain_members a -> run_settled gl ill a [] (lift (an_ndof a) j delta) check = Ok oB ->
  exists s : nat -> (R -> R) * (R -> R), forall m, (m < n)%nat -> takes_shape (set_loads b []) (o_d oB) m (fst (s m)) (snd (s m)).
Proof using G.
  intros RM HB. unfold run_settled in HB. destruct (set_prescribed (set_loads b []) (lift (an_ndof a) j delta)) as [bB [[]|]] eqn:SP; [|discriminate].
  destruct (analyze_core gl ill (with_beam a bB) None check) as [a2 rB] eqn:CB. cbn [snd] in HB. subst rB.
  unfold set_prescribed in SP. destruct (negb _) in SP; [discriminate|]. injection SP as <-.
  destruct (analyze_equilibrium _ _ _ _ _ _ _ CB) as (ef & SF & _). change (an_n (with_beam a _)) with n in SF. cbn [an_beam with_beam] in SF.
  apply (finite_choice (fun _ => 0, fun _ => 0) (fun m s => takes_shape (set_loads b []) (o_d oB) m (fst s) (snd s))). intros m Hm.
  assert (XL : exact_loads (with_D (set_loads b []) (lift (an_ndof a) j delta) (S (b_version b))) n).
  { intros i mb ls _ _ E. assert (ls = []) by (unfold parsed_loads in E; cbn in E; congruence). subst ls. constructor. }
  destruct (state_bends gl G (with_D (set_loads b []) (lift (an_ndof a) j delta) (S (b_version b))) _ _ _ n Hm (fun m mb Hm E => RM m mb Hm E) XL (SF m Hm))
    as (V & M & mb & ls & ei & ga & th & y & A1 & A2 & A3 & A4 & B & J).
  exists (y, th), mb, ls, ei, ga, (ef m), V, M. repeat (split; [assumption|]). exact J.
Qed.

Lemma point_load i P x j delta check check' oA oB y th : no_settlement b -> settles_supports b -> plain_members a -> (i < n)%nat -> 0 <= x <= span_length b i ->
  (j < an_ndof a)%nat -> restraint b j < 0 -> run gl ill a [Row (Z.of_nat i + 1) 2 [P; x; 0]] check = Ok oA -> run_settled gl ill a [] (lift (an_ndof a) j delta) check' = Ok oB ->
  (forall m, (m < n)%nat -> takes_shape (set_loads b []) (o_d oB) m (y m) (th m)) -> reported b oA j * delta = P * y i x.
Proof using G.
  intros ND SS RM Hi Hx Hj Rj HA HB TS. assert (EP : parsed_loads (set_loads b [Row (Z.of_nat i + 1) 2 [P; x; 0]]) = Ok [(Z.of_nat i, LPL P x)]).
  { unfold parsed_loads. cbn. f_equal. f_equal. f_equal. lia. }
  apply (mueller gl ill a G [Row (Z.of_nat i + 1) 2 [P; x; 0]] j delta check check' oA oB y th (P * y i x)); try assumption.
  - intros m mb ls Hm Em E. rewrite EP in E. injection E as <-. assert (EL : mb_L mb = span_length b m).
    { unfold span_length. unfold member_at in Em. apply rbind_ok in Em as (e & _ & Em). apply rbind_ok in Em as (l & Q2 & Em). apply rbind_ok in Em as (t & _ & Em).
      injection Em as <-. cbn [mb_L]. apply get_ok in Q2. symmetry. apply nth_error_nth. exact Q2. } unfold loads_of. cbn [filter fst]. destruct (Z.eqb_spec (Z.of_nat i) (Z.of_nat m)) as [D|D]; [|constructor].
    apply Nat2Z.inj in D. subst m. constructor; [|constructor]. split; [rewrite EL; exact Hx|exact I].
  - exists [(Z.of_nat i, LPL P x)], (fun m => if Nat.eqb m i then P * y i x else 0). split; [exact EP|]. split.
    + intros m Hm. unfold loads_of. cbn [filter fst]. destruct (Nat.eqb_spec m i) as [->|D].
      * rewrite Z.eqb_refl. exists [P * y i x]. split; [|unfold lsum; cbn; ring]. constructor; [|constructor]. exists 0. split; [|unfold lsum; cbn; ring]. apply is_RInt_mult_zero.
      * destruct (Z.eqb_spec (Z.of_nat i) (Z.of_nat m)) as [D'|D']; [apply Nat2Z.inj in D'; congruence|]. exists []. split; [constructor|reflexivity].
    + rewrite (rsum_single n i); [rewrite Nat.eqb_refl; reflexivity|exact Hi|]. intros m _ D. apply Nat.eqb_neq in D. rewrite D. reflexivity.
Qed.

End Point.

Lemma ordinate_shape gl ill s step lv s1 ints poi off eff s2 xs eta nd delta check oB y th : gauss_rule gl -> il_valid s -> (forall x, step = Some x -> 0 < x) -> lv <> 0 ->
  plain_restraints (an_beam (il_a s)) -> settles_supports (an_beam (il_a s)) -> plain_members (il_a s) ->
  (effect_of eff = EffR /\ off = 0%nat \/ effect_of eff = EffMR /\ off = 1%nat) ->
  create_ils gl ill s step lv = (s1, Ok tt) -> get_il gl ill ints s1 poi eff = (s2, Ok (xs, eta)) ->
  read_support (an_beam (il_a s)) off poi nd ->
  run_settled gl ill (il_a s) [] (lift (an_ndof (il_a s)) (2 * nd + off) delta) check = Ok oB ->
  (forall m, (m < an_n (il_a s))%nat -> takes_shape (set_loads (an_beam (il_a s)) []) (o_d oB) m (y m) (th m)) ->
  exists new, xs = il_pos s ++ new /\ il_steps (an_beam (il_a s)) (step_of (an_beam (il_a s)) step) new /\ length new = length eta /\
    forall k i x, (k < length new)%nat -> (i < an_n (il_a s))%nat -> nth k new 0 = node_at (an_beam (il_a s)) i + x ->
      0 <= x < span_length (an_beam (il_a s)) i \/ x = span_length (an_beam (il_a s)) i /\ i = (an_n (il_a s) - 1)%nat -> nth k eta 0 * delta = lv * y i x.
Proof.
  intros G V Hs NZ PR SS RM EF HC HG RD HB TS.
  destruct (superposition gl ill s step lv s1 ints poi eff s2 xs eta V Hs NZ ltac:(destruct EF as [[-> _]|[-> _]]; exact PR) HC HG) as (_ & _ & new & EX & ST & LE & PD).
  exists new. split; [exact EX|]. split; [exact ST|]. split; [exact LE|]. intros k i x Hk Hi EN Hx.
  assert (MN := bm_n _ (iv_model _ V)). assert (0 < span_length (an_beam (il_a s)) i).
  { unfold span_length. assert (DP := dk_pos _ (bm_deck _ (iv_model _ V))). rewrite Forall_forall in DP. apply DP. apply nth_In. rewrite <- (dk_n _ (bm_deck _ (iv_model _ V))), <- MN. exact Hi. }
  destruct (PD [(k, 1)] [Row (Z.of_nat i + 1) 2 [1; x; 0]]) as (r & v & HR & EV & EQ).
  { constructor; [|constructor]. split; [exact Hk|]. exists i, x. split; [reflexivity|]. split; [rewrite <- MN; exact Hi|]. split; [exact EN|]. unfold span_length in *. rewrite <- MN. destruct Hx as [Hx|[-> ->]]; split; lra || auto. }
  unfold lsum in EQ. cbn in EQ. assert (VE : exists v', effect_value (an_beam (il_a s)) r poi (effect_of eff) v' /\ v' = v) by (exists v; auto).
  destruct VE as (v' & VE & ->). assert (RV : reaction_value (an_beam (il_a s)) off r poi v) by (destruct EF as [[E ->]|[E ->]]; rewrite E in VE; exact VE).
  destruct RV as (n' & RS & RN). assert (n' = nd) by exact (nearest_unique _ _ _ _ _ RS RD). subst n'.
  unfold analysed_with in HR. destruct (analyze gl ill _ _ _ _) as [a' r'] eqn:AN in HR. cbn [snd] in HR. subst r'.
  destruct (analyze_split _ _ _ _ _ _ _ _ AN) as (o & HO & _ & _ & _ & ER & _).
  destruct RD as [(Hn & RJ) _].
  assert (OFF : (off <= 1)%nat) by (destruct EF as [[_ ->]|[_ ->]]; lia).
  assert (PL := point_load gl ill (il_a s) G i 1 x (2 * nd + off) delta true check o oB y th (iv_free _ V) SS RM Hi ltac:(destruct Hx as [?|[? _]]; lra)
    ltac:(unfold an_ndof; lia) ltac:(rewrite RJ; lra) ltac:(unfold run; rewrite HO; reflexivity) HB TS).
  assert (RE : reported (an_beam (il_a s)) o (2 * nd + off) = v).
  { unfold reported. destruct (Rlt_dec (restraint (an_beam (il_a s)) (2 * nd + off)) 0) as [_|N]; [|rewrite RJ in N; lra]. rewrite ER in RN. apply nth_error_nth. exact RN. }
  rewrite RE in PL. replace (nth k eta 0) with (lv * v) by lra. rewrite Rmult_assoc, PL. ring.
Qed.

Lemma il_unsettled L EI rs types s : il_init L EI rs types = Ok s -> settles_supports (an_beam (il_a s)).
Proof.
  unfold il_init. intros H. apply rbind_ok in H as (a & Ha & H). apply ok_inj in H. subst s. cbn [il_a].
  unfold analysis_init in Ha. apply rbind_ok in Ha as (b & Hb & Ha). apply ok_inj in Ha. subst a. cbn [an_beam].
  unfold beam_init, ctor_R in Hb. cbn [il_ctor ct_sup BeamModel.ct_R ct_GAv ct_kf ct_L ct_EI ct_types ct_D ct_LM rbind broadcast_GAv broadcast_kf] in Hb.
  apply rbind_ok in Hb as (b0 & H0 & Hb). destruct (negb (Nat.eqb _ _)); [discriminate|]. cbn [rbind] in Hb. apply ok_inj in Hb. subst b.
  intros i N. exfalso. apply N. unfold prescribed. cbn [with_LM with_D with_R b_D]. destruct (Nat.lt_ge_cases i (length rs)) as [Hi|Hi]; [|apply nth_overflow; rewrite repeat_length; exact Hi].
  apply (repeat_spec (length rs)). apply nth_In. rewrite repeat_length. exact Hi.
Qed.

(** ** Samples *)
(** Two spans, the second one flexible in shear, on a clamp, a roller and a spring. *)
Definition sheared_beam : beam :=
  {| b_lengths := [4; 6]; b_EIs := [RConst 2; RConst 2]; b_GAv := [None; Some (RConst 3)]; b_kf := [None; None];
     b_types := [1%nat; 1%nat]; b_nspans := 2; b_length := 0 + 4 + 6; b_terminal := [0; 0 + 4; 0 + 4 + 6];
     b_R := [-1; -1; -1; 0; 3; 0]; b_D := [None; None; None; None; None; None]; b_LM := []; b_version := 2 |}.
Definition sheared : analysis := {| an_beam := sheared_beam; an_n := 2; an_npts := 100; an_checked := None; an_out := None |}.
Lemma sheared_plain : plain_members sheared.
Proof.
  intros m mb Hm Em. cbn in Hm. assert (C : m = 0%nat \/ m = 1%nat) by lia.
  destruct C as [-> | ->]; cbv in Em; injection Em as <-; constructor; cbn; try lra; try lia; try reflexivity; try (eexists; split; [reflexivity|lra]).
  - left; reflexivity.
  - right. eexists. split; [reflexivity|lra].
Qed.
Lemma sheared_type m mb : (m < 2)%nat -> member_at sheared_beam m = Ok mb -> sound_member mb /\ mb_type mb = 1%nat.
Proof.
  intros Hm Em. split; [exact (prismatic_sound mb (sheared_plain m mb Hm Em))|]. assert (C : m = 0%nat \/ m = 1%nat) by lia. destruct C as [-> | ->]; cbv in Em; injection Em as <-; reflexivity.
Qed.
Lemma sheared_solves ill lm D v : length D = 6%nat -> (forall i, (i < 6)%nat -> 0 <= restraint sheared_beam i -> nth i D None = None) ->
  well_formed sample_gl (with_D (set_loads sheared_beam lm) D v) 2 ->
  exists o, snd (analyze_core sample_gl ill (with_beam sheared (with_D (set_loads sheared_beam lm) D v)) None false) = Ok o.
Proof.
  intros LD HD W. apply (analyze_solves sample_gl ill (with_beam sheared (with_D (set_loads sheared_beam lm) D v)) None gauss2_rule W).
  - intros m mb Hm E. exact (proj1 (sheared_type m mb Hm E)).
  - intros (rf & i & _ & Hi & C1 & C & _). cbn in Hi. apply C. apply HD; [cbn; lia|]. unfold restraint in *. cbn in *. lra.
  - apply continuous_stable.
    + exact gauss2_rule.
    + intros m mb Hm E. exact (sheared_type m mb Hm E).
    + intros m Hm. cbn in Hm. assert (m = 0 \/ m = 1)%nat as [-> | ->] by lia; do 2 eexists; split; reflexivity.
    + exists 0%nat, 1%nat. split; [cbn; lia|]. split; [cbn; lia|]. split; [left; right; cbn; lra|].
      right. split; [lia|]. left. right. cbn. lra.
Qed.
Lemma sheared_lifts ill : exists o, run_settled sample_gl ill sheared [] (lift 6 2 1) false = Ok o.
Proof.
  destruct (sheared_solves ill [] (lift 6 2 1) (S (b_version (set_loads sheared_beam []))) eq_refl) as (o & H).
  - intros i Hi Hr. unfold restraint in Hr. cbn in Hr. destruct i as [|[|[|[|[|[|i]]]]]]; cbn in *; try lra; try lia; reflexivity.
  - sample_wf.
  - exists o. exact H.
Qed.
Lemma sheared_point_runs ill : exists o, run sample_gl ill sheared [Row 2 2 [5; 2; 0]] false = Ok o.
Proof.
  apply (analyze_solves sample_gl ill (with_beam sheared (set_loads sheared_beam [Row 2 2 [5; 2; 0]])) None gauss2_rule).
  - cbn [with_beam an_beam an_n sheared]. sample_wf.
  - intros m mb Hm E. exact (proj1 (sheared_type m mb Hm E)).
  - intros (rf & i & _ & Hi & _ & C & _). cbn in Hi. apply C. unfold prescribed. cbn. do 6 (destruct i as [|i]; [reflexivity|]). lia.
  - apply continuous_stable.
    + exact gauss2_rule.
    + intros m mb Hm E. exact (sheared_type m mb Hm E).
    + intros m Hm. cbn in Hm. assert (m = 0 \/ m = 1)%nat as [-> | ->] by lia; do 2 eexists; split; reflexivity.
    + exists 0%nat, 1%nat. split; [cbn; lia|]. split; [cbn; lia|]. split; [left; right; cbn; lra|].
      right. split; [lia|]. left. right. cbn. lra.
Qed.
Lemma sheared_unsettled : no_settlement sheared_beam /\ settles_supports sheared_beam.
Proof. split; intros i; [left|intros N; exfalso; apply N]; do 7 (destruct i as [|i]; [reflexivity|]); destruct i; reflexivity. Qed.
Lemma il0_lifts ill : exists o, run_settled sample_gl ill (il_a il0) [] (lift 4 0 1) false = Ok o.
Proof.
  unfold run_settled, set_prescribed.
  change (negb (Nat.eqb (length (lift 4 0 1)) (length (b_R (set_loads (an_beam (il_a il0)) []))))) with false.
  cbv iota. set (b := with_D _ _ _).
  assert (SM : forall mb, member_at il0_beam 0 = Ok mb -> sound_member mb /\ mb_type mb = 1%nat).
  { intros mb E. destruct (ff_member 0 mb E) as (_ & S & _ & _ & _ & T). auto. }
  apply (analyze_solves sample_gl ill (with_beam (il_a il0) b) None gauss2_rule).
  - cbn [with_beam an_beam an_n il0 il_a]. split; [cbn; lia|]. split; [cbn; lia|]. eexists. split; [reflexivity|]. intros m Hm. cbn in Hm. assert (m = 0%nat) as -> by lia. do 3 eexists; repeat (split; [reflexivity|]); reflexivity.
  - intros m mb Hm E. cbn in Hm. assert (m = 0%nat) as -> by lia. exact (proj1 (SM mb E)).
  - intros (rf & i & _ & Hi & C1 & C & _). cbn in Hi. apply C. unfold restraint in C1. cbn in C1. unfold prescribed. cbn.
    destruct i as [|[|[|[|i]]]]; cbn in *; try lra; try lia; reflexivity.
  - apply continuous_stable.
    + exact gauss2_rule.
    + intros m mb Hm E. cbn in Hm. assert (m = 0%nat) as -> by lia. exact (SM mb E).
    + intros m Hm. cbn in Hm. assert (m = 0%nat) as -> by lia. do 2 eexists; split; reflexivity.
    + exists 0%nat, 0%nat. split; [cbn; lia|]. split; [cbn; lia|]. split; [left; right; cbn; lra|]. left. left. right. cbn. lra.
Qed.
Lemma il0_prismatic : plain_members (il_a il0).
Proof.
  intros m mb Hm Em. cbn in Hm. assert (m = 0%nat) as -> by lia. cbv in Em; injection Em as <-; constructor; cbn; try lra; try lia; try reflexivity; try (eexists; split; [reflexivity|lra]); left; reflexivity.
Qed.
