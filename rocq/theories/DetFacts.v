(** Proofs about statically determinate beams. *)
From Coquelicot Require Import Coquelicot.
From Coq Require Import Lia.
From Verif Require Import Base BaseFacts Linalg SectionModel LoadModel LoadSpec LoadFacts ClampFacts ReleaseFacts ElementModel ElementSpec UtilsModel BeamModel
  AnalysisModel AnalysisSpec AnalysisFacts AnalysisFacts2 BalanceFacts AnalysisFacts3 MechFacts ResultsModel ResultsSpec ResultsFacts BedFacts2 FoundFacts4 DetSpec.
Open Scope R_scope.

Lemma none_resultant L g dg : resultant L no_action g dg 0.
Proof. exists 0. split; [apply RInt_zero; intros x; cbn; ring|cbn; ring]. Qed.

(** The imposed curvatures do not count, and the resultant of the other loads exists. *)
Lemma acting_resultant L lds g dg W : span_resultant L (filter (fun ld => negb (imposed_curvature ld)) lds) g dg W -> span_resultant L lds g dg W.
Proof.
  revert W. induction lds as [|ld lds IH]; intros W H; [exact H|]. cbn [filter] in H. destruct (imposed_curvature ld) eqn:E; cbn [negb] in H.
  - destruct (IH W H) as (ws & F & ->). exists (0 :: ws). split; [constructor; [|exact F]|change (lsum ws = 0 + lsum ws); ring].
    destruct ld; try discriminate. apply none_resultant.
  - destruct H as (ws & F & ->). inversion F as [|? w ? ws' F1 F2]; subst. destruct (IH (lsum ws')) as (vs & F3 & E3); [exists ws'; auto|].
    exists (w :: vs). split; [constructor; assumption|]. change (w + lsum ws' = w + lsum vs). rewrite <- E3. reflexivity.
Qed.
Lemma resultant_exists L lds : 0 < L -> Forall (on_member L) lds ->
  let q := filter (fun ld => negb (imposed_curvature ld)) lds in
  (exists W, span_resultant L q (fun _ => 1) (fun _ => 0) W) /\ exists W, span_resultant L q (fun x => 0 + x) (fun _ => 1) W.
Proof.
  intros HL H. cbv zeta. induction H as [|ld lds H _ ((W & ws & F & EW) & (W1 & ws1 & F1 & EW1))]; [split; exists 0, []; split; (constructor || reflexivity)|].
  cbn [filter]. destruct (imposed_curvature ld) eqn:E; cbn [negb]; [split; [exists W, ws|exists W1, ws1]; auto|].
  destruct (get_cnl_ok (fun _ => []) ld L) as (c & Ec); [exact H|destruct ld; try discriminate; exact I|].
  destruct (get_cnl_balances (fun _ => []) ld L c HL H Ec) as [B1 B2].
  split.
  - eexists. eexists. split; [constructor; [exact B1|exact F]|reflexivity].
  - eexists. eexists. split; [constructor; [|exact F1]|reflexivity]. refine (resultant_ext L _ (fun x => x) (fun _ => 1) _ _ _ _ _ B2); intros; ring.
Qed.

Section Det.
Variable gl : nat -> list (R * R).
Hypothesis G : gauss_rule gl.

Lemma independent b1 b2 n d1 d2 : same_statics b1 b2 n -> determinate b1 n ->
  members b1 n (fun mb => sound_member mb /\ mb_type mb <> 4%nat) -> members b2 n (fun mb => sound_member mb /\ mb_type mb <> 4%nat) ->
  loads_on_members b1 n -> loads_on_members b2 n -> equilibrium gl b1 n d1 -> equilibrium gl b2 n d2 ->
  exists ef, (forall m, (m < n)%nat -> exists e1 e2, member_state gl b1 d1 m e1 /\ member_state gl b2 d2 m e2 /\
      forall p, (p < 4)%nat -> e1 p = ef m p /\ e2 p = ef m p) /\
    forall m, (m < n)%nat -> member_state gl b1 d1 m (ef m).
Proof.
  intros [SL SS SQ] D M1 M2 O1 O2 (f1 & S1 & E1) (f2 & S2 & E2).
  assert (Z : forall m p, (m < n)%nat -> (p < 4)%nat -> f1 m p - f2 m p = 0).
  { apply (D (fun m p => f1 m p - f2 m p)). split.
    - intros m mb Hm Em. destruct (M1 m mb Hm Em) as [Sm Tm].
      destruct (S1 m Hm) as (ls1 & mb1 & k1 & r1 & P1 & Q1 & _). destruct (S2 m Hm) as (ls2 & mb2 & k2 & r2 & P2 & Q2 & _).
      rewrite Em in Q1. inversion Q1; subst mb1. destruct (M2 m mb2 Hm Q2) as [Sm2 Tm2]. destruct (SL m mb mb2 Hm Em Q2) as [EL ET].
      assert (L1 := member_length _ _ _ Em). assert (L2 := member_length _ _ _ Q2).
      destruct (state_balance gl b1 d1 m (f1 m) mb G Em Sm L1 (fun ls El => O1 ls m El Hm) (S1 m Hm)) as (A1 & B1 & C1).
      destruct (state_balance gl b2 d2 m (f2 m) mb2 G Q2 Sm2 L2 (fun ls El => O2 ls m El Hm) (S2 m Hm)) as (A2 & B2 & C2).
      assert (Ex := resultant_exists (span_length b1 m) (loads_of ls1 m) ltac:(rewrite <- L1; apply Sm) (O1 ls1 m P1 Hm)). cbv zeta in Ex.
      change (filter (fun ld => negb (imposed_curvature ld)) (loads_of ls1 m)) with (acting ls1 m) in Ex. destruct Ex as ((W & RW) & (W1 & RW1)).
      assert (Eq := SQ ls1 ls2 m P1 P2 Hm). rewrite <- L1, EL, L2 in *.
      assert (X1 := A1 ls1 W P1 (acting_resultant _ _ _ _ _ RW)). assert (Y1 := B1 Tm ls1 0 W1 P1 (acting_resultant _ _ _ _ _ RW1)).
      rewrite Eq in RW, RW1.
      assert (X2 := A2 ls2 W P2 (acting_resultant _ _ _ _ _ RW)). assert (Y2 := B2 Tm2 ls2 0 W1 P2 (acting_resultant _ _ _ _ _ RW1)).
      rewrite <- L2, <- EL, L1 in *. split; [split; lra|]. intros p Hp. rewrite (C1 p Hp). rewrite ET in Hp. rewrite (C2 p Hp). ring.
    - intros i Hi Hs. assert (Hs2 : ~ supported b2 i) by (intros Q; apply Hs, SS; assumption).
      assert (N : forall b ef d, ~ supported b i -> match prescribed b i with Some v => d i = v | None => if Rlt_dec (restraint b i) 0 then d i = 0 else nodal_sum n ef i = spring_force b i (d i) end -> nodal_sum n ef i = 0).
      { intros b ef d Hn Q. destruct (prescribed b i) eqn:EP; [exfalso; apply Hn; left; left; rewrite EP; discriminate|].
        destruct (Rlt_dec (restraint b i) 0) as [Q1|_]; [exfalso; apply Hn; left; right; exact Q1|]. rewrite Q. unfold spring_force.
        destruct (Rlt_dec 0 (restraint b i)) as [Q1|_]; [exfalso; apply Hn; right; exact Q1|reflexivity]. }
      assert (N1 := N b1 f1 d1 Hs (E1 i Hi)). assert (N2 := N b2 f2 d2 Hs2 (E2 i Hi)).
      unfold nodal_sum in *. destruct (Nat.ltb i (2 * n)), (Nat.leb 2 i); lra. }
  exists f1. split; [|exact S1]. intros m Hm. exists (f1 m), (f2 m). split; [exact (S1 m Hm)|]. split; [exact (S2 m Hm)|].
  intros p Hp. split; [reflexivity|]. specialize (Z m p Hm Hp). lra.
Qed.

Lemma state_forces_unique b d m e e' : member_state gl b d m e -> member_state gl b d m e' -> forall p, e p = e' p.
Proof.
  intros (ls & mb & k & r & A1 & A2 & A3 & A4 & A5) (ls' & mb' & k' & r' & B1 & B2 & B3 & B4 & B5) p.
  rewrite A1 in B1. inversion B1; subst ls'. rewrite A2 in B2. inversion B2; subst mb'. rewrite A3 in B3. inversion B3; subst k'. rewrite A4 in B4. inversion B4; subst r'.
  rewrite A5, B5. reflexivity.
Qed.

Lemma sums_equal (n : nat) (e1 e2 : nat -> vec) i : (i < 2 * (n + 1))%nat -> (forall m p, (m < n)%nat -> (p < 4)%nat -> e1 m p = e2 m p) -> nodal_sum n e1 i = nodal_sum n e2 i.
Proof.
  intros Hi H. unfold nodal_sum. assert (Q : (i mod 2 < 2)%nat) by (apply Nat.mod_upper_bound; lia). assert (DM := Nat.div_mod i 2 ltac:(lia)).
  f_equal.
  - destruct (Nat.ltb_spec i (2 * n)); [|reflexivity]. apply H; lia.
  - destruct (Nat.leb_spec 2 i); [|reflexivity]. apply H; lia.
Qed.

Variable ill : nat -> mat -> bool.

Lemma two_analyses a1 a2 n1 n2 c1 c2 a1' a2' o1 o2 : an_n a1 = an_n a2 -> same_statics (an_beam a1) (an_beam a2) (an_n a1) -> determinate (an_beam a1) (an_n a1) ->
  members (an_beam a1) (an_n a1) (fun mb => sound_member mb /\ mb_type mb <> 4%nat) -> members (an_beam a2) (an_n a2) (fun mb => sound_member mb /\ mb_type mb <> 4%nat) ->
  loads_on_members (an_beam a1) (an_n a1) -> loads_on_members (an_beam a2) (an_n a2) ->
  analyze_core gl ill a1 n1 c1 = (a1', Ok o1) -> analyze_core gl ill a2 n2 c2 = (a2', Ok o2) ->
  (forall m e1 e2, (m < an_n a1)%nat -> member_forces gl (an_beam a1) (o_d o1) m = Ok e1 -> member_forces gl (an_beam a2) (o_d o2) m = Ok e2 ->
     forall p, (p < 4)%nat -> e1 p = e2 p) /\
  (settles_supports (an_beam a1) -> settles_supports (an_beam a2) -> forall i, (i < an_ndof a1)%nat -> reported (an_beam a1) o1 i = reported (an_beam a2) o2 i).
Proof.
  intros En SS D M1 M2 O1 O2 H1 H2. assert (Q1 := analyze_equilibrium _ _ _ _ _ _ _ H1). assert (Q2 := analyze_equilibrium _ _ _ _ _ _ _ H2). rewrite <- En in *.
  destruct (independent _ _ _ _ _ SS D M1 M2 O1 O2 Q1 Q2) as (ef & F & _).
  assert (K : forall m e1 e2, (m < an_n a1)%nat -> member_state gl (an_beam a1) (o_d o1) m e1 -> member_state gl (an_beam a2) (o_d o2) m e2 -> forall p, (p < 4)%nat -> e1 p = e2 p).
  { intros m e1 e2 Hm E1 E2 p Hp. destruct (F m Hm) as (x1 & x2 & X1 & X2 & X). destruct (X p Hp) as [Y1 Y2].
    rewrite (state_forces_unique _ _ _ _ _ E1 X1), (state_forces_unique _ _ _ _ _ E2 X2). congruence. }
  split.
  - intros m e1 e2 Hm E1 E2. apply (K m); [exact Hm|apply forces_state; exact E1|apply forces_state; exact E2].
  - intros T1 T2 i Hi. destruct (analyze_reactions _ _ _ _ _ _ _ H1 T1) as (f1 & S1 & R1). destruct (analyze_reactions _ _ _ _ _ _ _ H2 T2) as (f2 & S2 & R2).
    rewrite R1 by exact Hi. rewrite R2 by (unfold an_ndof in *; rewrite <- En; exact Hi). rewrite <- En in *. apply sums_equal; [exact Hi|]. intros m p Hm Hp. exact (K m _ _ Hm (S1 m Hm) (S2 m Hm) p Hp).
Qed.

Lemma no_forces a npts check a' o : determinate (an_beam a) (an_n a) -> only_imposed (an_beam a) (an_n a) ->
  members (an_beam a) (an_n a) (fun mb => sound_member mb /\ mb_type mb <> 4%nat) -> loads_on_members (an_beam a) (an_n a) ->
  analyze_core gl ill a npts check = (a', Ok o) ->
  (forall m e, (m < an_n a)%nat -> member_forces gl (an_beam a) (o_d o) m = Ok e -> forall p, (p < 4)%nat -> e p = 0) /\
  (settles_supports (an_beam a) -> forall i, (i < an_ndof a)%nat -> reported (an_beam a) o i = 0).
Proof.
  intros D OI M O H. destruct (analyze_equilibrium _ _ _ _ _ _ _ H) as (f & S & E). set (b := an_beam a) in *. set (n := an_n a) in *.
  assert (Z : forall m p, (m < n)%nat -> (p < 4)%nat -> f m p = 0).
  { apply (D f). split.
    - intros m mb Hm Em. destruct (M m mb Hm Em) as [Sm Tm]. destruct (S m Hm) as (ls & mb1 & k1 & r1 & P & _).
      assert (L1 := member_length _ _ _ Em).
      destruct (state_balance gl b (o_d o) m (f m) mb G Em Sm L1 (fun ls El => O ls m El Hm) (S m Hm)) as (A1 & B1 & C1).
      assert (Y := OI ls m P Hm). unfold acting in Y.
      assert (Z0 : forall g dg, span_resultant (span_length b m) (loads_of ls m) g dg 0) by (intros g dg; apply acting_resultant; rewrite Y; exists []; split; [constructor|reflexivity]).
      assert (X1 := A1 ls 0 P (Z0 _ _)). assert (Y1 := B1 Tm ls 0 0 P (Z0 _ _)). rewrite L1. split; [split; lra|exact C1].
    - intros i Hi Hs. specialize (E i Hi). destruct (prescribed b i) eqn:EP; [exfalso; apply Hs; left; left; rewrite EP; discriminate|].
      destruct (Rlt_dec (restraint b i) 0) as [Q1|_]; [exfalso; apply Hs; left; right; exact Q1|]. rewrite E. unfold spring_force.
      destruct (Rlt_dec 0 (restraint b i)) as [Q1|_]; [exfalso; apply Hs; right; exact Q1|reflexivity]. }
  split.
  - intros m e Hm He p Hp. rewrite (state_forces_unique _ _ _ _ _ (forces_state _ _ _ _ _ He) (S m Hm)). exact (Z m p Hm Hp).
  - intros T i Hi. destruct (analyze_reactions _ _ _ _ _ _ _ H T) as (f1 & S1 & R1). rewrite R1 by exact Hi.
    transitivity (nodal_sum n (fun _ _ => 0) i); [apply sums_equal; [exact Hi|]|unfold nodal_sum; destruct (Nat.ltb i (2 * n)), (Nat.leb 2 i); ring].
    intros m p Hm Hp. rewrite (state_forces_unique _ _ _ _ _ (S1 m Hm) (S m Hm)). exact (Z m p Hm Hp).
Qed.

Lemma no_diagrams a sps npts check a' br i r : determinate (an_beam a) (an_n a) -> only_imposed (an_beam a) (an_n a) ->
  members (an_beam a) (an_n a) (fun mb => sound_member mb /\ mb_type mb <> 4%nat) -> an_n a = b_nspans (an_beam a) ->
  analyze gl ill a sps npts check = (a', Ok br) -> (0 < an_npts a')%nat -> nth_error (br_mem br) i = Some r ->
  Forall (fun v => v = 0) (r_V r) /\ Forall (fun v => v = 0) (r_M r).
Proof.
  intros D OI M En H Hnp Hr.
  assert (O : loads_on_members (an_beam a) (an_n a)).
  { intros ls m P Hm. assert (Y := OI ls m P Hm). unfold acting in Y. induction (loads_of ls m) as [|ld l IH]; [constructor|]. cbn [filter] in Y.
    destruct (imposed_curvature ld) eqn:E; cbn [negb] in Y; [|discriminate]. constructor; [destruct ld; try discriminate; exact I|exact (IH Y)]. }
  destruct (analyze_split _ _ _ _ _ _ _ _ H) as (o & Ho & Hv & _ & ED & _).
  destruct (no_forces a npts check a' o D OI M O Ho) as [F _].
  destruct (analyze_core_state _ _ _ _ _ _ _ Ho) as (EB & _ & _ & EP). rewrite EB in Hv.
  destruct (member_analysis_spec _ _ _ _ _ _ _ Hv) as (ls & Hls & Hlen & Hs).
  assert (Hi : (i < b_nspans (an_beam a))%nat) by (rewrite <- Hlen; apply nth_error_Some; rewrite Hr; discriminate).
  destruct (Hs i Hi) as (mb & f & r' & (Hm & Hn & Hf & Hres) & Hr'). rewrite <- En in Hi. destruct (M i mb Hi Hm) as [Sm Tm].
  assert (W : Forall (within_member (mb_L mb)) (loads_of ls i)).
  { assert (Y := OI ls i Hls Hi). unfold acting in Y. clear -Y. induction (loads_of ls i) as [|ld l IH]; [constructor|]. cbn [filter] in Y.
    destruct (imposed_curvature ld) eqn:E; cbn [negb] in Y; [|discriminate]. constructor; [destruct ld; try discriminate; exact (conj I I)|exact (IH Y)]. }
  rewrite <- ED in Hf. destruct (analyze_diagrams gl ill a sps npts check a' br i r mb ls f G H Hm Sm Hls W Hr Hf) as (V & MM & C & Q & V0).
  rewrite ED in Hf. assert (Z := F i f Hi Hf). rewrite (V0 Tm) in Q. rewrite !Z in Q by lia. destruct Q as [Q1 Q2 _].
  assert (A0 : forces (actions (mb_L mb) (loads_of ls i)) = [] /\ moments (actions (mb_L mb) (loads_of ls i)) = [] /\ forall x, intensity (actions (mb_L mb) (loads_of ls i)) x = 0).
  { assert (Y := OI ls i Hls Hi). unfold acting in Y. clear -Y. induction (loads_of ls i) as [|ld l IH]; [repeat split; reflexivity|]. cbn [filter] in Y.
    destruct (imposed_curvature ld) eqn:E; cbn [negb] in Y; [|discriminate]. destruct (IH Y) as (X1 & X2 & X3). destruct ld; try discriminate.
    change (actions (mb_L mb) (LIC kappa EI :: l)) with (action_plus no_action (actions (mb_L mb) l)). cbn [action_plus forces moments intensity no_action app].
    split; [exact X1|]. split; [exact X2|]. intros x. rewrite X3. ring. }
  destruct A0 as (AF & AM & AI). rewrite AF in *. rewrite AM in *. destruct C as [C1 C2 C3].
  assert (Un : forall (g : R -> R) x I, (forall t, g t = 0) -> is_RInt g 0 x I -> I = 0).
  { intros g x I Hg HI. rewrite <- (is_RInt_unique (V := R_CompleteNormedModule) _ _ _ _ HI). exact (is_RInt_unique (V := R_CompleteNormedModule) _ _ _ _ (RInt_zero g 0 x Hg)). }
  assert (Gr := analyze_grid gl ill a sps npts check a' br i r mb H Hnp Hm (Rlt_le _ _ (sm_L _ Sm)) (sm_kf _ Sm) Hr). destruct Gr as [g1 g2 g3 _ _ g6].
  assert (Nx : node_x (an_beam a) (i + 1) = node_x (an_beam a) i + mb_L mb) by (unfold node_x; rewrite Nat.add_1_r; cbn [rsum]; rewrite <- (member_length _ _ _ Hm); reflexivity).
  assert (At : forall k, (k < length (r_x r))%nat -> 0 <= nth k (r_x r) 0 - node_x (an_beam a) i <= mb_L mb).
  { intros k Hk. assert (X0 := increasing_nth _ 0 k g2 ltac:(lia)). assert (X1 := increasing_nth _ k (length (r_x r) - 1) g2 ltac:(lia)). rewrite g1 in X1 at 1. rewrite g3 in X0. rewrite g6 in X1. lra. }
  assert (Z1 : forall k, (k < length (r_x r))%nat -> nth k (r_V r) 0 = 0 /\ nth k (r_M r) 0 = 0).
  { intros k Hk. destruct (Nat.eq_dec k 0) as [->|N0]; [split; apply C3|]. destruct (Nat.eq_dec k (length (r_x r) - 1)) as [->|N1]; [split; apply C3|].
    destruct (C2 k ltac:(lia)) as [-> ->]. specialize (At k Hk). set (x := nth k (r_x r) 0 - node_x (an_beam a) i) in *. split.
    - destruct (Q1 x At ltac:(intros ? [])) as (I & HI & ->). rewrite (Un _ _ _ AI HI). unfold left_of. cbn. ring.
    - destruct (Q2 x At ltac:(intros ? [])) as (I & HI & ->). rewrite (Un _ _ _ (fun t => eq_trans (f_equal (Rmult (x - t)) (AI t)) (Rmult_0_r _)) HI). unfold left_of. cbn. ring. }
  destruct C1 as (LV & LM & _). split; apply Forall_forall; intros v Hv0; destruct (In_nth _ _ 0 Hv0) as (k & Hk & <-); apply Z1; lia.
Qed.
End Det.
