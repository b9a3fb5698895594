From Coq Require Import Lia ZArith Sorted String.
From Verif Require Import Base BaseFacts Linalg SectionModel FlexModel LoadModel LoadSpec FoundationModel ElementModel ElementSpec UtilsModel BeamModel BeamSpec AnalysisModel AnalysisSpec
  BalanceFacts AnalysisFacts AnalysisFacts2 SuperFacts MechFacts AnalysisFacts3 HistoryFacts CtorFacts ResultsModel ResultsSpec ResultsFacts EnvelopeModel EnvelopeSpec EnvelopeFacts LoadCasesModel LoadCasesSpec LoadCasesFacts SegmentFacts
  ShapeFacts VehicleModel VehicleSpec VehicleFacts BridgeModel BridgeSpec BridgeFacts CritFacts BridgeFacts2 BridgeFacts3 BridgeFacts4 LMFacts CombFacts CombCases InfModel InfSpec InfFacts InfFacts2 InfFacts3.
Open Scope R_scope.
Local Notation length := List.length.
Local Open Scope list_scope.

Section IL.
Variables (gl : nat -> list (R * R)) (ill : nat -> mat -> bool).
Local Notation none := (fun _ : nat => @nil R).

Lemma init_valid L EI rs types s : il_init L EI rs types = Ok s -> (1 <= b_nspans (an_beam (il_a s)))%nat -> Forall (Rlt 0) (b_lengths (an_beam (il_a s))) ->
  il_valid s /\ il_res s = [] /\ il_pos s = [] /\ b_R (an_beam (il_a s)) = rs.
Proof. intros H N P. destruct (il_init_spec _ _ _ _ _ H N P) as (A & B & C & E & F & G). split; [constructor; assumption|auto]. Qed.
Lemma kin_model a0 a : kin gl ill a0 a -> bridge_model a0 -> bridge_model a.
Proof.
  intros [KB KN KP KO KC] [D N P K]. constructor; rewrite ?KN, ?KP; try assumption.
  - rewrite KB. destruct D. constructor; assumption.
  - rewrite KB. exact N.
  - intros i mb. rewrite KB. apply K.
Qed.
Lemma kin_same a0 a : kin gl ill a0 a -> forall sps lm, analysed_with gl ill a sps lm = analysed_with gl ill a0 sps lm.
Proof. intros K sps lm. exact (kin_result gl ill a0 a lm sps K). Qed.
Lemma kin_valid s s1 : kin gl ill (il_a s) (il_a s1) -> il_L s1 = il_L s -> il_valid s -> il_valid s1.
Proof.
  intros K E [A B C]. constructor; [exact (kin_model _ _ K A)| |].
  - rewrite (k_beam _ _ _ _ K). exact B.
  - rewrite E, C, (k_beam _ _ _ _ K). reflexivity.
Qed.
Lemma deck_positive b : deck b -> 0 < deck_length b.
Proof. intros D. assert (H := node_mono b D 0 (b_nspans b) ltac:(pose proof (dk_some _ D); lia) (le_n _)). exact H. Qed.
Lemma steps_spec b step : deck b -> 0 < step -> il_steps b step (il_positions (deck_length b) step).
Proof.
  intros D Hs. destruct (il_positions_some _ _ (deck_positive b D) Hs) as [N A]. set (xs := il_positions (deck_length b) step) in *.
  exists (length xs - 1)%nat. split; [|exact A]. unfold positions. replace (S (length xs - 1)) with (length xs) by (destruct xs; [congruence|cbn; lia]).
  unfold xs, il_positions. rewrite map_length, seq_length. apply map_ext. intros i. ring.
Qed.
Lemma step_pos s step : il_valid s -> (forall x, step = Some x -> 0 < x) -> 0 < given (il_L s / 100) step.
Proof.
  intros V H. destruct step as [x|]; cbn [given]; [apply H; reflexivity|]. rewrite (iv_length _ V). assert (P := deck_positive _ (bm_deck _ (iv_model _ V))). lra.
Qed.

(** Creating influence lines, then reading one. *)
Lemma created s step lv s1 : il_valid s -> (forall x, step = Some x -> 0 < x) -> create_ils gl ill s step lv = (s1, Ok tt) ->
  il_valid s1 /\ exists new, il_pos s1 = il_pos s ++ new /\ il_steps (an_beam (il_a s)) (step_of (an_beam (il_a s)) step) new /\ kin gl ill (il_a s) (il_a s1) /\
    Forall2 (unit_run gl ill (il_a s) lv) new (il_res s1) /\ new <> [].
Proof.
  intros V Hs H. assert (P := step_pos s step V Hs). destruct (create_spec gl ill s step _ lv s1 (iv_model _ V) (iv_length _ V) P eq_refl H) as (A & B & K & U).
  split; [exact (kin_valid s s1 K B V)|]. exists (il_positions (il_L s) (given (il_L s / 100) step)). split; [exact A|]. split; [|split; [exact K|split; [exact U|]]].
  - unfold step_of. rewrite (iv_length _ V) in *. apply steps_spec; [exact (bm_deck _ (iv_model _ V))|exact P].
  - apply il_positions_some; [|exact P]. rewrite (iv_length _ V). apply deck_positive. exact (bm_deck _ (iv_model _ V)).
Qed.
Lemma get_il_ok ints s poi eff s2 xs eta : il_res s <> [] -> get_il gl ill ints s poi eff = (s2, Ok (xs, eta)) -> s2 = s /\ xs = il_pos s /\
  (do ik <- station_index (an_beam (il_a s)) (il_res s) poi;
   match effect_of eff with
             | EffV => mapM (fun r => do m <- get (br_mem r) (fst ik); get (r_V m) (snd ik)) (il_res s)
             | EffM => mapM (fun r => do m <- get (br_mem r) (fst ik); get (r_M m) (snd ik)) (il_res s)
             | EffR => do k <- support_index ints (an_beam (il_a s)) poi 0; mapM (fun r => get (br_R r) k) (il_res s)
             | EffMR => do k <- support_index ints (an_beam (il_a s)) poi 1; mapM (fun r => get (br_R r) k) (il_res s)
             end) = Ok eta.
Proof.
  intros N H. unfold get_il in H. destruct (il_res s) as [|r0 rs] eqn:E; [congruence|]. cbn [rbind] in H. rewrite E in H. injection H as H1 H2. split; [symmetry; exact H1|].
  apply rbind_ok in H2 as (ik & Hik & H2). apply rbind_ok in H2 as (e & He & H2). apply ok_inj in H2. injection H2 as <- <-. split; [reflexivity|]. rewrite Hik. exact He.
Qed.
Lemma F2_nonempty {A B} (P : A -> B -> Prop) l m : Forall2 P l m -> l <> [] -> m <> [].
Proof. intros H N. destruct H; [congruence|discriminate]. Qed.
Lemma superposition s step lv s1 ints poi eff s2 xs eta : il_valid s -> (forall x, step = Some x -> 0 < x) -> lv <> 0 ->
  match effect_of eff with EffR | EffMR => plain_restraints (an_beam (il_a s)) | _ => True end ->
  create_ils gl ill s step lv = (s1, Ok tt) -> get_il gl ill ints s1 poi eff = (s2, Ok (xs, eta)) ->
  il_valid s1 /\ s2 = s1 /\ exists new, xs = il_pos s ++ new /\ il_steps (an_beam (il_a s)) (step_of (an_beam (il_a s)) step) new /\
    predicts gl ill (il_a s) lv poi (effect_of eff) new eta.
Proof.
  intros V Hs NZ PR HC HG. destruct (created s step lv s1 V Hs HC) as (V1 & new & EP & ST & K & U & NN). split; [exact V1|].
  destruct (get_il_ok _ _ _ _ _ _ _ (F2_nonempty _ _ _ U NN) HG) as (-> & -> & E). split; [reflexivity|]. exists new. split; [exact EP|]. split; [exact ST|].
  exact (ordinates gl ill (il_a s) (il_a s1) lv new (il_res s1) ints poi eff eta _ (iv_model _ V) (iv_free _ V) K NZ NN PR U eq_refl E).
Qed.
Lemma default_superposition s ints poi eff s2 xs eta : il_valid s -> il_res s = [] ->
  match effect_of eff with EffR | EffMR => plain_restraints (an_beam (il_a s)) | _ => True end ->
  get_il gl ill ints s poi eff = (s2, Ok (xs, eta)) ->
  il_valid s2 /\ exists new, xs = il_pos s ++ new /\ il_steps (an_beam (il_a s)) (deck_length (an_beam (il_a s)) / 100) new /\
    predicts gl ill (il_a s) 1 poi (effect_of eff) new eta.
Proof.
  intros V E0 PR H. unfold get_il in H. rewrite E0 in H. destruct (create_ils gl ill s None 1) as [s1 c] eqn:HC.
  destruct c as [[]|e]; [|discriminate]. cbn [rbind] in H. destruct (created s None 1 s1 V ltac:(discriminate) HC) as (V1 & new & EP & ST & K & U & NN).
  assert (G : get_il gl ill ints s1 poi eff = (s2, Ok (xs, eta))).
  { unfold get_il. destruct (il_res s1) eqn:ER; [exfalso; exact (F2_nonempty _ _ _ U NN eq_refl)|]. rewrite ER. cbn [rbind]. exact H. }
  destruct (superposition s None 1 s1 ints poi eff s2 xs eta V ltac:(discriminate) ltac:(lra) PR HC G) as (_ & -> & new' & A & B & C). split; [exact V1|]. exists new'. auto.
Qed.

(** ** When it succeeds *)
Lemma create_completes s step lv : il_valid s -> (forall x, step = Some x -> 0 < x) -> (forall i P x, exists r, analysed_with gl ill (il_a s) none [Row i 2 [P; x; 0]] = Ok r) ->
  exists s1, create_ils gl ill s step lv = (s1, Ok tt).
Proof.
  intros V Hs H. assert (P := step_pos s step V Hs). unfold create_ils. fold (given (il_L s / 100) step). destruct (Reqb_spec (given (il_L s / 100) step) 0) as [E|_]; [lra|]. cbv zeta.
  destruct (steps_pos _ P (Z.to_nat (py_round (il_L s / given (il_L s / 100) step) + 1)) 0) as [F _].
  destruct (loop_total gl ill (il_a s) (bm_deck _ (iv_model _ V)) _ (il_a s) lv (il_pos s) [] (kin_refl gl ill _) F H) as ([[a p] r] & ->). eexists. reflexivity.
Qed.
Lemma member_shape a lm r i : bridge_model a -> analysed_with gl ill a none lm = Ok r -> (i < b_nspans (an_beam a))%nat ->
  exists m, nth_error (br_mem r) i = Some m /\ length (r_V m) = length (r_x m) /\ length (r_M m) = length (r_x m) /\ (3 < length (r_x m))%nat.
Proof.
  intros BM E Hi. unfold analysed_with in E. set (a1 := with_beam a (set_loads (an_beam a) lm)) in E. destruct (analyze gl ill a1 none None true) as [a' x] eqn:EA. cbn [snd] in E. subst x.
  assert (SG : sound_grid (an_beam a1)) by exact (model_grid a BM).
  destruct (analyze_split _ _ _ _ _ _ _ _ EA) as (o & Ho & Hv & EL & _). destruct (analyze_core_state _ _ _ _ _ _ _ Ho) as (EB & _ & _ & EP).
  assert (P : (0 < an_npts a')%nat) by (rewrite EP; exact (bm_npts _ BM)).
  rewrite EB in Hv. destruct (member_analysis_spec _ _ _ _ _ _ _ Hv) as (ls & _ & Hlen & _). change (b_nspans (an_beam a1)) with (b_nspans (an_beam a)) in Hlen.
  assert (L0 : nth_error (br_mem r) i <> None) by (apply nth_error_Some; lia). destruct (nth_error (br_mem r) i) as [m0|] eqn:E0; [|congruence].
  destruct (mem_at gl ill a1 none None true a' r EA P SG i m0 E0) as (mb0 & _ & _ & _ & (V0 & M0 & C0) & G0). exists m0. split; [reflexivity|].
  destruct (mc_len _ _ _ _ C0) as (LV & LM & _). rewrite LV, LM, (sg_count _ _ _ _ G0). split; [reflexivity|]. split; [reflexivity|]. lia.
Qed.
Lemma reactions_len a lm r : bridge_model a -> analysed_with gl ill a none lm = Ok r ->
  length (br_R r) = length (filter (fun i => Rltb (restraint (an_beam a) i) 0) (seq 0 (2 * (b_nspans (an_beam a) + 1)))).
Proof.
  intros BM E. unfold analysed_with in E. set (a1 := with_beam a (set_loads (an_beam a) lm)) in E. destruct (analyze gl ill a1 none None true) as [a' x] eqn:EA. cbn [snd] in E. subst x.
  destruct (analyze_core gl ill a1 None true) as [a2 rr] eqn:Ho. destruct (analyze_outputs gl ill _ _ _ _ _ _ _ _ EA (eq_sym Ho)) as (o & -> & ->).
  assert (N := bm_n _ BM). destruct (core_inv gl ill _ _ _ _ _ Ho) as [(kb & rf & S) _]. rewrite (sv_oR _ _ _ _ _ _ S), map_length. change (an_n a1) with (an_n a). rewrite N. reflexivity.
Qed.
Lemma rank_lt (P : nat -> bool) i n : P i = true -> (i < n)%nat -> (rank P i < length (filter P (seq 0 n)))%nat.
Proof.
  intros Hi Hn. unfold rank. replace n with (i + (n - i))%nat by lia. rewrite seq_app, filter_app, app_length. cbn [Nat.add].
  replace (n - i)%nat with (S (n - i - 1)) by lia. cbn [seq filter]. rewrite Hi. cbn [length]. lia.
Qed.
Lemma support_found b poi off : deck b -> (off <= 1)%nat -> length (b_R b) = (2 * (b_nspans b + 1))%nat -> (exists n, (n <= b_nspans b)%nat /\ restraint b (2 * n + off) = -1) ->
  exists k, support_index true b poi off = Ok k.
Proof.
  intros D Ho LR (n0 & Hn0 & E0). unfold support_index. fold (side off (b_R b)). set (nodes := cumsum_from 0 (b_lengths b)). set (sups := where_eq (-1) (side off (b_R b))).
  assert (NN : forall m, (m <= b_nspans b)%nat -> nth_error nodes m = Some (node_at b m)).
  { intros m Hm. unfold nodes. rewrite cumsum_nth, <- (dk_n _ D). destruct (Nat.leb_spec m (b_nspans b)); [|lia]. unfold node_at. rewrite Rplus_0_l. reflexivity. }
  assert (SI : forall m, In m sups <-> (2 * m + off < length (b_R b))%nat /\ restraint b (2 * m + off) = -1).
  { intros m. unfold sups. rewrite where_eq_in, side_len, side_nth by exact Ho. reflexivity. }
  assert (ML : mapM (get nodes) sups = Ok (map (node_at b) sups)).
  { apply mapM_const. intros m Hm. apply SI in Hm. unfold get. rewrite NN by lia. reflexivity. }
  rewrite ML. cbn [rbind]. assert (SN : sups <> []) by (intros E; assert (I : In n0 sups) by (apply SI; split; [lia|exact E0]); rewrite E in I; destruct I).
  destruct (argmin_first (fun m => Rabs (node_at b m - poi)) 0%nat sups SN) as [AQ _].
  assert (G : exists k, (do c <- get (map (node_at b) sups) (argmin (map (fun x => Rabs (x - poi)) (map (node_at b) sups)));
     do n <- get (where_eq c nodes) 0; do k <- get (mask_from 0 (b_R b)) (2 * n + off); Ok k) = Ok k).
  { rewrite map_map. set (q := argmin _) in *. destruct (nth_error sups q) as [m|] eqn:Eq; [|apply nth_error_None in Eq; lia].
    assert (Hm : In m sups) by (eapply nth_error_In; exact Eq). apply SI in Hm as [Lm Rm]. unfold get at 1. rewrite nth_error_map, Eq. cbn [option_map rbind].
    destruct (where_eq (node_at b m) nodes) as [|n l] eqn:EW.
    - exfalso. assert (I : In m (where_eq (node_at b m) nodes)); [|rewrite EW in I; destruct I]. assert (E := NN m ltac:(lia)). apply where_eq_in. split; [apply nth_error_Some; congruence|apply nth_error_nth; exact E].
    - assert (I : In n (where_eq (node_at b m) nodes)) by (rewrite EW; left; reflexivity). cbn [get nth_error rbind].
      assert (Hn : (2 * n + off < length (mask_from 0 (b_R b)))%nat).
      { assert (ML' : forall rs k, length (mask_from k rs) = length rs) by (induction rs as [|r t IH]; intros k; cbn; [reflexivity|]; destruct (Reqb r (-1)); cbn; rewrite IH; reflexivity).
        rewrite ML', LR. apply where_eq_in in I as [I _]. assert (length nodes <= S (b_nspans b))%nat; [|lia]. apply nth_error_None. unfold nodes. rewrite cumsum_nth, <- (dk_n _ D).
        destruct (Nat.leb_spec (S (b_nspans b)) (b_nspans b)); [lia|reflexivity]. }
      unfold get. destruct (nth_error (mask_from 0 (b_R b)) (2 * n + off)) as [k|] eqn:EM; [|apply nth_error_None in EM; lia]. exists k. reflexivity. }
  destruct (map (node_at b) sups) as [|c l] eqn:EM; [destruct sups; [congruence|discriminate]|]. exact G.
Qed.
Lemma mapM_total {A B} (f : A -> result B) l : (forall x, In x l -> exists y, f x = Ok y) -> exists ys, mapM f l = Ok ys.
Proof.
  induction l as [|x l IH]; intros H; cbn [mapM]; [eexists; reflexivity|]. destruct (H x (or_introl eq_refl)) as (y & ->). destruct (IH (fun z Hz => H z (or_intror Hz))) as (ys & ->). eexists. reflexivity.
Qed.
Lemma read_completes s step lv s1 ints poi eff : il_valid s -> (forall x, step = Some x -> 0 < x) -> plain_restraints (an_beam (il_a s)) -> readable (an_beam (il_a s)) ints (effect_of eff) ->
  create_ils gl ill s step lv = (s1, Ok tt) -> exists xs eta, get_il gl ill ints s1 poi eff = (s1, Ok (xs, eta)).
Proof.
  intros V Hs PR RD HC. destruct (created s step lv s1 V Hs HC) as (V1 & new & EP & ST & K & U & NN). set (b := an_beam (il_a s)) in *.
  assert (NR := F2_nonempty _ _ _ U NN). assert (D := bm_deck _ (iv_model _ V)). fold b in D.
  assert (AR : forall r, In r (il_res s1) -> exists lm, analysed_with gl ill (il_a s) none lm = Ok r).
  { clear - U. induction U as [|p r l m [A _] U IH]; intros q Hq; [destruct Hq|]. destruct Hq as [<-|Hq]; [exact A|exact (IH q Hq)]. }
  assert (EB : an_beam (il_a s1) = set_loads b (b_LM (an_beam (il_a s1)))) by exact (k_beam _ _ _ _ K).
  unfold get_il. destruct (il_res s1) as [|r0 rs] eqn:ER; [congruence|]. cbn [rbind]. rewrite ER, EB.
  change (station_index (set_loads b (b_LM (an_beam (il_a s1)))) (r0 :: rs) poi) with (station_index b (r0 :: rs) poi).
  change (support_index ints (set_loads b (b_LM (an_beam (il_a s1)))) poi 0) with (support_index ints b poi 0). change (support_index ints (set_loads b (b_LM (an_beam (il_a s1)))) poi 1) with (support_index ints b poi 1).
  destruct (lookup_member b poi D) as (sp & Esp & MO). set (ii := if Z.eqb (fst sp) (-1) then _ else _) in *.
  assert (SH : forall r, In r (r0 :: rs) -> exists m, nth_error (br_mem r) ii = Some m /\ length (r_V m) = length (r_x m) /\ length (r_M m) = length (r_x m) /\ (3 < length (r_x m))%nat).
  { intros r Hr. destruct (AR r Hr) as (lm & Hlm). exact (member_shape (il_a s) lm r ii (iv_model _ V) Hlm (proj1 MO)). }
  assert (EN := bm_n _ (iv_model _ V)). assert (KF : members b (an_n (il_a s)) (fun mb => mb_kf mb = None)) by (intros i mb Hi Hm; apply (bm_kf _ (iv_model _ V) i mb); [rewrite <- EN; exact Hi|exact Hm]).
  destruct (SH r0 (or_introl eq_refl)) as (m0 & Hm0 & LV0 & LM0 & L0).
  assert (SX : exists k, station_index b (r0 :: rs) poi = Ok (ii, k) /\ (k + 1 < length (r_x m0))%nat).
  { unfold station_index. rewrite Esp. cbn [rbind get nth_error]. fold ii. unfold get. rewrite Hm0. cbn [rbind].
    assert (SNt := station_nearest (r_x m0) poi). assert (LI := inner_len (r_x m0)). destruct (List.tl (removelast (r_x m0))) as [|y inner]; [cbn in LI; lia|].
    eexists. split; [reflexivity|]. destruct (SNt ltac:(discriminate)) as [[_ Q] _]. exact Q. }
  destruct SX as (k & -> & Hk). cbn [rbind fst snd].
  assert (MX : forall r, In r (r0 :: rs) -> exists m, nth_error (br_mem r) ii = Some m /\ (k < length (r_V m))%nat /\ (k < length (r_M m))%nat).
  { intros r Hr. destruct (AR r Hr) as (lm & Hlm), (AR r0 (or_introl eq_refl)) as (lm0 & Hlm0).
    destruct (SH r Hr) as (m & Hm & LV & LM & _). assert (S := all_shape gl ill (il_a s) EN KF (iv_free _ V) _ _ _ _ Hlm0 Hlm). destruct (sh_mem _ _ S ii m0 m Hm0 Hm) as (X & _ & _).
    exists m. split; [exact Hm|]. rewrite LV, LM, X. lia. }
  assert (DV : forall f : mres -> list R, (f = r_V \/ f = r_M) -> exists eta, mapM (fun r => do m <- get (br_mem r) ii; get (f m) k) (r0 :: rs) = Ok eta).
  { intros f Hf. apply mapM_total. intros r Hr. destruct (MX r Hr) as (m & Hm & A1 & A2). unfold get at 1. rewrite Hm. cbn [rbind].
    assert (Lf : (k < length (f m))%nat) by (destruct Hf as [->| ->]; assumption). unfold get. destruct (nth_error (f m) k) eqn:E; [eauto|apply nth_error_None in E; lia]. }
  assert (RV : forall off, (off <= 1)%nat -> ints = true -> length (b_R b) = (2 * (b_nspans b + 1))%nat -> (exists n, (n <= b_nspans b)%nat /\ restraint b (2 * n + off) = -1) ->
    exists eta, (do q <- support_index ints b poi off; mapM (fun r => get (br_R r) q) (r0 :: rs)) = Ok eta).
  { intros off Hoff -> LR EX. destruct (support_found b poi off D Hoff LR EX) as (q & Eq). assert (E := Eq). rewrite Eq. cbn [rbind]. destruct (support_spec' _ _ _ _ _ D Hoff PR E) as (_ & n & [[Hn Rn] _] & ->).
    apply mapM_total. intros r Hr. destruct (AR r Hr) as (lm & Hlm). assert (LRr := reactions_len (il_a s) lm r (iv_model _ V) Hlm). fold b in LRr.
    assert (Q : (rank (fun j => Rltb (restraint b j) 0) (2 * n + off) < length (br_R r))%nat).
    { rewrite LRr. apply rank_lt; [|lia]. rewrite Rn. destruct (Rltb_spec (-1) 0); [reflexivity|lra]. }
    unfold get. destruct (nth_error (br_R r) _) eqn:EE; [eauto|apply nth_error_None in EE; lia]. }
  exists (il_pos s1). destruct (effect_of eff); cbn [readable] in RD.
  - destruct (DV r_V (or_introl eq_refl)) as (eta & ->). exists eta. reflexivity.
  - destruct RD as (A & B & n & C & E). destruct (RV 0%nat ltac:(lia) A B) as (eta & ->); [exists n; rewrite Nat.add_0_r; auto|]. exists eta. reflexivity.
  - destruct RD as (A & B & C). destruct (RV 1%nat ltac:(lia) A B C) as (eta & ->). exists eta. reflexivity.
  - destruct (DV r_M (or_intror eq_refl)) as (eta & ->). exists eta. reflexivity.
Qed.

Lemma effect_unique b r p eff v v' : deck b -> effect_value b r p eff v -> effect_value b r p eff v' -> v = v'.
Proof.
  intros D.
  assert (DG : forall f, diagram_value b f r p v -> diagram_value b f r p v' -> v = v').
  { intros f (i & m & k & A & B & C & E) (i' & m' & k' & A' & B' & C' & E'). assert (i = i') by exact (member_of_unique b p i i' D A A'). subst i'. rewrite B in B'. injection B' as <-.
    assert (k = k') by exact (nearest_unique _ _ _ _ _ C C'). subst k'. congruence. }
  assert (RG : forall off, reaction_value b off r p v -> reaction_value b off r p v' -> v = v').
  { intros off (n & A & B) (n' & A' & B'). assert (n = n') by exact (nearest_unique _ _ _ _ _ A A'). subst n'. congruence. }
  destruct eff; cbn [effect_value]; [apply DG|apply RG|apply RG|apply DG].
Qed.
End IL.
