From Coq Require Import Lia ZArith.
From Verif Require Import Base BaseFacts Linalg LinalgFacts SectionModel LoadModel LoadSpec LMFacts FoundationModel ElementModel UtilsModel BeamModel BeamSpec AnalysisModel AnalysisSpec LinearFacts
  AnalysisFacts AnalysisFacts2 ResultsModel ResultsSpec ResultsFacts EnvelopeModel EnvelopeSpec PatternFacts VehicleModel BridgeModel BridgeSpec RefineSpec RefineFacts RefineFacts2.
Open Scope R_scope.

Section Link.
Variables (gl : nat -> list (R * R)) (ill : nat -> mat -> bool) (a : analysis).
Local Notation b := (an_beam a).
Local Notation n := (an_n a).
Local Notation N := (2 * (an_n a + 1))%nat.
Hypothesis BM : bridge_model a.
Variable rvd : nat -> R -> vec.
Hypothesis PM : forall m mb, (m < n)%nat -> member_at b m = Ok mb -> unit_forces gl mb (rvd m).

Definition okv {A} (d : A) (r : result A) : A := match r with Ok x => x | Err _ => d end.
Definition kbd (m : nat) : mat := okv (fun _ _ => 0) (do mb <- member_at b m; span_k gl mb).
Definition fx (i : nat) : bool := match bcv b i with Some _ => true | None => false end.
Definition Kd : mat := Kcl kbd b n.
Definition Ad : mat := fun i j => if fx i then unit_vec j i else Kd i j.
Definition Bd : mat := match inv N Ad with Some B => B | None => fun _ _ => 0 end.
Definition lend (j : nat) : R := nth j (b_lengths b) 0.
Definition rM := respM n kbd Bd fx lend rvd.
Definition rR := respR n Kd Bd fx rvd.

Section Static.
Variable static : list row.
Definition l0 : list (Z * load) := okv [] (parsed_loads (set_loads b static)).
Definition rS (m : nat) : vec := okv (fun _ => 0) (do mb <- member_at b m; span_ref gl mb (loads_of l0 m)).
Definition dS : vec := fun q => rsum N (fun i => Bd q i * (match bcv b i with Some v => v | None => fcl rS n i end)).
Definition SM (m : nat) (s : R) : R := bend (fun p => mulmv 4 (kbd m) (fun q => dS (2 * m + q)%nat) p + rS m p) (lend m) s + M_all (lend m) (loads_of l0 m) s.
Definition SR (i : nat) : R := mulmv N Kd dS i - fcl rS n i.

Lemma member_len m mb : member_at b m = Ok mb -> mb_L mb = lend m.
Proof using.
  unfold member_at, lend. intros H. apply rbind_ok in H as (e & _ & H). apply rbind_ok in H as (l & Hl & H). apply rbind_ok in H as (t & Ht & H). injection H as <-. cbn.
  rewrite (get_nth _ _ _ 0 Hl). reflexivity.
Qed.
Lemma lend_pos j : (j < n)%nat -> 0 < lend j.
Proof using BM.
  intros Hj. rewrite (bm_n _ BM) in Hj. pose proof (bm_deck _ BM) as D. rewrite (dk_n _ D) in Hj. apply (proj1 (Forall_forall _ _) (dk_pos _ D)), nth_In, Hj.
Qed.

Section Run.
Variables (rows : list row) (sps : nat -> list R) (r : bres).
Hypothesis Hrun : analysed_with gl ill a sps (static ++ rows) = Ok r.
Hypothesis HF : Forall (axrow n) rows.

(** The displacements and the forces, static part and axles. *)
Lemma run_split : exists o kb rf a', analyze_core gl ill (with_beam a (set_loads b (static ++ rows))) None true = (a', Ok o) /\
  solved gl (set_loads b (static ++ rows)) n kb rf o /\
  member_analysis gl (set_loads b (static ++ rows)) (o_d o) N (an_npts a) sps = Ok (br_mem r) /\ br_all r = mres_concat (br_mem r) /\ br_R r = o_R o.
Proof using Hrun.
  unfold analysed_with in Hrun. destruct (analyze _ _ _ _ _ _) as [a' x] eqn:E. cbn [snd] in Hrun. subst x.
  destruct (analyze_split _ _ _ _ _ _ _ _ E) as (o & Ho & Hv & HA & _ & HR & _).
  destruct (analyze_core_state _ _ _ _ _ _ _ Ho) as (EB & EN & EF & EP). rewrite EB, EF, EP in Hv.
  destruct (core_inv _ _ _ _ _ _ _ Ho) as ((kb & rf & S) & _). exists o, kb, rf, a'. auto.
Qed.
Lemma forces_split kb rf : system gl (set_loads b (static ++ rows)) n kb rf ->
  (forall m, (m < n)%nat -> kb m = kbd m) /\
  (exists ls, parsed_loads (set_loads b (static ++ rows)) = Ok ls /\ ls = l0 ++ map trip rows) /\
  forall m p, (m < n)%nat -> (p < 4)%nat -> rf m p = rS m p + rsm (fun j x => if Nat.eqb j m then rvd j x p else 0) rows.
Proof using HF BM PM.
  intros [SK (ls & Hls & SF)]. split; [|split].
  - intros m Hm. destruct (SK m Hm) as (mb & E1 & E2). change (member_at (set_loads b (static ++ rows)) m) with (member_at b m) in E1. unfold kbd. rewrite E1. cbn [rbind]. rewrite E2. reflexivity.
  - exists ls. split; [exact Hls|]. destruct (parsed_axles b n static rows ls HF Hls) as (l & Hl & ->). unfold l0. rewrite Hl. reflexivity.
  - intros m p Hm Hp. destruct (parsed_axles b n static rows ls HF Hls) as (l & Hl & ->). destruct (SF m Hm) as (mb & E1 & E2).
    change (member_at (set_loads b (static ++ rows)) m) with (member_at b m) in E1. rewrite loads_of_app in E2.
    destruct (span_ref_app_ok _ _ _ _ _ E2) as (v1 & v2 & H1 & H2 & E). rewrite E.
    assert (Hk : mb_kf mb = None) by (apply (bm_kf _ BM m mb); [rewrite <- (bm_n _ BM); exact Hm|exact E1]).
    rewrite (ref_axles gl n mb m rows (rvd m) v2 (PM m mb Hm E1) Hk HF H2 p Hp). f_equal.
    + unfold rS, l0. rewrite Hl. cbn [okv]. rewrite E1. cbn [rbind]. rewrite H1. reflexivity.
    + apply (rsm_ext n); [exact HF|]. intros j x _. destruct (Nat.eqb_spec j m) as [->|]; reflexivity.
Qed.
Lemma fcl_split rf i : (forall m p, (m < n)%nat -> (p < 4)%nat -> rf m p = rS m p + rsm (fun j x => if Nat.eqb j m then rvd j x p else 0) rows) ->
  fcl rf n i = fcl rS n i + rsm (fun j x => nodal rvd j x i) rows.
Proof using HF.
  intros H. unfold fcl, nodal. rewrite (rsm_opp n) by exact HF. rewrite <- Ropp_plus_distr. f_equal.
  rewrite (rsm_ext n _ (fun j x => rsum n (fun m => if Nat.eqb j m then scat (2 * m) (rvd m x) i else 0))); [|exact HF|].
  - rewrite (rsm_rsum n n (fun m j x => if Nat.eqb j m then scat (2 * m) (rvd m x) i else 0)) by exact HF. rewrite <- rsum_plus. apply rsum_ext. intros m Hm. unfold scat.
    destruct (Nat.leb_spec (2 * m) i), (Nat.ltb_spec i (2 * m + 4)); cbn [andb].
    4,3,2: rewrite (rsm_ext n _ (fun _ _ => 0)), (rsm_0 n) by (try exact HF; intros j x _; destruct (Nat.eqb j m); reflexivity); ring.
    rewrite H by lia. f_equal. apply (rsm_ext n); [exact HF|]. intros j x _. destruct (Nat.eqb_spec j m) as [->|]; reflexivity.
  - intros j x Hj. rewrite (rsum_single n j); [rewrite Nat.eqb_refl; reflexivity|exact Hj|]. intros m Hm Ne. destruct (Nat.eqb_spec j m); [congruence|reflexivity].
Qed.
Lemma Kd_ext kb i j : (forall m, (m < n)%nat -> kb m = kbd m) -> Kcl kb (set_loads b (static ++ rows)) n i j = Kd i j.
Proof using. intros H. unfold Kd, Kcl. f_equal. apply rsum_ext. intros m Hm. rewrite H by exact Hm. reflexivity. Qed.
Lemma disp_split kb rf o q : solved gl (set_loads b (static ++ rows)) n kb rf o -> (q < N)%nat ->
  o_d o q = dS q + rsm (fun j x => disp n Bd fx (nodal rvd j x) q) rows.
Proof using HF BM PM.
  intros S Hq. destruct (forces_split kb rf (sv_sys _ _ _ _ _ _ S)) as (HK & _ & Hf).
  assert (KE : forall i j, Kcl kb (set_loads b (static ++ rows)) n i j = Kd i j) by (intros; apply Kd_ext, HK).
  assert (MM : forall y i, mulmv N (Kcl kb (set_loads b (static ++ rows)) n) y i = mulmv N Kd y i) by (intros y i; unfold mulmv; apply rsum_ext; intros j _; rewrite KE; reflexivity).
  assert (MA : forall y i, (i < N)%nat -> mulmv N Ad y i = if fx i then y i else mulmv N Kd y i).
  { intros y i Hi. unfold Ad, mulmv. destruct (fx i); [|reflexivity]. apply (unit_sum N y i Hi). }
  assert (BI : exists B, inv N Ad = Some B).
  { unfold inv. destruct (proj2 (solve_some_iff N Ad (fun _ => 0))) as (x & ->); [|eauto]. intros y Hy. apply (sv_ker _ _ _ _ _ _ S). intros i Hi. specialize (Hy i Hi). rewrite MA in Hy by exact Hi.
    change (bcv (set_loads b (static ++ rows)) i) with (bcv b i). unfold fx in Hy. destruct (bcv b i); [exact Hy|]. rewrite MM. exact Hy. }
  destruct BI as (B & HB). assert (EB : Bd = B) by (unfold Bd; rewrite HB; reflexivity).
  assert (EQ : forall i, (i < N)%nat -> mulmv N Ad (o_d o) i = match bcv b i with Some v => v | None => fcl rf n i end).
  { intros i Hi. rewrite MA by exact Hi. pose proof (sv_eq _ _ _ _ _ _ S i Hi) as E. change (bcv (set_loads b (static ++ rows)) i) with (bcv b i) in E. unfold fx. destruct (bcv b i); [exact E|rewrite <- MM; exact E]. }
  rewrite (inv_unique N Ad B HB _ (o_d o) EQ q Hq).
  unfold mulmv, dS, disp. rewrite EB. rewrite (rsm_rsum n N (fun i j x => B q i * (if fx i then 0 else nodal rvd j x i))) by exact HF. rewrite <- rsum_plus. apply rsum_ext. intros i Hi.
  rewrite (rsm_scal n) by exact HF. rewrite <- Rmult_plus_distr_l. f_equal. unfold fx. destruct (bcv b i).
  - rewrite (rsm_0 n) by exact HF. ring.
  - apply fcl_split, Hf.
Qed.
Lemma run_reactions i : (i < N)%nat -> restraint b i < 0 -> reaction_of b i r = SR i + rsm (rR i) rows.
Proof using HF BM PM Hrun.
  intros Hi Hr. destruct run_split as (o & kb & rf & a' & _ & S & _ & _ & ER). destruct (forces_split kb rf (sv_sys _ _ _ _ _ _ S)) as (HK & _ & Hf).
  unfold reaction_of, R_at. rewrite ER, (sv_oR _ _ _ _ _ _ S).
  assert (E : forall (f : nat -> R) (P : nat -> bool) M, (i < M)%nat -> P i = true -> nth (rank P i) (map f (filter P (seq 0 M))) 0 = f i).
  { clear. intros f P M HM HP. unfold rank. replace M with (i + S (M - S i))%nat by lia. rewrite seq_app, filter_app, map_app. rewrite app_nth2 by (rewrite map_length; lia).
    rewrite map_length, Nat.sub_diag. cbn [seq filter Nat.add]. rewrite HP. reflexivity. }
  change (restraint (set_loads b (static ++ rows))) with (restraint b). rewrite E by (try exact Hi; apply Rltb_true; exact Hr).
  unfold SR, rR, respR. rewrite (rsm_ext n _ (fun j x => mulmv N Kd (disp n Bd fx (nodal rvd j x)) i + - nodal rvd j x i)) by (try exact HF; intros; ring).
  rewrite (rsm_plus n), (rsm_opp n) by exact HF. rewrite (fcl_split rf i Hf). unfold mulmv at 3. rewrite (rsm_rsum n N (fun q j x => Kd i q * disp n Bd fx (nodal rvd j x) q)) by exact HF.
  replace (mulmv N (Kcl kb (set_loads b (static ++ rows)) n) (o_d o) i) with (mulmv N Kd dS i + rsum N (fun q => rsm (fun j x => Kd i q * disp n Bd fx (nodal rvd j x) q) rows)); [ring|].
  unfold mulmv. rewrite <- rsum_plus. apply rsum_ext. intros q Hq. rewrite Kd_ext by exact HK. rewrite (disp_split kb rf o q S Hq). rewrite (rsm_scal n) by exact HF. ring.
Qed.
Lemma bend_plus f g L s : bend (fun p => f p + g p) L s = bend f L s + bend g L s.
Proof using. unfold bend, Rdiv. ring. Qed.
Lemma rsm_bend (f : nat -> R -> vec) L s : rsm (fun j x => bend (f j x) L s) rows = bend (fun p => rsm (fun j x => f j x p) rows) L s.
Proof using HF.
  unfold bend. rewrite (rsm_ext n _ (fun j x => (s / L - 1) * f j x 1%nat + s / L * f j x 3%nat)) by (try exact HF; intros; unfold Rdiv; ring).
  rewrite (rsm_plus n), !(rsm_scal n) by exact HF. unfold Rdiv. ring.
Qed.
Lemma run_moments m : (m < n)%nat -> exists mr, nth_error (br_mem r) m = Some mr /\ length (r_M mr) = length (stations (lend m) (an_npts a) (sps m)) /\
  forall k, (forall s, (0 < k < length (stations (lend m) (an_npts a) (sps m)) - 1)%nat -> s = nth k (stations (lend m) (an_npts a) (sps m)) 0 -> 0 <= s <= lend m /\ nth k (r_M mr) 0 = SM m s + rsm (rM m s) rows) /\
    ((k = 0 \/ length (stations (lend m) (an_npts a) (sps m)) - 1 <= k)%nat -> nth k (r_M mr) 0 = 0).
Proof using HF BM PM Hrun.
  intros Hm. destruct run_split as (o & kb & rf & a' & _ & S & Hv & _ & _). destruct (forces_split kb rf (sv_sys _ _ _ _ _ _ S)) as (HK & (ls & Hls & EL) & Hf).
  destruct (member_analysis_spec _ _ _ _ _ _ _ Hv) as (ls' & Hls' & Hlen & Hs). rewrite Hls in Hls'. injection Hls' as <-.
  destruct (Hs m) as (mb & f & r0 & (Hmb & _ & Hf0 & Hres) & Hr0); [cbn [set_loads with_LM b_nspans]; rewrite <- (bm_n _ BM); exact Hm|].
  change (member_at (set_loads b (static ++ rows)) m) with (member_at b m) in Hmb. assert (EL1 := member_len m mb Hmb).
  assert (Hk : mb_kf mb = None) by (apply (bm_kf _ BM m mb); [rewrite <- (bm_n _ BM); exact Hm|exact Hmb]). unfold member_results in Hres. rewrite Hk in Hres.
  exists (shift_x (node_x (set_loads b (static ++ rows)) m) r0). split; [exact Hr0|]. cbn [shift_x r_M].
  pose proof (member_values_table _ _ _ _ _ _ _ _ Hres) as T. rewrite EL1 in T. destruct T as [_ (_ & T2 & _) T3 (_ & T4 & _ & T5)]. split; [exact T2|].
  set (st := stations (lend m) (an_npts a) (sps m)) in *. intros k.
  split; [intros s0 [K0 K1] ->|intros K1].
  - pose proof (lend_pos m Hm) as HL. split.
    { unfold st in *. rewrite (stations_eq (lend m) (an_npts a) (sps m)) in K1 |- * by (lra || exact (bm_npts _ BM)).
      match goal with |- 0 <= nth k ?l 0 <= _ => assert (I : In (nth k l 0) l) by (apply nth_In; lia) end.
      destruct I as [<-|I]; [lra|]. apply in_app_or in I as [I|[<-|[]]]; [|lra]. apply (grid_in (lend m) (an_npts a) (sps m)); [lra|exact (bm_npts _ BM)|exact I]. }
    rewrite (proj2 (T3 k ltac:(lia))). set (s := nth k st 0). fold (bend f (lend m) s).
    rewrite EL, loads_of_app, M_all_app, (M_axles n) by exact HF.
    unfold member_forces in Hf0. rewrite Hls in Hf0. cbn [rbind] in Hf0. change (member_at (set_loads b (static ++ rows)) m) with (member_at b m) in Hf0. rewrite Hmb in Hf0. cbn [rbind] in Hf0.
    destruct (sy_k _ _ _ _ _ (sv_sys _ _ _ _ _ _ S) m Hm) as (mb1 & E1 & E2). change (member_at (set_loads b (static ++ rows)) m) with (member_at b m) in E1. rewrite Hmb in E1. injection E1 as <-.
    destruct (sy_r _ _ _ _ _ (sv_sys _ _ _ _ _ _ S)) as (ls1 & F1 & F2). rewrite Hls in F1. injection F1 as <-. destruct (F2 m Hm) as (mb2 & G1 & G2). change (member_at (set_loads b (static ++ rows)) m) with (member_at b m) in G1. rewrite Hmb in G1. injection G1 as <-.
    rewrite E2, G2 in Hf0. cbn [rbind] in Hf0. injection Hf0 as <-.
    unfold SM, rM, respM. rewrite (rsm_plus n) by exact HF. rewrite (rsm_bend (fun j x => endf n kbd Bd fx (nodal rvd j x) m)).
    rewrite (rsm_ext n (fun j x => if Nat.eqb j m then bend (rvd j x) (lend m) s + mv (lend m) x s else 0)
      (fun j x => bend (fun p => if Nat.eqb j m then rvd j x p else 0) (lend m) s + (if Nat.eqb j m then mv (lend m) x s else 0)))
      by (try exact HF; intros j x _; destruct (Nat.eqb j m); unfold bend, Rdiv; ring).
    rewrite (rsm_plus n), (rsm_bend (fun j x p => if Nat.eqb j m then rvd j x p else 0)) by exact HF.
    assert (EF : forall p, (p < 4)%nat -> mulmv 4 (kb m) (fun q => o_d o (2 * m + q)%nat) p + rf m p =
      (mulmv 4 (kbd m) (fun q => dS (2 * m + q)%nat) p + rS m p) + (rsm (fun j x => endf n kbd Bd fx (nodal rvd j x) m p) rows + rsm (fun j x => if Nat.eqb j m then rvd j x p else 0) rows)).
    { intros p Hp. rewrite Hf by assumption. rewrite HK by exact Hm. unfold endf, mulmv at 3. rewrite (rsm_rsum n 4 (fun q j x => kbd m p q * disp n Bd fx (nodal rvd j x) (2 * m + q)%nat)) by exact HF.
      assert (Q : mulmv 4 (kbd m) (fun q => o_d o (2 * m + q)%nat) p = mulmv 4 (kbd m) (fun q => dS (2 * m + q)%nat) p + rsum 4 (fun q => rsm (fun j x => kbd m p q * disp n Bd fx (nodal rvd j x) (2 * m + q)%nat) rows)).
      { unfold mulmv. rewrite <- rsum_plus. apply rsum_ext. intros q Hq. rewrite (disp_split kb rf o _ S) by lia. rewrite (rsm_scal n) by exact HF. ring. }
      rewrite Q. ring. }
    unfold bend. rewrite !EF by lia. unfold Rdiv. ring.
  - destruct K1 as [->|K1]; [exact T4|]. destruct (Nat.eq_dec k (length st - 1)) as [->|]; [exact T5|]. apply nth_overflow. rewrite T2. lia.
Qed.
End Run.
End Static.
End Link.
