(** Facts about [pattern_run]. *)
From Coq Require Import Lia String.
From Verif Require Import RenderModel.
From Verif Require Import Base BaseFacts Linalg SectionModel LoadModel LoadSpec LMFacts FoundationModel ElementModel UtilsModel UtilsSpec BeamModel BeamSpec CtorFacts AnalysisModel AnalysisSpec ElementSpec
  AnalysisFacts AnalysisFacts2 AnalysisFacts3 MechFacts HistoryFacts ResultsModel ResultsSpec ResultsFacts EnvelopeModel EnvelopeSpec LoadCasesModel LoadCasesSpec CaseExample ConstSectFacts ReleaseFacts BedFacts5 SessionModel SessionSpec SessionFacts TemplateFacts
  PatternModel PatternSpec PatternFacts PatRunModel PatRunSpec.
Open Scope R_scope.
Local Notation length := List.length.
Local Open Scope list_scope.

Section G.
Variable gl : nat -> list (R * R).
Variable ill : nat -> mat -> bool.

Definition chosen (npts : option nat) (o : pobj) : nat := match npts with Some n => n | None => an_npts (po_an o) end.
Definition left_by (o : pobj) (npts : option nat) (lm : list row) (br : bres) : pobj :=
  {| po_an := with_npts (with_beam (po_an o) (set_loads (an_beam (po_an o)) lm)) (effective (Some (chosen npts o)) 100); po_res := Some br |}.

Lemma build_npts b lm m : build_model b lm = Ok m -> an_npts m = 100%nat.
Proof. unfold build_model, analysis_init. intros H. apply rbind_ok in H as (x & _ & H). injection H as <-. reflexivity. Qed.
Lemma run_case_spec o npts lm t : t_beam t = an_beam (po_an o) ->
  run_case gl ill o npts lm = match analyse_loads gl ill t lm (Some (chosen npts o)) with Ok br => (left_by o npts lm br, Ok br) | Err e => (o, Err e) end.
Proof.
  intros T. unfold run_case, analyse_loads. rewrite T. destruct (build_model _ lm) as [m|e] eqn:B; [|reflexivity]. cbn [rbind]. fold (chosen npts o).
  destruct (core_fst gl ill m (Some (chosen npts o)) true) as (_ & _ & NP). rewrite (build_npts _ _ _ B) in NP.
  assert (F : an_npts (fst (analyze gl ill m (fun _ => []) (Some (chosen npts o)) true)) = effective (Some (chosen npts o)) 100).
  { unfold analyze. destruct (analyze_core gl ill m (Some (chosen npts o)) true) as [m' [x|x]]; exact NP. }
  destruct (analyze gl ill m (fun _ => []) (Some (chosen npts o)) true) as [m' [br|e]]; cbn [fst snd] in *; [|reflexivity]. rewrite F. reflexivity.
Qed.

(** The number of stations only matters through its effective value. *)
Lemma stations_only t lm x y : effective x 100 = effective y 100 -> analyse_loads gl ill t lm x = analyse_loads gl ill t lm y.
Proof.
  intros E. unfold analyse_loads. destruct (build_model _ lm) as [m|] eqn:B; [|reflexivity]. cbn [rbind]. rewrite !analyze_snd, (build_npts _ _ _ B), E, (core_npts gl ill m x), (core_npts gl ill m y). reflexivity.
Qed.
Lemma template_loads b b' tn tn' lm n lm' : b' = set_loads b lm' -> analyse_loads gl ill {| t_beam := b'; t_npts := tn' |} lm n = analyse_loads gl ill {| t_beam := b; t_npts := tn |} lm n.
Proof. intros ->. reflexivity. Qed.
Lemma effective_idem x : effective (Some (effective x 100)) 100 = effective x 100.
Proof. assert (L := effective_gt x 100 ltac:(lia)). generalize dependent (effective x 100). intros m L. unfold effective. destruct (Nat.ltb_spec 3 m); [reflexivity|lia]. Qed.
Lemma chosen_left o npts lm br : effective (Some (chosen npts (left_by o npts lm br))) 100 = effective (Some (chosen npts o)) 100.
Proof. destruct npts as [n|]; [reflexivity|]. cbn [chosen left_by po_an with_npts an_npts]. apply effective_idem. Qed.

Lemma left_again o npts lm br lm' br' : left_by (left_by o npts lm br) npts lm' br' = left_by o npts lm' br'.
Proof. unfold left_by at 1. rewrite chosen_left. reflexivity. Qed.

Definition tmpl (o : pobj) : template := {| t_beam := an_beam (po_an o); t_npts := Some (an_npts (po_an o)) |}.


(** The object after the arrangements [done]. *)
Definition held (o : pobj) (npts : option nat) (done : list (list row)) (vr : list bres) (o' : pobj) : Prop :=
  (done = [] /\ vr = [] /\ o' = o) \/ exists d0 lm v0 br, done = d0 ++ [lm] /\ vr = v0 ++ [br] /\ o' = left_by o npts lm br.

Lemma run_cases_spec npts cs : forall o o' r, run_cases gl ill o npts cs = (o', r) ->
  exists done rest vr, cs = done ++ rest /\ Forall2 (fun lm br => analyse_loads gl ill (tmpl o) lm (Some (chosen npts o)) = Ok br) done vr /\ held o npts done vr o' /\
    match rest with
    | [] => r = Ok vr
    | lm :: _ => exists e, analyse_loads gl ill (tmpl o) lm (Some (chosen npts o)) = Err e /\ r = Err e
    end.
Proof.
  induction cs as [|lm cs IH]; intros o o' r H; cbn [run_cases] in H.
  - injection H as <- <-. exists [], [], []. split; [reflexivity|]. split; [constructor|]. split; [left; repeat split|reflexivity].
  - rewrite (run_case_spec o npts lm (tmpl o) eq_refl) in H. destruct (analyse_loads gl ill (tmpl o) lm (Some (chosen npts o))) as [br|e] eqn:A.
    2: { injection H as <- <-. exists [], (lm :: cs), []. split; [reflexivity|]. split; [constructor|]. split; [left; repeat split|]. exists e. split; [exact A|reflexivity]. }
    destruct (run_cases gl ill (left_by o npts lm br) npts cs) as [o2 r2] eqn:Q. injection H as <- <-.
    destruct (IH _ _ _ Q) as (done & rest & vr & -> & F & HL & RS).
    assert (SAME : forall l, analyse_loads gl ill (tmpl (left_by o npts lm br)) l (Some (chosen npts (left_by o npts lm br))) = analyse_loads gl ill (tmpl o) l (Some (chosen npts o))).
    { intros l. rewrite (stations_only _ l _ _ (chosen_left o npts lm br)). apply (template_loads _ _ _ _ _ _ lm). reflexivity. }
    exists (lm :: done), rest, (br :: vr). split; [reflexivity|]. split; [constructor; [exact A|]; clear -F SAME; induction F; constructor; [rewrite <- SAME; assumption|assumption]|]. split.
    + right. destruct HL as [(-> & -> & ->)|(d0 & l1 & v0 & b1 & -> & -> & ->)].
      * exists [], lm, [], br. repeat split.
      * exists (lm :: d0), l1, (br :: v0), b1. split; [reflexivity|]. split; [reflexivity|]. apply left_again.
    + destruct rest as [|l rest]; [rewrite RS; reflexivity|]. destruct RS as (e & E1 & ->). exists e. split; [rewrite <- SAME; exact E1|reflexivity].
Qed.

(** *** The envelope *)
Lemma mapM_run (f : list row -> result bres) cs : forall done rest vr, cs = done ++ rest -> Forall2 (fun lm br => f lm = Ok br) done vr ->
  mapM f cs = match rest with [] => Ok vr | lm :: _ => match f lm with Err e => Err e | Ok _ => mapM f cs end end.
Proof.
  intros done rest vr -> F. destruct rest as [|l rest].
  - rewrite app_nil_r. induction F as [|x y l1 l2 E F IH]; [reflexivity|]. cbn [mapM]. rewrite E, IH. reflexivity.
  - destruct (f l) as [b|e] eqn:A; [reflexivity|]. induction F as [|x y l1 l2 E F IH]; cbn [app mapM]; [rewrite A; reflexivity|]. rewrite E, IH. reflexivity.
Qed.
Lemma mapM_map {A B C} (f : B -> result C) (h : A -> B) l : mapM f (map h l) = mapM (fun a => f (h a)) l.
Proof. induction l as [|a l IH]; [reflexivity|]. cbn [map mapM]. rewrite IH. reflexivity. Qed.
Lemma run_value p o npts : snd (pattern_run gl ill p o npts) = pattern_analyze gl ill p (tmpl o) npts.
Proof.
  unfold pattern_run, pattern_analyze. cbn [tmpl t_beam t_npts]. destruct (to_load_cases p _) as [cs|e]; [|reflexivity]. cbn [rbind].
  destruct (run_cases gl ill o npts _) as [o' r] eqn:Q. cbn [snd].
  destruct (run_cases_spec _ _ _ _ _ Q) as (done & rest & vr & EC & F & _ & RS).
  assert (EN : (match npts with Some n => Some n | None => Some (an_npts (po_an o)) end) = Some (chosen npts o)) by (destruct npts; reflexivity). rewrite EN.
  enough (E : mapM (fun c : lcase * list nat => analyse_loads gl ill (tmpl o) (lc_loads (fst c)) (Some (chosen npts o))) cs = r) by (change {| t_beam := an_beam (po_an o); t_npts := Some (an_npts (po_an o)) |} with (tmpl o); rewrite E; reflexivity).
  rewrite <- (mapM_map (fun lm => analyse_loads gl ill (tmpl o) lm (Some (chosen npts o))) (fun c : lcase * list nat => lc_loads (fst c)) cs).
  rewrite (mapM_run _ _ _ _ _ EC F). destruct rest; [symmetry; exact RS|]. destruct RS as (e & E & ->). rewrite E. reflexivity.
Qed.

(** *** What is left *)
Lemma run_left p o npts o' e g q : pattern_run gl ill p o npts = (o', Ok e) -> lp_dead p = Some g -> lp_live p = Some q -> Forall wf_row g -> Forall wf_row q ->
  an_beam (po_an o') = set_loads (an_beam (po_an o)) (b_LM (an_beam (po_an o'))) /\ an_npts (po_an o') = effective (Some (chosen npts o)) 100 /\
    exists pg pq ps br vs, parse_LM g = Ok pg /\ parse_LM q = Ok pq /\ parse_LM (b_LM (an_beam (po_an o'))) = Ok ps /\
    (forall i, (i < b_nspans (an_beam (po_an o)))%nat -> loads_of ps i = map (scale_load (lp_gmax p)) (loads_of pg i) ++ map (scale_load (lp_qmax p)) (loads_of pq i)) /\
    po_res o' = Some br /\ env_init (vs ++ [br]) = Ok e /\ analyse_loads gl ill (tmpl o) (b_LM (an_beam (po_an o'))) (Some (chosen npts o)) = Ok br.
Proof.
  intros H Dg Dq Hg Hq. unfold pattern_run in H. set (N := b_nspans (an_beam (po_an o))) in *.
  destruct (patterns_spec p N g q Dg Dq Hg Hq) as (cs & pg & pq & HC & _ & PG & PQ & F2). rewrite HC in H.
  destruct (run_cases gl ill o npts _) as [o1 r] eqn:Q. injection H as -> H. apply rbind_ok in H as (vr & -> & EV).
  destruct (run_cases_spec _ _ _ _ _ Q) as (done & rest & vr' & EC & F & HL & RS). destruct rest as [|l rest]; [|destruct RS as (x & _ & X); discriminate]. injection RS as <-. rewrite app_nil_r in EC. subst done.
  assert (SP : exists cs0 c, cs = cs0 ++ [c] /\ exists ps, parse_LM (lc_loads (fst c)) = Ok ps /\ forall i, (i < N)%nat -> carries (lp_gmax p) (lp_gmin p) (lp_qmax p) (lp_qmin p) (fun _ => True) (S i) (loads_of pg i) (loads_of pq i) (loads_of ps i)).
  { unfold arrangements in F2. apply Forall2_app_inv_r in F2 as (c1 & c2 & _ & F2 & ->). inversion F2 as [|x1 ? l1 ? _ F3]; subst. inversion F3 as [|x2 ? l2 ? _ F4]; subst. inversion F4 as [|x3 ? l3 ? K F5]; subst. inversion F5; subst.
    exists (c1 ++ [x1; x2]), x3. split; [rewrite <- app_assoc; reflexivity|]. exact (proj2 (proj2 K)). }
  destruct SP as (cs0 & c & -> & ps & PS & CA). rewrite map_app in *. cbn [map] in *.
  destruct HL as [(X & _)|(d0 & lm & v0 & br & E1 & -> & ->)]; [destruct (map _ cs0); discriminate|]. apply app_inj_tail in E1 as [_ <-].
  cbn [left_by po_an with_npts with_beam an_beam an_npts set_loads with_LM b_LM]. split; [reflexivity|]. split; [reflexivity|].
  exists pg, pq, ps, br, v0. split; [exact PG|]. split; [exact PQ|]. split; [exact PS|]. split; [intros i Hi; exact (proj1 (CA i Hi) I)|]. split; [reflexivity|]. split; [exact EV|].
  apply Forall2_app_inv_l in F as (w1 & w2 & _ & F & E). inversion F as [|? y ? l' K F']; subst. inversion F'; subst. apply app_inj_tail in E as [_ <-]. exact K.
Qed.

(** *** Consistency *)
Definition sound (o : pobj) : Prop := healthy gl ill (po_an o) /\ complete (po_an o) /\ Forall (eq None) (b_kf (an_beam (po_an o))).
Lemma healthy_npts a n : (3 < n)%nat -> healthy gl ill a -> healthy gl ill (with_npts a n).
Proof. intros L [[[] F2 F3] B C]. constructor; [constructor; cbn; [constructor; assumption|exact F2|exact F3]|exact B|exact L]. Qed.
Lemma sound_left o npts lm br : sound o -> sound (left_by o npts lm br).
Proof.
  intros (H & C & K). split; [|split; [exact C|exact K]]. apply healthy_npts; [apply effective_gt; lia|]. apply healthy_LM. exact H.
Qed.
Lemma analyze_npts_field a n : (3 < n)%nat -> snd (analyze gl ill a (fun _ => []) (Some n) true) = snd (analyze gl ill (with_npts a n) (fun _ => []) None true).
Proof.
  intros L. rewrite !analyze_snd, (core_npts gl ill a (Some n)). assert (E : effective (Some n) (an_npts a) = n) by (unfold effective; destruct (Nat.ltb_spec 3 n); [reflexivity|lia]). rewrite E.
  cbn [effective with_npts an_npts an_beam]. change (an_ndof (with_npts a n)) with (an_ndof a).
  replace (snd (analyze_core gl ill (with_npts a n) None true)) with (snd (analyze_core gl ill a None true)); [reflexivity|].
  rewrite <- (core_npts gl ill a (Some n)). unfold analyze_core. destruct (Nat.ltb_spec 3 n); [reflexivity|lia].
Qed.
Lemma consistent_left o npts lm br : sound o -> analyse_loads gl ill (tmpl o) lm (Some (chosen npts o)) = Ok br -> consistent gl ill (left_by o npts lm br).
Proof.
  intros (H & C & K) A. unfold consistent. cbn [left_by po_res po_an]. unfold tmpl in A. rewrite (template_analysis gl ill (po_an o) _ lm _ H C K) in A. rewrite <- A. symmetry. apply analyze_npts_field. apply effective_gt. lia.
Qed.
Lemma run_consistent p o npts : sound o -> consistent gl ill o -> sound (fst (pattern_run gl ill p o npts)) /\ consistent gl ill (fst (pattern_run gl ill p o npts)).
Proof.
  intros SO CO. unfold pattern_run. destruct (to_load_cases p _) as [cs|e]; [|split; assumption].
  destruct (run_cases gl ill o npts _) as [o' r] eqn:Q. cbn [fst]. destruct (run_cases_spec _ _ _ _ _ Q) as (done & rest & vr & _ & F & HL & _).
  destruct HL as [(_ & _ & ->)|(d0 & lm & v0 & br & -> & -> & ->)]; [split; assumption|]. split; [apply sound_left, SO|]. apply consistent_left; [exact SO|].
  apply Forall2_app_inv_l in F as (w1 & w2 & _ & F & E). inversion F as [|? y ? l' K F']; subst. inversion F'; subst. apply app_inj_tail in E as [_ <-]. exact K.
Qed.
Lemma calls_consistent ks : forall s, sound (snd s) -> consistent gl ill (snd s) -> sound (snd (pcalls gl ill s ks)) /\ consistent gl ill (snd (pcalls gl ill s ks)).
Proof.
  induction ks as [|k ks IH]; intros s SO CO; [split; assumption|]. unfold pcalls. cbn [fold_left]. fold (pcalls gl ill (pstep gl ill s k) ks). destruct k as [lm x n|lm x n|npts]; try (apply IH; assumption).
  destruct (run_consistent (fst s) (snd s) npts SO CO). apply IH; assumption.
Qed.

(** *** Failure *)
Lemma run_failed p o npts o' e : pattern_run gl ill p o npts = (o', Err e) ->
  o' = o \/ exists cs c br, to_load_cases p (b_nspans (an_beam (po_an o))) = Ok cs /\ In c cs /\
    an_beam (po_an o') = set_loads (an_beam (po_an o)) (lc_loads (fst c)) /\ po_res o' = Some br /\ analyse_loads gl ill (tmpl o) (lc_loads (fst c)) (Some (chosen npts o)) = Ok br.
Proof.
  unfold pattern_run. destruct (to_load_cases p _) as [cs|x] eqn:EC; [|intros H; injection H as <- _; left; reflexivity].
  destruct (run_cases gl ill o npts _) as [o1 r] eqn:Q. intros H. injection H as -> _. destruct (run_cases_spec _ _ _ _ _ Q) as (done & rest & vr & E & F & HL & _).
  destruct HL as [(_ & _ & ->)|(d0 & lm & v0 & br & -> & -> & ->)]; [left; reflexivity|]. right.
  assert (I : In lm (map (fun c => lc_loads (fst c)) cs)) by (rewrite E; apply in_or_app; left; apply in_or_app; right; left; reflexivity).
  apply in_map_iff in I as (c & <- & I). exists cs, c, br. split; [reflexivity|]. split; [exact I|]. split; [reflexivity|]. split; [reflexivity|].
  apply Forall2_app_inv_l in F as (w1 & w2 & _ & F & E'). inversion F as [|? y ? l' K F']; subst. inversion F'; subst. apply app_inj_tail in E' as [_ <-]. exact K.
Qed.

(** *** Again, and histories *)
Lemma value_only p o o' npts npts' lm : an_beam (po_an o') = set_loads (an_beam (po_an o)) lm -> effective (Some (chosen npts' o')) 100 = effective (Some (chosen npts o)) 100 ->
  pattern_analyze gl ill p (tmpl o') npts' = pattern_analyze gl ill p (tmpl o) npts.
Proof.
  intros B E. unfold pattern_analyze. cbn [tmpl t_beam t_npts]. rewrite B. cbn [set_loads with_LM b_nspans]. destruct (to_load_cases p _) as [cs|]; [|reflexivity]. cbn [rbind].
  assert (EN : forall npts o, (match npts with Some n => Some n | None => Some (an_npts (po_an o)) end) = Some (chosen npts o)) by (intros [n|] x; reflexivity). rewrite !EN.
  replace (mapM (fun c => analyse_loads gl ill _ (lc_loads (fst c)) (Some (chosen npts' o'))) cs) with (mapM (fun c => analyse_loads gl ill (tmpl o) (lc_loads (fst c)) (Some (chosen npts o))) cs); [reflexivity|].
  induction cs as [|c cs IH]; [reflexivity|]. cbn [mapM]. rewrite IH. rewrite (stations_only _ _ _ _ E). unfold tmpl. rewrite (template_loads _ _ (Some (an_npts (po_an o))) _ _ _ _ B). reflexivity.
Qed.
Lemma run_same_beam p o npts : exists lm, an_beam (po_an (fst (pattern_run gl ill p o npts))) = set_loads (an_beam (po_an o)) lm /\
    effective (Some (chosen npts (fst (pattern_run gl ill p o npts)))) 100 = effective (Some (chosen npts o)) 100.
Proof.
  assert (T : an_beam (po_an o) = set_loads (an_beam (po_an o)) (b_LM (an_beam (po_an o)))) by (destruct (an_beam (po_an o)); reflexivity).
  unfold pattern_run. destruct (to_load_cases p _) as [cs|]; [|exists (b_LM (an_beam (po_an o))); split; [exact T|reflexivity]].
  destruct (run_cases gl ill o npts _) as [o' r] eqn:Q. cbn [fst]. destruct (run_cases_spec _ _ _ _ _ Q) as (done & rest & vr & _ & _ & HL & _).
  destruct HL as [(_ & _ & ->)|(d0 & lm & v0 & br & _ & _ & ->)]; [exists (b_LM (an_beam (po_an o))); split; [exact T|reflexivity]|]. exists lm. split; [reflexivity|apply chosen_left].
Qed.
Lemma run_again p p' o npts : snd (pattern_run gl ill p' (fst (pattern_run gl ill p o npts)) npts) = snd (pattern_run gl ill p' o npts).
Proof. destruct (run_same_beam p o npts) as (lm & B & E). rewrite !run_value. exact (value_only p' o _ npts npts lm B E). Qed.

Lemma last_sets ks : forall s, let p := fst (pcalls gl ill s ks) in
  (lp_dead p, lp_gmax p, lp_gmin p) = last_dead ks (fst s) /\ (lp_live p, lp_qmax p, lp_qmin p) = last_live ks (fst s).
Proof.
  induction ks as [|k ks IH]; intros s; [split; reflexivity|]. unfold pcalls. cbn [fold_left]. fold (pcalls gl ill (pstep gl ill s k) ks). destruct (IH (pstep gl ill s k)) as [A B].
  split; [rewrite A|rewrite B]; unfold last_dead, last_live; cbn [fold_left]; destruct k; reflexivity.
Qed.
End G.

Lemma asked_chosen npts o : asked npts o = Some (chosen npts o).
Proof. destruct npts; reflexivity. Qed.
Lemma c_left gl ill p o npts o' e g q : pattern_run gl ill p o npts = (o', Ok e) -> lp_dead p = Some g -> lp_live p = Some q -> Forall wf_row g -> Forall wf_row q ->
  exists lm pg pq ps br vs, an_beam (po_an o') = set_loads (an_beam (po_an o)) lm /\ an_npts (po_an o') = documented (asked npts o) /\
    parse_LM g = Ok pg /\ parse_LM q = Ok pq /\ parse_LM lm = Ok ps /\
    (forall i, (i < b_nspans (an_beam (po_an o)))%nat -> loads_of ps i = map (scale_load (lp_gmax p)) (loads_of pg i) ++ map (scale_load (lp_qmax p)) (loads_of pq i)) /\
    po_res o' = Some br /\ env_init (vs ++ [br]) = Ok e /\ analyse_loads gl ill (beam_of o) lm (asked npts o) = Ok br.
Proof.
  intros H Dg Dq Hg Hq. destruct (run_left gl ill p o npts o' e g q H Dg Dq Hg Hq) as (A & B & pg & pq & ps & br & vs & C). exists (b_LM (an_beam (po_an o'))), pg, pq, ps, br, vs.
  rewrite asked_chosen. exact (conj A (conj B C)).
Qed.
Lemma c_failed gl ill p o npts o' e : pattern_run gl ill p o npts = (o', Err e) ->
  o' = o \/ exists cs c br, to_load_cases p (b_nspans (an_beam (po_an o))) = Ok cs /\ In c cs /\
    an_beam (po_an o') = set_loads (an_beam (po_an o)) (lc_loads (fst c)) /\ po_res o' = Some br /\ analyse_loads gl ill (beam_of o) (lc_loads (fst c)) (asked npts o) = Ok br.
Proof. rewrite asked_chosen. apply run_failed. Qed.
Lemma c_consistent gl ill ks n so s cs : object (run_calls gl ill ks) n so -> po_an (snd s) = seen (run_calls gl ill ks) so -> complete (po_an (snd s)) ->
  Forall (eq None) (b_kf (an_beam (po_an (snd s)))) -> consistent gl ill (snd s) -> consistent gl ill (snd (pcalls gl ill s cs)).
Proof.
  intros H E C K CO. apply calls_consistent; [|exact CO]. split; [|split; [exact C|exact K]]. rewrite E. destruct (good_run gl ill ks n so H) as [_ HH]. apply healthy_seen, HH.
Qed.

(** *** The foundation *)
Definition two_down : lpattern := set_live (set_dead lpattern0 [Row 1 1 [2]] 1 1) [] 1 1.
Lemma bed_refuted gl ill : exists a br, analysis_init flat_ctor = Ok a /\ b_LM (an_beam a) = [Row 1 1 [2]] /\ snd (analyze gl ill a (fun _ => []) None false) = Ok br /\
  forall npts res, pattern_run gl ill two_down {| po_an := a; po_res := res |} npts = ({| po_an := a; po_res := res |}, Err ValueError).
Proof.
  destruct (flat_refuted gl ill (Some 100%nat)) as (a & br & E & L & A & F). exists a, br. split; [exact E|]. split; [exact L|]. split; [exact A|]. intros npts res.
  rewrite flat_init in E. injection E as <-. unfold pattern_run, two_down. cbn [po_an flat_an an_beam flat_beam b_nspans].
  set (o := {| po_an := flat_an; po_res := res |}).
  assert (T : exists cs, to_load_cases (set_live (set_dead lpattern0 [Row 1 1 [2]] 1 1) [] 1 1) 1 = Ok cs /\ exists t, map (fun c => lc_loads (fst c)) cs = [Row 1 1 [1 * 2]] :: t) by (eexists; split; [reflexivity|]; eexists; reflexivity).
  destruct T as (cs & -> & t & ->). cbn [run_cases]. rewrite (run_case_spec gl ill o npts _ {| t_beam := an_beam flat_an; t_npts := Some 100%nat |} eq_refl). replace (1 * 2) with 2 by lra. rewrite F. reflexivity.
Qed.

(** *** An example *)
Definition held_ff : pobj := {| po_an := ff; po_res := None |}.
Definition up_down : lpattern := set_live (set_dead lpattern0 [Row 1 1 [2]] 3 1) [] 1 0.
Lemma ff_runs gl ill : gauss_rule gl -> exists o' e br, pattern_run gl ill up_down held_ff None = (o', Ok e) /\ e_nres e = 3%nat /\
  b_LM (an_beam (po_an o')) = [Row 1 1 [3 * 2]] /\ b_LM (an_beam ff) = [Row 1 1 [2]] /\ po_res o' = Some br /\
  In 6 (r_x (br_all br)) /\ read_at 6 (r_x (br_all br)) (r_M (br_all br)) = - 18 /\ consistent gl ill o'.
Proof.
  intros G.
  assert (A : forall q, exists br, analyse_loads gl ill (tmpl held_ff) [Row 1 1 [q]] (Some 100%nat) = Ok br /\ In 6 (r_x (br_all br)) /\ read_at 6 (r_x (br_all br)) (r_M (br_all br)) = - (3 * q)).
  { intros q. destruct (ffq_results gl ill q G) as (a' & br & E & _ & X & Y). exists br. split; [|split; assumption].
    rewrite (stations_only gl ill _ _ (Some 100%nat) None eq_refl). unfold analyse_loads. change (t_beam (tmpl held_ff)) with (an_beam ff). change (build_model (an_beam ff) [Row 1 1 [q]]) with (build_model ff_beam [Row 1 1 [q]]). rewrite ffq_build. cbn [rbind]. rewrite E. reflexivity. }
  destruct (A (3 * 2)) as (r1 & E1 & X & Y). destruct (A (1 * 2)) as (r2 & E2 & _).
  assert (V : snd (pattern_run gl ill up_down held_ff None) = pattern_analyze gl ill up_down (tmpl held_ff) None) by apply run_value.
  destruct (pattern_envelope gl ill up_down (tmpl held_ff) None [Row 1 1 [2]] [] [r1; r2; r1] eq_refl eq_refl) with
    (cs := [({| lc_name := "Max odd spans"; lc_loads := [Row 1 1 [3 * 2]]; lc_pos := None |}, [1%nat]);
            ({| lc_name := "Max even spans"; lc_loads := [Row 1 1 [1 * 2]]; lc_pos := None |}, []);
            ({| lc_name := "All spans max"; lc_loads := [Row 1 1 [3 * 2]]; lc_pos := None |}, [1%nat])]%string) as (e & E & N & _).
  { repeat constructor. } { constructor. } { repeat constructor. cbn. lra. } { reflexivity. } { repeat (constructor; [assumption|]). constructor. }
  rewrite E in V. unfold pattern_run in *.
  assert (T : exists cs, to_load_cases up_down 1 = Ok cs /\ map (fun c => lc_loads (fst c)) cs = [[Row 1 1 [3 * 2]]; [Row 1 1 [1 * 2]]; [Row 1 1 [3 * 2]]]) by (eexists; split; reflexivity).
  destruct T as (cs & TC & TM). change (b_nspans (an_beam (po_an held_ff))) with 1%nat in *. rewrite TC, TM in *.
  destruct (run_cases gl ill held_ff None _) as [o' r] eqn:Q. cbn [snd] in V. rewrite V.
  destruct (run_cases_spec gl ill _ _ _ _ _ Q) as (done & rest & vr & EC & F & HL & RS). destruct rest as [|x rest]; [|destruct RS as (z & _ & ->); discriminate V]. rewrite app_nil_r in EC. subst done.
  destruct HL as [(Z & _)|(d0 & lm & v0 & br & ED & EVR & ->)]; [discriminate|].
  change [[Row 1 1 [3 * 2]]; [Row 1 1 [1 * 2]]; [Row 1 1 [3 * 2]]] with ([[Row 1 1 [3 * 2]]; [Row 1 1 [1 * 2]]] ++ [[Row 1 1 [3 * 2]]]) in *. apply app_inj_tail in ED as [_ <-]. subst vr.
  assert (EB : analyse_loads gl ill (tmpl held_ff) [Row 1 1 [3 * 2]] (Some (chosen None held_ff)) = Ok br).
  { apply Forall2_app_inv_l in F as (w1 & w2 & _ & F & EW). inversion F as [|? y ? l' KK F']; subst. inversion F'; subst. apply app_inj_tail in EW as [_ <-]. exact KK. }
  change (chosen None held_ff) with 100%nat in EB. assert (br = r1) by congruence. subst br.
  exists (left_by held_ff None [Row 1 1 [3 * 2]] r1), e, r1. split; [reflexivity|]. split; [exact N|]. split; [reflexivity|]. split; [reflexivity|]. split; [reflexivity|]. split; [exact X|]. split; [rewrite Y; lra|].
  apply consistent_left; [|exact E1]. split; [exact (healthy_init gl ill ff_ctor ff eq_refl)|]. split; [repeat split|repeat constructor].
Qed.

(** *** Shear points *)
Lemma sections_refuted gl ill : gauss_rule gl -> exists o' e br, pattern_run gl ill up_down held_ff None = (o', Ok e) /\ po_res o' = Some br /\
  snd (analyze gl ill (po_an o') (fun _ => [2]) None true) <> Ok br.
Proof.
  intros G. destruct (ff_runs gl ill G) as (o' & e & br & H & _ & _ & _ & HR & _ & _ & CO). exists o', e, br. split; [exact H|]. split; [exact HR|]. intros B.
  unfold consistent in CO. rewrite HR in CO. destruct (c_left gl ill up_down held_ff None o' e [Row 1 1 [2]] [] H eq_refl eq_refl ltac:(repeat constructor) ltac:(constructor)) as (lm & _ & _ & _ & _ & _ & EB & EN & _).
  destruct (analyze gl ill (po_an o') (fun _ => []) None true) as [a1 r1] eqn:A1. destruct (analyze gl ill (po_an o') (fun _ => [2]) None true) as [a2 r2] eqn:A2. cbn [snd] in CO, B. subst r1 r2.
  assert (N1 : an_npts a1 = 100%nat). { assert (X := f_equal fst A1). cbn in X. subst a1. unfold analyze. destruct (core_fst gl ill (po_an o') None true) as (_ & _ & NP). destruct (analyze_core gl ill (po_an o') None true) as [m' [x|x]]; cbn [fst] in *; rewrite NP, EN; reflexivity. }
  assert (N2 : an_npts a2 = 100%nat). { assert (X := f_equal fst A2). cbn in X. subst a2. unfold analyze. destruct (core_fst gl ill (po_an o') None true) as (_ & _ & NP). destruct (analyze_core gl ill (po_an o') None true) as [m' [x|x]]; cbn [fst] in *; rewrite NP, EN; reflexivity. }
  destruct (analyze_split _ _ _ _ _ _ _ _ A1) as (o2 & EC & Hv & EL & _). destruct (analyze_core_state _ _ _ _ _ _ _ EC) as (EB1 & _). rewrite EB1 in Hv.
  destruct (member_analysis_spec _ _ _ _ _ _ _ Hv) as (ls & Hls & Hlen & Hs).
  destruct (Hs 0%nat ltac:(rewrite EB; cbn; lia)) as (mb & f & r0 & (Hm & _) & Hr). set (r := shift_x _ r0) in Hr. clearbody r.
  assert (Hm' := Hm). rewrite EB in Hm'. destruct (ff_member 0 mb Hm') as (_ & Sm & _ & Kf & HL & Ht).
  assert (G1 := analyze_grid _ _ _ _ _ _ _ _ 0 r mb A1 ltac:(lia) Hm ltac:(lra) Kf Hr). assert (G2 := analyze_grid _ _ _ _ _ _ _ _ 0 r mb A2 ltac:(lia) Hm ltac:(lra) Kf Hr).
  destruct G1 as [L1 _ _ _ _ _], G2 as [L2 _ _ _ _ _]. rewrite L1, N1, N2, HL in L2.
  assert (IP : inside_points 6 [2] = 1%nat) by (unfold inside_points, inside; cbn [filter]; repeat match goal with |- context [Rlt_dec ?x ?y] => destruct (Rlt_dec x y); [|exfalso; lra] end; reflexivity).
  rewrite IP in L2. unfold inside_points in L2. cbn [filter List.length] in L2. lia.
Qed.
