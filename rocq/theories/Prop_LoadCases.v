(** Property theorems about load cases (C26 to C29, C31, C32).  [gl] is the quadrature rule,
    [ill] the eigenvalue test of the stability check, [argsort] numpy's sort: any function
    with the contract [sorts]. *)
From Coq Require Import String.
From Verif Require Import Base BaseFacts SectionModel LoadModel LoadSpec FoundationModel ElementSpec ConstSectFacts UtilsModel BeamModel AnalysisModel
  AnalysisSpec AnalysisFacts3 AnalysisFacts ResultsModel ResultsSpec ResultsFacts LoadCasesModel LoadCasesSpec LoadCasesFacts SegmentFacts CaseExample.
Open Scope R_scope.
Local Notation length := List.length.

(** C26: the n-case additive envelope is a summed effect of n different cases at each
    station, and no n different cases have a smaller or larger one... *)
Theorem C26_additive_envelope : forall argsort B n neg pos ineg ipos, sorts argsort ->
  additive_envelope argsort B n = Ok (neg, pos, ineg, ipos) ->
  length neg = cols B /\ length pos = cols B /\ length ineg = cols B /\ length ipos = cols B /\
  forall k, (k < cols B)%nat ->
    (cases_of (length B) (nth k ineg []) /\ length (nth k ineg []) = n /\ effect B (nth k ineg []) k = nth k neg 0) /\
    (cases_of (length B) (nth k ipos []) /\ length (nth k ipos []) = n /\ effect B (nth k ipos []) k = nth k pos 0) /\
    forall js, cases_of (length B) js -> length js = n -> nth k neg 0 <= effect B js k <= nth k pos 0.
Proof. exact additive_spec. Qed.
Print Assumptions C26_additive_envelope.

(** ...and it exists for every rectangular matrix and n between 1 and the number of cases. *)
Theorem C26_exists : forall argsort B n, (exists e, additive_envelope argsort B n = Ok e) <->
  B <> [] /\ (forall r s, In r B -> In s B -> length r = length s) /\ (1 <= n <= length B)%nat.
Proof. exact additive_exists. Qed.
Print Assumptions C26_exists.

Example C26_nonvacuous : sorts insertion_argsort /\
  exists e, additive_envelope insertion_argsort [[1; -2]; [3; 4]; [-5; 0]] 2 = Ok e.
Proof.
  split; [exact insertion_sorts|]. apply C26_exists. split; [discriminate|]. split; [|cbn; auto].
  intros r s Hr Hs. cbn in *. repeat (destruct Hr as [<-|Hr]; [|]); try destruct Hr; repeat (destruct Hs as [<-|Hs]; [|]); try destruct Hs; reflexivity.
Qed.

(** C27: at each station the sign-selective minimum and maximum are summed effects of sets of
    cases, the masks are the masks of these sets, and no set of cases has a smaller or larger
    summed effect. *)
Theorem C27_sign_selective_envelope : forall B pos neg posv mneg mpos, sign_selective B pos = Ok (neg, posv, mneg, mpos) ->
  length neg = cols B /\ length posv = cols B /\ length mneg = cols B /\ length mpos = cols B /\
  forall k, (k < cols B)%nat ->
    let ps := match pos with Some l => l | None => default_masks (length B) end in
    exists lo hi, cases_of (length B) lo /\ cases_of (length B) hi /\
      effect B lo k = nth k neg 0 /\ effect B hi k = nth k posv 0 /\
      nth k mneg 0%Z = mask_of ps lo /\ nth k mpos 0%Z = mask_of ps hi /\
      (forall js, cases_of (length B) js -> nth k neg 0 <= effect B js k <= nth k posv 0).
Proof. exact selective_spec. Qed.
Print Assumptions C27_sign_selective_envelope.

(** The default masks give back the set: bit j is set when case j is in it. *)
Theorem C27_masks_identify : forall N js, cases_of N js ->
  forall j, Z.testbit (mask_of (default_masks N) js) (Z.of_nat j) = true <-> In j js.
Proof. exact default_mask_bits. Qed.
Print Assumptions C27_masks_identify.

Theorem C27_exists : forall B pos, (exists e, sign_selective B pos = Ok e) <->
  B <> [] /\ (forall r s, In r B -> In s B -> length r = length s) /\
  match pos with None => True | Some l => length l = length B end.
Proof. exact selective_exists. Qed.
Print Assumptions C27_exists.

Example C27_nonvacuous : (exists e, sign_selective [[1; -2]; [3; 4]; [-5; 0]] None = Ok e) /\ cases_of 3 [2; 0]%nat.
Proof.
  split.
  - apply C27_exists. split; [discriminate|]. split; [|exact I].
    intros r s Hr Hs. cbn in *. repeat (destruct Hr as [<-|Hr]; [|]); try destruct Hr; repeat (destruct Hs as [<-|Hs]; [|]); try destruct Hs; reflexivity.
  - split.
    + repeat (constructor; [cbn; intuition discriminate|]). constructor.
    + intros j Hj. cbn in Hj. destruct Hj as [<-|[<-|[]]]; auto.
Qed.

(** C28: a maximising target combination gives the selected factor to exactly the cases with
    a positive response at the section, names them, and no other choice of factors between
    the two gives a larger combined response there. *)
Theorem C28_maximum : forall gl ill t cs x sense resp sel unsel tc, In (lower sense) max_words ->
  target_combination gl ill t cs x sense resp sel unsel = Ok tc ->
  exists xs B, collect_responses gl ill t cs resp = Ok (xs, B) /\ length B = length cs /\
    tc_values tc = map (read_at x xs) B /\
    (forall j y, nth_error B j = Some y ->
      nth_error (tc_factors tc) j = Some (if Rlt_dec 0 (read_at x xs y) then sel else unsel)) /\
    (forall s, In s (tc_selected tc) <->
      exists j c y, nth_error cs j = Some c /\ nth_error B j = Some y /\ lc_name c = s /\ 0 < read_at x xs y) /\
    (forall f, factors_among unsel sel (length cs) f -> exists y z,
      lcs_combine gl ill t cs (FSeq (tc_factors tc)) resp = Ok (xs, F1 y) /\
      lcs_combine gl ill t cs (FSeq f) resp = Ok (xs, F1 z) /\ read_at x xs z <= read_at x xs y).
Proof. exact target_maximum. Qed.
Print Assumptions C28_maximum.

Theorem C28_minimum : forall gl ill t cs x sense resp sel unsel tc, In (lower sense) min_words ->
  target_combination gl ill t cs x sense resp sel unsel = Ok tc ->
  exists xs B, collect_responses gl ill t cs resp = Ok (xs, B) /\ length B = length cs /\
    tc_values tc = map (read_at x xs) B /\
    (forall j y, nth_error B j = Some y ->
      nth_error (tc_factors tc) j = Some (if Rlt_dec (read_at x xs y) 0 then sel else unsel)) /\
    (forall s, In s (tc_selected tc) <->
      exists j c y, nth_error cs j = Some c /\ nth_error B j = Some y /\ lc_name c = s /\ read_at x xs y < 0) /\
    (forall f, factors_among unsel sel (length cs) f -> exists y z,
      lcs_combine gl ill t cs (FSeq (tc_factors tc)) resp = Ok (xs, F1 y) /\
      lcs_combine gl ill t cs (FSeq f) resp = Ok (xs, F1 z) /\ read_at x xs y <= read_at x xs z).
Proof. exact target_minimum. Qed.
Print Assumptions C28_minimum.

(** No other word for the sense is accepted. *)
Theorem C28_senses : forall gl ill t cs x sense resp sel unsel, ~ In (lower sense) (min_words ++ max_words) ->
  target_combination gl ill t cs x sense resp sel unsel = Err ValueError.
Proof. exact target_senses. Qed.
Print Assumptions C28_senses.

(** Hogging at the right end of an encastre span: of a downward and an upward load the
    downward one is selected. *)
Example C28_nonvacuous : forall ill, In (lower "Hogging") min_words /\
  (exists tc, target_combination sample_gl ill ff_template two_cases 6 "Hogging" "M" 1 0 = Ok tc /\
    tc_factors tc = [1; 0] /\ tc_selected tc = ["down"%string]) /\ factors_among 0 1 2 [1; 1].
Proof.
  intros ill. split; [cbn; auto 10|]. split; [exact (two_target sample_gl ill gauss2_rule)|]. split; [reflexivity|].
  intros [|[|j]] Hj; cbn; try lra. exfalso. inversion Hj as [|? H1]. inversion H1 as [|? H2]. inversion H2.
Qed.

(** C31: the patterned load cases are one per segment, with their own names and powers of two
    as masks; the segments of span [i] run from cut to cut, from 0 to the span's length... *)
Theorem C31_segments_tile : forall Ls w n,
  (n = 0%nat -> make_patterned_udl Ls w n = Err ValueError) /\
  (n <> 0%nat -> exists cs cuts, make_patterned_udl Ls w n = Ok cs /\ length cs = (length Ls * n)%nat /\ unique_names cs /\
    (forall i, cuts i 0%nat = 0 /\ cuts i n = nth i Ls 0 /\ (0 < nth i Ls 0 -> forall j, (j < n)%nat -> cuts i j < cuts i (S j))) /\
    forall i j, (i < length Ls)%nat -> (j < n)%nat -> exists c, nth_error cs (i * n + j) = Some c /\
      lc_loads c = [Row (Z.of_nat i + 1) 3 [w; cuts i j; cuts i (S j) - cuts i j]] /\ lc_pos c = Some (2 ^ Z.of_nat (i * n + j))%Z).
Proof. exact pattern_tiles. Qed.
Print Assumptions C31_segments_tile.

(** ...together they load every point of every span once (points where two segments meet
    excepted, a null set)... *)
Theorem C31_full_load : forall Ls w n cs i x, make_patterned_udl Ls w n = Ok cs -> (i < length Ls)%nat -> 0 < x < nth i Ls 0 ->
  (forall c a d, In c cs -> lc_loads c = [Row (Z.of_nat i + 1) 3 [w; a; d]] -> x <> a) ->
  combined_loads cs (FSeq (repeat 1 (length cs))) = Ok (flat_map lc_loads cs) /\
  loading Ls (flat_map lc_loads cs) i x = w.
Proof. exact pattern_all. Qed.
Print Assumptions C31_full_load.

(** ...and put the fixed-end forces of the full uniform load on it. *)
Theorem C31_fixed_end_forces : forall gl Ls w n cs i, make_patterned_udl Ls w n = Ok cs -> (i < length Ls)%nat -> 0 < nth i Ls 0 ->
  exists lm ps es e, combined_loads cs (FSeq (repeat 1 (length cs))) = Ok lm /\ parse_LM lm = Ok ps /\
    mapM (fun ld => get_cnl gl ld (nth i Ls 0)) (loads_of ps i) = Ok es /\ get_cnl gl (LUDL w) (nth i Ls 0) = Ok e /\
    lsum (map c_Va es) = c_Va e /\ lsum (map c_Ma es) = c_Ma e /\ lsum (map c_Vb es) = c_Vb e /\ lsum (map c_Mb es) = c_Mb e.
Proof. exact pattern_ends. Qed.
Print Assumptions C31_fixed_end_forces.

(** The unsegmented version: one case per span, a uniform load on the whole span. *)
Theorem C31_span_cases : forall Ls w, exists cs, make_span_udl Ls w = Ok cs /\ length cs = length Ls /\ unique_names cs /\
  forall i, (i < length Ls)%nat -> exists c, nth_error cs i = Some c /\ lc_loads c = [Row (Z.of_nat i + 1) 1 [w]].
Proof. exact span_cases_spec. Qed.
Print Assumptions C31_span_cases.

Example C31_nonvacuous : exists cs, make_patterned_udl [10; 12] 5 3 = Ok cs /\ length cs = 6%nat.
Proof. destruct (proj2 (C31_segments_tile [10; 12] 5 3) ltac:(discriminate)) as (cs & cuts & E & L & _). exists cs. split; [exact E|exact L]. Qed.

(** C32 for segment loads: the rows load the points of the interval once with the given
    intensity and no other points, up to 1e-9 at the left end, and up to 2e-9 plus 1e-5 of
    the span length at the right end; accepted are exactly the intervals within the beam. *)
Theorem C32_segment_load_partial : forall Ls x0 x1 w rows, Forall (fun L => length_tol < L) Ls -> make_segment_udl Ls x0 x1 w = Ok rows ->
  forall i x, (i < length Ls)%nat -> 0 < x < nth i Ls 0 ->
  (x0 + length_tol < start Ls i + x < x1 - length_tol -> loading Ls rows i x = w) /\
  (start Ls i + x < x0 - length_tol -> loading Ls rows i x = 0) /\
  (x1 + (2 * length_tol + 1e-5 * nth i Ls 0) < start Ls i + x -> loading Ls rows i x = 0).
Proof. exact segment_spec. Qed.
Print Assumptions C32_segment_load_partial.
Theorem C32_segment_accepted : forall Ls x0 x1 w, (exists rows, make_segment_udl Ls x0 x1 w = Ok rows) <->
  x0 < x1 /\ - length_tol <= x0 /\ x1 <= lsum Ls + length_tol.
Proof. exact segment_total. Qed.
Print Assumptions C32_segment_accepted.

(** The tolerance of 1e-9 does not hold at the right end: the cover of a segment that nearly
    fills its span is snapped to the span, and a point beyond the interval is loaded. *)
Theorem C32_segment_end_refuted : exists Ls x0 x1 w rows x, Forall (fun L => 1 <= L) Ls /\ make_segment_udl Ls x0 x1 w = Ok rows /\
  0 < x < nth 0 Ls 0 /\ x1 + 1e-6 < start Ls 0 + x /\ loading Ls rows 0 x <> 0.
Proof. exact segment_snap. Qed.
Print Assumptions C32_segment_end_refuted.

Example C32_nonvacuous : exists rows, make_segment_udl [10; 12] 4 15 3 = Ok rows.
Proof. apply C32_segment_accepted. unfold length_tol, lsum. cbn. lra. Qed.
