(** The equivalent loads of a beam: which loads each span receives. *)
From Coquelicot Require Import Coquelicot.
From Coq Require Import Lia Sorting.
From Verif Require Import Base BaseFacts LoadModel LoadSpec LoadFacts DiagFacts LMFacts BeamModel ResultsModel ResultsSpec ResultsFacts
  PrestressModel PrestressSpec PrestressFacts PrestressFacts2 SuperFacts.
Open Scope R_scope.

Lemma loads_of_one i lds j : loads_of (map (pair (Z.of_nat i)) lds) j = if Nat.eqb i j then lds else [].
Proof.
  unfold loads_of. induction lds as [|a l IH]; [destruct (Nat.eqb i j); reflexivity|]. cbn [map filter fst].
  destruct (Nat.eqb_spec i j) as [->|N].
  - rewrite Z.eqb_refl. cbn [map snd]. rewrite IH. reflexivity.
  - destruct (Z.eqb_spec (Z.of_nat i) (Z.of_nat j)) as [E|_]; [apply Nat2Z.inj in E; contradiction|exact IH].
Qed.

(** What one stressed span contributes. *)
Definition span_part (rs Ls Fs : list R) (j : nat) (p : profile) (lds : list load) (segs : list seg) (L F : R) : Prop :=
  exists t, nth_error Ls j = Some L /\ nth_error Fs j = Some F /\ cantilever_side rs j = Ok t /\ segments p L t = Ok segs /\
    lds = span_loads L F segs None.

Lemma spans_rows_inv rs Ls Fs ps : forall i A an A' an', spans_rows rs Ls Fs i ps (A, an) = Ok (A', an') ->
  exists B lB, A' = A ++ B /\ parse_LM B = Ok lB /\
    (forall j, (j < i)%nat -> loads_of lB j = []) /\
    (forall j p, nth_error ps j = Some (Some p) -> exists segs L F, span_part rs Ls Fs (i + j) p (loads_of lB (i + j)) segs L F).
Proof.
  induction ps as [|o t IH]; intros i A an A' an' E; cbn [spans_rows] in E.
  - apply ok_inv in E. injection E as <- <-. exists [], []. rewrite app_nil_r. repeat split.
    intros j p Hj. destruct j; discriminate.
  - destruct o as [p|].
    + apply rbind_ok in E. destruct E as (Li & EL & E). apply rbind_ok in E. destruct E as (Fi & EF & E).
      apply rbind_ok in E. destruct E as (cant & Ec & E). apply rbind_ok in E. destruct E as (segs & Es & E).
      apply rbind_ok in E. destruct E as (rows & Er & E). apply rbind_ok in E. destruct E as (s0 & E0 & E).
      apply rbind_ok in E. destruct E as (first & Ef & E). cbv zeta in E. apply rbind_ok in E. destruct E as (q1 & Eq & E).
      cbn [fst] in E. destruct (IH _ _ _ _ _ E) as (B & lB & EA & EP & Hlo & Hhi).
      pose proof (span_rows_loads _ _ _ _ _ _ Er) as P. replace (Z.of_nat i + 1 - 1)%Z with (Z.of_nat i) in P by lia.
      exists (rows ++ B), (map (pair (Z.of_nat i)) (span_loads Li Fi segs None) ++ lB). split; [rewrite app_assoc; exact EA|].
      split; [apply parse_LM_app; assumption|]. split.
      * intros j Hj. rewrite loads_of_app, loads_of_one. destruct (Nat.eqb_spec i j); [lia|]. apply Hlo. lia.
      * intros [|j] p' Hp.
        -- injection Hp as <-. exists segs, Li, Fi, cant. rewrite Nat.add_0_r, loads_of_app, loads_of_one, Nat.eqb_refl.
           rewrite (Hlo i) by lia. rewrite app_nil_r. apply get_ok in EL. apply get_ok in EF. auto.
        -- cbn [nth_error] in Hp. destruct (Hhi j p' Hp) as (sg & L & F & H). replace (i + S j)%nat with (i + 1 + j)%nat by lia.
           exists sg, L, F. rewrite loads_of_app, loads_of_one. destruct (Nat.eqb_spec i (i + 1 + j)); [lia|]. exact H.
    + destruct (IH _ _ _ _ _ E) as (B & lB & EA & EP & Hlo & Hhi). exists B, lB. split; [exact EA|]. split; [exact EP|]. split.
      * intros j Hj. apply Hlo. lia.
      * intros [|j] p' Hp; [discriminate|]. cbn [nth_error] in Hp. destruct (Hhi j p' Hp) as (sg & L & F & H).
        replace (i + S j)%nat with (i + 1 + j)%nat by lia. exists sg, L, F. exact H.
Qed.

Lemma spans_rows_keep rs Ls Fs ps : forall i A an A' an' f, spans_rows rs Ls Fs i ps (A, an) = Ok (A', an') ->
  an_first an = Some f -> an_first an' = Some f.
Proof.
  induction ps as [|o t IH]; intros i A an A' an' f E Hf; cbn [spans_rows] in E.
  - apply ok_inv in E. injection E as <- <-. exact Hf.
  - destruct o as [p|]; [|exact (IH _ _ _ _ _ _ E Hf)].
    do 6 (apply rbind_ok in E; destruct E as (? & ? & E)). apply rbind_ok in E. destruct E as (first & Ef & E).
    cbv zeta in E. apply rbind_ok in E. destruct E as (q1 & Eq & E). cbn [snd] in Ef. rewrite Hf in Ef. apply ok_inv in Ef. subst first.
    exact (IH _ _ _ _ _ _ E eq_refl).
Qed.
Lemma spans_rows_first rs Ls Fs p t i A an A' an' L F c segs : spans_rows rs Ls Fs i (Some p :: t) (A, an) = Ok (A', an') ->
  an_first an = None -> nth_error Ls i = Some L -> nth_error Fs i = Some F -> cantilever_side rs i = Ok c ->
  segments p L c = Ok segs ->
  exists s0, get segs 0 = Ok s0 /\ an_first an' = Some (sg_e1 s0, F, sl0 s0).
Proof.
  intros E Hf EL EF Ec Es. cbn [spans_rows] in E. unfold get in E. rewrite EL, EF in E. cbn [rbind] in E. rewrite Ec in E. cbn [rbind] in E. rewrite Es in E. cbn [rbind] in E.
  apply rbind_ok in E. destruct E as (rows & Er & E). apply rbind_ok in E. destruct E as (s0 & E0 & E).
  apply rbind_ok in E. destruct E as (first & Ef & E). cbv zeta in E. apply rbind_ok in E. destruct E as (q1 & Eq & E).
  cbn [snd] in Ef. rewrite Hf in Ef. apply rbind_ok in Ef. destruct Ef as (q & E1 & Ef). apply slope_start_inv in E1. apply ok_inv in Ef. subst q first.
  exists s0. split; [exact E0|]. apply (spans_rows_keep _ _ _ _ _ _ _ _ _ _ E). reflexivity.
Qed.
Lemma spans_rows_last rs Ls Fs p ps : forall i A an A' an' L F c segs, spans_rows rs Ls Fs i (ps ++ [Some p]) (A, an) = Ok (A', an') ->
  nth_error Ls (i + length ps) = Some L -> nth_error Fs (i + length ps) = Some F -> cantilever_side rs (i + length ps) = Ok c ->
  segments p L c = Ok segs ->
  exists s0, get segs 0 = Ok s0 /\ an_last an' = Some (sg_e2 (last segs s0), F, sl1 (last segs s0)).
Proof.
  induction ps as [|o t IH]; intros i A an A' an' L F c segs E EL EF Ec Es; cbn [app spans_rows] in E.
  - rewrite Nat.add_0_r in *. unfold get in E. rewrite EL, EF in E. cbn [rbind] in E. rewrite Ec in E. cbn [rbind] in E. rewrite Es in E. cbn [rbind] in E.
    apply rbind_ok in E. destruct E as (rows & Er & E). apply rbind_ok in E. destruct E as (s0 & E0 & E).
    apply rbind_ok in E. destruct E as (first & Ef & E). cbv zeta in E. apply rbind_ok in E. destruct E as (q1 & Eq & E).
    apply slope_end_inv in Eq. subst q1. apply ok_inv in E. injection E as <- <-. exists s0. split; [exact E0|reflexivity].
  - cbn [length] in EL, EF, Ec. replace (i + S (length t))%nat with (i + 1 + length t)%nat in EL, EF, Ec by lia.
    destruct o as [p'|].
    + do 7 (apply rbind_ok in E; destruct E as (? & ? & E)). cbv zeta in E. apply rbind_ok in E; destruct E as (? & ? & E).
      exact (IH _ _ _ _ _ _ _ _ _ E EL EF Ec Es).
    + exact (IH _ _ _ _ _ _ _ _ _ E EL EF Ec Es).
Qed.

(** ** The whole matrix *)
Definition if_kept (v : R) (ld : load) : list load := if Rltb tol (Rabs v) then [ld] else [].

Lemma both_zero_ok rs k b : both_zero rs (2 * k) = Ok b -> (b = true <-> free_node rs k).
Proof.
  unfold both_zero, free_node. intros E. apply rbind_ok in E. destruct E as (r0 & E0 & E). apply get_ok in E0.
  rewrite (nth_error_nth _ _ 1 E0). destruct (Reqb_spec r0 0) as [Z0|N0].
  - apply rbind_ok in E. destruct E as (r1 & E1 & E). apply get_ok in E1. rewrite (nth_error_nth _ _ 1 E1). apply ok_inv in E. subst b.
    destruct (Reqb_spec r1 0); split; intros Hx; [split; assumption|reflexivity|discriminate|destruct Hx; contradiction].
  - apply ok_inv in E. subst b. split; intros H; [discriminate|destruct H; contradiction].
Qed.
Lemma cantilever_tip rs i t : cantilever_side rs i = Ok t -> tip_of rs i t.
Proof.
  unfold cantilever_side. intros E. apply rbind_ok in E. destruct E as (r0 & E0 & E). apply rbind_ok in E. destruct E as (l & El & E).
  assert (Hl : l = true <-> free_node rs i).
  { apply (both_zero_ok rs i l). unfold both_zero. rewrite E0. exact El. }
  destruct l; [apply ok_inv in E; subst t; cbn; tauto|].
  apply rbind_ok in E. destruct E as (r2 & E2 & E). apply rbind_ok in E. destruct E as (r & Er & E).
  assert (Hr : r = true <-> free_node rs (i + 1)).
  { apply (both_zero_ok rs (i + 1) r). unfold both_zero. rewrite E2. exact Er. }
  destruct r; apply ok_inv in E; subst t; cbn; intuition discriminate.
Qed.
Lemma tip_unique rs i t u : tip_of rs i t -> tip_of rs i u -> t = u.
Proof. destruct t as [[|]|], u as [[|]|]; cbn; tauto. Qed.

Lemma equivalent_loads_span Ls rs f ps LM ls i p L F : equivalent_loads Ls rs f ps = Ok LM -> parse_LM LM = Ok ls ->
  nth_error Ls i = Some L -> force_in f i F -> nth_error ps i = Some (Some p) ->
  exists t segs s0 (lf rf : bool), tip_of rs i t /\ segments p L t = Ok segs /\ get segs 0 = Ok s0 /\
    (lf = true <-> free_node rs 0) /\ (rf = true <-> free_node rs (length Ls)) /\
    loads_of ls i = span_loads L F segs None
      ++ (if Nat.eqb i 0 then if_kept (sg_e1 s0) (LML (F * sg_e1 s0) 0) else [])
      ++ (if Nat.eqb (i + 1) (length Ls) then if_kept (sg_e2 (last segs s0)) (LML (- F * sg_e2 (last segs s0)) L) else [])
      ++ (if Nat.eqb i 0 && lf then if_kept (sl0 s0) (LPL (F * sl0 s0) 0) else [])
      ++ (if Nat.eqb (i + 1) (length Ls) && rf then if_kept (sl1 (last segs s0)) (LPL (- F * sl1 (last segs s0)) L) else []).
Proof.
  intros E EP EL EF Ep. unfold equivalent_loads in E. cbv zeta in E.
  destruct (Nat.eqb_spec (length ps) (length Ls)) as [Lp|]; [cbn [negb] in E|discriminate].
  set (Fs := match f with FScalar x => repeat x (length Ls) | FSpans fs => fs end) in *.
  destruct (Nat.eqb_spec (length Fs) (length Ls)) as [LF|]; [cbn [negb] in E|discriminate].
  assert (EF' : nth_error Fs i = Some F).
  { unfold Fs. destruct f as [x|fs]; cbn in EF; [|exact EF]. subst x. apply nth_error_repeat. apply nth_error_Some. congruence. }
  apply rbind_ok in E. destruct E as ([A an] & Est & E). apply rbind_ok in E. destruct E as (lf & Elf & E).
  apply rbind_ok in E. destruct E as (rf & Erf & E). apply rbind_ok in E. destruct E as (Ln & ELn & E).
  apply rbind_ok in E. destruct E as (p1 & E1 & E). apply rbind_ok in E. destruct E as (p2 & E2 & E). apply ok_inv in E. cbn [fst snd] in *.
  destruct (spans_rows_inv _ _ _ _ _ _ _ _ _ Est) as (B & lB & EA & EB & _ & Hsp). cbn [app] in EA. subst A.
  destruct (Hsp i p Ep) as (segs & L' & F' & t & EL' & EF'' & Et & Es & Elds). cbn [Nat.add] in *.
  rewrite EL in EL'. injection EL' as <-. rewrite EF' in EF''. injection EF'' as <-.
  assert (S0 : exists s0, get segs 0 = Ok s0 /\
     (i = 0%nat -> an_first an = Some (sg_e1 s0, F, sl0 s0)) /\
     ((i + 1)%nat = length Ls -> an_last an = Some (sg_e2 (last segs s0), F, sl1 (last segs s0)))).
  { assert (S1 : exists s0, get segs 0 = Ok s0).
    { clear - Est Ep EL EF' Et Es. revert Est. generalize (@nil row) {| an_first := None; an_last := None |}.
      assert (G : forall ps i j a b, nth_error ps i = Some (Some p) -> nth_error Ls (j + i) = Some L -> nth_error Fs (j + i) = Some F ->
        cantilever_side rs (j + i) = Ok t -> spans_rows rs Ls Fs j ps (a, b) = Ok (B, an) -> exists s0, get segs 0 = Ok s0).
      { clear Ep EL EF' Et. intros ps'. induction ps' as [|o ps' IH]; intros k j a b Hk HL HF Hc E; [destruct k; discriminate|].
        destruct k as [|k].
        - injection Hk as ->. rewrite Nat.add_0_r in *. cbn [spans_rows] in E. unfold get in E at 1 2. rewrite HL, HF in E. cbn [rbind] in E.
          rewrite Hc in E. cbn [rbind] in E. rewrite Es in E. cbn [rbind] in E. apply rbind_ok in E. destruct E as (rows & _ & E).
          apply rbind_ok in E. destruct E as (s0 & E0 & _). exists s0. exact E0.
        - cbn [nth_error] in Hk. replace (j + S k)%nat with (j + 1 + k)%nat in * by lia. cbn [spans_rows] in E. destruct o as [p'|].
          + do 7 (apply rbind_ok in E; destruct E as (? & ? & E)). cbv zeta in E. apply rbind_ok in E; destruct E as (? & ? & E).
            exact (IH _ _ _ _ Hk HL HF Hc E).
          + exact (IH _ _ _ _ Hk HL HF Hc E). }
      intros a b Est. exact (G ps i 0%nat a b Ep EL EF' Et Est). }
    destruct S1 as (s0 & E0). exists s0. split; [exact E0|]. split.
    - intros ->. destruct ps as [|o ps]; [discriminate|]. injection Ep as ->.
      destruct (spans_rows_first _ _ _ _ _ _ _ _ _ _ _ _ _ _ Est eq_refl EL EF' Et Es) as (s1 & E1' & E2'). rewrite E0 in E1'. apply ok_inv in E1'. subst s1. exact E2'.
    - intros Hi. assert (exists ps', ps = ps' ++ [Some p] /\ length ps' = i) as (ps' & -> & Hl).
      { destruct (nth_error_split _ _ Ep) as (l1 & l2 & -> & Hl1). rewrite app_length in Lp. cbn in Lp. exists l1. split; [|exact Hl1].
        destruct l2; [reflexivity|cbn in Lp; lia]. }
      destruct (spans_rows_last _ _ _ _ _ _ _ _ _ _ L F t segs Est) as (s1 & E1' & E2'); cbn [Nat.add]; rewrite ?Hl; try assumption.
      rewrite E0 in E1'. apply ok_inv in E1'. subst s1. exact E2'. }
  destruct S0 as (s0 & E0 & Hfirst & Hlast).
  exists t, segs, s0, lf, rf. split; [exact (cantilever_tip _ _ _ Et)|]. split; [exact Es|]. split; [exact E0|].
  split; [exact (both_zero_ok rs 0 lf Elf)|]. split; [exact (both_zero_ok rs (length Ls) rf Erf)|].
  assert (Hn : (length Ls <> 0)%nat) by (intros H0; apply length_zero_iff_nil in H0; rewrite H0 in EL; destruct i; discriminate).
  assert (HLn : (i + 1)%nat = length Ls -> Ln = L).
  { intros Hi. destruct Ls as [|l0 Lt]; [cbn in Hn; lia|]. apply ok_inv in ELn. subst Ln.
    assert (nth_error (l0 :: Lt) (length (l0 :: Lt) - 1) = Some L) as H1 by (replace (length (l0 :: Lt) - 1)%nat with i by lia; exact EL).
    rewrite <- (nth_error_nth _ _ 0 H1). symmetry. clear. revert l0. induction Lt as [|l1 t IH]; intros l0; [reflexivity|].
    change (last (l0 :: l1 :: t) 0) with (last (l1 :: t) 0). rewrite <- IH. cbn [length]. replace (S (S (length t)) - 1)%nat with (S (S (length t) - 1)) by lia. reflexivity. }
  (* parse the anchorage rows *)
  set (m1 := match an_first an with Some (e, Fe, _) => if Rltb tol (Rabs e) then [Row 1 4 [Fe * e; 0]] else [] | None => [] end) in *.
  set (m2 := match an_last an with Some (e, Fe, _) => if Rltb tol (Rabs e) then [Row (Z.of_nat (length Ls)) 4 [- Fe * e; Ln]] else [] | None => [] end) in *.
  assert (P1 : exists l, parse_LM m1 = Ok (map (pair (Z.of_nat 0)) l) /\ (i = 0%nat -> l = if_kept (sg_e1 s0) (LML (F * sg_e1 s0) 0))).
  { unfold m1, if_kept. destruct (an_first an) as [[[e Fe] q]|] eqn:Ea.
    - destruct (Rltb tol (Rabs e)) eqn:Eb.
      + exists [LML (Fe * e) 0]. split; [reflexivity|]. intros Hi. pose proof (Hfirst Hi) as X. injection X as -> -> ->. rewrite Eb. reflexivity.
      + exists []. split; [reflexivity|]. intros Hi. pose proof (Hfirst Hi) as X. injection X as -> -> ->. rewrite Eb. reflexivity.
    - exists []. split; [reflexivity|]. intros Hi. discriminate (Hfirst Hi). }
  assert (P2 : exists l, parse_LM m2 = Ok (map (pair (Z.of_nat (length Ls - 1))) l) /\
     ((i + 1)%nat = length Ls -> l = if_kept (sg_e2 (last segs s0)) (LML (- F * sg_e2 (last segs s0)) L))).
  { unfold m2, if_kept. destruct (an_last an) as [[[e Fe] q]|] eqn:Ea.
    - destruct (Rltb tol (Rabs e)) eqn:Eb.
      + exists [LML (- Fe * e) Ln]. split; [unfold parse_LM; cbn; do 3 f_equal; lia|]. intros Hi. pose proof (Hlast Hi) as X. injection X as -> -> ->. rewrite Eb, (HLn Hi). reflexivity.
      + exists []. split; [reflexivity|]. intros Hi. pose proof (Hlast Hi) as X. injection X as -> -> ->. rewrite Eb. reflexivity.
    - exists []. split; [reflexivity|]. intros Hi. discriminate (Hlast Hi). }
  assert (P3 : exists l, parse_LM p1 = Ok (map (pair (Z.of_nat 0)) l) /\ (i = 0%nat -> l = if lf then if_kept (sl0 s0) (LPL (F * sl0 s0) 0) else [])).
  { unfold if_kept. destruct lf.
    - destruct (an_first an) as [[[e Fe] q]|] eqn:Ea; [|discriminate]. apply ok_inv in E1. subst p1.
      destruct (Rltb tol (Rabs q)) eqn:Eb.
      + exists [LPL (Fe * q) 0]. split; [reflexivity|]. intros Hi. pose proof (Hfirst Hi) as X. injection X as -> -> ->. rewrite Eb. reflexivity.
      + exists []. split; [reflexivity|]. intros Hi. pose proof (Hfirst Hi) as X. injection X as -> -> ->. rewrite Eb. reflexivity.
    - apply ok_inv in E1. subst p1. exists []. split; reflexivity. }
  assert (P4 : exists l, parse_LM p2 = Ok (map (pair (Z.of_nat (length Ls - 1))) l) /\
     ((i + 1)%nat = length Ls -> l = if rf then if_kept (sl1 (last segs s0)) (LPL (- F * sl1 (last segs s0)) L) else [])).
  { unfold if_kept. destruct rf.
    - destruct (an_last an) as [[[e Fe] q]|] eqn:Ea; [|discriminate]. apply ok_inv in E2. subst p2.
      destruct (Rltb tol (Rabs q)) eqn:Eb.
      + exists [LPL (- Fe * q) Ln]. split; [unfold parse_LM; cbn; do 3 f_equal; lia|]. intros Hi. pose proof (Hlast Hi) as X. injection X as -> -> ->. rewrite Eb, (HLn Hi). reflexivity.
      + exists []. split; [reflexivity|]. intros Hi. pose proof (Hlast Hi) as X. injection X as -> -> ->. rewrite Eb. reflexivity.
    - apply ok_inv in E2. subst p2. exists []. split; reflexivity. }
  destruct P1 as (l1 & Q1 & R1), P2 as (l2 & Q2 & R2), P3 as (l3 & Q3 & R3), P4 as (l4 & Q4 & R4).
  subst LM. pose proof (parse_LM_app _ _ _ _ EB (parse_LM_app _ _ _ _ Q1 (parse_LM_app _ _ _ _ Q2 (parse_LM_app _ _ _ _ Q3 Q4)))) as EP'.
  unfold add_LM in EP'. rewrite EP in EP'. apply ok_inv in EP'. subst ls. rewrite !loads_of_app, !loads_of_one, Elds. f_equal.
  rewrite (Nat.eqb_sym 0 i). destruct (Nat.eqb_spec i 0) as [Hi|_]; [rewrite (R1 Hi), (R3 Hi)|]; cbn [andb].
  - f_equal. destruct (Nat.eqb_spec (length Ls - 1) i) as [Hj|Hj]; destruct (Nat.eqb_spec (i + 1) (length Ls)) as [Hk|Hk]; try lia; cbn [andb].
    + rewrite (R2 Hk), (R4 Hk). destruct lf, rf; reflexivity.
    + destruct lf; reflexivity.
  - destruct (Nat.eqb_spec (length Ls - 1) i) as [Hj|Hj]; destruct (Nat.eqb_spec (i + 1) (length Ls)) as [Hk|Hk]; try lia; cbn [andb].
    + rewrite (R2 Hk), (R4 Hk). destruct rf; reflexivity.
    + reflexivity.
Qed.
