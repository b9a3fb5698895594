(** Overall equilibrium (C10) and released ends (C49). *)
From Coquelicot Require Import Coquelicot.
From Verif Require Import Base BaseFacts Linalg LinalgFacts SectionModel FlexModel LoadModel LoadSpec
  ClampFacts ReleaseFacts FoundationModel ElementModel ElementSpec ElementFacts ElementFacts2 UtilsModel BeamModel AnalysisModel
  AnalysisSpec LMFacts LinearFacts AnalysisFacts AnalysisFacts2.
Open Scope R_scope.

Definition vcnl (v : vec) : cnl := {| c_Va := v 0%nat; c_Ma := v 1%nat; c_Vb := v 2%nat; c_Mb := v 3%nat |}.

Lemma expand_col K L r : L <> 0 -> (r < 4)%nat ->
  expand K L 0%nat r + expand K L 2%nat r = 0 /\
  expand K L 1%nat r + expand K L 3%nat r + L * expand K L 2%nat r = 0.
Proof.
  intros HL Hr. unfold expand.
  destruct r as [|[|[|[|r]]]]; try lia; cbn; split; field; exact HL.
Qed.

Lemma release_from_bal c Ma Mb L kff t v A : 0 < L -> balances L A c ->
  (forall k, kff = Ok k -> exists K, k = expand K L) ->
  release_from c Ma Mb L kff t = Ok v ->
  total_load L A (v 0%nat + v 2%nat) /\
  (t <> 4%nat -> first_moment L A (v 1%nat + v 3%nat + L * v 2%nat)) /\
  (forall i, released t i -> v i = 0).
Proof.
  intros HL [B1 B2] HK H. unfold release_from in H.
  assert (R1 : forall w, w = c_Va c + c_Vb c -> total_load L A w) by (intros w ->; exact B1).
  assert (R2 : forall w, w = c_Ma c + c_Mb c + L * c_Vb c -> first_moment L A w) by (intros w ->; exact B2).
  assert (Base : v = vec4 (c_Va c - (c_Ma c + c_Mb c) / L + (Ma + Mb) / L) Ma
                      (c_Vb c + (c_Ma c + c_Mb c) / L - (Ma + Mb) / L) Mb ->
     total_load L A (v 0%nat + v 2%nat) /\ first_moment L A (v 1%nat + v 3%nat + L * v 2%nat)).
  { intros ->. split; [apply R1|apply R2]; cbn; field; lra. }
  assert (Rel : forall r k, (r = 1 \/ r = 3)%nat -> kff = Ok k -> k r r <> 0 ->
     v = (fun i => vec4 (c_Va c - (c_Ma c + c_Mb c) / L + (Ma + Mb) / L) Ma
                      (c_Vb c + (c_Ma c + c_Mb c) / L - (Ma + Mb) / L) Mb i
                   - k i r * (vec4 (c_Va c - (c_Ma c + c_Mb c) / L + (Ma + Mb) / L) Ma
                      (c_Vb c + (c_Ma c + c_Mb c) / L - (Ma + Mb) / L) Mb r / k r r)) ->
     total_load L A (v 0%nat + v 2%nat) /\ first_moment L A (v 1%nat + v 3%nat + L * v 2%nat) /\ v r = 0).
  { intros r k Hr Ek Hz ->. destruct (HK k Ek) as (K & ->).
    destruct (expand_col K L r) as [C1 C2]; [lra|lia|].
    set (q := vec4 _ Ma _ Mb r / _).
    split; [|split].
    - apply R1. cbn [vec4].
      replace (c_Va c - (c_Ma c + c_Mb c) / L + (Ma + Mb) / L - expand K L 0%nat r * q
         + (c_Vb c + (c_Ma c + c_Mb c) / L - (Ma + Mb) / L - expand K L 2%nat r * q))
        with (c_Va c + c_Vb c - (expand K L 0%nat r + expand K L 2%nat r) * q) by (field; lra).
      rewrite C1. ring.
    - apply R2. cbn [vec4].
      replace (Ma - expand K L 1%nat r * q + (Mb - expand K L 3%nat r * q)
        + L * (c_Vb c + (c_Ma c + c_Mb c) / L - (Ma + Mb) / L - expand K L 2%nat r * q))
        with (c_Ma c + c_Mb c + L * c_Vb c - (expand K L 1%nat r + expand K L 3%nat r + L * expand K L 2%nat r) * q)
        by (field; lra).
      rewrite C2. ring.
    - unfold q. field. exact Hz. }
  destruct t as [|[|[|[|[|t]]]]].
  - injection H as <-. destruct (Base eq_refl) as [X Y]. split; [exact X|]. split; [auto|]. intros i [].
  - injection H as <-. destruct (Base eq_refl) as [X Y]. split; [exact X|]. split; [auto|]. intros i [].
  - destruct kff as [k|]; cbn [rbind] in H; [|discriminate].
    destruct (Req_EM_T (k 3%nat 3%nat) 0) as [|Hz]; [discriminate|]. injection H as <-.
    destruct (Rel 3%nat k) as (X & Y & Z); auto. split; [exact X|]. split; [auto|]. intros i Hi. cbn in Hi. subst i. exact Z.
  - destruct kff as [k|]; cbn [rbind] in H; [|discriminate].
    destruct (Req_EM_T (k 1%nat 1%nat) 0) as [|Hz]; [discriminate|]. injection H as <-.
    destruct (Rel 1%nat k) as (X & Y & Z); auto. split; [exact X|]. split; [auto|]. intros i Hi. cbn in Hi. subst i. exact Z.
  - injection H as <-. split; [apply R1; cbn; field; lra|]. split; [congruence|].
    intros i [Hi|Hi]; subst i; reflexivity.
  - injection H as <-. destruct (Base eq_refl) as [X Y]. split; [exact X|]. split; [auto|]. intros i [].
Qed.

Section G.
Variable gl : nat -> list (R * R).

Lemma ref_one_bal m ld v : sound_member m -> on_member (mb_L m) ld -> ref_one gl m ld = Ok v ->
  total_load (mb_L m) (action_of (mb_L m) ld) (v 0%nat + v 2%nat) /\
  (mb_type m <> 4%nat -> first_moment (mb_L m) (action_of (mb_L m) ld) (v 1%nat + v 3%nat + mb_L m * v 2%nat)) /\
  (forall i, released (mb_type m) i -> v i = 0).
Proof.
  intros S Hon H. assert (HL := sm_L _ S). unfold ref_one in H.
  destruct (mb_GAv m) as [g|].
  - unfold ref_timoshenko in H. apply rbind_ok in H as (c & Hc & H). apply rbind_ok in H as (M & HM & H).
    eapply release_from_bal; [exact HL|exact (get_cnl_balances gl ld _ c HL Hon Hc)| |exact H].
    intros k Hk. unfold k_timoshenko in Hk. apply rbind_ok in Hk as (F & _ & Hk).
    apply rbind_ok in Hk as (K & _ & Hk). injection Hk as <-. eauto.
  - destruct (mb_EI m) as [e|s].
    + apply rbind_ok in H as (c & Hc & H). injection H as <-. unfold load_get_ref in Hc.
      apply rbind_ok in Hc as (q & Hq & Hc). injection Hc as <-.
      assert (B := get_cnl_balances gl ld _ q HL Hon Hq).
      destruct (sm_type _ S) as [T1 T4]. destruct (mb_type m) as [|[|[|[|[|t]]]]] eqn:ET; try lia.
      * destruct (release_balances _ _ _ 1 HL ltac:(auto) B) as [X Y]. split; [exact X|]. split; [intros _; exact Y|]. intros i [].
      * destruct (release_balances _ _ _ 2 HL ltac:(auto) B) as [X Y]. split; [exact X|]. split; [intros _; exact Y|].
        intros i Hi. cbn in Hi. subst i. apply (proj1 (release_moments (mb_L m) q)).
      * destruct (release_balances _ _ _ 3 HL ltac:(auto) B) as [X Y]. split; [exact X|]. split; [intros _; exact Y|].
        intros i Hi. cbn in Hi. subst i. apply (proj1 (proj2 (release_moments (mb_L m) q))).
      * destruct B as [B1 B2]. destruct (release_moments (mb_L m) q) as (_ & _ & Z1 & Z2).
        destruct (release_PP_error _ _ q _ _ HL B1 B2 eq_refl eq_refl) as [E _].
        split; [|split; [congruence|]].
        -- cbn [cnl_vec vec4]. replace (c_Va (release q (mb_L m) 4) + c_Vb (release q (mb_L m) 4)) with (c_Va q + c_Vb q) by (symmetry; exact E). exact B1.
        -- intros i [Hi|Hi]; subst i; [exact Z1|exact Z2].
    + unfold ref_nonprismatic in H. apply rbind_ok in H as (th & Hth & H). apply rbind_ok in H as (K & HK & H).
      apply rbind_ok in H as (c & Hc & H).
      eapply release_from_bal; [exact HL|exact (get_cnl_balances gl ld _ c HL Hon Hc)| |exact H].
      intros k Hk. unfold k_nonprismatic in Hk. apply rbind_ok in Hk as (K' & _ & Hk). injection Hk as <-. eauto.
Qed.

Lemma span_resultant_cons L ld lds g dg W : span_resultant L (ld :: lds) g dg W ->
  exists w W', resultant L (action_of L ld) g dg w /\ span_resultant L lds g dg W' /\ W = w + W'.
Proof.
  intros (ws & F & ->). inversion F; subst. exists y, (lsum l'). split; [assumption|]. split; [exists l'; auto|]. reflexivity.
Qed.

(** Two moments of the load of one span. *)
Lemma span_ref_bal m lds v : sound_member m -> Forall (on_member (mb_L m)) lds -> span_ref gl m lds = Ok v ->
  (forall W, span_resultant (mb_L m) lds (fun _ => 1) (fun _ => 0) W -> v 0%nat + v 2%nat = W) /\
  (mb_type m <> 4%nat -> forall X W, span_resultant (mb_L m) lds (fun x => X + x) (fun _ => 1) W ->
     X * (v 0%nat + v 2%nat) + (v 1%nat + v 3%nat + mb_L m * v 2%nat) = W) /\
  (forall i, released (mb_type m) i -> v i = 0).
Proof.
  intros S. revert v. induction lds as [|ld lds IH]; intros v HF H.
  - unfold span_ref in H. rewrite (sm_kf _ S) in H. injection H as <-.
    split; [|split].
    + intros W (ws & F & ->). inversion F. cbn. ring.
    + intros _ X W (ws & F & ->). inversion F. cbn. ring.
    + reflexivity.
  - inversion HF as [|? ? Hon HF']; subst.
    destruct (span_ref_app_ok gl m [ld] lds v H) as (v1 & v2 & H1 & H2 & E).
    destruct (IH v2 HF' H2) as (I1 & I2 & I3).
    assert (O : ref_one gl m ld = Ok v1 \/ exists v1', ref_one gl m ld = Ok v1' /\ forall i, v1 i = v1' i).
    { right. unfold span_ref in H1. rewrite (sm_kf _ S) in H1. cbn [foldM] in H1.
      apply rbind_ok in H1 as (s & H1 & E1). injection E1 as <-. apply rbind_ok in H1 as (w & Hw & H1). injection H1 as <-.
      exists w. split; [exact Hw|]. intros; ring. }
    assert (O' : exists v1', ref_one gl m ld = Ok v1' /\ forall i, v1 i = v1' i) by (destruct O as [O|O]; eauto).
    destruct O' as (w & Hw & Ew). destruct (ref_one_bal m ld w S Hon Hw) as (B1 & B2 & B3).
    split; [|split].
    + intros W HW. apply span_resultant_cons in HW as (x & W' & R1 & R2 & ->).
      rewrite !E, !Ew, <- (I1 _ R2). assert (x = w 0%nat + w 2%nat) by (eapply resultant_unique; eassumption). subst x. ring.
    + intros HT X W HW. apply span_resultant_cons in HW as (x & W' & R1 & R2 & ->).
      rewrite !E, !Ew, <- (I2 HT X _ R2).
      assert (RR : resultant (mb_L m) (action_of (mb_L m) ld) (fun x => X + x) (fun _ => 1)
        (X * (w 0%nat + w 2%nat) + (w 1%nat + w 3%nat + mb_L m * w 2%nat))).
      { eapply resultant_ext; [| |exact (resultant_plus _ _ _ _ _ _ _ _ (resultant_scal _ _ _ _ X _ B1) (B2 HT))];
          intros; cbn; ring. }
      rewrite (resultant_unique _ _ _ _ _ _ R1 RR). ring.
    + intros i Hi. rewrite E, Ew, (B3 i Hi), (I3 i Hi). ring.
Qed.

Lemma span_k_released m k d i : gauss_rule gl -> sound_member m -> span_k gl m = Ok k ->
  released (mb_type m) i -> end_forces k d i = 0.
Proof.
  intros G S Hk Hi. destruct (span_k_form gl m k G S Hk) as (K & kr & _ & Hc & E).
  assert (LG := condense_let_go _ _ _ (sm_type _ S) Hc d). destruct LG as [(d' & D1 & D2) LG].
  assert (I4 : (i < 4)%nat) by (destruct (mb_type m) as [|[|[|[|[|t]]]]]; cbn in Hi; lia).
  assert (X := LG d' D1 D2 i I4). cbn beta in X. rewrite (D2 i I4 Hi) in X.
  rewrite <- (meq4_forces kr k d i E I4). lra.
Qed.

(** End forces of a loaded member. *)
Lemma state_balance b d m ef mb : gauss_rule gl -> member_at b m = Ok mb -> sound_member mb ->
  mb_L mb = span_length b m ->
  (forall ls, parsed_loads b = Ok ls -> Forall (on_member (span_length b m)) (loads_of ls m)) ->
  member_state gl b d m ef ->
  (forall ls W, parsed_loads b = Ok ls -> span_resultant (span_length b m) (loads_of ls m) (fun _ => 1) (fun _ => 0) W ->
     ef 0%nat + ef 2%nat = W) /\
  (mb_type mb <> 4%nat -> forall ls X W, parsed_loads b = Ok ls ->
     span_resultant (span_length b m) (loads_of ls m) (fun x => X + x) (fun _ => 1) W ->
     X * (ef 0%nat + ef 2%nat) + (ef 1%nat + ef 3%nat + span_length b m * ef 2%nat) = W) /\
  (forall i, released (mb_type mb) i -> ef i = 0).
Proof.
  intros G Hm S EL Hon (ls0 & mb' & kb & r & Hl & Hm' & Hk & Hr & E).
  replace mb' with mb in * by congruence.
  assert (HF := Hon ls0 Hl). rewrite <- EL in *.
  destruct (span_ref_bal mb _ r S HF Hr) as (B1 & B2 & B3).
  assert (Gd := span_k_good gl mb kb G S Hk).
  destruct (g_bal _ _ Gd (ends d m)) as [K1 K2].
  split; [|split].
  - intros ls W HlW HW. replace ls with ls0 in * by congruence. rewrite !E, <- (B1 W HW). lra.
  - intros HT ls X W HlW HW. replace ls with ls0 in * by congruence. rewrite !E, <- (B2 HT X W HW).
    assert (X * (end_forces kb (ends d m) 0%nat + end_forces kb (ends d m) 2%nat) = 0) by (rewrite K1; ring). lra.
  - intros i Hi. rewrite E, (B3 i Hi), (span_k_released mb kb _ i G S Hk Hi). ring.
Qed.

Lemma member_length b m mb : member_at b m = Ok mb -> mb_L mb = span_length b m.
Proof.
  unfold member_at. intros H. apply rbind_ok in H as (e & _ & H). apply rbind_ok in H as (l & Hl & H).
  apply rbind_ok in H as (t & _ & H). injection H as <-. cbn. unfold span_length. symmetry. apply (get_nth _ _ _ 0 Hl).
Qed.

Lemma rsum_pairs f n : rsum (2 * n) f = rsum n (fun j => f (2 * j)%nat + f (2 * j + 1)%nat).
Proof.
  induction n as [|n IH]; [reflexivity|]. replace (2 * S n)%nat with (S (S (2 * n))) by lia. cbn [rsum].
  rewrite IH. replace (2 * n + 1)%nat with (S (2 * n)) by lia. ring.
Qed.

Lemma reported_nodal b n kb rf o i : settles_supports b -> solved gl b n kb rf o -> (i < 2 * (n + 1))%nat ->
  reported b o i = nodal_sum n (mef kb rf (o_d o)) i.
Proof.
  intros HS S Hi. rewrite (reported_eq gl b n kb rf o i S Hi).
  assert (Q := residual_nodal kb rf b n (o_d o) i Hi).
  destruct (Rlt_dec (restraint b i) 0) as [Hr|Hr].
  - unfold spring_force in Q. destruct (Rlt_dec 0 (restraint b i)); lra.
  - assert (E := sv_eq _ _ _ _ _ _ S i Hi). unfold bcv in E.
    destruct (prescribed b i) eqn:EP; [exfalso; apply Hr, HS; congruence|].
    destruct (Rlt_dec (restraint b i) 0); [lra|]. lra.
Qed.

Lemma reaction_work b n kb rf o u : settles_supports b -> solved gl b n kb rf o ->
  rsum (n + 1) (fun j => reported b o (2 * j) * u (2 * j)%nat + reported b o (2 * j + 1) * u (2 * j + 1)%nat)
  = rsum n (fun m => rsum 4 (fun q => mef kb rf (o_d o) m q * u (2 * m + q)%nat)).
Proof.
  intros HS S. rewrite <- virtual_work. rewrite <- (rsum_pairs (fun i => reported b o i * u i)).
  apply rsum_ext. intros i Hi. rewrite (reported_nodal b n kb rf o i HS S Hi). reflexivity.
Qed.

Lemma reactions_total b n kb rf o W : gauss_rule gl -> members b n sound_member ->
  loads_on_members b n -> settles_supports b -> solved gl b n kb rf o -> beam_load b n W ->
  rsum (n + 1) (fun j => reported b o (2 * j)) = W.
Proof.
  intros G HM HL HS S (ls & w & Hls & Hw & ->).
  set (u := fun i => if Nat.even i then 1 else 0).
  assert (Ue : forall j, u (2 * j)%nat = 1).
  { intros j. unfold u. rewrite Nat.even_mul. reflexivity. }
  assert (Uo : forall j, u (2 * j + 1)%nat = 0).
  { intros j. unfold u. rewrite Nat.even_add, Nat.even_mul. reflexivity. }
  rewrite (rsum_ext _ _ (fun j => reported b o (2 * j) * u (2 * j)%nat + reported b o (2 * j + 1) * u (2 * j + 1)%nat)).
  - rewrite (reaction_work b n kb rf o _ HS S). apply rsum_ext. intros m Hm.
    destruct (sy_k _ _ _ _ _ (sv_sys _ _ _ _ _ _ S) m Hm) as (mb & Em & _).
    destruct (state_balance b (o_d o) m _ mb G Em (HM m mb Hm Em) (member_length _ _ _ Em)
      (fun ls0 H0 => HL ls0 m H0 Hm) (system_state gl b n kb rf (o_d o) (sv_sys _ _ _ _ _ _ S) m Hm)) as (B & _).
    rewrite <- (B ls (w m) Hls (Hw m Hm)). cbn [rsum].
    replace (2 * m + 0)%nat with (2 * m)%nat by lia. replace (2 * m + 2)%nat with (2 * (m + 1))%nat by lia.
    replace (2 * m + 3)%nat with (2 * (m + 1) + 1)%nat by lia. rewrite !Ue, !Uo. ring.
  - intros j _. rewrite Ue, Uo. ring.
Qed.

Lemma node_x_S b m : node_x b (m + 1) = node_x b m + span_length b m.
Proof. rewrite Nat.add_1_r. reflexivity. Qed.

Lemma reactions_moment b n kb rf o W : gauss_rule gl ->
  members b n (fun mb => sound_member mb /\ mb_type mb <> 4%nat) ->
  loads_on_members b n -> settles_supports b -> solved gl b n kb rf o -> beam_moment b n W ->
  rsum (n + 1) (fun j => node_x b j * reported b o (2 * j) + reported b o (2 * j + 1)) = W.
Proof.
  intros G HM HL HS S (ls & w & Hls & Hw & ->).
  set (u := fun i => if Nat.even i then node_x b (i / 2) else 1).
  assert (Ue : forall j, u (2 * j)%nat = node_x b j).
  { intros j. unfold u. rewrite Nat.even_mul. cbn [Nat.even orb]. rewrite Nat.mul_comm, Nat.div_mul by lia. reflexivity. }
  assert (Uo : forall j, u (2 * j + 1)%nat = 1).
  { intros j. unfold u. rewrite Nat.even_add, Nat.even_mul. reflexivity. }
  rewrite (rsum_ext _ _ (fun j => reported b o (2 * j) * u (2 * j)%nat + reported b o (2 * j + 1) * u (2 * j + 1)%nat)).
  - rewrite (reaction_work b n kb rf o _ HS S). apply rsum_ext. intros m Hm.
    destruct (sy_k _ _ _ _ _ (sv_sys _ _ _ _ _ _ S) m Hm) as (mb & Em & _). destruct (HM m mb Hm Em) as [Sm Tm].
    destruct (state_balance b (o_d o) m _ mb G Em Sm (member_length _ _ _ Em)
      (fun ls0 H0 => HL ls0 m H0 Hm) (system_state gl b n kb rf (o_d o) (sv_sys _ _ _ _ _ _ S) m Hm)) as (_ & B & _).
    rewrite <- (B Tm ls (node_x b m) (w m) Hls (Hw m Hm)). cbn [rsum].
    replace (2 * m + 0)%nat with (2 * m)%nat by lia. replace (2 * m + 2)%nat with (2 * (m + 1))%nat by lia.
    replace (2 * m + 3)%nat with (2 * (m + 1) + 1)%nat by lia. rewrite !Ue, !Uo, node_x_S. ring.
  - intros j _. rewrite Ue, Uo. ring.
Qed.
End G.
