(** A section of constant pieces is the scalar rigidity (C08). *)
From Coq Require Import String.
From Verif Require Import Base BaseFacts SectionModel FlexModel LoadModel LoadSpec
  FoundationModel ElementModel ElementSpec ElementFacts ElementFacts2.
Open Scope R_scope.

Definition cpiece (v : R) (ab : R * R) : piece :=
  {| p_x0 := fst ab; p_x1 := snd ab; p_coeffs := [v]; p_degree := 0 |}.

Lemma strictly_incr_cons a b t : strictly_incr (a :: b :: t) = true -> a < b /\ strictly_incr (b :: t) = true.
Proof.
  cbn [strictly_incr]. rewrite andb_true_iff, negb_true_iff, Rleb_false. intros [H1 H2]. split; [lra|exact H2].
Qed.

Lemma isclose0_refl a tol : 0 <= tol -> isclose0 a a tol = true.
Proof. intros Ht. unfold isclose0. apply Rleb_true. rewrite Rminus_eq_0, Rabs_R0. auto. Qed.

Lemma add_const_ok pf s v a b : 0 < v -> a < b ->
  a = match s_pieces s with [] => 0 | _ => s_end s end ->
  exists s', add_segment pf s "const"%string [a; b] (EScalar v) None = Ok s' /\
    s_pieces s' = s_pieces s ++ [cpiece v (a, b)] /\ s_end s' = b.
Proof.
  intros Hv Hab Ha. unfold add_segment. cbn -[isclose0 Rleb].
  rewrite (proj2 (Rleb_false (b - a) 0)) by lra. cbn -[isclose0 Rleb]. unfold head_R, last_R; cbn -[isclose0 Rleb].
  rewrite <- Ha, isclose0_refl by (apply Rmult_le_pos; [lra|]; apply Rle_trans with 1; [lra|apply Rmax_l]).
  cbn -[Rleb]. unfold check_positive. cbn [existsb]. rewrite (proj2 (Rleb_false v 0)) by auto. cbn. eexists. split; [reflexivity|]. split; reflexivity.
Qed.

Lemma build_from pf v : 0 < v -> forall xs s a, strictly_incr (a :: xs) = true ->
  a = match s_pieces s with [] => 0 | _ => s_end s end ->
  exists s', foldM (fun s ab => add_segment pf s "const"%string [fst ab; snd ab] (EScalar v) None)
      (pairs (a :: xs)) s = Ok s' /\
    s_pieces s' = s_pieces s ++ map (cpiece v) (pairs (a :: xs)).
Proof.
  intros Hv. induction xs as [|b xs IH]; intros s a Hi Ha.
  - cbn. exists s. rewrite app_nil_r. auto.
  - apply strictly_incr_cons in Hi as [Hab Hi].
    change (pairs (a :: b :: xs)) with ((a, b) :: pairs (b :: xs)). cbn [foldM fst snd].
    destruct (add_const_ok pf s v a b Hv Hab Ha) as (s1 & E1 & P1 & X1). rewrite E1. cbn [rbind].
    destruct (IH s1 b Hi) as (s' & E & P).
    { rewrite P1, X1. destruct (s_pieces s); reflexivity. }
    exists s'. split; [exact E|]. rewrite P, P1. cbn [map]. rewrite <- app_assoc. reflexivity.
Qed.

Lemma build_const_pieces pf v L xs : 0 < v -> 0 < L -> stations L xs ->
  exists s, build_const pf v xs = Ok s /\ s_pieces s = map (cpiece v) (pairs xs).
Proof.
  intros Hv HL (H0 & Hl & Hi). destruct xs as [|a xs]; [cbn in Hl; lra|]. cbn in H0. subst a.
  destruct (build_from pf v Hv xs sect_empty 0 Hi eq_refl) as (s & E & P). eauto.
Qed.

(** Evaluation on covered points. *)
Lemma const_eval s v ps ab x : s_pieces s = map (cpiece v) ps -> In ab ps -> fst ab <= x <= snd ab ->
  sect_eval s x = Ok v.
Proof.
  intros P Hin Hx. unfold sect_eval. rewrite P.
  destruct (map (cpiece v) ps) as [|q qs] eqn:E; [destruct ps; [destruct Hin|discriminate]|]. rewrite <- E. clear E.
  assert (exists ab', find_piece (map (cpiece v) ps) x = Some (cpiece v ab')) as [ab' ->].
  { clear P. induction ps as [|c ps IH]; [destruct Hin|]. cbn [map find_piece].
    destruct (Rleb (p_x0 (cpiece v c) - 1e-12) x && Rleb x (p_x1 (cpiece v c) + 1e-12)) eqn:Ec; [eauto|].
    destruct Hin as [->|Hin]; [|auto]. exfalso. cbn in Ec.
    rewrite (proj2 (Rleb_true _ x)), (proj2 (Rleb_true x _)) in Ec by lra. discriminate. }
  unfold piece_eval, polyval; cbn. f_equal. ring.
Qed.

Lemma pairs_incr xs : strictly_incr xs = true -> Forall (fun ab => fst ab < snd ab) (pairs xs).
Proof.
  induction xs as [|a [|b t] IH]; intros Hi; cbn; try constructor.
  - cbn. apply strictly_incr_cons in Hi. tauto.
  - apply strictly_incr_cons in Hi. apply IH; tauto.
Qed.

(** Nodes of the constant pieces. *)
Lemma const_nodes gl v ps x w : gauss_rule gl -> Forall (fun ab => fst ab < snd ab) ps ->
  In (x, w) (concat (map (piece_nodes gl) (map (cpiece v) ps))) ->
  exists ab, In ab ps /\ fst ab <= x <= snd ab.
Proof.
  intros G Hp Hin. rewrite map_map in Hin. apply in_concat in Hin as (l & Hl & Hin).
  apply in_map_iff in Hl as (ab & <- & Hab). exists ab. split; auto.
  unfold piece_nodes in Hin; cbn [cpiece p_x0 p_x1 p_degree] in Hin.
  apply in_map_iff in Hin as ([t u] & [= <- <-] & Hin). specialize (G 2%nat).
  rewrite Forall_forall in G, Hp. specialize (G _ Hin). specialize (Hp _ Hab). cbn in *. nra.
Qed.

Lemma qsum_exact g f nd : (forall x w, In (x, w) nd -> g x = Ok (f x)) ->
  qsum g nd = Ok (lsum (map (fun xw => snd xw * f (fst xw)) nd)).
Proof.
  intros Hg. unfold qsum.
  assert (mapM (fun xw => do v <- g (fst xw); Ok (snd xw * v)) nd = Ok (map (fun xw => snd xw * f (fst xw)) nd)) as ->.
  { induction nd as [|[x w] nd IH]; [reflexivity|]. cbn [mapM map fst snd].
    rewrite (Hg x w) by (left; auto). cbn [rbind]. rewrite IH by (intros; eapply Hg; right; eauto). reflexivity. }
  reflexivity.
Qed.

(** The rule integrates quadratics exactly over each piece, and the pieces telescope. *)
Definition Pq (c0 c1 c2 x : R) := c0 * x + c1 * x^2 / 2 + c2 * x^3 / 3.

Lemma rule_piece gl v ab c0 c1 c2 : exact_degree_2 (gl 2%nat) ->
  lsum (map (fun xw => snd xw * (c0 + c1 * fst xw + c2 * (fst xw)^2)) (piece_nodes gl (cpiece v ab)))
  = Pq c0 c1 c2 (snd ab) - Pq c0 c1 c2 (fst ab).
Proof.
  intros (E0 & E1 & E2). unfold piece_nodes; cbn [cpiece p_x0 p_x1 p_degree]. rewrite map_map. cbn [fst snd].
  set (a := fst ab). set (b := snd ab). set (h := 1/2 * (b - a)).
  assert (forall l, lsum (map (fun xw => h * snd xw * (c0 + c1 * (h * (fst xw + 1) + a) + c2 * (h * (fst xw + 1) + a)^2)) l)
    = h * (c0 + c1 * (h + a) + c2 * (h + a)^2) * lsum (map snd l)
      + h * (c1 * h + 2 * c2 * h * (h + a)) * lsum (map (fun xw => snd xw * fst xw) l)
      + h * c2 * h^2 * lsum (map (fun xw => snd xw * (fst xw)^2) l)) as X.
  { induction l as [|[x w] l IH]; [cbn; ring|]. cbn [map]. rewrite !lsum_cons, IH. cbn [fst snd]. ring. }
  rewrite X, E0, E1, E2. unfold Pq, h. field.
Qed.

Lemma rule_pieces gl v c0 c1 c2 xs a : exact_degree_2 (gl 2%nat) ->
  lsum (map (fun xw => snd xw * (c0 + c1 * fst xw + c2 * (fst xw)^2))
       (concat (map (piece_nodes gl) (map (cpiece v) (pairs (a :: xs))))))
  = Pq c0 c1 c2 (last (a :: xs) 0) - Pq c0 c1 c2 a.
Proof.
  intros HE. revert a. induction xs as [|b xs IH]; intros a; [cbn; ring|].
  change (pairs (a :: b :: xs)) with ((a, b) :: pairs (b :: xs)). cbn [map concat].
  rewrite map_app, lsum_app, IH, rule_piece by auto. cbn [fst snd].
  change (last (a :: b :: xs) 0) with (last (b :: xs) 0). ring.
Qed.

Section One.
Variables (gl : nat -> list (R * R)) (pf : list R -> list R -> nat -> list R) (v L : R) (xs : list R) (s : sect).
Hypotheses (G : gauss_rule gl) (G2 : exact_degree_2 (gl 2%nat)) (Hv : 0 < v) (HL : 0 < L)
  (St : stations L xs) (Hs : build_const pf v xs = Ok s).

Lemma cs_pieces : s_pieces s = map (cpiece v) (pairs xs).
Proof.
  destruct (build_const_pieces pf v L xs Hv HL St) as (s' & E & P). congruence.
Qed.

Lemma cs_nodes : exists nd, gauss_nodes gl s = Ok nd /\
  nd = concat (map (piece_nodes gl) (map (cpiece v) (pairs xs))) /\
  forall x w, In (x, w) nd -> sect_eval s x = Ok v.
Proof.
  exists (concat (map (piece_nodes gl) (map (cpiece v) (pairs xs)))). split; [|split; [reflexivity|]].
  - unfold gauss_nodes. rewrite cs_pieces.
    destruct St as (H0 & Hl & Hi). destruct xs as [|a [|b t]]; cbn in H0, Hl; try (exfalso; lra). reflexivity.
  - intros x w Hin. destruct (const_nodes gl v (pairs xs) x w G) as (ab & H1 & H2); auto.
    + apply pairs_incr. apply St.
    + apply (const_eval s v (pairs xs) ab); auto. apply cs_pieces.
Qed.

Lemma cs_quad c0 c1 c2 g nd : nd = concat (map (piece_nodes gl) (map (cpiece v) (pairs xs))) ->
  (forall x w, In (x, w) nd -> g x = Ok (c0 + c1 * x + c2 * x^2)) ->
  qsum g nd = Ok (Pq c0 c1 c2 L).
Proof.
  intros End Hg. rewrite (qsum_exact g (fun x => c0 + c1 * x + c2 * x^2)) by auto. f_equal. rewrite End.
  destruct St as (H0 & Hl & Hi). destruct xs as [|a t]; cbn in H0; [cbn in Hl; lra|]. subst a.
  rewrite (rule_pieces gl v c0 c1 c2 t 0 G2). rewrite Hl. unfold Pq. field.
Qed.

Lemma cs_flex : flexibility gl s L =
  Ok {| m00 := L / (3 * v); m01 := - L / (6 * v); m10 := - L / (6 * v); m11 := L / (3 * v) |}.
Proof.
  destruct cs_nodes as (nd & Hn & End & Hev). unfold flexibility. rewrite Hn. cbn [rbind].
  rewrite (cs_quad (1/v) (-2/(L*v)) (1/(L^2*v)) _ nd End).
  2:{ intros x w Hin. rewrite (Hev x w Hin). cbn [rbind]. f_equal. field. lra. }
  cbn [rbind].
  rewrite (cs_quad 0 (-1/(L*v)) (1/(L^2*v)) _ nd End).
  2:{ intros x w Hin. rewrite (Hev x w Hin). cbn [rbind]. f_equal. field. lra. }
  cbn [rbind].
  rewrite (cs_quad 0 0 (1/(L^2*v)) _ nd End).
  2:{ intros x w Hin. rewrite (Hev x w Hin). cbn [rbind]. f_equal. field. lra. }
  cbn [rbind]. unfold Pq. f_equal. f_equal; field; lra.
Qed.

Lemma cs_shear : shear_flexibility gl (RSect s) L = shear_flexibility gl (RConst v) L.
Proof.
  destruct cs_nodes as (nd & Hn & End & Hev). unfold shear_flexibility. rewrite Hn. cbn [rbind].
  rewrite (cs_quad (1/v) 0 0 _ nd End).
  2:{ intros x w Hin. rewrite (Hev x w Hin). cbn [rbind]. f_equal. field. lra. }
  cbn [rbind]. unfold Pq. f_equal. field. lra.
Qed.
End One.

Lemma describes_timo gl L v e g g' : gauss_rule gl -> exact_degree_2 (gl 2%nat) -> 0 < L -> 0 < v -> 0 < g ->
  describes L v e -> describes L g g' ->
  timo_flexibility gl e g' L = timo_flexibility gl (RConst v) (RConst g) L.
Proof.
  intros G G2 HL Hv Hg [-> | (pf & xs & s & St & Hs & ->)] Hg'.
  - unfold timo_flexibility. cbn [rbind]. destruct Hg' as [-> | (pf' & xs' & s' & St' & Hs' & ->)]; auto.
    rewrite (cs_shear gl pf' g L xs' s'); auto.
  - unfold timo_flexibility. rewrite (cs_flex gl pf v L xs s); auto. cbn [rbind].
    destruct Hg' as [-> | (pf' & xs' & s' & St' & Hs' & ->)]; auto.
    rewrite (cs_shear gl pf' g L xs' s'); auto.
Qed.

Lemma cs_ktheta gl pf v L xs s : gauss_rule gl -> exact_degree_2 (gl 2%nat) -> 0 < v -> 0 < L ->
  stations L xs -> build_const pf v xs = Ok s -> k_theta gl s L = Ok (prism_K v L).
Proof.
  intros G G2 Hv HL St Hs. unfold k_theta. rewrite (cs_flex gl pf v L xs s) by auto. cbn [rbind].
  unfold inv22; cbn [m00 m01 m10 m11].
  assert (Ed : L/(3*v)*(L/(3*v)) - -L/(6*v)*(-L/(6*v)) = L^2/(12*v^2)) by (field; lra).
  rewrite Ed. assert (0 < L^2/(12*v^2)) by (apply Rdiv_lt_0_compat; [apply pow_lt; auto|assert (0 < v^2) by (apply pow_lt; auto); lra]).
  destruct Req_EM_T as [E|E]; [lra|]. unfold prism_K. f_equal. f_equal; field; lra.
Qed.

Lemma const_section_stiffness gl L v e g g' t :
  gauss_rule gl -> exact_degree_2 (gl 2%nat) -> 0 < L -> 0 < v -> (1 <= t <= 4)%nat ->
  describes L v e ->
  match g with None => g' = None | Some g0 => 0 < g0 /\ exists h, g' = Some h /\ describes L g0 h end ->
  exists k k',
    span_k gl {| mb_L := L; mb_EI := RConst v; mb_GAv := option_map RConst g; mb_kf := None; mb_type := t |} = Ok k /\
    span_k gl {| mb_L := L; mb_EI := e; mb_GAv := g'; mb_kf := None; mb_type := t |} = Ok k' /\
    forall i j, (i < 4)%nat -> (j < 4)%nat -> k i j = k' i j.
Proof.
  intros G G2 HL Hv Ht De Dg. destruct g as [g|].
  - destruct Dg as (Hg & h & -> & Dh). cbn [option_map].
    destruct (timo_flex_const gl v g L HL Hv Hg) as (F & K & HF & HK).
    assert (Em := k_FF_timo_flex gl v g L F K HL Hv Hg HF HK).
    assert (HF' := describes_timo gl L v e g h G G2 HL Hv Hg De Dh). rewrite HF in HF'.
    assert (PK : pd22 K).
    { destruct (timo_psd gl (RConst v) (RConst g) L F G Hv Hg HL HF). eapply psd_inv_pd; eauto. }
    assert (exists kr, condense (expand K L) t = Ok kr) as (kr & Hkr).
    { assert (X11 : expand K L 1%nat 1%nat = m00 K) by (unfold expand; cbn; ring).
      assert (X13 : expand K L 1%nat 3%nat = m01 K) by (unfold expand; cbn; ring).
      assert (X31 : expand K L 3%nat 1%nat = m10 K) by (unfold expand; cbn; ring).
      assert (X33 : expand K L 3%nat 3%nat = m11 K) by (unfold expand; cbn; ring).
      destruct PK as (Es & P0 & Pd).
      assert (0 < m11 K) by nra.
      destruct t as [|[|[|[|[|t]]]]]; try lia; cbn [condense].
      - eauto.
      - unfold condense1. rewrite X33. destruct Req_EM_T; [lra|eauto].
      - unfold condense1. rewrite X11. destruct Req_EM_T; [lra|eauto].
      - unfold condense13, inv22. cbn [m00 m01 m10 m11]. rewrite X11, X13, X31, X33.
        destruct Req_EM_T; [lra|]. cbn [rbind]. eauto. }
    destruct (condense_meq _ (k_FF_timo v g L) t kr Em Hkr) as (kr2 & Hkr2 & E2).
    assert (S2 : span_k gl {| mb_L := L; mb_EI := RConst v; mb_GAv := Some (RConst g); mb_kf := None; mb_type := t |} = Ok kr2)
      by exact Hkr2.
    exists kr2. destruct De as [-> | De], Dh as [-> | Dh].
    + exists kr2. repeat split; auto.
    + exists kr. split; [exact S2|]. destruct Dh as (pf & xs & s & St & Hs & ->). split.
      * cbn [span_k mb_kf mb_GAv mb_EI mb_L mb_type]. unfold k_timoshenko. rewrite HF'. cbn [rbind]. rewrite HK. exact Hkr.
      * intros i j Hi Hj. symmetry. apply E2; auto.
    + exists kr. split; [exact S2|]. destruct De as (pf & xs & s & St & Hs & ->). split.
      * cbn [span_k mb_kf mb_GAv mb_EI mb_L mb_type]. unfold k_timoshenko. rewrite HF'. cbn [rbind]. rewrite HK. exact Hkr.
      * intros i j Hi Hj. symmetry. apply E2; auto.
    + exists kr. split; [exact S2|]. destruct De as (pf & xs & s & St & Hs & ->). destruct Dh as (pf' & xs' & s' & St' & Hs' & ->). split.
      * cbn [span_k mb_kf mb_GAv mb_EI mb_L mb_type]. unfold k_timoshenko. rewrite HF'. cbn [rbind]. rewrite HK. exact Hkr.
      * intros i j Hi Hj. symmetry. apply E2; auto.
  - subst g'. cbn [option_map]. eexists. destruct De as [-> | (pf & xs & s & St & Hs & ->)].
    + eexists. repeat split. auto.
    + destruct (prism_condense v L t HL Hv Ht) as (kr & H1 & H2). exists kr. split; [reflexivity|]. split.
      * cbn [span_k mb_kf mb_GAv mb_EI mb_L mb_type]. unfold k_nonprismatic.
        rewrite (cs_ktheta gl pf v L xs s) by auto. exact H1.
      * intros i j Hi Hj. symmetry. apply H2; auto.
Qed.

(** The two-point Gauss rule. *)
Definition gauss2 : list (R * R) := [(- (1 / sqrt 3), 1); (1 / sqrt 3, 1)].

Lemma gauss2_exact : exact_degree_2 gauss2.
Proof.
  assert (0 < sqrt 3) by (apply sqrt_lt_R0; lra).
  assert (E : sqrt 3 * sqrt 3 = 3) by (apply sqrt_sqrt; lra).
  unfold exact_degree_2, gauss2; cbn. repeat split; try (field; lra).
  assert (E2 : 1 / sqrt 3 * (1 / sqrt 3) = 1 / 3).
  { replace (1 / sqrt 3 * (1 / sqrt 3)) with (1 / (sqrt 3 * sqrt 3)) by (field; lra). rewrite E. reflexivity. }
  nra.
Qed.

Lemma gauss2_rule : gauss_rule (fun _ => gauss2).
Proof.
  assert (1 < sqrt 3) by (rewrite <- sqrt_1 at 1; apply sqrt_lt_1; lra).
  assert (0 < 1 / sqrt 3 < 1).
  { split; [apply Rdiv_lt_0_compat; lra|]. apply (Rmult_lt_reg_r (sqrt 3)); [lra|].
    replace (1 / sqrt 3 * sqrt 3) with 1 by (field; lra). lra. }
  intros _. unfold gauss2. repeat constructor; cbn; lra.
Qed.
