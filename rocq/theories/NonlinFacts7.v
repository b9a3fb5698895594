(** Moving loads over a plastic beam. *)
From Coq Require Import ZArith Sorted.
From Verif Require Import Base BaseFacts Linalg LinalgFacts SectionModel LoadModel VehicleModel BridgeModel FoundationModel ElementSpec AnalysisSpec FoundSpec FoundFacts2 NonlinModel NonlinSpec NonlinFacts2 NonlinFacts3 NonlinFacts4 NonlinFacts5 NonlinFacts6.
Open Scope R_scope.

Section Moving.
Variable rd : nat -> mat -> bool.
Variable a : nba.
Hypothesis Me : meshed a.
Hypothesis Bc : forall i, In i (nb_bc a) -> (i < nb_dof a)%nat.
Hypothesis Ca : capacities a.

Definition minv (h : hist) (G : vec) (s : mvstate) : Prop := tracks a h (mv_p s) /\ exists f, balanced a G (mv_M s) f.
Definition at_x (x : R) (Ms : list vec) : hist := map (fun M => (x, M)) Ms.
Definition keeps (s s' : mvstate) : Prop := mv_lh s' = mv_lh s /\ mv_mh s' = mv_mh s.
(** A pass over a state: goes on with load changed by [D], or ends the analysis. *)
Definition passes (x : R) (D : vec) (f : mvstate -> mvstate + result nlresult) : Prop := forall h G s, minv h G s ->
  (exists s' Ms, f s = inl s' /\ keeps s s' /\ minv (h ++ at_x x Ms) (fun i => G i + D i) s') \/
  (exists s' Ms, f s = inr (Ok (mr s' x true)) /\ keeps s s' /\ tracks a (h ++ at_x x Ms) (mv_p s')).
Lemma keeps_refl s : keeps s s. Proof. split; reflexivity. Qed.
Lemma keeps_trans s s' s'' : keeps s s' -> keeps s' s'' -> keeps s s''. Proof. intros [A B] [C D]. split; congruence. Qed.
Lemma minv_ext h G G' s : (forall i, G i = G' i) -> minv h G s -> minv h G' s.
Proof. intros E [T [f B]]. split; [exact T|]. exists f. apply (balanced_ext a G); assumption. Qed.
Lemma reload_passes x d Fc : passes x (fun i => d * Fc i) (reload a d Fc x).
Proof.
  intros h G s [T [f B]]. unfold reload. set (p := fst (update_R a (mv_M s) (mv_p s) x)). assert (T' := tracks_step a h (mv_p s) (mv_M s) x Ca T). fold p in T'.
  destruct (solve _ _ _) as [u|] eqn:E.
  - left. eexists. exists [mv_M s]. split; [reflexivity|]. split; [split; reflexivity|]. destruct (increment_balanced a Me Bc (nb_k a (pl_R p)) _ u (k_balanced a Me (pl_R p)) E) as (B' & _). split; [exact T'|]. eexists. apply (balanced_add a _ _ _ _ _ _ B B').
  - right. exists (with_pM s p (mv_M s)), [mv_M s]. split; [reflexivity|]. split; [split; reflexivity|exact T'].
Qed.
Definition elastic_stable : Prop := forall b, exists u, solve (nb_dof a) (bc_matrix (nb_bc a) (nb_elastic a)) b = Some u.
Lemma cycle_passes x d Fp Fc : elastic_stable -> passes x (fun i => - d * Fp i + d * Fc i) (fun s => match unload a d Fp s with inl s' => reload a d Fc x s' | inr r => inr r end).
Proof.
  intros El h G s [T [f B]]. unfold unload. destruct (El (bc_vector (nb_bc a) (fun i => - d * Fp i))) as (u & E). rewrite E. destruct (increment_balanced a Me Bc (nb_ke a) _ u (elastic_balanced a Me) E) as (B' & _). change (extract_elastic a u) with (moments_of (nb_ke a) u).
  set (s1 := with_pM s (mv_p s) (fun j => mv_M s j + moments_of (nb_ke a) u j)). assert (I1 : minv h (fun i => G i + - d * Fp i) s1) by (split; [exact T|eexists; apply (balanced_add a _ _ _ _ _ _ B B')]).
  destruct (reload_passes x d Fc h _ s1 I1) as [(s' & Ms & E1 & K & I)|(s' & Ms & E1 & K & I)]; [left|right]; exists s', Ms; (split; [exact E1|]); (split; [apply (keeps_trans s s1); [split; reflexivity|exact K]|]); [|exact I]. apply (minv_ext _ (fun i => (G i + - d * Fp i) + d * Fc i)); [intros i; ring|exact I].
Qed.
Lemma iterate_passes x D f : passes x D f -> forall n, passes x (fun i => INR n * D i) (iterate f n).
Proof.
  intros Pf. induction n as [|n IH]; intros h G s I.
  - left. exists s, []. split; [reflexivity|]. split; [apply keeps_refl|]. cbn [at_x map]. rewrite app_nil_r. apply (minv_ext _ G); [intros i; cbn [INR]; ring|exact I].
  - cbn [iterate]. destruct (Pf h G s I) as [(s1 & Ms & E1 & K1 & I1)|(s1 & Ms & E1 & K1 & I1)]; rewrite E1.
    + destruct (IH _ _ s1 I1) as [(s2 & Ms2 & E2 & K2 & I2)|(s2 & Ms2 & E2 & K2 & I2)]; [left|right]; exists s2, (Ms ++ Ms2); (split; [exact E2|]); (split; [apply (keeps_trans s s1); assumption|]); unfold at_x in *; rewrite map_app, app_assoc; [|exact I2]. apply (minv_ext _ (fun i => G i + D i + INR n * D i)); [intros i; rewrite S_INR; ring|exact I2].
    + right. exists s1, Ms. split; [reflexivity|]. split; assumption.
Qed.
(** One position after the first. *)
Lemma move_passes x n Fp Fc h G s : elastic_stable -> n <> 0%nat -> minv h G s -> (forall i, G i = Fp i) ->
  (exists s' Ms, move rd a (1 / INR n) n Fp Fc x false s = inl s' /\ keeps s s' /\ minv (h ++ at_x x Ms) Fc s') \/
  (exists s' Ms, move rd a (1 / INR n) n Fp Fc x false s = inr (Ok (mr s' x true)) /\ keeps s s' /\ tracks a (h ++ at_x x Ms) (mv_p s')).
Proof.
  intros El Hn I EG. unfold move. destruct (iterate_passes x _ _ (cycle_passes x (1 / INR n) Fp Fc El) n h G s I) as [(s1 & Ms & E1 & K1 & [T1 [f1 B1]])|(s1 & Ms & E1 & K1 & I1)]; rewrite E1; [|right; exists s1, Ms; split; [reflexivity|split; assumption]].
  assert (T2 := tracks_step a _ _ (mv_M s1) x Ca T1). set (up := update_R a (mv_M s1) (mv_p s1) x) in *. assert (Ea : (h ++ at_x x Ms) ++ [(x, mv_M s1)] = h ++ at_x x (Ms ++ [mv_M s1])) by (unfold at_x; rewrite map_app, app_assoc; reflexivity). rewrite Ea in T2.
  destruct (snd up && is_mechanism rd a (pl_hinged (fst up)))%bool; [right|left]; exists (with_pM s1 (fst up) (mv_M s1)), (Ms ++ [mv_M s1]); (split; [reflexivity|]); (split; [apply (keeps_trans s s1); [exact K1|split; reflexivity]|]); [exact T2|]. split; [exact T2|]. exists f1. apply (balanced_ext a (fun i => G i + INR n * (- (1 / INR n) * Fp i + 1 / INR n * Fc i))); [|exact B1]. intros i. rewrite EG. field. apply not_0_INR. exact Hn.
Qed.
Variables (aw cs : list R) (n_sub : nat).
Hypothesis Hn : n_sub <> 0%nat.
Let V := vehicle_forces a aw cs.
Definition recorded_ok (s : mvstate) : Prop := length (mv_lh s) = length (mv_mh s) /\ forall t, In t (combine (mv_lh s) (mv_mh s)) -> exists f, balanced a (V (fst t)) (snd t) f.
(** What a finished analysis looks like. *)
Record drove (ps : list R) (xl : R) (r : nlresult) (h : hist) : Prop := {
  dr_R : stiffness_after a h (nr_R r);
  dr_ev : events_of a h (nr_events r);
  dr_sorted : StronglySorted Rle (map fst h);
  dr_in : forall t, In t h -> In (fst t) ps /\ fst t <= nr_lambda r;
  dr_lam : In (nr_lambda r) ps;
  dr_len : length (nr_lam_hist r) = length (nr_mom_hist r);
  dr_rec : forall t, In t (combine (nr_lam_hist r) (nr_mom_hist r)) -> exists f, balanced a (V (fst t)) (snd t) f;
  dr_end : nr_collapsed r = false -> nr_lambda r = xl /\ exists f, balanced a (V xl) (nr_moments r) f }.
Lemma combine_snoc {A B} (l : list A) (m : list B) x y : length l = length m -> combine (l ++ [x]) (m ++ [y]) = combine l m ++ [(x, y)].
Proof. revert m. induction l as [|z l IH]; intros [|w m] E; cbn in *; try discriminate; [reflexivity|]. f_equal. apply IH. lia. Qed.
Lemma at_x_sorted h x Ms : StronglySorted Rle (map fst h) -> (forall t, In t h -> fst t <= x) -> StronglySorted Rle (map fst (h ++ at_x x Ms)).
Proof.
  intros Hs Hl. rewrite map_app. assert (C : forall y, In y (map fst (at_x x Ms)) -> y = x) by (intros y Iy; unfold at_x in Iy; rewrite map_map in Iy; apply in_map_iff in Iy; destruct Iy as (M & <- & _); reflexivity). apply ss_app; [exact Hs|apply (ss_const _ x C)|]. intros y z Iy Iz. rewrite (C z Iz). apply in_map_iff in Iy. destruct Iy as (t & <- & It). apply Hl. exact It.
Qed.
Lemma at_x_in t x Ms : In t (at_x x Ms) -> fst t = x. Proof. unfold at_x. intros I. apply in_map_iff in I. destruct I as (M & <- & _). reflexivity. Qed.
Lemma moves_ends k xl (all : list R) : elastic_stable -> forall ps i h s Fp xp, i <> 0%nat -> minv h Fp s -> (ps = [] -> Fp = V xl /\ xp = xl) -> (ps <> [] -> last ps 0 = xl) -> In xp all -> incl ps all -> StronglySorted Rle (xp :: ps) ->
  StronglySorted Rle (map fst h) -> (forall t, In t h -> In (fst t) all /\ fst t <= xp) -> recorded_ok s ->
  exists r h', moves rd a aw cs (1 / INR n_sub) n_sub k i Fp ps xl s = Ok r /\ drove all xl r h' /\
    (k = 1%nat -> nr_collapsed r = false -> nr_lam_hist r = mv_lh s ++ ps).
Proof.
  intros El. induction ps as [|x ps IH]; intros i h s Fp xp Hi I EF EL Ia Inc Ss Sh Hh Rc.
  - destruct (EF eq_refl) as [EF1 EF2]. subst Fp xp. exists (mr s xl false), h. split; [reflexivity|]. destruct I as [T [f B]]. destruct Rc as [Rc1 Rc2]. split; [|intros _ _; cbn; rewrite app_nil_r; reflexivity]. constructor; cbn [mr nr_R nr_events nr_lambda nr_lam_hist nr_mom_hist nr_collapsed nr_moments]; try assumption.
    + apply (tr_R a h _ T).
    + apply (tr_events a h _ T).
    + intros _. split; [reflexivity|exists f; exact B].
  - cbn [moves]. assert (Xa : In x all) by (apply Inc; left; reflexivity). inversion Ss as [|xp' l' Ss1 Fa]. subst xp' l'. inversion Fa as [|x' l' Lx _]. subst x' l'. assert (Hh' : forall t, In t h -> fst t <= x) by (intros t It; specialize (Hh t It); lra).
    replace (Nat.eqb i 0) with false by (symmetry; apply Nat.eqb_neq; exact Hi). fold V. destruct (move_passes x n_sub Fp (V x) h Fp s El Hn I ltac:(reflexivity)) as [(s1 & Ms & E1 & [K1 K2] & I1)|(s1 & Ms & E1 & [K1 K2] & T1)]; rewrite E1.
    + set (s2 := if (Nat.ltb 0 k && Nat.eqb (i mod k) 0)%bool then _ else s1). assert (P2 : mv_p s2 = mv_p s1 /\ mv_M s2 = mv_M s1) by (unfold s2; destruct (Nat.ltb 0 k && Nat.eqb (i mod k) 0)%bool; split; reflexivity). destruct P2 as [P2 P3].
      destruct Rc as [Rc1 Rc2]. assert (R2 : recorded_ok s2). { destruct I1 as [_ [f B]]. unfold s2, recorded_ok. destruct (Nat.ltb 0 k && Nat.eqb (i mod k) 0)%bool; cbn [mv_lh mv_mh]; rewrite K1, K2; [|split; assumption]. rewrite !app_length. cbn [length]. split; [lia|]. rewrite combine_snoc by exact Rc1. intros t It. apply in_app_or in It. destruct It as [It|[<-|[]]]; [apply Rc2; exact It|]. cbn [fst snd]. exists f. exact B. }
      destruct (IH (S i) (h ++ at_x x Ms) s2 (V x) x) as (r & h' & Er & Dr & Rl).
      * lia.
      * unfold minv. rewrite P2, P3. exact I1.
      * intros ->. split; [|apply EL; discriminate]. f_equal. apply (EL ltac:(discriminate)).
      * intros N. rewrite <- (EL ltac:(discriminate)). destruct ps; [contradiction|reflexivity].
      * exact Xa.
      * intros y Iy. apply Inc. right. exact Iy.
      * exact Ss1.
      * apply at_x_sorted; assumption.
      * intros t It. apply in_app_or in It. destruct It as [It|It]; [split; [apply Hh; exact It|apply Hh'; exact It]|rewrite (at_x_in t x Ms It); split; [exact Xa|lra]].
      * exact R2.
      * exists r, h'. split; [exact Er|]. split; [exact Dr|]. intros Hk Hc. rewrite (Rl Hk Hc). subst k. unfold s2. rewrite Nat.mod_1_r. cbn [Nat.ltb Nat.leb Nat.eqb andb mv_lh]. rewrite K1, <- app_assoc. reflexivity.
    + exists (mr s1 x true), (h ++ at_x x Ms). split; [reflexivity|]. destruct Rc as [Rc1 Rc2]. split; [|intros _ Hc; discriminate Hc]. constructor; cbn [mr nr_R nr_events nr_lambda nr_lam_hist nr_mom_hist nr_collapsed nr_moments]; rewrite ?K1, ?K2; try assumption; try discriminate.
      * apply (tr_R a _ _ T1).
      * apply (tr_events a _ _ T1).
      * apply at_x_sorted; assumption.
      * intros t It. apply in_app_or in It. destruct It as [It|It]; [split; [apply Hh; exact It|apply Hh'; exact It]|rewrite (at_x_in t x Ms It); split; [exact Xa|lra]].
Qed.
End Moving.

(** The first position decides whether the elastic beam is stable. *)
Section First.
Variable a : nba.
Hypothesis Me : meshed a.
Hypothesis Bc : forall i, In i (nb_bc a) -> (i < nb_dof a)%nat.
Hypothesis Ca : capacities a.
Hypothesis My : forall j, (j < nb_nodes a)%nat -> 0 <= nb_gy a j.
Lemma first_elastic x e i : (e < nb_elems a)%nat -> (i < 2)%nat -> pl_R (fst (update_R a (fun _ => 0) plast0 x)) e i = 1.
Proof.
  intros He Hi. assert (T := tracks_step a [] plast0 (fun _ => 0) x Ca (tracks_nil a)). apply tr_R in T. destruct T as (S1 & S2). cbn [app] in S2. assert (Mn := me_nodes a Me). assert (O : forall j, (j < nb_nodes a)%nat -> owned (pl_R (fst (update_R a (fun _ => 0) plast0 x))) j = 1).
  { intros j Hj. destruct (S2 j Hj) as (_ & Q). destruct (Q [] (x, fun _ => 0) eq_refl) as (Q1 & _). specialize (Q1 ltac:(intros t [])). cbn [snd] in Q1. specialize (My j Hj). assert (Z : ratio a (fun _ => 0) j = 0) by (unfold ratio; rewrite Rabs_R0; unfold Rdiv; ring). rewrite Z in Q1. destruct Q1 as [[_ E]|[(B & B' & _)|[B _]]]; [exact E|lra|lra]. }
  destruct i as [|[|i]]; [|apply (O (S e)); lia|lia]. destruct e as [|e]; [apply (O 0%nat); lia|]. apply S1. lia.
Qed.
Lemma full_k Re e d q : Re e 0%nat = 1 -> Re e 1%nat = 1 -> end_forces (nb_k a Re e) d q = end_forces (nb_ke a e) d q.
Proof.
  intros E0 E1. unfold end_forces, mulmv. apply rsum_ext. intros i _. unfold nb_k. rewrite E0, E1. destruct (Rleb 1 1); ring.
Qed.
Lemma first_stable x b u : solve (nb_dof a) (bc_matrix (nb_bc a) (nb_assemble a (pl_R (fst (update_R a (fun _ => 0) plast0 x))))) b = Some u -> elastic_stable a.
Proof.
  intros E b'. assert (Fe := first_elastic x). set (Re := pl_R (fst (update_R a (fun _ => 0) plast0 x))) in *. clearbody Re. assert (Q := proj1 (solve_some_iff _ _ b) (ex_intro _ u E)). apply solve_some_iff. intros y Hy. apply Q. apply bc_kernel in Hy. destruct Hy as (Z & K). intros i Hi. destruct (in_dec Nat.eq_dec i (nb_bc a)) as [I|I]; [rewrite bc_row_fixed by assumption; apply Z; assumption|]. rewrite bc_row_free by assumption. rewrite <- (K i Hi I). rewrite (dof4 a Me) in *. unfold nb_assemble, nb_elastic. rewrite !chain_nodal by exact Hi. unfold nodal_sum. assert (Sm := me_some a Me). assert (Hm := Nat.mod_upper_bound i 2 ltac:(lia)). assert (Dm := Nat.div_mod i 2 ltac:(lia)).
  destruct (Nat.ltb_spec i (2 * nb_elems a)); destruct (Nat.leb_spec 2 i); rewrite ?full_k by (apply Fe; lia); reflexivity.
Qed.
Lemma front_positions_sorted xe st : 0 < st -> StronglySorted Rle (front_positions xe st).
Proof.
  intros Hs. unfold front_positions. generalize (Z.to_nat (Zceil ((xe + st / 2) / st))) as m. intros m. apply rising_ss. rewrite map_length, seq_length. intros i Hi. rewrite !(nth_indep _ 0 (INR 0 * st)) by (rewrite map_length, seq_length; lia). rewrite !(map_nth (fun i => INR i * st)), !seq_nth by lia. cbn [Nat.add]. rewrite S_INR. lra.
Qed.
Variable rd : nat -> mat -> bool.
Lemma moving_drives (m : moving) st n_sub k aw cs vL : (match m with MVehicle v => (v_axw v, v_coords v, v_L v) | MAxle P => ([P], [0], 0) | MNone => ([], [], 0) end) = (aw, cs, vL) ->
  m <> MNone -> 0 < st -> 0 <= nb_total a + vL -> n_sub <> 0%nat ->
  exists r h, nl_moving rd a m st n_sub k = Ok r /\ drove a aw cs (front_positions (nb_total a + vL) st) (last (front_positions (nb_total a + vL) st) 0) r h /\
    (k = 1%nat -> nr_collapsed r = false -> nr_lam_hist r = front_positions (nb_total a + vL) st).
Proof.
  intros Em Nm Hs Ht Hn. unfold nl_moving. assert (Ev : (match m with MVehicle v => Ok (v_axw v, v_coords v, v_L v) | MAxle P => Ok ([P], [0], 0) | MNone => Err ValueError end) = Ok (aw, cs, vL)) by (destruct m; [f_equal; exact Em|f_equal; exact Em|contradiction]). rewrite Ev. cbn [rbind]. destruct (Nat.eqb_spec n_sub 0); [contradiction|].
  assert (Ss := front_positions_sorted (nb_total a + vL) st Hs). set (all := front_positions (nb_total a + vL) st) in *. assert (Ne : exists ps, all = 0 :: ps).
  { unfold all, front_positions. assert (Z : (1 <= Z.to_nat (Zceil ((nb_total a + vL + st / 2) / st)))%nat). { assert (Q : 0 < (nb_total a + vL + st / 2) / st) by (apply Rmult_lt_0_compat; [lra|apply Rinv_0_lt_compat; exact Hs]). set (y := (nb_total a + vL + st / 2) / st) in *. clearbody y. unfold Zceil. destruct (base_Int_part (- y)) as (B1 & B2). assert (Zp : (Int_part (- y) < 0)%Z) by (apply lt_IZR; lra). lia. }
    destruct (Z.to_nat (Zceil ((nb_total a + vL + st / 2) / st))) as [|m']; [lia|]. eexists. cbn [seq map]. f_equal. cbn [INR]. ring. }
  destruct Ne as (ps & Ea). rewrite Ea. clearbody all. subst all. cbn [moves Nat.eqb]. set (xl := last (0 :: ps) 0). set (s0 := {| mv_p := plast0; mv_M := fun _ => 0; mv_lh := []; mv_mh := [] |}). set (V := vehicle_forces a aw cs). unfold move.
  assert (I0 : minv a [] (fun _ => 0) s0) by (split; [apply tracks_nil|exists (fun _ _ => 0); apply balanced_zero]).
  destruct (iterate_passes a 0 _ _ (reload_passes a Me Bc Ca 0 (1 / INR n_sub) (V 0)) n_sub [] _ s0 I0) as [(s1 & Ms & E1 & [K1 K2] & I1)|(s1 & Ms & E1 & [K1 K2] & T1)]; fold (V 0); rewrite E1.
  - assert (El : elastic_stable a). { destruct n_sub as [|n1]; [contradiction|]. cbn [iterate] in E1. unfold reload at 1 in E1. cbn [s0 mv_M mv_p] in E1. destruct (solve _ _ _) as [u|] eqn:E; [|discriminate E1]. apply (first_stable _ _ _ E). }
    assert (I1' : minv a (at_x 0 Ms) (V 0) s1). { apply (minv_ext a _ (fun i => 0 + INR n_sub * (1 / INR n_sub * V 0 i))); [intros i; field; apply not_0_INR; exact Hn|exact I1]. }
    set (s2 := if (Nat.ltb 0 k && Nat.eqb (0 mod k) 0)%bool then _ else s1). assert (P2 : mv_p s2 = mv_p s1 /\ mv_M s2 = mv_M s1) by (unfold s2; destruct (Nat.ltb 0 k && Nat.eqb (0 mod k) 0)%bool; split; reflexivity). destruct P2 as [P2 P3].
    cbn [s0 mv_lh mv_mh] in K1, K2. destruct (moves_ends rd a Me Bc Ca aw cs n_sub Hn k xl (0 :: ps) El ps 1%nat (at_x 0 Ms) s2 (V 0) 0) as (r & h & Er & Dr & Rl).
    + lia.
    + unfold minv. rewrite P2, P3. exact I1'.
    + intros ->. split; reflexivity.
    + intros N. unfold xl. destruct ps; [contradiction|reflexivity].
    + left. reflexivity.
    + intros y Iy. right. exact Iy.
    + exact Ss.
    + assert (Q := at_x_sorted [] 0 Ms). cbn [app] in Q. apply Q; [constructor|intros t []].
    + intros t It. rewrite (at_x_in t 0 Ms It). split; [left; reflexivity|lra].
    + unfold recorded_ok, s2. destruct (Nat.ltb 0 k && Nat.eqb (0 mod k) 0)%bool; cbn [mv_lh mv_mh]; rewrite K1, K2; cbn [app length combine]; (split; [reflexivity|]); [|intros t []]. intros t [<-|[]]. cbn [fst snd]. apply I1'.
    + exists r, h. split; [exact Er|]. split; [exact Dr|]. intros Hk Hc. rewrite (Rl Hk Hc). subst k. unfold s2. cbn [Nat.ltb Nat.leb andb Nat.modulo]. cbn. rewrite K1. reflexivity.
  - exists (mr s1 0 true), (at_x 0 Ms). split; [reflexivity|]. cbn [s0 mv_lh mv_mh] in K1, K2. split; [|intros _ Hc; discriminate Hc]. constructor; cbn [mr nr_R nr_events nr_lambda nr_lam_hist nr_mom_hist nr_collapsed nr_moments]; rewrite ?K1, ?K2; try discriminate.
    + apply (tr_R a _ _ T1).
    + apply (tr_events a _ _ T1).
    + assert (Q := at_x_sorted [] 0 Ms). cbn [app] in Q. apply Q; [constructor|intros t []].
    + intros t It. rewrite (at_x_in t 0 Ms It). split; [left; reflexivity|lra].
    + left. reflexivity.
    + reflexivity.
    + intros t [].
Qed.
End First.
