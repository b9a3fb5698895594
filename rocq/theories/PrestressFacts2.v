(** The loads generated for a span, and the moments they cause. *)
From Coquelicot Require Import Coquelicot.
From Coq Require Import Lia Sorting.
From Verif Require Import Base BaseFacts LoadModel LoadSpec LoadFacts DiagFacts LMFacts BeamModel ResultsModel ResultsSpec ResultsFacts
  PrestressModel PrestressSpec PrestressFacts SuperFacts.
Open Scope R_scope.

(** ** Moments of a list of loads about a section *)
Definition gm (ld : load) (x : R) : R :=
  match ld with
  | LUDL w => w * x ^ 2 / 2
  | LPL P a => P * MB (x - a)
  | LPUDL w a c => w * hh x a (a + c)
  | _ => 0
  end.
Definition gt (L : R) (ld : load) : R :=
  match ld with LUDL w => w * L | LPL P _ => P | LPUDL w a c => w * c | _ => 0 end.
Definition ordinary (L : R) (ld : load) : Prop :=
  match ld with
  | LUDL _ => True
  | LPL _ a => 0 <= a <= L
  | LML _ a => 0 <= a <= L
  | LPUDL _ a c => 0 <= a /\ 0 <= c /\ a + c <= L
  | _ => False
  end.
Definition gsum (lds : list load) (x : R) : R := lsum (map (fun ld => gm ld x) lds).
Definition gtot (L : R) (lds : list load) : R := lsum (map (gt L) lds).

Lemma left_one x g p : left_of x g [p] = if Rlt_dec (snd p) x then fst p * g (snd p) else 0.
Proof. unfold left_of. cbn. ring. Qed.
Lemma left_nil x g : left_of x g [] = 0. Proof. reflexivity. Qed.

Lemma load_moment L ld x : ordinary L ld -> 0 <= x <= L ->
  exists I, is_RInt (fun t => (x - t) * intensity (action_of L ld) t) 0 x I /\
    I + left_of x (fun a => x - a) (forces (action_of L ld)) = gm ld x.
Proof.
  intros O Hx. destruct ld as [w|P a|w a c|? ? ? ?|? ?|m a|? ?]; try destruct O.
  - pose proof (cut_integrals (fun _ => w) w 0 0 L x ltac:(lra) ltac:(lra) ltac:(lra)) as C.
    destruct C as [_ C]; try (intros; lra).
    eexists. split; [exact C|]. cbn [action_of forces gm]. rewrite left_nil.
    rewrite (Rmin_left 0 x), (Rmin_right L x) by lra. field.
  - exists 0. split; [apply is_RInt_mult_zero|]. cbn [action_of forces gm]. rewrite left_one. cbn [fst snd].
    destruct (Rlt_dec a x); [rewrite MB_pos by lra; ring|rewrite MB_neg by lra; ring].
  - destruct H0 as [Hc Hac].
    pose proof (cut_integrals (intensity (action_of L (LPUDL w a c))) w 0 a (a + c) x ltac:(lra) ltac:(lra) ltac:(lra)) as C.
    destruct C as [_ C]; cbn [action_of intensity].
    + intros t Ht. destruct (Rlt_dec t a); [reflexivity|lra].
    + intros t Ht Hx'. destruct (Rlt_dec t a); [lra|]. destruct (Rlt_dec (a + c) t); [lra|ring].
    + intros t Ht. destruct (Rlt_dec t a); [lra|]. destruct (Rlt_dec (a + c) t); [reflexivity|lra].
    + eexists. split; [exact C|]. cbn [forces gm]. rewrite left_nil. unfold hh.
      rewrite !MB_min. field.
  - exists 0. split; [apply is_RInt_mult_zero|]. cbn [action_of forces gm]. rewrite left_nil. ring.
Qed.
Lemma load_total L ld : ordinary L ld -> 0 <= L ->
  exists I, is_RInt (fun t => 1 * intensity (action_of L ld) t) 0 L I /\
    I + lsum (map (fun pa => fst pa * 1) (forces (action_of L ld))) = gt L ld.
Proof.
  intros O HL.
  assert (one : forall (q : R -> R) v, is_RInt q 0 L v -> is_RInt (fun t => 1 * q t) 0 L v).
  { intros q v Q. eapply is_RInt_ext; [|exact Q]. intros t _. cbn. ring. }
  destruct ld as [w|P a|w a c|? ? ? ?|? ?|m a|? ?]; try destruct O.
  - pose proof (cut_integrals (fun _ => w) w 0 0 L L ltac:(lra) ltac:(lra) ltac:(lra)) as C.
    destruct C as [C _]; try (intros; lra).
    eexists. split; [exact (one _ _ C)|]. cbn. rewrite (Rmin_left 0 L), (Rmin_right L L) by lra. field.
  - exists 0. split; [apply one, is_RInt_zero|]. cbn. ring.
  - destruct H0 as [Hc Hac].
    pose proof (cut_integrals (intensity (action_of L (LPUDL w a c))) w 0 a (a + c) L ltac:(lra) ltac:(lra) ltac:(lra)) as C.
    destruct C as [C _]; cbn [action_of intensity].
    + intros t Ht. destruct (Rlt_dec t a); [reflexivity|lra].
    + intros t Ht Hx'. destruct (Rlt_dec t a); [lra|]. destruct (Rlt_dec (a + c) t); [lra|ring].
    + intros t Ht. destruct (Rlt_dec t a); [lra|]. destruct (Rlt_dec (a + c) t); [reflexivity|lra].
    + eexists. split; [exact (one _ _ C)|]. cbn [forces gt map]. rewrite (Rmin_left a L), (Rmin_left (a + c) L) by lra. cbn. field.
  - exists 0. split; [apply one, is_RInt_zero|]. cbn. ring.
Qed.

Lemma actions_moment L lds x : Forall (ordinary L) lds -> 0 <= x <= L ->
  exists I, is_RInt (fun t => (x - t) * intensity (actions L lds) t) 0 x I /\
    I + left_of x (fun a => x - a) (forces (actions L lds)) = gsum lds x.
Proof.
  intros O Hx. induction O as [|ld lds Ol _ IH].
  - exists 0. split; [apply is_RInt_mult_zero|]. unfold gsum, left_of. cbn. ring.
  - destruct (load_moment L ld x Ol Hx) as (I & i1 & e1). destruct IH as (J & j1 & e2). exists (I + J). split.
    + cbn [actions fold_right action_plus intensity]. eapply is_RInt_ext; [|exact (is_RInt_plus _ _ _ _ _ _ i1 j1)].
      intros t _. change ((x - t) * intensity (action_of L ld) t + (x - t) * intensity (actions L lds) t = (x - t) * (intensity (action_of L ld) t + intensity (actions L lds) t)). ring.
    + cbn [actions fold_right action_plus forces]. rewrite left_of_app.
      change (gsum (ld :: lds) x) with (gm ld x + gsum lds x). rewrite <- e1, <- e2. unfold actions. ring.
Qed.
Lemma actions_total L lds : Forall (ordinary L) lds -> 0 <= L ->
  exists I, is_RInt (fun t => 1 * intensity (actions L lds) t) 0 L I /\
    I + lsum (map (fun pa => fst pa * 1) (forces (actions L lds))) = gtot L lds.
Proof.
  intros O Hx. induction O as [|ld lds Ol _ IH].
  - exists 0. split; [apply is_RInt_mult_zero|]. cbn. unfold gtot. cbn. ring.
  - destruct (load_total L ld Ol Hx) as (I & i1 & e1). destruct IH as (J & j1 & e2). exists (I + J). split.
    + cbn [actions fold_right action_plus intensity]. eapply is_RInt_ext; [|exact (is_RInt_plus _ _ _ _ _ _ i1 j1)].
      intros t _. change (1 * intensity (action_of L ld) t + 1 * intensity (actions L lds) t = 1 * (intensity (action_of L ld) t + intensity (actions L lds) t)). ring.
    + cbn [actions fold_right action_plus forces]. rewrite map_app, lsum_app.
      change (gtot L (ld :: lds)) with (gt L ld + gtot L lds). rewrite <- e1, <- e2. unfold actions. ring.
Qed.
Lemma actions_far L lds : Forall (ordinary L) lds ->
  lsum (map (fun pa => fst pa * (L - snd pa)) (forces (actions L lds))) = left_of L (fun a => L - a) (forces (actions L lds)).
Proof.
  intros O. induction O as [|ld lds Ol _ IH]; [reflexivity|].
  cbn [actions fold_right action_plus forces]. rewrite map_app, lsum_app, left_of_app. fold (actions L lds). rewrite IH. f_equal.
  destruct ld as [w|P a|w a c|? ? ? ?|? ?|m a|? ?]; try destruct Ol; try reflexivity. cbn [action_of forces map fst snd].
  rewrite left_one. cbn. destruct (Rlt_dec a L); [ring|]. replace a with L by lra. ring.
Qed.

(** Moments in a span in equilibrium. *)
Lemma cut_moments L lds va ma mb V M : 0 < L -> Forall (ordinary L) lds ->
  cut_equilibrium L (actions L lds) va ma mb V M ->
  (forall x, 0 <= x <= L -> away_from x (moments (actions L lds)) ->
     M x = - ma + va * x - gsum lds x - left_of x (fun _ => 1) (moments (actions L lds))) /\
  mb = - ma + va * L - gsum lds L - lsum (map fst (moments (actions L lds))).
Proof.
  intros HL O [_ c2 c3]. split.
  - intros x Hx Hw. destruct (c2 x Hx Hw) as (I & i1 & ->). destruct (actions_moment L lds x O Hx) as (J & j1 & <-).
    assert (I = J) as ->.
    { rewrite <- (is_RInt_unique _ _ _ _ i1). apply is_RInt_unique. exact j1. }
    ring.
  - destruct c3 as (I & i1 & E). destruct (actions_moment L lds L O ltac:(lra)) as (J & j1 & <-).
    assert (I = J) as ->. { rewrite <- (is_RInt_unique _ _ _ _ i1). apply is_RInt_unique. exact j1. }
    rewrite E, (actions_far L lds O). ring.
Qed.

(** ** The rows of one span *)
Lemma parse_one r p : parse_row r = Ok [p] -> parse_LM [r] = Ok [p].
Proof. intros E. unfold parse_LM. destruct r; try discriminate E. cbn [forallb is_list_row negb andb mapM]. rewrite E. reflexivity. Qed.
Lemma parse_nil : parse_LM [] = Ok []. Proof. reflexivity. Qed.

Definition kink_loads (L F : R) (s : seg) (d : R) : list load :=
  if (Rltb tol (Rabs d) && Rltb tol (sg_x1 s) && Rltb (sg_x1 s) (L - tol))%bool then [LPL (F * d) (sg_x1 s)] else [].
Definition curve_loads (L F : R) (s : seg) : list load :=
  if Rltb tol (Rabs (sg_epp s)) then
    if (Rleb (sg_x1 s) tol && Rleb (L - tol) (sg_x2 s))%bool then [LUDL (F * sg_epp s)]
    else [LPUDL (F * sg_epp s) (sg_x1 s) (seg_length s)]
  else [].
Fixpoint span_loads (L F : R) (segs : list seg) (q : option R) : list load :=
  match segs with
  | [] => []
  | s :: t => curve_loads L F s ++ match q with None => [] | Some q => kink_loads L F s (sl0 s - q) end
              ++ span_loads L F t (Some (sl1 s))
  end.

Lemma slope_start_inv s q : slope_start s = Ok q -> q = sl0 s.
Proof.
  unfold slope_start, pydiv. destruct (Reqb (seg_length s) 0); [discriminate|]. cbn. intros E. apply ok_inv in E. subst q.
  unfold sl0. lra.
Qed.
Lemma slope_end_inv s q : slope_end s = Ok q -> q = sl1 s.
Proof.
  unfold slope_end. intros E. apply rbind_ok in E. destruct E as (q0 & E0 & E). apply slope_start_inv in E0. apply ok_inv in E. subst. reflexivity.
Qed.

Lemma span_rows_loads sp L F segs : forall q rows, span_rows sp L F segs q = Ok rows ->
  parse_LM rows = Ok (map (pair (sp - 1)%Z) (span_loads L F segs q)).
Proof.
  induction segs as [|s t IH]; intros q rows E; cbn [span_rows] in E.
  - apply ok_inv in E. subst rows. reflexivity.
  - cbv zeta in E. apply rbind_ok in E. destruct E as (kink & Ek & E). apply rbind_ok in E. destruct E as (q1 & Eq & E).
    apply slope_end_inv in Eq. subst q1. apply rbind_ok in E. destruct E as (rest & Er & E). apply ok_inv in E. subst rows.
    cbn [span_loads]. rewrite !map_app. apply parse_LM_app; [|apply parse_LM_app; [|exact (IH _ _ Er)]].
    + unfold curve_loads. destruct (Rltb tol (Rabs (sg_epp s))); [|reflexivity].
      destruct (_ && _)%bool; reflexivity.
    + destruct q as [q|].
      * apply rbind_ok in Ek. destruct Ek as (s0 & E0 & Ek). apply slope_start_inv in E0. subst s0. unfold kink_loads.
        destruct (_ && _ && _)%bool; apply ok_inv in Ek; subst kink; reflexivity.
      * apply ok_inv in Ek. subst kink. reflexivity.
Qed.

Definition joint_ok (L : R) (s : seg) : Prop := tol < sg_x1 s < L - tol.

Lemma gsum_app l k x : gsum (l ++ k) x = gsum l x + gsum k x.
Proof. unfold gsum. rewrite map_app, lsum_app. reflexivity. Qed.
Lemma gtot_app L l k : gtot L (l ++ k) = gtot L l + gtot L k.
Proof. unfold gtot. rewrite map_app, lsum_app. reflexivity. Qed.

Lemma kink_facts L F s d : joint_ok L s ->
  Forall (ordinary L) (kink_loads L F s d) /\ (forall x, gsum (kink_loads L F s d) x = F * (kept d * MB (x - sg_x1 s))) /\
  gtot L (kink_loads L F s d) = F * kept d.
Proof.
  intros [J1 J2]. unfold kink_loads, kept. pose proof tol_pos.
  destruct (Rltb_spec tol (sg_x1 s)); [|contradiction]. destruct (Rltb_spec (sg_x1 s) (L - tol)); [|contradiction].
  destruct (Rltb_spec tol (Rabs d)); cbn [andb].
  - repeat split.
    + constructor; [cbn; lra|constructor].
    + intros x. unfold gsum. cbn. ring.
    + unfold gtot. cbn. ring.
  - repeat split; [constructor|intros x; unfold gsum; cbn; ring|unfold gtot; cbn; ring].
Qed.
Lemma curve_facts L F s : 0 <= sg_x1 s -> sg_x1 s < sg_x2 s -> sg_x2 s <= L ->
  (sg_x1 s <= tol -> L - tol <= sg_x2 s -> sg_x1 s = 0 /\ sg_x2 s = L) ->
  Forall (ordinary L) (curve_loads L F s) /\ (forall x, 0 <= x <= L -> gsum (curve_loads L F s) x = F * (kept (sg_epp s) * hh x (sg_x1 s) (sg_x2 s))) /\
  gtot L (curve_loads L F s) = F * (kept (sg_epp s) * seg_length s).
Proof.
  intros H0 H1 H2 Hf. unfold curve_loads, kept. destruct (Rltb_spec tol (Rabs (sg_epp s))).
  - destruct (Rleb_spec (sg_x1 s) tol) as [Ha|Ha]; [destruct (Rleb_spec (L - tol) (sg_x2 s)) as [Hb|Hb]|]; cbn [andb].
    + destruct (Hf Ha Hb) as [E1 E2]. unfold seg_length. rewrite E1, E2. repeat split.
      * constructor; [exact I|constructor].
      * intros x Hx. unfold gsum, hh. cbn [map gm]. rewrite (MB_pos (x - 0)), (MB_neg (x - L)) by lra. cbn. field.
      * unfold gtot. cbn. ring.
    + repeat split.
      * constructor; [cbn; unfold seg_length; lra|constructor].
      * intros x Hx. unfold gsum. cbn [map gm]. unfold seg_length. replace (sg_x1 s + (sg_x2 s - sg_x1 s)) with (sg_x2 s) by ring. unfold lsum. cbn. ring.
      * unfold gtot. cbn. ring.
    + repeat split.
      * constructor; [cbn; unfold seg_length; lra|constructor].
      * intros x Hx. unfold gsum. cbn [map gm]. unfold seg_length. replace (sg_x1 s + (sg_x2 s - sg_x1 s)) with (sg_x2 s) by ring. unfold lsum. cbn. ring.
      * unfold gtot. cbn. ring.
  - repeat split; [constructor|intros x Hx; unfold gsum; cbn; ring|unfold gtot; cbn; ring].
Qed.

Lemma span_facts L F segs : forall q x0 e0 ee, chain x0 e0 segs L ee -> 0 <= x0 ->
  (q = None -> x0 = 0) -> (q <> None -> Forall (joint_ok L) segs) -> Forall (joint_ok L) (tl segs) ->
  Forall (ordinary L) (span_loads L F segs q) /\
  (forall x, 0 <= x <= L -> gsum (span_loads L F segs q) x = F * rep kept q segs x) /\
  gtot L (span_loads L F segs q) = F * rep1 kept q segs.
Proof.
  induction segs as [|s t IH]; intros q x0 e0 ee C H0 Hq HJ HT.
  - cbn [span_loads]. repeat split; [constructor|intros x _; unfold gsum; cbn; ring|unfold gtot; cbn; ring].
  - cbn [chain] in C. destruct C as (E & _ & H & C). cbn [tl] in HT.
    pose proof (chain_le _ _ _ _ _ C) as Hle. pose proof tol_pos as TP.
    assert (HT' : Forall (joint_ok L) (tl t)) by (destruct t; [constructor|inversion HT; assumption]).
    destruct (IH (Some (sl1 s)) _ _ _ C) as (I1 & I2 & I3); [lra|discriminate|intros _; exact HT|exact HT'|].
    assert (A : Forall (ordinary L) (curve_loads L F s) /\ (forall x, 0 <= x <= L -> gsum (curve_loads L F s) x = F * (kept (sg_epp s) * hh x (sg_x1 s) (sg_x2 s))) /\
       gtot L (curve_loads L F s) = F * (kept (sg_epp s) * seg_length s)).
    { apply curve_facts; try lra. intros Ha Hb. destruct q as [q|].
      - assert (J : Forall (joint_ok L) (s :: t)) by (apply HJ; discriminate). inversion_clear J as [|? ? J1 J2]. destruct J1; lra.
      - rewrite (Hq eq_refl) in E. split; [exact E|]. destruct t as [|s' t'].
        + cbn in C. exact (proj1 C).
        + inversion_clear HT as [|? ? J1 J2]. cbn in C. destruct J1. destruct C as (E' & _). lra. }
    destruct A as (A1 & A2 & A3).
    assert (K : Forall (ordinary L) (match q with None => [] | Some q => kink_loads L F s (sl0 s - q) end) /\
       (forall x, gsum (match q with None => [] | Some q => kink_loads L F s (sl0 s - q) end) x = F * (match q with None => 0 | Some q => kept (sl0 s - q) * MB (x - sg_x1 s) end)) /\
       gtot L (match q with None => [] | Some q => kink_loads L F s (sl0 s - q) end) = F * match q with None => 0 | Some q => kept (sl0 s - q) end).
    { destruct q as [q|].
      - apply kink_facts. assert (J : Forall (joint_ok L) (s :: t)) by (apply HJ; discriminate). inversion J; assumption.
      - repeat split; [constructor|intros x; unfold gsum; cbn; ring|unfold gtot; cbn; ring]. }
    destruct K as (K1 & K2 & K3). cbn [span_loads rep rep1]. split; [|split].
    + apply Forall_app. split; [exact A1|]. apply Forall_app. split; assumption.
    + intros x Hx. rewrite !gsum_app, (A2 x Hx), (K2 x), (I2 x Hx). ring.
    + rewrite !gtot_app, A3, K3, I3. ring.
Qed.

Lemma span_no_moments L F segs : forall q, moments (actions L (span_loads L F segs q)) = [].
Proof.
  assert (app : forall l k, moments (actions L (l ++ k)) = moments (actions L l) ++ moments (actions L k)).
  { induction l as [|a l IH]; intros k; [reflexivity|]. cbn [app actions fold_right action_plus moments]. fold (actions L (l ++ k)).
    rewrite IH, app_assoc. reflexivity. }
  induction segs as [|s t IH]; intros q; [reflexivity|]. cbn [span_loads]. rewrite !app, IH.
  assert (E1 : moments (actions L (curve_loads L F s)) = []) by (unfold curve_loads; repeat destruct (_ : bool); reflexivity).
  rewrite E1. destruct q as [q|]; [|reflexivity]. unfold kink_loads. destruct (_ && _ && _)%bool; reflexivity.
Qed.
Lemma moments_app L l k : moments (actions L (l ++ k)) = moments (actions L l) ++ moments (actions L k).
Proof.
  induction l as [|a l IH]; [reflexivity|]. cbn [app actions fold_right action_plus moments]. fold (actions L (l ++ k)).
  rewrite IH, app_assoc. reflexivity.
Qed.
