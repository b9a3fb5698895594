(** Variation of shear and moment; sums over the stations. *)
From Coquelicot Require Import Coquelicot.
From Coq Require Import Lia.
From Verif Require Import Base BaseFacts SectionModel FlexModel LoadModel LoadSpec LoadFacts DiagFacts ClampFacts FoundationModel ElementModel ElementSpec
  TimoFacts AnalysisModel ResultsModel ResultsSpec ResultsFacts ExactSpec ExactFacts ConvFacts.
Open Scope R_scope.

Section L.
Variable L : R.
Hypothesis L0 : 0 < L.
Local Lemma Lp : 0 <= L. Proof. lra. Qed.
Local Hint Resolve Lp : core.

(** ** Shear and moment of loads *)
Lemma good_div g c : good L g -> good L (fun x => g x / c).
Proof. intros G. apply (good_mult L g (fun _ => / c) G). apply good_const. Qed.
Lemma good_opp g : good L g -> good L (fun x => - g x).
Proof. intros G. apply (good_ext L (fun x => -1 * g x)); [intros; ring|]. apply good_scal, G. Qed.
Ltac good_auto := repeat first [apply good_const | apply good_id; exact Lp | apply good_MB; exact Lp | apply good_plus | apply good_minus | apply good_opp | apply good_div | apply good_mult | apply good_pow].
Lemma tame_good g : good L g -> tame L g. Proof. apply good_tame. Qed.
Lemma M_tame ld : tame L (M_of L ld).
Proof.
  unfold M_of. destruct ld as [w|P a|w a c|w1 w2 a c|Ma Mb|m a|k e]; cbn [diag_of].
  - cbn [udl_diag f_M]. apply tame_good. good_auto.
  - cbn [pl_diag f_M]. apply tame_good. good_auto.
  - cbn [pudl_diag f_M]. apply tame_good. good_auto.
  - unfold trap_diag. destruct (trap_resolve w1 w2 a c L) as [[[[v1 v2] dw] a'] c']. destruct (Rleb c' 0); cbn [f_M]; apply tame_good; good_auto.
  - cbn [mamb_diag f_M]. apply tame_good. good_auto.
  - cbn [ml_diag f_M]. apply tame_minus; [apply tame_good; good_auto|]. apply tame_scal. apply tame_H. destruct (Req_EM_T a 0), (Req_EM_T a L); lra.
  - apply tame_good. good_auto.
Qed.
Lemma V_tame ld : tame L (V_of L ld).
Proof.
  unfold V_of. destruct ld as [w|P a|w a c|w1 w2 a c|Ma Mb|m a|k e]; cbn [diag_of].
  - cbn [udl_diag f_V]. apply tame_good. good_auto.
  - cbn [pl_diag f_V]. apply tame_minus; [apply tame_good; good_auto|]. apply tame_scal. apply tame_H. lra.
  - cbn [pudl_diag f_V]. apply tame_good. good_auto.
  - unfold trap_diag. destruct (trap_resolve w1 w2 a c L) as [[[[v1 v2] dw] a'] c']. destruct (Rleb c' 0); cbn [f_V]; apply tame_good; good_auto.
  - cbn [mamb_diag f_V]. apply tame_good. good_auto.
  - cbn [ml_diag f_V]. apply tame_good. good_auto.
  - apply tame_good. good_auto.
Qed.
Lemma M_all_tame lds : tame L (M_all L lds).
Proof. unfold M_all. apply (tame_lsum L (fun ld x => M_of L ld x)). intros ld _. apply M_tame. Qed.
Lemma V_all_tame lds : tame L (V_all L lds).
Proof. unfold V_all. apply (tame_lsum L (fun ld x => V_of L ld x)). intros ld _. apply V_tame. Qed.
Lemma poly_good k : good L (fun x => polyval k x).
Proof.
  unfold polyval. assert (P : forall k g, good L g -> good L (fun x => fold_left (fun acc c => acc * x + c) k (g x))).
  { clear k. induction k as [|c k IH]; intros g Hg; cbn [fold_left]; [exact Hg|]. apply (IH (fun x => g x * x + c)). good_auto. exact Hg. }
  apply (P k (fun _ => 0)). good_auto.
Qed.
Lemma imposed_good lds : good L (imposed lds).
Proof.
  unfold imposed. induction lds as [|ld lds IH]; cbn [map lsum fold_right]; [good_auto|]. apply good_plus; [|exact IH].
  destruct ld; try (good_auto; fail). unfold kappa_imp. apply poly_good.
Qed.

(** ** Sums over stations *)
(** Trapezoids over the intervals no longer than [h] miss [G] by what [E] gains. *)
Definition misses (h : R) (g G E : R -> R) : Prop := rising L E /\
  forall a b, 0 <= a <= b -> b <= L -> b - a <= h -> Rabs (G b - G a - (b - a) * (g a + g b) / 2) <= E b - E a.
Record nodes (h : R) (n : nat) (x : nat -> R) : Prop := {
  nd_first : x 1%nat = 0; nd_last : x n = L; nd_n : (1 <= n)%nat;
  nd_step : forall k, (1 <= k < n)%nat -> 0 <= x (S k) - x k <= h }.
Lemma nodes_in h n x : nodes h n x -> forall k, (1 <= k <= n)%nat -> 0 <= x k <= L.
Proof.
  intros [F E N S]. assert (A : forall k, (1 <= k <= n)%nat -> 0 <= x k).
  { induction k as [|k IH]; intros Hk; [lia|]. destruct (Nat.eq_dec k 0) as [->|Hz]; [lra|]. assert (Q := S k ltac:(lia)). assert (P := IH ltac:(lia)). lra. }
  assert (B : forall j k, (1 <= k <= n)%nat -> (k + j = n)%nat -> x k <= L).
  { induction j as [|j IH]; intros k Hk Hj; [replace k with n by lia; lra|]. assert (Q := S k ltac:(lia)). assert (P := IH (Datatypes.S k) ltac:(lia) ltac:(lia)). lra. }
  intros k Hk. split; [apply A, Hk|]. apply (B (n - k)%nat); lia.
Qed.
Lemma sum_error h n x g G E A e d : nodes h n x -> misses h g G E -> 0 <= d -> (forall k, (1 <= k <= n)%nat -> Rabs (e k - e 1%nat) <= d) ->
  (forall k, (1 <= k < n)%nat -> A (S k) - A k = (x (S k) - x k) * ((g (x k) + e k) + (g (x (S k)) + e (S k))) / 2) ->
  forall k, (1 <= k <= n)%nat -> Rabs ((A k - A 1%nat) - (G (x k) - G 0) - e 1%nat * x k) <= E (x k) - E 0 + d * x k.
Proof.
  intros N [_ M] d0 He HA. assert (IN := nodes_in _ _ _ N). induction k as [|k IH]; intros Hk; [lia|]. destruct (Nat.eq_dec k 0) as [->|Hz].
  - rewrite (nd_first _ _ _ N). replace (A 1%nat - A 1%nat - (G 0 - G 0) - e 1%nat * 0) with 0 by ring. rewrite Rabs_R0. lra.
  - specialize (IH ltac:(lia)). assert (St := nd_step _ _ _ N k ltac:(lia)). assert (HM := M (x k) (x (S k))). assert (I1 := IN k ltac:(lia)). assert (I2 := IN (S k) ltac:(lia)).
    specialize (HM ltac:(lra) ltac:(lra) ltac:(lra)). specialize (HA k ltac:(lia)). assert (E1 := He k ltac:(lia)). assert (E2 := He (S k) ltac:(lia)).
    assert (Q : Rabs ((x (S k) - x k) * ((e k - e 1%nat) + (e (S k) - e 1%nat)) / 2) <= d * (x (S k) - x k)).
    { replace ((x (S k) - x k) * (e k - e 1%nat + (e (S k) - e 1%nat)) / 2) with ((x (S k) - x k) * ((e k - e 1%nat + (e (S k) - e 1%nat)) / 2)) by field.
      rewrite Rabs_mult, (Rabs_pos_eq (x (S k) - x k)) by lra. rewrite (Rmult_comm d). apply Rmult_le_compat_l; [lra|]. apply Rabs_le_between in E1. apply Rabs_le_between in E2. apply Rabs_le. lra. }
    set (T := (x (S k) - x k) * (g (x k) + g (x (S k))) / 2) in *. set (U := (x (S k) - x k) * ((e k - e 1%nat) + (e (S k) - e 1%nat)) / 2) in *.
    assert (EA : A (S k) - A k = T + U + (x (S k) - x k) * e 1%nat) by (rewrite HA; unfold T, U; field).
    replace (A (S k) - A 1%nat - (G (x (S k)) - G 0) - e 1%nat * x (S k)) with ((A k - A 1%nat - (G (x k) - G 0) - e 1%nat * x k) - (G (x (S k)) - G (x k) - T) + U) by lra.
    apply Rabs_le_between in IH. apply Rabs_le_between in HM. apply Rabs_le_between in Q. apply Rabs_le. lra.
Qed.

(** Rotations and deflections from the curvature [kap], the shear angle [sh] and either end condition. *)
Lemma curve_error h n x kap th sh y E1 E2 Rt Df : nodes h n x -> misses h kap th E1 -> misses h (fun t => th t - sh t) y E2 ->
  (forall k, (1 <= k < n)%nat -> Rt (S k) - Rt k = (x (S k) - x k) * (kap (x k) + kap (x (S k))) / 2) ->
  (forall k, (1 <= k < n)%nat -> Df (S k) - Df k = (x (S k) - x k) * ((Rt k - sh (x k)) + (Rt (S k) - sh (x (S k)))) / 2) ->
  Df 1%nat = y 0 -> (Rt 1%nat = th 0 \/ Df n = y L) ->
  let e1 := E1 L - E1 0 in let e2 := E2 L - E2 0 in
  forall k, (1 <= k <= n)%nat -> Rabs (Rt k - th (x k)) <= 2 * e1 + e2 / L /\ Rabs (Df k - y (x k)) <= 2 * (L * e1 + e2).
Proof.
  intros N M1 M2 HR HD D1 Hs e1 e2. assert (IN := nodes_in _ _ _ N).
  assert (P1 : 0 <= e1) by (destruct M1 as [Q _]; assert (Z := Q 0 L ltac:(lra) ltac:(lra)); unfold e1; lra).
  assert (P2 : 0 <= e2) by (destruct M2 as [Q _]; assert (Z := Q 0 L ltac:(lra) ltac:(lra)); unfold e2; lra).
  set (e := fun k => Rt k - th (x k)).
  assert (A : forall k, (1 <= k <= n)%nat -> Rabs (e k - e 1%nat) <= e1).
  { intros k Hk. assert (Q := sum_error h n x kap th E1 Rt (fun _ => 0) 0 N M1 ltac:(lra) ltac:(intros; rewrite Rminus_0_r, Rabs_R0; lra)).
    assert (Q' := Q ltac:(intros j Hj; rewrite (HR j Hj); field) k Hk). cbv beta in Q'.
    unfold e. rewrite (nd_first _ _ _ N). replace (Rt k - th (x k) - (Rt 1%nat - th 0)) with (Rt k - Rt 1%nat - (th (x k) - th 0) - 0 * x k) by ring.
    eapply Rle_trans; [exact Q'|]. destruct M1 as [MR _]. assert (Z := MR (x k) L ltac:(split; [apply IN, Hk|apply IN, Hk]) ltac:(lra)). unfold e1. lra. }
  assert (B : forall k, (1 <= k <= n)%nat -> Rabs (Df k - y (x k) - e 1%nat * x k) <= e2 + e1 * L).
  { intros k Hk. assert (Q := sum_error h n x (fun t => th t - sh t) y E2 Df e e1 N M2 P1 A ltac:(intros j Hj; rewrite (HD j Hj); unfold e; field) k Hk).
    rewrite D1 in Q. replace (Df k - y (x k) - e 1%nat * x k) with (Df k - y 0 - (y (x k) - y 0) - e 1%nat * x k) by ring. eapply Rle_trans; [exact Q|].
    destruct M2 as [MR _]. assert (I := IN k Hk). assert (Z := MR (x k) L ltac:(lra) ltac:(lra)). assert (e1 * x k <= e1 * L) by (apply Rmult_le_compat_l; lra). unfold e2. lra. }
  assert (C : Rabs (e 1%nat) <= e1 + e2 / L).
  { assert (P3 : 0 <= e2 / L) by (apply Rmult_le_pos; [exact P2|left; apply Rinv_0_lt_compat, L0]). destruct Hs as [Hs|Hs].
    - unfold e. rewrite (nd_first _ _ _ N), Hs, Rminus_diag_eq, Rabs_R0 by reflexivity. lra.
    - assert (Q := B n ltac:(pose proof (nd_n _ _ _ N); lia)). rewrite (nd_last _ _ _ N), Hs in Q.
      replace (y L - y L - e 1%nat * L) with (- (e 1%nat * L)) in Q by ring. rewrite Rabs_Ropp, Rabs_mult, (Rabs_pos_eq L) in Q by lra.
      apply (Rmult_le_reg_r L); [exact L0|]. eapply Rle_trans; [exact Q|]. right. field. lra. }
  intros k Hk. split.
  - replace (Rt k - th (x k)) with ((e k - e 1%nat) + e 1%nat) by (unfold e; ring). eapply Rle_trans; [apply Rabs_triang|]. assert (Q := A k Hk). lra.
  - replace (Df k - y (x k)) with ((Df k - y (x k) - e 1%nat * x k) + e 1%nat * x k) by ring. eapply Rle_trans; [apply Rabs_triang|]. assert (Q := B k Hk).
    rewrite Rabs_mult. assert (I := IN k Hk). rewrite (Rabs_pos_eq (x k)) by lra.
    assert (Rabs (e 1%nat) * x k <= (e1 + e2 / L) * L) by (apply Rmult_le_compat; try lra; apply Rabs_pos).
    assert (Z : (e1 + e2 / L) * L = e1 * L + e2) by (field; lra). rewrite Z in *. lra.
Qed.

(** First and second order. *)
Lemma from_start (g G : R -> R) a b : is_RInt g 0 b (G b - G 0) -> is_RInt g 0 a (G a - G 0) -> is_RInt g a b (G b - G a).
Proof.
  intros Hb Ha. replace (G b - G a) with (plus (opp (G a - G 0)) (G b - G 0)) by (unfold plus, opp; cbn; ring).
  apply (is_RInt_Chasles g a 0 b); [apply (is_RInt_swap (V := R_NormedModule)), Ha|exact Hb].
Qed.
Lemma misses_first h g G W : 0 <= h -> varies L g W -> (forall x, 0 <= x <= L -> is_RInt g 0 x (G x - G 0)) -> misses h g G (fun x => h * W x).
Proof.
  intros h0 HV HI. assert (RW := varies_rising _ _ _ HV). split; [intros s t Hs Ht; apply Rmult_le_compat_l; [exact h0|apply RW; assumption]|].
  intros a b Ha Hb Hh. assert (I : is_RInt g a b (G b - G a)).
  { apply from_start; apply HI; lra. }
  eapply Rle_trans; [exact (first_step L g W a b _ HV Ha Hb I)|]. rewrite <- Rmult_minus_distr_l. apply Rmult_le_compat_r; [|exact Hh]. assert (Q := RW a b Ha Hb). lra.
Qed.
Lemma misses_second h g v G W : 0 <= h -> varies L v W -> (forall x, 0 <= x <= L -> is_RInt v 0 x (g x - g 0)) ->
  (forall x, 0 <= x <= L -> is_RInt g 0 x (G x - G 0)) -> misses h g G (fun x => h ^ 2 * W x).
Proof.
  intros h0 HV Hg HI. assert (RW := varies_rising _ _ _ HV). assert (H2 : 0 <= h ^ 2) by (apply pow_le, h0).
  split; [intros s t Hs Ht; apply Rmult_le_compat_l; [exact H2|apply RW; assumption]|]. intros a b Ha Hb Hh.
  assert (CH : forall (p P : R -> R), (forall x, 0 <= x <= L -> is_RInt p 0 x (P x - P 0)) -> forall t, a <= t <= b -> is_RInt p a t (P t - P a)).
  { intros p P HP t Ht. apply from_start; apply HP; lra. }
  destruct (Rle_lt_or_eq_dec a b ltac:(lra)) as [Hlt|<-].
  - eapply Rle_trans; [exact (second_step L g v W a b _ HV (CH _ _ Hg) ltac:(lra) Hb (CH _ _ HI b ltac:(lra)))|].
    rewrite <- Rmult_minus_distr_l. apply Rmult_le_compat_r; [assert (Q := RW a b Ha Hb); lra|]. apply pow_incr. lra.
  - replace (G a - G a - (a - a) * (g a + g a) / 2) with 0 by field. rewrite Rabs_R0. lra.
Qed.
End L.
