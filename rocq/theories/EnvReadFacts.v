(** Facts about reading an envelope at a coordinate. *)
From Coq Require Import String Lia Lra.
From Verif Require Import Base BaseFacts SectionModel LoadModel ElementModel BeamModel AnalysisModel AnalysisSpec ResultsModel ResultsSpec ResultsFacts ShapeFacts EnvelopeModel EnvelopeSpec EnvelopeFacts
  LoadCasesFacts SpanModel EnvReadModel EnvReadSpec.
Open Scope R_scope.
Local Notation length := List.length.
Local Open Scope list_scope.

(** *** Interpolation keeps the order *)
Lemma interp_mono {A} (g1 g2 : A -> R) x t : (forall i, g1 i <= g2 i) -> interp x (map (val g1) t) <= interp x (map (val g2) t).
Proof.
  intros H.
  assert (F : forall t x0 i0, x0 <= x -> interp_from x x0 (g1 i0) (map (val g1) t) <= interp_from x x0 (g2 i0) (map (val g2) t)).
  { clear t. induction t as [|[x1 i1] t IH]; intros x0 i0 Hx; cbn; [apply H|].
    unfold Rltb. destruct (Rlt_dec x x1) as [L|L]; [|apply IH; lra].
    set (s := (x - x0) / (x1 - x0)). assert (S : 0 <= s <= 1).
    { unfold s. split; [apply Rmult_le_pos; [lra|left; apply Rinv_0_lt_compat; lra]|]. apply Rmult_le_reg_r with (x1 - x0); [lra|]. unfold Rdiv. rewrite Rmult_assoc, Rinv_l by lra. lra. }
    assert (E : forall a b, a + (b - a) / (x1 - x0) * (x - x0) = (1 - s) * a + s * b) by (intros a b; unfold s; field; lra).
    rewrite !E. pose proof (H i0). pose proof (H i1). nra. }
  destruct t as [|[x0 i0] t]; cbn; [lra|]. unfold Rltb. destruct (Rlt_dec x x0); [apply H|]. apply F. lra.
Qed.
Lemma read_mono x xs us vs : length us = length xs -> length vs = length xs -> (forall k, (k < length xs)%nat -> nth k us 0 <= nth k vs 0) ->
  read_at x xs us <= read_at x xs vs.
Proof.
  intros E1 E2 H. rewrite (read_keyed x xs us E1), (read_keyed x xs vs E2). apply interp_mono. intros k.
  destruct (Nat.lt_ge_cases k (length xs)) as [L|L]; [apply H, L|]. rewrite !nth_overflow by lia. lra.
Qed.

(** *** The arrays of an envelope *)
Lemma init_parts vr e : env_init vr = Ok e -> exists r0 t, vr = r0 :: t /\ e_x e = r_x (br_all r0) /\ e_npts e = length (r_x (br_all r0)) /\ e_nsup e = length (br_R r0) /\
  Forall (fun r => length (r_M (br_all r)) = e_npts e /\ length (r_V (br_all r)) = e_npts e /\ length (br_R r) = e_nsup e) vr.
Proof.
  unfold env_init. destruct vr as [|r0 t]; [discriminate|]. intros E. apply rbind_ok in E. destruct E as (v & Ev & E). apply rbind_ok in E. destruct E as (q & Eq & E).
  injection E as E. subst e. cbn [e_x e_npts e_nsup]. exists r0, t. do 4 (split; [reflexivity|]).
  assert (B : Forall (fun r => length (br_R r) = length (br_R r0)) (r0 :: t)).
  { unfold envelope_R in Eq. destruct (forallb _ (r0 :: t)) eqn:F; [|discriminate]. rewrite forallb_forall in F. apply Forall_forall. intros r Hr. apply Nat.eqb_eq. exact (F r Hr). }
  assert (A : forall vr s v n, foldM (vm_step n) vr s = Ok v -> Forall (fun r => length (r_M (br_all r)) = n /\ length (r_V (br_all r)) = n) vr).
  { clear. induction vr as [|r vr IH]; intros s v n E; [constructor|]. cbn [foldM] in E. apply rbind_ok in E. destruct E as (s1 & E1 & E2).
    constructor; [|exact (IH _ _ _ E2)]. unfold vm_step in E1. destruct (Nat.eqb_spec (length (r_V (br_all r))) n), (Nat.eqb_spec (length (r_M (br_all r))) n); try discriminate. auto. }
  specialize (A _ _ _ _ Ev). rewrite Forall_forall in *. intros r Hr. destruct (A r Hr). auto.
Qed.
Lemma init_envelope vr e : env_init vr = Ok e -> on_stations (e_x e) vr -> envelope_of vr e /\ e_npts e = length (e_x e).
Proof.
  intros E O. destruct (init_parts vr e E) as (r0 & t & -> & X & N & S & F).
  destruct (c21 (e_npts e) (e_nsup e) (r0 :: t)) as (e' & E' & _ & _ & _ & H); [discriminate| |].
  - unfold compatible. unfold on_stations in O. rewrite Forall_forall in *. intros r Hr. destruct (O r Hr) as (A & _ & _), (F r Hr) as (B & C & D). rewrite A, N, X. rewrite N in B, C. auto.
  - rewrite E in E'. injection E' as <-. split; [exact H|]. rewrite N, X. reflexivity.
Qed.
Lemma reads_four e x : length (e_Mmax e) = length (e_x e) -> length (e_Mmin e) = length (e_x e) -> length (e_Vmax e) = length (e_x e) -> length (e_Vmin e) = length (e_x e) ->
  reads e x (read_at x (e_x e) (e_Mmax e)) (read_at x (e_x e) (e_Mmin e)) (read_at x (e_x e) (e_Vmax e)) (read_at x (e_x e) (e_Vmin e)).
Proof.
  intros A B C D. unfold reads, env_at. cbn [mapM].
  change (station_attr e "Mmax") with (Ok (e_Mmax e)). change (station_attr e "Mmin") with (Ok (e_Mmin e)). change (station_attr e "Vmax") with (Ok (e_Vmax e)). change (station_attr e "Vmin") with (Ok (e_Vmin e)).
  cbn [rbind]. rewrite A, B, C, D, Nat.ltb_irrefl. reflexivity.
Qed.
Lemma reads_inj e x a b c d a' b' c' d' : reads e x a b c d -> reads e x a' b' c' d' -> a = a' /\ b = b' /\ c = c' /\ d = d'.
Proof. unfold reads. intros E E'. rewrite E in E'. injection E' as -> -> -> ->. auto. Qed.

Lemma largest_ext {A} (f g : A -> R) l m : (forall a, In a l -> f a = g a) -> largest f l m -> largest g l m.
Proof.
  intros H (P & Q & S). split; [exact P|]. split; [intros a Ha; rewrite <- H by exact Ha; auto|].
  destruct S as [S|(a & Ha & S)]; [left; exact S|right; exists a; split; [exact Ha|rewrite <- H; assumption]].
Qed.
Lemma smallest_ext {A} (f g : A -> R) l m : (forall a, In a l -> f a = g a) -> smallest f l m -> smallest g l m.
Proof.
  intros H (P & Q & S). split; [exact P|]. split; [intros a Ha; rewrite <- H by exact Ha; auto|].
  destruct S as [S|(a & Ha & S)]; [left; exact S|right; exists a; split; [exact Ha|rewrite <- H; assumption]].
Qed.
Lemma station_read xs vr k x : on_stations xs vr -> first_station xs x k -> forall r, In r vr -> M_at k r = moment_at x r /\ V_at k r = shear_at x r.
Proof.
  intros O K r Hr. unfold on_stations in O. rewrite Forall_forall in O. destruct (O r Hr) as (A & B & C). unfold M_at, V_at, moment_at, shear_at. rewrite A.
  split; symmetry; apply read_station; assumption.
Qed.

(** *** At a station *)
Lemma at_station_extremes vr e x k : envelope_of vr e -> e_npts e = length (e_x e) -> on_stations (e_x e) vr -> first_station (e_x e) x k ->
  exists a b c d, reads e x a b c d /\ largest (moment_at x) vr a /\ smallest (moment_at x) vr b /\ largest (shear_at x) vr c /\ smallest (shear_at x) vr d.
Proof.
  intros [eM eV _ (L1 & L2 & L3 & L4 & _)] N O K. rewrite N in *. assert (Hk := proj1 K).
  exists (nth k (e_Mmax e) 0), (nth k (e_Mmin e) 0), (nth k (e_Vmax e) 0), (nth k (e_Vmin e) 0). split.
  - assert (Q := reads_four e x L1 L2 L3 L4). rewrite !(read_station _ _ x k) in Q by assumption. exact Q.
  - destruct (eM k Hk), (eV k Hk). assert (S := station_read _ _ _ _ O K).
    split; [|split; [|split]]; (eapply largest_ext || eapply smallest_ext); try eassumption; intros r Hr; apply S, Hr.
Qed.
Lemma at_station vr e x k : env_init vr = Ok e -> on_stations (e_x e) vr -> first_station (e_x e) x k ->
  exists a b c d, reads e x a b c d /\ largest (moment_at x) vr a /\ smallest (moment_at x) vr b /\ largest (shear_at x) vr c /\ smallest (shear_at x) vr d.
Proof. intros E O K. destruct (init_envelope _ _ E O) as [H N]. exact (at_station_extremes vr e x k H N O K). Qed.
Lemma companion_lengths vr e : env_init vr = Ok e ->
  length (e_VcoMmax e) = e_npts e /\ length (e_VcoMmin e) = e_npts e /\ length (e_McoVmax e) = e_npts e /\ length (e_McoVmin e) = e_npts e.
Proof.
  unfold env_init. destruct vr as [|r0 t]; [discriminate|]. intros E. apply rbind_ok in E. destruct E as (v & Ev & E). apply rbind_ok in E. destruct E as (q & Eq & E).
  injection E as E. subst e. cbn [e_VcoMmax e_VcoMmin e_McoVmax e_McoVmin e_npts]. set (n := length (r_x (br_all r0))) in *. unfold envelopes_VM in Ev.
  assert (G : forall vr s v, (length (v_VcoMmax s) = n /\ length (v_VcoMmin s) = n /\ length (v_McoVmax s) = n /\ length (v_McoVmin s) = n) /\
    (length (v_Mmax s) = n /\ length (v_Mmin s) = n /\ length (v_Vmax s) = n /\ length (v_Vmin s) = n) -> foldM (vm_step n) vr s = Ok v ->
    length (v_VcoMmax v) = n /\ length (v_VcoMmin v) = n /\ length (v_McoVmax v) = n /\ length (v_McoVmin v) = n).
  { clear. induction vr as [|r vr IH]; intros s v H E; cbn [foldM] in E.
    - injection E as <-. apply H.
    - apply rbind_ok in E. destruct E as (s1 & E1 & E2). apply (IH s1 v); [|exact E2]. unfold vm_step in E1.
      destruct (Nat.eqb_spec (length (r_V (br_all r))) n) as [A|]; [|discriminate]. destruct (Nat.eqb_spec (length (r_M (br_all r))) n) as [B|]; [|discriminate].
      cbn [negb orb] in E1. injection E1 as <-. cbn [v_VcoMmax v_VcoMmin v_McoVmax v_McoVmin v_Mmax v_Mmin v_Vmax v_Vmin].
      destruct H as ((H1 & H2 & H3 & H4) & H5 & H6 & H7 & H8).
      repeat apply conj; (apply where_gt_length || apply where_lt_length); assumption. }
  apply (G _ _ _) in Ev; [exact Ev|]. cbn. repeat apply conj; apply repeat_length.
Qed.
Lemma at_companion vr e x k : env_init vr = Ok e -> on_stations (e_x e) vr -> first_station (e_x e) x k ->
  exists a b c d a' b' c' d', reads e x a b c d /\
  env_at e x ["Vco_Mmax"; "Vco_Mmin"; "Mco_Vmax"; "Mco_Vmin"]%string = Ok [("Vco_Mmax", a'); ("Vco_Mmin", b'); ("Mco_Vmax", c'); ("Mco_Vmin", d')]%string /\
  companion (moment_at x) (shear_at x) vr a a' /\ companion (moment_at x) (shear_at x) vr b b' /\
  companion (shear_at x) (moment_at x) vr c c' /\ companion (shear_at x) (moment_at x) vr d d'.
Proof.
  intros E O K. destruct (init_envelope _ _ E O) as [[eM eV _ (L1 & L2 & L3 & L4 & _)] N]. destruct (c22 vr e E) as [C1 C2 C3 C4]. rewrite N in *. assert (Hk := proj1 K).
  destruct (companion_lengths vr e E) as (Q1 & Q2 & Q3 & Q4). rewrite N in Q1, Q2, Q3, Q4.
  exists (nth k (e_Mmax e) 0), (nth k (e_Mmin e) 0), (nth k (e_Vmax e) 0), (nth k (e_Vmin e) 0),
    (nth k (e_VcoMmax e) 0), (nth k (e_VcoMmin e) 0), (nth k (e_McoVmax e) 0), (nth k (e_McoVmin e) 0). split; [|split].
  - assert (Q := reads_four e x L1 L2 L3 L4). rewrite !(read_station _ _ x k) in Q by assumption. exact Q.
  - unfold env_at. cbn [mapM].
    change (station_attr e "Vco_Mmax") with (Ok (e_VcoMmax e)). change (station_attr e "Vco_Mmin") with (Ok (e_VcoMmin e)).
    change (station_attr e "Mco_Vmax") with (Ok (e_McoVmax e)). change (station_attr e "Mco_Vmin") with (Ok (e_McoVmin e)).
    cbn [rbind]. rewrite Q1, Q2, Q3, Q4, Nat.ltb_irrefl. rewrite !(read_station _ _ x k) by assumption. reflexivity.
  - assert (S := station_read _ _ _ _ O K).
    assert (CE : forall f g f' g' m c, (forall r, In r vr -> f r = f' r /\ g r = g' r) -> companion f g vr m c -> companion f' g' vr m c).
    { intros f g f' g' m c H Co Hm. destruct (Co Hm) as (r & Hr & A & B). exists r. destruct (H r Hr) as [F G]. rewrite <- F, <- G. auto. }
    split; [|split; [|split]]; (eapply CE; [|apply C1 || apply C2 || apply C3 || apply C4; exact Hk]); intros r Hr; destruct (S r Hr); auto.
Qed.

(** *** Anywhere *)
Lemma at_bounds_extremes vr e x : envelope_of vr e -> e_npts e = length (e_x e) -> on_stations (e_x e) vr ->
  exists a b c d, reads e x a b c d /\ b <= 0 <= a /\ d <= 0 <= c /\ forall r, In r vr -> b <= moment_at x r <= a /\ d <= shear_at x r <= c.
Proof.
  intros [eM eV _ (L1 & L2 & L3 & L4 & _)] N O. rewrite N in *.
  exists (read_at x (e_x e) (e_Mmax e)), (read_at x (e_x e) (e_Mmin e)), (read_at x (e_x e) (e_Vmax e)), (read_at x (e_x e) (e_Vmin e)).
  split; [exact (reads_four e x L1 L2 L3 L4)|].
  set (z := repeat 0 (length (e_x e))). assert (Lz : length z = length (e_x e)) by apply repeat_length.
  assert (Nz : forall k, nth k z 0 = 0).
  { intros k. unfold z. destruct (Nat.lt_ge_cases k (length (e_x e))); [apply (repeat_spec (length (e_x e))), nth_In; rewrite repeat_length; assumption|apply nth_overflow; rewrite repeat_length; assumption]. }
  assert (Rz : read_at x (e_x e) z = 0) by (apply read_zero; [exact Lz|exact Nz]).
  split; [|split].
  - rewrite <- Rz. split; apply read_mono; trivial; intros k Hk; rewrite Nz; apply (eM k Hk).
  - rewrite <- Rz. split; apply read_mono; trivial; intros k Hk; rewrite Nz; apply (eV k Hk).
  - intros r Hr. unfold on_stations in O. rewrite Forall_forall in O. destruct (O r Hr) as (A & B & C). unfold moment_at, shear_at. rewrite A.
    split; split; apply read_mono; trivial; intros k Hk; (apply (eM k Hk) || apply (eV k Hk)); exact Hr.
Qed.
Lemma at_bounds vr e x : env_init vr = Ok e -> on_stations (e_x e) vr ->
  exists a b c d, reads e x a b c d /\ b <= 0 <= a /\ d <= 0 <= c /\ forall r, In r vr -> b <= moment_at x r <= a /\ d <= shear_at x r <= c.
Proof. intros E O. destruct (init_envelope _ _ E O) as [H N]. exact (at_bounds_extremes vr e x H N O). Qed.

(** *** Merged envelopes *)
Lemma merged_envelope A B a b m : env_init A = Ok a -> env_init B = Ok b -> augment a b = Ok m -> on_stations (e_x a) (A ++ B) ->
  envelope_of (A ++ B) m /\ e_npts m = length (e_x m) /\ e_x m = e_x a.
Proof.
  intros Ea Eb Em O. assert (Oa := O). unfold on_stations in Oa. apply Forall_app in Oa. destruct Oa as [Oa Ob].
  destruct (init_envelope _ _ Ea Oa) as [_ Na].
  assert (Em' := Em). unfold augment in Em'. destruct (Nat.eqb_spec (e_npts a) (e_npts b)) as [E1|]; [|discriminate]. destruct (Nat.eqb_spec (e_nsup a) (e_nsup b)) as [E2|]; [|discriminate].
  assert (Xm : e_x m = e_x a /\ e_npts m = e_npts a /\ e_nsup m = e_nsup a) by (injection Em' as Em'; rewrite <- Em'; cbn [e_x e_npts e_nsup]; auto). clear Em'. destruct Xm as (Xm & Nm & Sm).
  destruct (merge_is_concat A B a b Ea Eb E1 E2) as (m' & e & Em' & Ee & SE & _). rewrite Em in Em'. injection Em' as <-.
  destruct (init_parts _ _ Ee) as (r0 & t & EA & Xe & _).
  assert (Xe' : e_x e = e_x a).
  { rewrite Xe. unfold on_stations in O. rewrite EA, Forall_forall in O. apply (O r0). left. reflexivity. }
  destruct (init_envelope _ _ Ee ltac:(rewrite Xe'; exact O)) as [[eM eV eR eL] _].
  destruct SE as (S1 & S2 & S3 & S4 & S5 & S6 & S7 & S8).
  split; [|split; [rewrite Nm, Xm; exact Na|exact Xm]].
  constructor; rewrite S1 || idtac; rewrite ?S1, ?S2, ?S3, ?S4, ?S5, ?S6, ?S7, ?S8; assumption.
Qed.
Lemma merged_station A B a b m x k : env_init A = Ok a -> env_init B = Ok b -> augment a b = Ok m -> on_stations (e_x a) (A ++ B) -> first_station (e_x a) x k ->
  exists p q r s, reads m x p q r s /\ largest (moment_at x) (A ++ B) p /\ smallest (moment_at x) (A ++ B) q /\ largest (shear_at x) (A ++ B) r /\ smallest (shear_at x) (A ++ B) s.
Proof.
  intros Ea Eb Em O K. destruct (merged_envelope A B a b m Ea Eb Em O) as (H & N & X).
  apply (at_station_extremes _ m x k H N); rewrite X; assumption.
Qed.

(** *** The left end *)
Lemma first_of x xs : In x xs -> exists k, first_station xs x k.
Proof.
  induction xs as [|y xs IH]; [intros []|]. intros H. destruct (Req_EM_T y x) as [E|E].
  - exists 0%nat. split; [cbn; lia|]. split; [exact E|]. intros j Hj. lia.
  - destruct H as [H|H]; [contradiction|]. destruct (IH H) as (k & A & B & C). exists (S k). split; [cbn; lia|]. split; [exact B|]. intros [|j] Hj; [exact E|]. apply C. lia.
Qed.
(** An analysis of a beam with spans of positive length. *)
Lemma left_end gl ill a sps npts check a' r : analyze gl ill a sps npts check = (a', Ok r) -> (0 < an_npts a')%nat -> sound_grid (an_beam a) -> (0 < b_nspans (an_beam a))%nat ->
  moment_at 0 r = 0 /\ shear_at 0 r = 0 /\ In 0 (r_x (br_all r)).
Proof.
  intros E P G N. destruct (read_left_end gl ill a sps npts check a' r E P G N) as [A B]. split; [exact A|]. split; [exact B|].
  destruct (analyze_split _ _ _ _ _ _ _ _ E) as (o & Ho & Hv & EA & _). destruct (analyze_core_state _ _ _ _ _ _ _ Ho) as (EB & _). rewrite EB in Hv.
  destruct (member_analysis_spec _ _ _ _ _ _ _ Hv) as (ls & Hls & Hlen & Hs). rewrite EA. destruct (br_mem r) as [|m l] eqn:EQ; [cbn in Hlen; lia|].
  assert (Hr : nth_error (br_mem r) 0 = Some m) by (rewrite EQ; reflexivity).
  destruct (mem_at gl ill a sps npts check a' r E P G 0 m Hr) as (mb & _ & _ & _ & _ & SG). cbn [mres_concat r_x flat_map]. apply in_or_app. left.
  assert (F := sg_first _ _ _ _ SG). change (node_x (an_beam a) 0) with 0 in F. rewrite <- F. apply nth_In. rewrite (sg_count _ _ _ _ SG). lia.
Qed.
Lemma at_left_end gl ill vr e : (forall r, In r vr -> exists a sps npts check a', analyze gl ill a sps npts check = (a', Ok r) /\ (0 < an_npts a')%nat /\ sound_grid (an_beam a) /\ (0 < b_nspans (an_beam a))%nat) ->
  env_init vr = Ok e -> on_stations (e_x e) vr -> reads e 0 0 0 0 0.
Proof.
  intros H E O. assert (Z : forall r, In r vr -> moment_at 0 r = 0 /\ shear_at 0 r = 0 /\ In 0 (r_x (br_all r))).
  { intros r Hr. destruct (H r Hr) as (a & sps & npts & check & a' & A & B & C & D). exact (left_end _ _ _ _ _ _ _ _ A B C D). }
  destruct (init_parts vr e E) as (r0 & t & EV & X & _). destruct (Z r0) as (_ & _ & I0); [rewrite EV; left; reflexivity|]. rewrite <- X in I0.
  destruct (first_of _ _ I0) as (k & K). destruct (at_station vr e 0 k E O K) as (a & b & c & d & Rd & La & Lb & Lc & Ld).
  assert (L0 : forall f m, (forall r, In r vr -> f r = 0) -> largest f vr m \/ smallest f vr m -> m = 0).
  { intros f m Hf [(_ & _ & [Q|(r & Hr & Q)])|(_ & _ & [Q|(r & Hr & Q)])]; trivial; rewrite <- Q; apply Hf, Hr. }
  rewrite (L0 (moment_at 0) a) in Rd; [|intros r Hr; apply Z, Hr|auto]. rewrite (L0 (moment_at 0) b) in Rd; [|intros r Hr; apply Z, Hr|auto].
  rewrite (L0 (shear_at 0) c) in Rd; [|intros r Hr; apply Z, Hr|auto]. rewrite (L0 (shear_at 0) d) in Rd; [|intros r Hr; apply Z, Hr|auto]. exact Rd.
Qed.

(** *** Merging looks at two counts only *)
Lemma merge_counts a b : (exists m, augment a b = Ok m) <-> e_npts a = e_npts b /\ e_nsup a = e_nsup b.
Proof.
  unfold augment. split.
  - intros (m & E). destruct (Nat.eqb_spec (e_npts a) (e_npts b)); [|discriminate]. destruct (Nat.eqb_spec (e_nsup a) (e_nsup b)); [|discriminate]. auto.
  - intros [-> ->]. rewrite !Nat.eqb_refl. cbn [negb orb]. eexists. reflexivity.
Qed.
