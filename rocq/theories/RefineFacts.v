From Coq Require Import Lia ZArith.
From Verif Require Import Base BaseFacts Linalg LinalgFacts SectionModel LoadModel LoadSpec FoundationModel ElementModel UtilsModel BeamModel BeamSpec AnalysisModel AnalysisSpec AnalysisFacts
  ResultsModel ResultsFacts EnvelopeModel EnvelopeSpec VehicleModel BridgeModel BridgeSpec RefineSpec.
Open Scope R_scope.

(** ** Lipschitz functions on [0, L] *)
Definition lipc (L C : R) (f : R -> R) : Prop := 0 <= C /\ forall x y, 0 <= x <= L -> 0 <= y <= L -> Rabs (f x - f y) <= C * Rabs (x - y).
Definition lip (L : R) (f : R -> R) : Prop := exists C, lipc L C f.
Lemma lip_const L c : lip L (fun _ => c).
Proof. exists 0. split; [lra|]. intros x y _ _. replace (c - c) with 0 by ring. rewrite Rabs_R0. lra. Qed.
Lemma lip_id L : lip L (fun x => x).
Proof. exists 1. split; [lra|]. intros x y _ _. lra. Qed.
Lemma lip_ext L f g : (forall x, 0 <= x <= L -> f x = g x) -> lip L f -> lip L g.
Proof. intros E (C & H0 & H). exists C. split; [exact H0|]. intros x y Hx Hy. rewrite <- !E by assumption. apply H; assumption. Qed.
Lemma lip_plus L f g : lip L f -> lip L g -> lip L (fun x => f x + g x).
Proof.
  intros (C & C0 & H) (D & D0 & K). exists (C + D). split; [lra|]. intros x y Hx Hy.
  replace (f x + g x - (f y + g y)) with ((f x - f y) + (g x - g y)) by ring.
  eapply Rle_trans; [apply Rabs_triang|]. specialize (H x y Hx Hy). specialize (K x y Hx Hy). lra.
Qed.
Lemma lip_scal L c f : lip L f -> lip L (fun x => c * f x).
Proof.
  intros (C & C0 & H). exists (Rabs c * C). split; [apply Rmult_le_pos; [apply Rabs_pos|exact C0]|]. intros x y Hx Hy.
  replace (c * f x - c * f y) with (c * (f x - f y)) by ring. rewrite Rabs_mult, Rmult_assoc. apply Rmult_le_compat_l; [apply Rabs_pos|]. apply H; assumption.
Qed.
Lemma lip_opp L f : lip L f -> lip L (fun x => - f x).
Proof. intros H. apply (lip_ext L (fun x => -1 * f x)); [intros; ring|]. apply lip_scal, H. Qed.
Lemma lip_minus L f g : lip L f -> lip L g -> lip L (fun x => f x - g x).
Proof. intros H K. apply (lip_ext L (fun x => f x + - g x)); [intros; ring|]. apply lip_plus; [exact H|apply lip_opp, K]. Qed.
Lemma lip_div L c f : lip L f -> lip L (fun x => f x / c).
Proof. intros H. apply (lip_ext L (fun x => / c * f x)); [intros; unfold Rdiv; ring|]. apply lip_scal, H. Qed.
Lemma lip_bound L f : 0 <= L -> lip L f -> exists B, 0 <= B /\ forall x, 0 <= x <= L -> Rabs (f x) <= B.
Proof.
  intros HL (C & C0 & H). exists (Rabs (f 0) + C * L). assert (0 <= C * L) by (apply Rmult_le_pos; assumption). pose proof (Rabs_pos (f 0)). split; [lra|].
  intros x Hx. replace (f x) with (f 0 + (f x - f 0)) by ring. eapply Rle_trans; [apply Rabs_triang|]. apply Rplus_le_compat_l.
  eapply Rle_trans; [apply H; lra|]. apply Rmult_le_compat_l; [exact C0|]. rewrite Rabs_right; lra.
Qed.
Lemma lip_mul L f g : 0 <= L -> lip L f -> lip L g -> lip L (fun x => f x * g x).
Proof.
  intros HL F G. destruct (lip_bound L f HL F) as (A & A0 & HA), (lip_bound L g HL G) as (B & B0 & HB). destruct F as (C & C0 & H), G as (D & D0 & K).
  exists (B * C + A * D). split; [apply Rplus_le_le_0_compat; apply Rmult_le_pos; assumption|]. intros x y Hx Hy.
  replace (f x * g x - f y * g y) with ((f x - f y) * g x + f y * (g x - g y)) by ring. eapply Rle_trans; [apply Rabs_triang|]. rewrite !Rabs_mult.
  specialize (H x y Hx Hy). specialize (K x y Hx Hy). specialize (HB x Hx). specialize (HA y Hy).
  assert (E1 : Rabs (f x - f y) * Rabs (g x) <= C * Rabs (x - y) * B) by (apply Rmult_le_compat; [apply Rabs_pos|apply Rabs_pos|exact H|exact HB]).
  assert (E2 : Rabs (f y) * Rabs (g x - g y) <= A * (D * Rabs (x - y))) by (apply Rmult_le_compat; [apply Rabs_pos|apply Rabs_pos|exact HA|exact K]).
  lra.
Qed.
Lemma lip_rsum L n (f : nat -> R -> R) : (forall i, (i < n)%nat -> lip L (f i)) -> lip L (fun x => rsum n (fun i => f i x)).
Proof.
  induction n as [|n IH]; intros H; cbn [rsum]; [apply lip_const|]. apply lip_plus; [apply IH; intros; apply H; lia|]. apply H. lia.
Qed.
Ltac lips L := repeat first
  [ apply lip_const | apply lip_id | apply lip_plus | apply lip_minus | apply lip_opp | apply lip_div | apply lip_mul; [lra| |] ].

(** ** Fixed-end forces of a unit load at [x] *)
Definition rv (L : R) (et : nat) (x : R) : vec := cnl_vec (release (pl_cnl 1 x L) L et).
Lemma rv_lip L et p : 0 < L -> lip L (fun x => rv L et x p).
Proof.
  intros HL.
  assert (B : lip L (fun x => Rmax (L - x) 0)).
  { apply (lip_ext L (fun x => L - x)); [intros x Hx; rewrite Rmax_left; lra|]. lips L. }
  assert (VA : lip L (fun x => c_Va (pl_cnl 1 x L))) by (cbn [pl_cnl c_Va]; cbv zeta; unfold pow; lips L; exact B).
  assert (VB : lip L (fun x => c_Vb (pl_cnl 1 x L))) by (cbn [pl_cnl c_Vb]; cbv zeta; unfold pow; lips L; exact B).
  assert (MA : lip L (fun x => c_Ma (pl_cnl 1 x L))) by (cbn [pl_cnl c_Ma]; cbv zeta; unfold pow; lips L; exact B).
  assert (MB : lip L (fun x => c_Mb (pl_cnl 1 x L))) by (cbn [pl_cnl c_Mb]; cbv zeta; unfold pow; lips L; exact B).
  unfold rv, cnl_vec, vec4, release.
  destruct p as [|[|[|[|p]]]]; destruct et as [|[|[|[|[|et]]]]]; cbn [c_Va c_Ma c_Vb c_Mb]; lips L; assumption.
Qed.
Lemma rv_start L et p : 0 < L -> (p < 4)%nat -> rv L et 0 p = if Nat.eqb p 0 then 1 else 0.
Proof.
  intros HL Hp. unfold rv, cnl_vec, vec4, release, pl_cnl. rewrite Rmax_left by lra.
  destruct p as [|[|[|[|p]]]]; try lia; destruct et as [|[|[|[|[|et]]]]]; cbn; field; lra.
Qed.
Lemma rv_end L et p : 0 < L -> (p < 4)%nat -> rv L et L p = if Nat.eqb p 2 then 1 else 0.
Proof.
  intros HL Hp. unfold rv, cnl_vec, vec4, release, pl_cnl. rewrite Rmax_left by lra.
  destruct p as [|[|[|[|p]]]]; try lia; destruct et as [|[|[|[|[|et]]]]]; cbn; field; lra.
Qed.
(** What the proofs use of the fixed-end forces of a unit load at [x]. *)
Record fits (L : R) (f : R -> vec) : Prop := {
  fit_lip : forall p, (p < 4)%nat -> lip L (fun x => f x p);
  fit_start : forall p, (p < 4)%nat -> f 0 p = if Nat.eqb p 0 then 1 else 0;
  fit_end : forall p, (p < 4)%nat -> f L p = if Nat.eqb p 2 then 1 else 0 }.
Lemma rv_fits L et : 0 < L -> fits L (rv L et).
Proof. intros HL. constructor; intros p Hp; [apply rv_lip|apply rv_start|apply rv_end]; assumption. Qed.
(** Simply supported moment at [s]. *)
Definition mv (L x s : R) : R := M_of L (LPL 1 x) s.
Lemma mv_lip L s : 0 < L -> 0 <= s <= L -> lipc L 2 (fun x => mv L x s).
Proof.
  intros HL Hs. split; [lra|]. intros x y Hx Hy. unfold mv, M_of. cbn [diag_of pl_diag f_M]. unfold MB. rewrite !(Rmax_left (L - _)) by lra.
  replace (1 * (L - x) / L * s - 1 * Rmax (s - x) 0 - (1 * (L - y) / L * s - 1 * Rmax (s - y) 0)) with (s / L * (y - x) + (Rmax (s - y) 0 - Rmax (s - x) 0)) by (field; lra).
  eapply Rle_trans; [apply Rabs_triang|]. rewrite Rabs_mult, (Rabs_minus_sym y x).
  assert (E : 0 <= s / L <= 1).
  { split; [apply Rmult_le_pos; [lra|left; apply Rinv_0_lt_compat, HL]|]. apply (Rmult_le_reg_r L); [exact HL|]. unfold Rdiv. rewrite Rmult_assoc, Rinv_l by lra. lra. }
  rewrite (Rabs_right (s / L)) by lra.
  assert (F : Rabs (Rmax (s - y) 0 - Rmax (s - x) 0) <= Rabs (x - y)).
  { unfold Rmax. destruct (Rle_dec (s - y) 0), (Rle_dec (s - x) 0); unfold Rabs; repeat destruct (Rcase_abs _); lra. }
  assert (G : s / L * Rabs (x - y) <= 1 * Rabs (x - y)) by (apply Rmult_le_compat_r; [apply Rabs_pos|lra]). lra.
Qed.
Lemma mv_start L s : 0 < L -> 0 <= s -> mv L 0 s = 0.
Proof. intros HL Hs. unfold mv, M_of. cbn [diag_of pl_diag f_M]. unfold MB. rewrite !Rmax_left by lra. field. lra. Qed.
Lemma mv_end L s : 0 < L -> s <= L -> mv L L s = 0.
Proof. intros HL Hs. unfold mv, M_of. cbn [diag_of pl_diag f_M]. unfold MB. rewrite (Rmax_left (L - L)) by lra. rewrite Rmax_right by lra. field. lra. Qed.

(** ** Response to a unit load on span [j] at [x] *)
Section Response.
Variables (n : nat) (kb : nat -> mat) (K B : mat) (fixed : nat -> bool) (len : nat -> R) (rvj : nat -> R -> vec).
Hypothesis Hlen : forall j, (j < n)%nat -> 0 < len j.
Hypothesis Hrv : forall j, (j < n)%nat -> fits (len j) (rvj j).
Local Notation N := (2 * (n + 1))%nat.
Definition disp (g : vec) : vec := fun q => rsum N (fun i => B q i * (if fixed i then 0 else g i)).
Definition endf (g : vec) (m : nat) : vec := mulmv 4 (kb m) (fun q => disp g (2 * m + q)%nat).
Definition bend (f : vec) (L s : R) : R := (f 1%nat + f 3%nat) / L * s - f 1%nat.
Definition nodal (j : nat) (x : R) : vec := fun i => - scat (2 * j) (rvj j x) i.
Definition respM (m : nat) (s : R) (j : nat) (x : R) : R :=
  bend (endf (nodal j x) m) (len m) s + (if Nat.eqb j m then bend (rvj j x) (len m) s + mv (len m) x s else 0).
Definition respR (i j : nat) (x : R) : R := mulmv N K (disp (nodal j x)) i - nodal j x i.

Lemma nodal_lip j i : (j < n)%nat -> lip (len j) (fun x => nodal j x i).
Proof using Hlen Hrv.
  intros Hj. unfold nodal. apply lip_opp. unfold scat. destruct (Nat.leb_spec (2 * j) i), (Nat.ltb_spec i (2 * j + 4)); cbn [andb]; try apply lip_const. apply (fit_lip _ _ (Hrv j Hj)). lia.
Qed.
Lemma disp_lip j q : (j < n)%nat -> lip (len j) (fun x => disp (nodal j x) q).
Proof using Hlen Hrv.
  intros Hj. unfold disp. apply lip_rsum. intros i Hi. apply lip_scal. destruct (fixed i); [apply lip_const|apply nodal_lip, Hj].
Qed.
Lemma endf_lip j m p : (j < n)%nat -> lip (len j) (fun x => endf (nodal j x) m p).
Proof using Hlen Hrv. intros Hj. unfold endf, mulmv. apply lip_rsum. intros i Hi. apply lip_scal, disp_lip, Hj. Qed.
Lemma respR_lip i j : (j < n)%nat -> lip (len j) (respR i j).
Proof using Hlen Hrv.
  intros Hj. unfold respR. apply lip_minus; [|apply nodal_lip, Hj]. unfold mulmv. apply lip_rsum. intros k Hk. apply lip_scal, disp_lip, Hj.
Qed.
(** [bend] with a constant not depending on the station. *)
Lemma bend_lip L (f : R -> vec) Lm : 0 < Lm -> lip L (fun x => f x 1%nat) -> lip L (fun x => f x 3%nat) ->
  exists C, forall s, 0 <= s <= Lm -> lipc L C (fun x => bend (f x) Lm s).
Proof using.
  intros HL (C & C0 & H) (D & D0 & K0). exists (C + D + C). intros s Hs. split; [lra|]. intros x y Hx Hy. unfold bend.
  replace ((f x 1%nat + f x 3%nat) / Lm * s - f x 1%nat - ((f y 1%nat + f y 3%nat) / Lm * s - f y 1%nat)) with
    (s / Lm * ((f x 1%nat - f y 1%nat) + (f x 3%nat - f y 3%nat)) + - (f x 1%nat - f y 1%nat)) by (field; lra).
  eapply Rle_trans; [apply Rabs_triang|]. rewrite Rabs_Ropp, Rabs_mult.
  assert (E : 0 <= s / Lm <= 1).
  { split; [apply Rmult_le_pos; [lra|left; apply Rinv_0_lt_compat, HL]|]. apply (Rmult_le_reg_r Lm); [exact HL|]. unfold Rdiv. rewrite Rmult_assoc, Rinv_l by lra. lra. }
  rewrite (Rabs_right (s / Lm)) by lra. pose proof (Rabs_triang (f x 1%nat - f y 1%nat) (f x 3%nat - f y 3%nat)) as T.
  specialize (H x y Hx Hy). specialize (K0 x y Hx Hy). set (T0 := Rabs (f x 1%nat - f y 1%nat + (f x 3%nat - f y 3%nat))) in *.
  assert (G : s / Lm * T0 <= 1 * T0) by (apply Rmult_le_compat_r; [apply Rabs_pos|lra]). lra.
Qed.
Lemma lipc_plus L C D f g : lipc L C f -> lipc L D g -> lipc L (C + D) (fun x => f x + g x).
Proof using.
  intros (C0 & H) (D0 & K0). split; [lra|]. intros x y Hx Hy.
  replace (f x + g x - (f y + g y)) with ((f x - f y) + (g x - g y)) by ring.
  eapply Rle_trans; [apply Rabs_triang|]. specialize (H x y Hx Hy). specialize (K0 x y Hx Hy). lra.
Qed.
Lemma respM_lip m j : (m < n)%nat -> (j < n)%nat -> exists C, forall s, 0 <= s <= len m -> lipc (len j) C (respM m s j).
Proof using Hlen Hrv.
  intros Hm Hj. destruct (bend_lip (len j) (fun x => endf (nodal j x) m) (len m) (Hlen m Hm) (endf_lip j m 1 Hj) (endf_lip j m 3 Hj)) as (C & HC).
  destruct (bend_lip (len j) (rvj j) (len m) (Hlen m Hm) (fit_lip _ _ (Hrv j Hj) 1%nat ltac:(lia)) (fit_lip _ _ (Hrv j Hj) 3%nat ltac:(lia))) as (D & HD).
  exists (C + (D + 2)). intros s Hs. unfold respM. apply lipc_plus; [apply HC, Hs|].
  destruct (Nat.eqb_spec j m) as [<-|Ne].
  - apply lipc_plus; [apply HD, Hs|]. apply mv_lip; [apply Hlen, Hj|exact Hs].
  - specialize (HD s Hs) as [D0 _]. split; [lra|]. intros x y _ _. replace (0 - 0) with 0 by ring. rewrite Rabs_R0. apply Rmult_le_pos; [lra|apply Rabs_pos].
Qed.

(** At a node the two spans give the same. *)
Lemma nodal_end j i : (j < n)%nat -> nodal j (len j) i = - (if Nat.eqb i (2 * j + 2) then 1 else 0).
Proof using Hlen Hrv.
  intros Hj. unfold nodal, scat. f_equal. destruct (Nat.leb_spec (2 * j) i), (Nat.ltb_spec i (2 * j + 4)); cbn [andb];
    try (destruct (Nat.eqb_spec i (2 * j + 2)); [lia|reflexivity]).
  rewrite (fit_end _ _ (Hrv j Hj)) by lia. destruct (Nat.eqb_spec (i - 2 * j) 2), (Nat.eqb_spec i (2 * j + 2)); try lia; reflexivity.
Qed.
Lemma nodal_start j i : (j < n)%nat -> nodal j 0 i = - (if Nat.eqb i (2 * j) then 1 else 0).
Proof using Hlen Hrv.
  intros Hj. unfold nodal, scat. f_equal. destruct (Nat.leb_spec (2 * j) i), (Nat.ltb_spec i (2 * j + 4)); cbn [andb];
    try (destruct (Nat.eqb_spec i (2 * j)); [lia|reflexivity]).
  rewrite (fit_start _ _ (Hrv j Hj)) by lia. destruct (Nat.eqb_spec (i - 2 * j) 0), (Nat.eqb_spec i (2 * j)); try lia; reflexivity.
Qed.
Lemma disp_ext g g' q : (forall i, (i < N)%nat -> fixed i = false -> g i = g' i) -> disp g q = disp g' q.
Proof using. intros H. unfold disp. apply rsum_ext. intros i Hi. destruct (fixed i) eqn:F; [reflexivity|]. rewrite H by assumption. reflexivity. Qed.
Lemma bend_ext f g L s : f 1%nat = g 1%nat -> f 3%nat = g 3%nat -> bend f L s = bend g L s.
Proof using. unfold bend. intros -> ->. reflexivity. Qed.
Lemma endf_ext g g' m p : (forall i, (i < N)%nat -> fixed i = false -> g i = g' i) -> endf g m p = endf g' m p.
Proof using. intros H. unfold endf, mulmv. apply rsum_ext. intros q _. rewrite (disp_ext g g') by exact H. reflexivity. Qed.
Lemma own_end m s j : (j < n)%nat -> 0 <= s <= len m -> (if Nat.eqb j m then bend (rvj j (len j)) (len m) s + mv (len m) (len j) s else 0) = 0.
Proof using Hlen Hrv.
  intros Hj Hs. destruct (Nat.eqb_spec j m) as [<-|]; [|reflexivity]. pose proof (Hlen j Hj). unfold bend. rewrite !(fit_end _ _ (Hrv j Hj)), mv_end by (auto; lia || lra). cbn. unfold Rdiv. ring.
Qed.
Lemma own_start m s j : (j < n)%nat -> 0 <= s <= len m -> (if Nat.eqb j m then bend (rvj j 0) (len m) s + mv (len m) 0 s else 0) = 0.
Proof using Hlen Hrv.
  intros Hj Hs. destruct (Nat.eqb_spec j m) as [<-|]; [|reflexivity]. pose proof (Hlen j Hj). unfold bend. rewrite !(fit_start _ _ (Hrv j Hj)), mv_start by (auto; lia || lra). cbn. unfold Rdiv. ring.
Qed.
Lemma respM_match m s j : (S j < n)%nat -> 0 <= s <= len m -> respM m s j (len j) = respM m s (S j) 0.
Proof using Hlen Hrv.
  intros Hj Hs. unfold respM. rewrite own_end, own_start by (lia || exact Hs). f_equal.
  assert (E : forall i, nodal j (len j) i = nodal (S j) 0 i) by (intros i; rewrite nodal_end, nodal_start by lia; replace (2 * S j)%nat with (2 * j + 2)%nat by lia; reflexivity).
  apply bend_ext; apply endf_ext; intros; apply E.
Qed.
Lemma respR_match i j : (S j < n)%nat -> respR i j (len j) = respR i (S j) 0.
Proof using Hlen Hrv.
  intros Hj. unfold respR.
  assert (E : forall i, nodal j (len j) i = nodal (S j) 0 i) by (intros k; rewrite nodal_end, nodal_start by lia; replace (2 * S j)%nat with (2 * j + 2)%nat by lia; reflexivity).
  rewrite E. f_equal. unfold mulmv. apply rsum_ext. intros q _. f_equal. apply disp_ext. intros; apply E.
Qed.
Lemma disp_0 q : disp (fun _ => 0) q = 0.
Proof using. unfold disp. apply rsum_0. intros i _. destruct (fixed i); ring. Qed.
Lemma endf_0 m p : endf (fun _ => 0) m p = 0.
Proof using. unfold endf, mulmv. apply rsum_0. intros q _. rewrite disp_0. ring. Qed.
(** Over a held end nothing is felt. *)
Lemma held_nodal j x : (forall i, fixed i = false -> nodal j x i = 0) -> forall m s, bend (endf (nodal j x) m) (len m) s = 0.
Proof using.
  intros H m s. rewrite (bend_ext _ (endf (fun _ => 0) m)) by (apply endf_ext; intros; apply H; assumption). unfold bend. rewrite !endf_0. unfold Rdiv. ring.
Qed.
Lemma held_reacts j x : (forall i, fixed i = false -> nodal j x i = 0) -> forall i, mulmv N K (disp (nodal j x)) i = 0.
Proof using.
  intros H i. unfold mulmv. apply rsum_0. intros q _. rewrite (disp_ext _ (fun _ => 0)) by (intros; apply H; assumption). rewrite disp_0. ring.
Qed.
Lemma held_start : (0 < n)%nat -> fixed 0 = true -> forall i, fixed i = false -> nodal 0 0 i = 0.
Proof using Hlen Hrv. intros Hn F i Hi. rewrite nodal_start by lia. destruct (Nat.eqb_spec i (2 * 0)) as [->|]; [cbn in Hi; congruence|ring]. Qed.
Lemma held_end : (0 < n)%nat -> fixed (2 * n) = true -> forall i, fixed i = false -> nodal (n - 1) (len (n - 1)) i = 0.
Proof using Hlen Hrv.
  intros Hn F i Hi. rewrite nodal_end by lia. replace (2 * (n - 1) + 2)%nat with (2 * n)%nat by lia. destruct (Nat.eqb_spec i (2 * n)) as [->|]; [congruence|ring].
Qed.
Lemma respM_left m s : (0 < n)%nat -> fixed 0 = true -> 0 <= s <= len m -> respM m s 0 0 = 0.
Proof using Hlen Hrv. intros Hn F Hs. unfold respM. rewrite own_start by assumption. rewrite (held_nodal 0 0 (held_start Hn F)). ring. Qed.
Lemma respM_right m s : (0 < n)%nat -> fixed (2 * n) = true -> 0 <= s <= len m -> respM m s (n - 1) (len (n - 1)) = 0.
Proof using Hlen Hrv. intros Hn F Hs. unfold respM. rewrite own_end by (lia || assumption). rewrite (held_nodal _ _ (held_end Hn F)). ring. Qed.
Lemma respR_left i : (0 < n)%nat -> fixed 0 = true -> i <> 0%nat -> respR i 0 0 = 0.
Proof using Hlen Hrv.
  intros Hn F Hi. unfold respR. rewrite (held_reacts 0 0 (held_start Hn F)). rewrite nodal_start by lia. destruct (Nat.eqb_spec i (2 * 0)); [lia|ring].
Qed.
Lemma respR_right i : (0 < n)%nat -> fixed (2 * n) = true -> i <> (2 * n)%nat -> respR i (n - 1) (len (n - 1)) = 0.
Proof using Hlen Hrv.
  intros Hn F Hi. unfold respR. rewrite (held_reacts _ _ (held_end Hn F)). rewrite nodal_end by lia. destruct (Nat.eqb_spec i (2 * (n - 1) + 2)); [lia|ring].
Qed.
End Response.

(** ** From one span to the deck *)
Lemma f2_cons {A B} (P : A -> B -> Prop) a l rows : Forall2 P (a :: l) rows -> exists r rest, rows = r :: rest /\ P a r /\ Forall2 P l rest.
Proof. intros F. inversion F; subst. eauto. Qed.
Lemma f2_nil {A B} (P : A -> B -> Prop) rows : Forall2 P [] rows -> rows = [].
Proof. intros F. inversion F. reflexivity. Qed.
Section Deck.
Variables (n : nat) (len : nat -> R) (rs : nat -> R -> R) (C : R).
Hypothesis Hn : (0 < n)%nat.
Hypothesis Hlen : forall j, (j < n)%nat -> 0 < len j.
Hypothesis C0 : 0 <= C.
Hypothesis Hlip : forall j, (j < n)%nat -> lipc (len j) C (rs j).
Hypothesis Hmatch : forall j, (S j < n)%nat -> rs j (len j) = rs (S j) 0.
Hypothesis Hleft : rs 0%nat 0 = 0.
Hypothesis Hright : rs (n - 1)%nat (len (n - 1)) = 0.
Let nd (i : nat) : R := rsum i len.
Lemma nd_S i : nd (S i) = nd i + len i.
Proof. reflexivity. Qed.
Lemma nd_mono : forall d i, (i + d <= n)%nat -> nd i <= nd (i + d).
Proof.
  induction d as [|d IH]; intros i H; [rewrite Nat.add_0_r; lra|]. replace (i + S d)%nat with (S (i + d)) by lia. rewrite nd_S. specialize (IH i ltac:(lia)). pose proof (Hlen (i + d) ltac:(lia)). lra.
Qed.
Lemma chain : forall d j x x', (j + d < n)%nat -> 0 <= x <= len j -> 0 <= x' <= len (j + d) -> (d = 0%nat -> x <= x') ->
  Rabs (rs j x - rs (j + d)%nat x') <= C * ((nd (j + d) + x') - (nd j + x)).
Proof.
  induction d as [|d IH]; intros j x x' Hd Hx Hx' H0.
  - rewrite Nat.add_0_r in *. destruct (Hlip j Hd) as [_ H]. specialize (H x x' Hx Hx'). rewrite Rabs_minus_sym, (Rabs_minus_sym x x'), (Rabs_right (x' - x)) in H by (specialize (H0 eq_refl); lra).
    rewrite Rabs_minus_sym. replace (nd j + x' - (nd j + x)) with (x' - x) by ring. exact H.
  - replace (j + S d)%nat with (S j + d)%nat in * by lia.
    specialize (IH (S j) 0 x' ltac:(lia)). destruct (Hlip j ltac:(lia)) as [_ H]. specialize (H x (len j) Hx ltac:(pose proof (Hlen j ltac:(lia)); lra)).
    rewrite (Rabs_minus_sym x), (Rabs_right (len j - x)) in H by lra. rewrite (Hmatch j ltac:(lia)) in H.
    assert (J : 0 <= 0 <= len (S j)) by (pose proof (Hlen (S j) ltac:(lia)); lra). specialize (IH J Hx' ltac:(intros; lra)). rewrite nd_S in IH.
    replace (rs j x - rs (S j + d)%nat x') with ((rs j x - rs (S j) 0) + (rs (S j) 0 - rs (S j + d)%nat x')) by ring.
    eapply Rle_trans; [apply Rabs_triang|]. eapply Rle_trans; [apply Rplus_le_compat; [exact H|exact IH]|]. apply Req_le. ring.
Qed.
Lemma deck_lip j x j' x' : (j < n)%nat -> (j' < n)%nat -> 0 <= x <= len j -> 0 <= x' <= len j' -> Rabs (rs j x - rs j' x') <= C * Rabs ((nd j + x) - (nd j' + x')).
Proof.
  assert (W : forall j x j' x', (j <= j')%nat -> (j' < n)%nat -> 0 <= x <= len j -> 0 <= x' <= len j' -> (j = j' -> x <= x') -> Rabs (rs j x - rs j' x') <= C * Rabs ((nd j + x) - (nd j' + x'))).
  { clear j x j' x'. intros j x j' x' Hjj Hj' Hx Hx' H0. replace j' with (j + (j' - j))%nat in * by lia. set (d := (j' - j)%nat) in *. clearbody d.
    pose proof (chain d j x x' ltac:(lia) Hx Hx' ltac:(intros ->; apply H0; lia)) as H.
    assert (E : nd j + x <= nd (j + d) + x').
    { destruct d as [|d]; [rewrite Nat.add_0_r in *; specialize (H0 eq_refl); lra|]. pose proof (nd_mono d (S j) ltac:(lia)) as M. rewrite nd_S in M. replace (S j + d)%nat with (j + S d)%nat in M by lia. lra. }
    rewrite Rabs_minus_sym, (Rabs_minus_sym (nd j + x)), (Rabs_right (nd (j + d) + x' - (nd j + x))) by lra. rewrite Rabs_minus_sym. exact H. }
  intros Hj Hj' Hx Hx'. destruct (Nat.lt_trichotomy j j') as [L|[<-|L]].
  - apply W; auto; lia.
  - destruct (Rle_dec x x') as [Le|Le]; [apply W; auto|]. rewrite Rabs_minus_sym, (Rabs_minus_sym (nd j + x)). apply W; auto. intros _. lra.
  - rewrite Rabs_minus_sym, (Rabs_minus_sym (nd j + x)). apply W; auto; lia.
Qed.
Lemma deck_from_left j x : (j < n)%nat -> 0 <= x <= len j -> Rabs (rs j x) <= C * (nd j + x).
Proof.
  intros Hj Hx. pose proof (chain j 0 0 x ltac:(lia) ltac:(pose proof (Hlen 0 ltac:(lia)); lra) ltac:(cbn; exact Hx) ltac:(intros; lra)) as H.
  cbn [Nat.add] in H. rewrite Hleft in H. replace (0 - rs j x) with (- rs j x) in H by ring. rewrite Rabs_Ropp in H.
  replace (nd j + x) with (nd j + x - (nd 0 + 0)) by (unfold nd at 2; cbn; ring). exact H.
Qed.
Lemma deck_from_right j x : (j < n)%nat -> 0 <= x <= len j -> Rabs (rs j x) <= C * (nd n - (nd j + x)).
Proof.
  intros Hj Hx. pose proof (chain (n - 1 - j) j x (len (n - 1)) ltac:(lia) Hx) as H. replace (j + (n - 1 - j))%nat with (n - 1)%nat in H by lia.
  specialize (H ltac:(pose proof (Hlen (n - 1) ltac:(lia)); lra)). rewrite Hright, Rminus_0_r in H.
  replace (nd n) with (nd (n - 1) + len (n - 1)) by (rewrite <- nd_S; f_equal; lia). apply H. intros E. replace (n - 1)%nat with j by lia. lra.
Qed.

(** A sum over the axles on the deck. *)
Definition rowval (r : row) : R := match r with Row s _ (W :: x :: _) => W * rs (Z.to_nat (s - 1)) x | _ => 0 end.
Variable b : beam.
Hypothesis Hb : b_nspans b = n.
Hypothesis Hlb : forall j, nth j (b_lengths b) 0 = len j.
Lemma node_nd i : node_at b i = nd i.
Proof. unfold node_at, nd. apply rsum_ext. intros j _. apply Hlb. Qed.
Lemma axle_val y W r : axle_row b (y, W) r -> exists j x, rowval r = W * rs j x /\ (j < n)%nat /\ y = nd j + x /\ 0 <= x <= len j.
Proof.
  intros (j & x & -> & Hj & Ey & H0 & H1). cbn [fst snd] in *. exists j, x. unfold rowval. replace (Z.to_nat (Z.of_nat j + 1 - 1)) with j by lia.
  split; [reflexivity|]. rewrite Hb in Hj. rewrite node_nd in Ey. split; [exact Hj|]. split; [exact Ey|]. rewrite Hlb in H1. destruct H1 as [H1|[-> _]]; lra.
Qed.
Lemma axles_lip p p' : forall l rows rows',
  Forall2 (axle_row b) (on_deck b (map (fun a => (p - fst a, snd a)) l)) rows -> Forall2 (axle_row b) (on_deck b (map (fun a => (p' - fst a, snd a)) l)) rows' ->
  Rabs (lsum (map rowval rows) - lsum (map rowval rows')) <= C * Rabs (p - p') * lsum (map (fun a => Rabs (snd a)) l).
Proof.
  unfold lsum. induction l as [|[d W] l IH]; intros rows rows' F F'; cbn [map on_deck filter] in F, F'; unfold on_deck in F, F'; cbn [map filter fst snd] in F, F'.
  - apply f2_nil in F as ->. apply f2_nil in F' as ->. cbn. rewrite Rminus_0_r, Rabs_R0. lra.
  - fold (on_deck b (map (fun a => (p - fst a, snd a)) l)) in F. fold (on_deck b (map (fun a => (p' - fst a, snd a)) l)) in F'.
    assert (DL : deck_length b = nd n) by (unfold deck_length; rewrite node_nd, Hb; reflexivity).
    assert (G : forall u u' t t', Rabs (u - u') <= C * Rabs (p - p') * Rabs W ->
      Rabs (t - t') <= C * Rabs (p - p') * fold_right Rplus 0 (map (fun a : R * R => Rabs (snd a)) l) ->
      Rabs ((u + t) - (u' + t')) <= C * Rabs (p - p') * fold_right Rplus 0 (map (fun a : R * R => Rabs (snd a)) ((d, W) :: l))).
    { intros u u' t t' A1 A2. cbn [map snd fold_right]. replace (u + t - (u' + t')) with ((u - u') + (t - t')) by ring. eapply Rle_trans; [apply Rabs_triang|]. lra. }
    assert (OneL : forall j x, (j < n)%nat -> 0 <= x <= len j -> nd j + x <= Rabs (p - p') -> Rabs (W * rs j x) <= C * Rabs (p - p') * Rabs W).
    { intros j x Hj Hx Q. rewrite Rabs_mult, (Rmult_comm (Rabs W)). apply Rmult_le_compat_r; [apply Rabs_pos|]. eapply Rle_trans; [apply deck_from_left; assumption|]. apply Rmult_le_compat_l; [destruct (Hlip j Hj); assumption|exact Q]. }
    assert (OneR : forall j x, (j < n)%nat -> 0 <= x <= len j -> nd n - (nd j + x) <= Rabs (p - p') -> Rabs (W * rs j x) <= C * Rabs (p - p') * Rabs W).
    { intros j x Hj Hx Q. rewrite Rabs_mult, (Rmult_comm (Rabs W)). apply Rmult_le_compat_r; [apply Rabs_pos|]. eapply Rle_trans; [apply deck_from_right; assumption|]. apply Rmult_le_compat_l; [destruct (Hlip j Hj); assumption|exact Q]. }
    assert (Wn : forall y, within 0 (deck_length b) y = false -> y < 0 \/ nd n < y).
    { intros y. unfold within. rewrite DL. destruct (Rle_dec 0 y); [|lra]. destruct (Rle_dec y (nd n)); [discriminate|lra]. }
    assert (Wy : forall y, within 0 (deck_length b) y = true -> 0 <= y <= nd n).
    { intros y. unfold within. rewrite DL. destruct (Rle_dec 0 y); [|discriminate]. destruct (Rle_dec y (nd n)); [lra|discriminate]. }
    assert (Ab : p - p' <= Rabs (p - p') /\ p' - p <= Rabs (p - p')) by (split; [apply Rle_abs|rewrite Rabs_minus_sym; apply Rle_abs]).
    destruct (within 0 (deck_length b) (p - d)) eqn:E1, (within 0 (deck_length b) (p' - d)) eqn:E2.
    + apply f2_cons in F as (r1 & rest & -> & A1 & F1). apply f2_cons in F' as (r1' & rest' & -> & A1' & F1'). cbn [map fold_right]. apply G; [|apply IH; assumption].
      destruct (axle_val _ _ _ A1) as (j & x & -> & Hj & Ey & Hx), (axle_val _ _ _ A1') as (j' & x' & -> & Hj' & Ey' & Hx').
      replace (W * rs j x - W * rs j' x') with (W * (rs j x - rs j' x')) by ring. rewrite Rabs_mult, (Rmult_comm (Rabs W)). apply Rmult_le_compat_r; [apply Rabs_pos|].
      eapply Rle_trans; [apply deck_lip; assumption|]. rewrite <- Ey, <- Ey'. apply Req_le. do 2 f_equal. ring.
    + apply f2_cons in F as (r1 & rest & -> & A1 & F1). cbn [map fold_right]. rewrite <- (Rplus_0_l (fold_right Rplus 0 (map rowval rows'))). apply G; [|apply IH; assumption].
      rewrite Rminus_0_r. destruct (axle_val _ _ _ A1) as (j & x & -> & Hj & Ey & Hx). destruct (Wn _ E2); [apply OneL|apply OneR]; auto; lra.
    + apply f2_cons in F' as (r1' & rest' & -> & A1' & F1'). cbn [map fold_right]. rewrite <- (Rplus_0_l (fold_right Rplus 0 (map rowval rows))). apply G; [|apply IH; assumption].
      rewrite Rminus_0_l, Rabs_Ropp. destruct (axle_val _ _ _ A1') as (j & x & -> & Hj & Ey & Hx). destruct (Wn _ E1); [apply OneL|apply OneR]; auto; lra.
    + rewrite <- (Rplus_0_l (fold_right Rplus 0 (map rowval rows))), <- (Rplus_0_l (fold_right Rplus 0 (map rowval rows'))). apply G; [|apply IH; assumption].
      rewrite Rminus_0_r, Rabs_R0. destruct (Hlip 0%nat ltac:(lia)) as [Cp _]. apply Rmult_le_pos; [apply Rmult_le_pos; [exact Cp|apply Rabs_pos]|apply Rabs_pos].
Qed.
End Deck.
