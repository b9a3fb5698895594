(** Facts about tendon profiles and their equivalent loads. *)
From Coquelicot Require Import Coquelicot.
From Coq Require Import Lia Sorting.
From Verif Require Import Base BaseFacts LoadModel LoadSpec LoadFacts DiagFacts LMFacts BeamModel ResultsModel ResultsSpec ResultsFacts
  PrestressModel PrestressSpec.
Open Scope R_scope.

Lemma tol_pos : 0 < tol. Proof. unfold tol. lra. Qed.

(** ** Chains of segments *)
Definition sl0 (s : seg) : R := (sg_e2 s - sg_e1 s) / seg_length s - sg_epp s * seg_length s / 2.
Definition sl1 (s : seg) : R := sl0 s + sg_epp s * seg_length s.
Definition sval (s : seg) (x : R) : R := sg_e1 s + sl0 s * (x - sg_x1 s) + sg_epp s * (x - sg_x1 s) ^ 2 / 2.

Fixpoint chain (x0 e0 : R) (segs : list seg) (xe ee : R) : Prop :=
  match segs with
  | [] => x0 = xe /\ e0 = ee
  | s :: t => sg_x1 s = x0 /\ sg_e1 s = e0 /\ sg_x1 s < sg_x2 s /\ chain (sg_x2 s) (sg_e2 s) t xe ee
  end.

Lemma slope_start_ok s : sg_x1 s < sg_x2 s -> slope_start s = Ok (sl0 s).
Proof.
  intros H. unfold slope_start, pydiv. destruct (Reqb_spec (seg_length s) 0) as [E|_].
  - unfold seg_length in E. lra.
  - cbn. unfold sl0. f_equal. lra.
Qed.
Lemma slope_end_ok s : sg_x1 s < sg_x2 s -> slope_end s = Ok (sl1 s).
Proof. intros H. unfold slope_end. rewrite (slope_start_ok s H). reflexivity. Qed.

Lemma chain_le segs : forall x0 e0 xe ee, chain x0 e0 segs xe ee -> x0 <= xe.
Proof.
  induction segs as [|s t IH]; cbn; intros x0 e0 xe ee C; [lra|].
  destruct C as (E & _ & H & C). apply IH in C. lra.
Qed.

Lemma sval_end s : sg_x1 s < sg_x2 s -> sval s (sg_x2 s) = sg_e2 s.
Proof. intros H. unfold sval, sl0, seg_length. field. lra. Qed.

(** Value of a chain at [x]: the first segment reaching [x]. *)
Fixpoint cval (segs : list seg) (x : R) : R :=
  match segs with
  | [] => 0
  | s :: t => if Rle_dec x (sg_x2 s) then sval s x else match t with [] => sval s x | _ => cval t x end
  end.

Definition hh (x a b : R) : R := (MB (x - a) ^ 2 - MB (x - b) ^ 2) / 2.
(** Macaulay representation with the curvatures and slope changes weighed by [k]. *)
Fixpoint rep (k : R -> R) (prev : option R) (segs : list seg) (x : R) : R :=
  match segs with
  | [] => 0
  | s :: t => k (sg_epp s) * hh x (sg_x1 s) (sg_x2 s)
              + match prev with None => 0 | Some q => k (sl0 s - q) * MB (x - sg_x1 s) end
              + rep k (Some (sl1 s)) t x
  end.

Lemma rep_before k q segs : forall x0 e0 xe ee x, chain x0 e0 segs xe ee -> x <= x0 -> rep k q segs x = 0.
Proof.
  revert q. induction segs as [|s t IH]; intros q x0 e0 xe ee x C Hx; cbn in *; [reflexivity|].
  destruct C as (E & _ & H & C). rewrite (IH _ _ _ _ _ x C) by lra.
  unfold hh. destruct q; rewrite !MB_neg by lra; field.
Qed.

Lemma rep_value_gen segs : forall q x0 e0 xe ee x, chain x0 e0 segs xe ee -> segs <> [] -> x0 <= x <= xe ->
  cval segs x = e0 + q * (x - x0) + rep (fun v => v) (Some q) segs x.
Proof.
  induction segs as [|s t IH]; intros q x0 e0 xe ee x C Hn Hx; [congruence|].
  cbn [chain] in C. destruct C as (E & E' & H & C). cbn [cval rep].
  destruct (Rle_dec x (sg_x2 s)) as [Hle|Hgt].
  - rewrite (rep_before _ _ _ _ _ _ _ x C Hle). unfold hh. rewrite (MB_neg (x - sg_x2 s)) by lra.
    rewrite !MB_pos by lra. subst x0 e0. unfold sval. field.
  - destruct t as [|s' t'].
    + cbn in C. destruct C. lra.
    + rewrite (IH (sl1 s) _ _ _ _ x C) by (try discriminate; lra).
      unfold hh. rewrite !MB_pos by lra. subst x0 e0. unfold sl1.
      rewrite <- (sval_end s H). unfold sval. unfold seg_length. field.
Qed.

Lemma rep_none segs k x s : rep k None (s :: segs) x = k (sg_epp s) * hh x (sg_x1 s) (sg_x2 s) + rep k (Some (sl1 s)) segs x.
Proof. cbn. ring. Qed.

Lemma rep_value s t x0 e0 xe ee x : chain x0 e0 (s :: t) xe ee -> x0 <= x <= xe ->
  cval (s :: t) x = e0 + sl0 s * (x - x0) + rep (fun v => v) None (s :: t) x.
Proof.
  intros C Hx. rewrite (rep_value_gen (s :: t) (sl0 s) x0 e0 xe ee x C) by (try discriminate; exact Hx).
  cbn [rep]. replace (sl0 s - sl0 s) with 0 by ring. ring.
Qed.

(** ** What the tolerance keeps and drops *)
Definition kept (v : R) : R := if Rltb tol (Rabs v) then v else 0.
Definition lost (v : R) : R := v - kept v.
Lemma lost_small v : Rabs (lost v) <= tol.
Proof.
  unfold lost, kept. destruct (Rltb_spec tol (Rabs v)) as [H|H].
  - replace (v - v) with 0 by ring. rewrite Rabs_R0. apply Rlt_le, tol_pos.
  - rewrite Rminus_0_r. lra.
Qed.
Lemma rep_split q segs x : rep (fun v => v) q segs x = rep kept q segs x + rep lost q segs x.
Proof.
  revert q. induction segs as [|s t IH]; intros q; cbn; [ring|]. rewrite IH. unfold lost. destruct q; ring.
Qed.
Lemma hh_nonneg x a b : a <= b -> 0 <= hh x a b.
Proof.
  intros H. unfold hh. assert (0 <= MB (x - b) <= MB (x - a)).
  { unfold MB. split; [apply Rmax_r|]. apply Rmax_lub; [|apply Rmax_r]. eapply Rle_trans; [|apply Rmax_l]. lra. }
  nra.
Qed.
Lemma MB_ge0 v : 0 <= MB v. Proof. apply Rmax_r. Qed.
Lemma MB_mono v w : v <= w -> MB v <= MB w.
Proof. intros H. unfold MB. apply Rmax_lub; [eapply Rle_trans; [exact H|apply Rmax_l]|apply Rmax_r]. Qed.

Definition joints (q : option R) (segs : list seg) : R :=
  INR (length segs) - match q with None => 1 | Some _ => 0 end.

Lemma rep_lost_bound segs : forall q x0 e0 xe ee x, chain x0 e0 segs xe ee -> (q = None -> segs <> []) -> x0 <= x ->
  Rabs (rep lost q segs x) <= tol * (hh x x0 xe + joints q segs * (x - x0)).
Proof.
  induction segs as [|s t IH]; intros q x0 e0 xe ee x C Hn Hx.
  - cbn in *. destruct C as [-> _]. unfold hh, joints. cbn. destruct q; [|exfalso; apply Hn; reflexivity].
    rewrite Rabs_R0. pose proof tol_pos. nra.
  - cbn [chain] in C. destruct C as (E & _ & H & C). cbn [rep].
    assert (T : Rabs (rep lost (Some (sl1 s)) t x) <= tol * (hh x (sg_x2 s) xe + INR (length t) * (x - x0))).
    { destruct (Rle_dec (sg_x2 s) x) as [Hle|Hgt].
      - eapply Rle_trans; [apply (IH (Some (sl1 s)) _ _ _ _ x C); [discriminate|exact Hle]|].
        unfold joints. apply Rmult_le_compat_l; [apply Rlt_le, tol_pos|].
        pose proof (pos_INR (length t)). apply Rplus_le_compat_l. rewrite Rminus_0_r. apply Rmult_le_compat_l; lra.
      - rewrite (rep_before _ _ _ _ _ _ _ x C) by lra. rewrite Rabs_R0. apply Rmult_le_pos; [apply Rlt_le, tol_pos|].
        pose proof (chain_le _ _ _ _ _ C). pose proof (hh_nonneg x (sg_x2 s) xe ltac:(lra)). pose proof (pos_INR (length t)).
        assert (0 <= INR (length t) * (x - x0)) by (apply Rmult_le_pos; lra). lra. }
    assert (Eh : hh x x0 xe = hh x (sg_x1 s) (sg_x2 s) + hh x (sg_x2 s) xe) by (unfold hh; rewrite E; field).
    assert (P1 : Rabs (lost (sg_epp s) * hh x (sg_x1 s) (sg_x2 s)) <= tol * hh x (sg_x1 s) (sg_x2 s)).
    { rewrite Rabs_mult, (Rabs_pos_eq (hh _ _ _)) by (apply hh_nonneg; lra).
      apply Rmult_le_compat_r; [apply hh_nonneg; lra|apply lost_small]. }
    assert (P2 : Rabs (match q with None => 0 | Some q => lost (sl0 s - q) * MB (x - sg_x1 s) end)
                 <= tol * (match q with None => 0 | Some _ => 1 end * (x - x0))).
    { destruct q as [q|].
      - rewrite Rabs_mult, (Rabs_pos_eq (MB _)) by apply MB_ge0. rewrite MB_pos by lra. rewrite E.
        rewrite Rmult_1_l. apply Rmult_le_compat_r; [lra|apply lost_small].
      - rewrite Rabs_R0. lra. }
    eapply Rle_trans; [eapply Rle_trans; [apply Rabs_triang|apply Rplus_le_compat_r, Rabs_triang]|].
    unfold joints. cbn [length]. rewrite S_INR. rewrite Eh. destruct q; lra.
Qed.

(** First derivatives at the far end. *)
Fixpoint rep1 (k : R -> R) (prev : option R) (segs : list seg) : R :=
  match segs with
  | [] => 0
  | s :: t => k (sg_epp s) * seg_length s
              + match prev with None => 0 | Some q => k (sl0 s - q) end + rep1 k (Some (sl1 s)) t
  end.
Lemma rep1_split q segs : rep1 (fun v => v) q segs = rep1 kept q segs + rep1 lost q segs.
Proof. revert q. induction segs as [|s t IH]; intros q; cbn; [ring|]. rewrite IH. unfold lost. destruct q; ring. Qed.
Lemma rep1_value segs : forall q d, segs <> [] -> sl1 (last segs d) = q + rep1 (fun v => v) (Some q) segs.
Proof.
  induction segs as [|s t IH]; intros q d Hn; [congruence|]. destruct t as [|s' t'].
  - cbn. unfold sl1. ring.
  - change (last (s :: s' :: t') d) with (last (s' :: t') d). rewrite (IH (sl1 s) d) by discriminate.
    cbn [rep1]. unfold sl1. ring.
Qed.
Lemma rep1_lost_bound segs : forall q x0 e0 xe ee, chain x0 e0 segs xe ee -> (q = None -> segs <> []) ->
  Rabs (rep1 lost q segs) <= tol * (xe - x0 + joints q segs).
Proof.
  induction segs as [|s t IH]; intros q x0 e0 xe ee C Hn.
  - cbn in *. destruct C as [-> _]. unfold joints. cbn. destruct q; [|exfalso; apply Hn; reflexivity].
    rewrite Rabs_R0. pose proof tol_pos. nra.
  - cbn [chain] in C. destruct C as (E & _ & H & C). cbn [rep1].
    pose proof (IH (Some (sl1 s)) _ _ _ _ C ltac:(discriminate)) as T. unfold joints in T. cbv beta iota in T. subst x0.
    assert (P1 : Rabs (lost (sg_epp s) * seg_length s) <= tol * seg_length s).
    { rewrite Rabs_mult, (Rabs_pos_eq (seg_length s)) by (unfold seg_length; lra).
      apply Rmult_le_compat_r; [unfold seg_length; lra|apply lost_small]. }
    assert (P2 : Rabs (match q with None => 0 | Some q => lost (sl0 s - q) end) <= tol * match q with None => 0 | Some _ => 1 end).
    { destruct q as [q|]; [rewrite Rmult_1_r; apply lost_small|rewrite Rabs_R0; lra]. }
    eapply Rle_trans; [eapply Rle_trans; [apply Rabs_triang|apply Rplus_le_compat_r, Rabs_triang]|].
    unfold joints. cbn [length]. rewrite S_INR. unfold seg_length in *. destruct q; lra.
Qed.

(** ** The documented profiles are chains *)
Lemma ok_inv {A} (a b : A) : Ok a = Ok b -> a = b.
Proof. congruence. Qed.
Lemma pydiv_ok a b : b <> 0 -> pydiv a b = Ok (a / b).
Proof. intros H. unfold pydiv. destruct (Reqb_spec b 0); [contradiction|reflexivity]. Qed.
Lemma half : 5e-1 = / 2. Proof. lra. Qed.
Lemma cval_cons s t x : cval (s :: t) x = if Rle_dec x (sg_x2 s) then sval s x else match t with [] => sval s x | _ => cval t x end.
Proof. reflexivity. Qed.

Record laid (p : profile) (L : R) (t : option tip) (segs : list seg) : Prop := {
  ld_chain : chain 0 (drape p L t 0) segs L (drape p L t L);
  ld_some : segs <> [];
  ld_count : (length segs <= 5)%nat;
  ld_joints : Forall (fun s => tol < sg_x1 s < L - tol) (tl segs);
  ld_breaks : map sg_x1 (tl segs) = breaks p L t;
  ld_val : forall x, 0 <= x <= L -> cval segs x = drape p L t x }.

Ltac piece := unfold sval, sl0, seg_length, lagrange, chord, vertex; cbn [line sg_x1 sg_x2 sg_e1 sg_e2 sg_epp].
Ltac les := unfold le; repeat (match goal with |- context [Rle_dec ?a ?b] => destruct (Rle_dec a b) end; try lra).
Ltac sorted := repeat match goal with
  | H : StronglySorted _ (_ :: _) |- _ => inversion_clear H
  | H : StronglySorted _ [] |- _ => clear H
  | H : Forall _ (_ :: _) |- _ => inversion_clear H
  | H : Forall _ [] |- _ => clear H end.

Lemma flat_none x1 x2 e : flat_if 0 x1 x2 e = [].
Proof. unfold flat_if. destruct (Rltb_spec tol 0); [pose proof tol_pos; lra|reflexivity]. Qed.
Lemma flat_some c x1 x2 e : tol < c -> flat_if c x1 x2 e = [line x1 x2 e e].
Proof. intros H. unfold flat_if. destruct (Rltb_spec tol c); [reflexivity|lra]. Qed.

Ltac at_pt x c := (let Hc := fresh in assert (Hc : x = c) by lra; rewrite Hc; clear Hc; field; lra).
Ltac vals a b c d := intros x Hx; cbn [app line]; rewrite ?cval_cons; cbn [cval sg_x2 line]; les; piece;
  first [field; lra | at_pt x a | at_pt x b | at_pt x c | at_pt x d].
Ltac mk a b c d := constructor; cbn [breaks]; unfold unless0; repeat (destruct (Req_EM_T _ _); try lra);
  cbn [chain line tl map sg_x1 sg_x2 sg_e1 sg_e2 sg_epp drape length app];
  [ les; repeat split; try lra; piece; field; lra
  | discriminate
  | lia
  | repeat (apply Forall_cons; [cbn [sg_x1 line]; lra|]); exact (Forall_nil _)
  | repeat (f_equal; try lra)
  | vals a b c d ].
Ltac prep E HL HS HF := intros E (HL & HS & HF); pose proof tol_pos as TP.

Lemma parabola_laid el em er cl cr L segs : parabola_segments el em er cl cr L None = Ok segs ->
  placed (Parabola el em er cl cr) L None -> laid (Parabola el em er cl cr) L None segs.
Proof.
  prep E HL HS HF. unfold parabola_segments in E. cbv zeta in E.
  destruct (Rleb_spec (L - cr - cl) tol) as [|Hle]; [discriminate|].
  unfold parabola_through in E. rewrite half in E.
  do 3 (rewrite pydiv_ok in E by lra; cbn [rbind] in E).
  apply ok_inv in E. subst segs. cbn [breaks] in HS, HF. change (1e-9) with tol in HF. unfold unless0 in *.
  destruct (Req_EM_T cl 0) as [->|Hcl]; destruct (Req_EM_T cr 0) as [->|Hcr]; cbn [app] in HS, HF; sorted;
    rewrite ?flat_none, ?flat_some by lra; cbn [app].
  - mk 0 0 L L.
  - mk 0 0 (L - cr) L.
  - mk 0 cl L L.
  - mk 0 cl (L - cr) L.
Qed.
Lemma parabola_laid_right el em er cl cr L segs : parabola_segments el em er cl cr L (Some TipRight) = Ok segs ->
  placed (Parabola el em er cl cr) L (Some TipRight) -> laid (Parabola el em er cl cr) L (Some TipRight) segs.
Proof.
  prep E HL HS HF. unfold parabola_segments in E. cbv zeta in E. cbn [breaks] in HS, HF. change (1e-9) with tol in HF. unfold unless0 in *.
  destruct (Req_EM_T cl 0) as [->|Hcl]; sorted; rewrite pydiv_ok in E by (apply pow_nonzero; lra); cbn [rbind] in E;
    apply ok_inv in E; subst segs; rewrite ?flat_none, ?flat_some by lra; cbn [app].
  - mk 0 0 L L.
  - mk 0 cl L L.
Qed.
Lemma parabola_laid_left el em er cl cr L segs : parabola_segments el em er cl cr L (Some TipLeft) = Ok segs ->
  placed (Parabola el em er cl cr) L (Some TipLeft) -> laid (Parabola el em er cl cr) L (Some TipLeft) segs.
Proof.
  prep E HL HS HF. unfold parabola_segments in E. cbv zeta in E. cbn [breaks] in HS, HF. change (1e-9) with tol in HF. unfold unless0 in *.
  destruct (Req_EM_T cr 0) as [->|Hcr]; sorted; rewrite pydiv_ok in E by (apply pow_nonzero; lra); cbn [rbind] in E;
    apply ok_inv in E; subst segs; rewrite ?flat_none, ?flat_some by lra; cbn [app].
  - mk 0 0 L L.
  - mk 0 (L - cr) L L.
Qed.
Lemma compound_laid el em er a b c L t segs : compound_segments el em er a b c L t = Ok segs ->
  placed (CompoundParabola el em er a b c) L t -> laid (CompoundParabola el em er a b c) L t segs.
Proof.
  prep E HL HS HF. unfold compound_segments in E. cbv zeta in E. destruct t; [discriminate|].
  cbn [breaks] in HS, HF. change (1e-9) with tol in HF. sorted.
  destruct (negb _) in E; [discriminate|].
  do 2 (rewrite pydiv_ok in E by lra; cbn [rbind] in E).
  do 4 (rewrite pydiv_ok in E by (apply pow_nonzero; lra); cbn [rbind] in E).
  apply ok_inv in E. subst segs. mk a c (L - b) L.
Qed.
Lemma harp_laid el em er a cl cr L t segs : harp_segments el em er a cl cr L = Ok segs ->
  placed (Harp el em er a cl cr) L t -> laid (Harp el em er a cl cr) L t segs.
Proof.
  prep E HL HS HF. unfold harp_segments in E. cbv zeta in E. destruct (negb _) in E; [discriminate|].
  apply ok_inv in E. subst segs. cbn [breaks] in HS, HF. change (1e-9) with tol in HF. unfold unless0 in *.
  destruct (Req_EM_T cl 0) as [->|Hcl]; destruct (Req_EM_T cr 0) as [->|Hcr]; cbn [app] in HS, HF; sorted;
    rewrite ?flat_none, ?flat_some by lra; cbn [app].
  - mk 0 a L L.
  - mk 0 a (L - cr) L.
  - mk 0 cl a L.
  - mk 0 cl a (L - cr).
Qed.
Lemma double_harp_laid el e1 e2 er a b cl cr L t segs : double_harp_segments el e1 e2 er a b cl cr L = Ok segs ->
  placed (DoubleHarp el e1 e2 er a b cl cr) L t -> laid (DoubleHarp el e1 e2 er a b cl cr) L t segs.
Proof.
  prep E HL HS HF. unfold double_harp_segments in E. cbv zeta in E. destruct (negb _) in E; [discriminate|].
  apply ok_inv in E. subst segs. cbn [breaks] in HS, HF. change (1e-9) with tol in HF. unfold unless0 in *.
  destruct (Req_EM_T cl 0) as [->|Hcl]; destruct (Req_EM_T cr 0) as [->|Hcr]; cbn [app] in HS, HF; sorted;
    rewrite ?flat_none, ?flat_some by lra; cbn [app].
  - mk 0 a b L.
  - mk a b (L - cr) 0.
  - mk 0 cl a b.
  - mk cl a b (L - cr).
Qed.

Lemma segments_laid p L t segs : segments p L t = Ok segs -> placed p L t -> laid p L t segs.
Proof.
  destruct p; cbn [segments]; intros E P.
  - destruct t as [[|]|]; [apply parabola_laid_left|apply parabola_laid_right|apply parabola_laid]; assumption.
  - apply compound_laid; assumption.
  - apply harp_laid; assumption.
  - apply double_harp_laid; assumption.
Qed.
