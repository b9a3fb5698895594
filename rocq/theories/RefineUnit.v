(** Fixed-end forces of a unit load as functions of its position (C83). *)
From Coq Require Import Lia ZArith.
From Verif Require Import Base BaseFacts Linalg SectionModel FlexModel LoadModel LoadSpec ClampFacts LMFacts FoundationModel ElementModel UtilsModel BeamModel AnalysisModel AnalysisFacts LinearFacts ResultsModel ResultsFacts
  LoadEqSpec LoadEqFacts3 LoadEqFacts4 VehicleModel BridgeModel BridgeSpec RefineSpec RefineFacts RefineFacts2.
Open Scope R_scope.

(** ** From end moments to end forces *)
Definition freed (L : R) (et : nat) (k : mat) (c : cnl) (Ma Mb : R) : vec :=
  let ref := vec4 (c_Va c - (c_Ma c + c_Mb c) / L + (Ma + Mb) / L) Ma (c_Vb c + (c_Ma c + c_Mb c) / L - (Ma + Mb) / L) Mb in
  match et with
  | 4%nat => vec4 (ref 0%nat + (Ma + Mb) / L) 0 (ref 2%nat - (Ma + Mb) / L) 0
  | 2%nat => fun i => ref i - k i 3%nat * (ref 3%nat / k 3%nat 3%nat)
  | 3%nat => fun i => ref i - k i 1%nat * (ref 1%nat / k 1%nat 1%nat)
  | _ => ref
  end.
Lemma freed_eq c Ma Mb L kff et v k : (forall k', kff = Ok k' -> k' = k) -> release_from c Ma Mb L kff et = Ok v -> v = freed L et k c Ma Mb.
Proof.
  intros Hk H. unfold release_from in H. unfold freed. destruct et as [|[|[|[|[|et]]]]]; try (injection H as <-; reflexivity).
  all: apply rbind_ok in H as (k' & H1 & H2); rewrite (Hk k' H1) in H2; destruct (Req_EM_T _ 0); [discriminate|]; injection H2 as <-; reflexivity.
Qed.
Section Fits.
Variables (L : R) (et : nat) (k : mat) (Ma Mb : R -> R).
Hypothesis HL : 0 < L.
Hypothesis LA : lip L Ma.
Hypothesis LB : lip L Mb.
Hypothesis A0 : Ma 0 = 0.
Hypothesis B0 : Mb 0 = 0.
Hypothesis AL : Ma L = 0.
Hypothesis BL : Mb L = 0.
Lemma freed_fits : fits L (fun x => freed L et k (pl_cnl 1 x L) (Ma x) (Mb x)).
Proof.
  assert (B : lip L (fun x => Rmax (L - x) 0)).
  { apply (lip_ext L (fun x => L - x)); [intros x Hx; rewrite Rmax_left; lra|]. lips L. }
  assert (VA : lip L (fun x => c_Va (pl_cnl 1 x L))) by (cbn [pl_cnl c_Va]; cbv zeta; unfold pow; lips L; exact B).
  assert (VB : lip L (fun x => c_Vb (pl_cnl 1 x L))) by (cbn [pl_cnl c_Vb]; cbv zeta; unfold pow; lips L; exact B).
  assert (MA : lip L (fun x => c_Ma (pl_cnl 1 x L))) by (cbn [pl_cnl c_Ma]; cbv zeta; unfold pow; lips L; exact B).
  assert (MB : lip L (fun x => c_Mb (pl_cnl 1 x L))) by (cbn [pl_cnl c_Mb]; cbv zeta; unfold pow; lips L; exact B).
  constructor; intros p Hp.
  - destruct et as [|[|[|[|[|e]]]]]; destruct p as [|[|[|[|p]]]]; try lia; cbn [freed vec4]; lips L; assumption.
  - rewrite A0, B0. unfold pl_cnl. rewrite Rmax_left by lra. destruct et as [|[|[|[|[|e]]]]]; destruct p as [|[|[|[|p]]]]; try lia; cbn; unfold Rdiv; try (field; lra);
      rewrite ?Rmult_0_l, ?Rmult_0_r; field; lra.
  - rewrite AL, BL. unfold pl_cnl. rewrite Rmax_left by lra. destruct et as [|[|[|[|[|e]]]]]; destruct p as [|[|[|[|p]]]]; try lia; cbn; unfold Rdiv; try (field; lra);
      rewrite ?Rmult_0_l, ?Rmult_0_r; field; lra.
Qed.
End Fits.
Lemma freed_scale L et k W x Ma Mb p : (p < 4)%nat -> freed L et k (pl_cnl W x L) (W * Ma) (W * Mb) p = W * freed L et k (pl_cnl 1 x L) Ma Mb p.
Proof.
  intros Hp. unfold pl_cnl. destruct et as [|[|[|[|[|e]]]]]; destruct p as [|[|[|[|p]]]]; try lia; cbn [freed vec4 c_Va c_Ma c_Vb c_Mb]; unfold Rdiv; ring.
Qed.

Lemma freed_ext L et k c A B A' B' p : A = A' -> B = B' -> freed L et k c A B p = freed L et k c A' B' p.
Proof. intros -> ->. reflexivity. Qed.

(** ** End moments of members with a varying section *)
Lemma mv_lip_any L s : 0 < L -> lip L (fun x => mv L x s).
Proof.
  intros HL. unfold mv, M_of. cbn [diag_of pl_diag f_M]. unfold MB.
  assert (B : lip L (fun x => Rmax (L - x) 0)).
  { apply (lip_ext L (fun x => L - x)); [intros x Hx; rewrite Rmax_left; lra|]. lips L. }
  assert (C : lip L (fun x => Rmax (s - x) 0)).
  { exists 1. split; [lra|]. intros x y _ _. unfold Rmax. destruct (Rle_dec (s - x) 0), (Rle_dec (s - y) 0); unfold Rabs; repeat destruct (Rcase_abs _); lra. }
  lips L; assumption.
Qed.
Lemma curv_nth (h : R -> R) es xx L x i : length es = length xx ->
  nth i (mulpt h xx (curvatures (LPL 1 x) es xx L)) 0 =
  if Nat.ltb i (length xx) then if Nat.eqb i (length xx - 1) then 0 else if Nat.eqb i 0 then 0 else h (nth i xx 0) * (mv L x (nth i xx 0) / nth i es 0) else 0.
Proof.
  intros E. set (M := r_M (get_mbr_results (LPL 1 x) xx L)).
  assert (LM : length M = length xx) by (unfold M; cbn [get_mbr_results diag_of sample r_M]; rewrite zero_ends_length, map_length; reflexivity).
  assert (Q : forall (M es xx : list R) i, length M = length xx -> length es = length xx ->
    nth i (mulpt h xx (map (fun t => match t with (m, (e, x0)) => m / e + 0 end) (combine M (combine es xx)))) 0 = if Nat.ltb i (length xx) then h (nth i xx 0) * (nth i M 0 / nth i es 0) else 0).
  { clear. induction M as [|m M IH]; intros [|e es] [|y xx] i H1 H2; cbn in H1, H2; try discriminate; [destruct i; reflexivity|].
    unfold mulpt in *. cbn [combine map length]. destruct i as [|i]; [cbn; ring|]. cbn [nth]. rewrite IH by congruence.
    change (Nat.ltb (S i) (S (length xx))) with (Nat.ltb i (length xx)). reflexivity. }
  unfold curvatures. fold M. rewrite (Q M es xx i LM E). destruct (Nat.ltb_spec i (length xx)) as [Hi|Hi]; [|reflexivity].
  unfold M. cbn [get_mbr_results diag_of sample r_M]. rewrite nth_zero_ends by (rewrite map_length; exact Hi). rewrite map_length.
  destruct (Nat.eqb i (length xx - 1)); [unfold Rdiv; ring|]. destruct (Nat.eqb i 0); [unfold Rdiv; ring|]. rewrite nth_map_R by exact Hi. reflexivity.
Qed.
Lemma curv_lip h es xx L a b : 0 < L -> length es = length xx -> lip L (fun x => simpson_list a b (mulpt h xx (curvatures (LPL 1 x) es xx L))).
Proof.
  intros HL E. unfold simpson_list, simpson. apply lip_rsum. intros i _.
  assert (Q : forall j, lip L (fun x => nth j (mulpt h xx (curvatures (LPL 1 x) es xx L)) 0)).
  { intros j. eapply lip_ext; [intros x _; symmetry; apply (curv_nth h es xx L x j E)|]. cbv beta. destruct (Nat.ltb j (length xx)); [|apply lip_const].
    destruct (Nat.eqb j (length xx - 1)); [apply lip_const|]. destruct (Nat.eqb j 0); [apply lip_const|]. apply lip_scal, lip_div, mv_lip_any, HL. }
  apply lip_scal. repeat apply lip_plus; try apply lip_scal; apply Q.
Qed.
Lemma curv_zero h es xx L a b x : 0 < L -> length es = length xx -> LoadEqFacts3.within L xx -> x = 0 \/ x = L -> simpson_list a b (mulpt h xx (curvatures (LPL 1 x) es xx L)) = 0.
Proof.
  intros HL E W Hx. unfold simpson_list, simpson. apply rsum_0. intros i _.
  assert (Q : forall j, nth j (mulpt h xx (curvatures (LPL 1 x) es xx L)) 0 = 0).
  { intros j. rewrite curv_nth by exact E. destruct (Nat.ltb_spec j (length xx)) as [Hj|Hj]; [|reflexivity].
    destruct (Nat.eqb j (length xx - 1)); [reflexivity|]. destruct (Nat.eqb j 0); [reflexivity|].
    assert (I : 0 <= nth j xx 0 <= L) by (unfold LoadEqFacts3.within in W; rewrite Forall_forall in W; apply W, nth_In, Hj).
    destruct Hx as [-> | ->]; [rewrite mv_start by lra|rewrite mv_end by lra]; unfold Rdiv; ring. }
  rewrite !Q. ring.
Qed.
Definition tends (L : R) (f : R -> R) : Prop := lip L f /\ f 0 = 0 /\ f L = 0.
Lemma tends_plus L f g : tends L f -> tends L g -> tends L (fun x => f x + g x).
Proof. intros (F1 & F2 & F3) (G1 & G2 & G3). split; [apply lip_plus; assumption|]. rewrite F2, F3, G2, G3. split; ring. Qed.
Lemma tends_scal L c f : tends L f -> tends L (fun x => c * f x).
Proof. intros (F1 & F2 & F3). split; [apply lip_scal, F1|]. rewrite F2, F3. split; ring. Qed.
Lemma tends_0 L : tends L (fun _ => 0).
Proof. split; [apply lip_const|auto]. Qed.
Lemma nstep_tends L EI ab : 0 < L -> 0 <= fst ab /\ snd ab <= L -> exists t1 t2, tends L t1 /\ tends L t2 /\
  forall W x d, nstep L EI (LPL W x) ab = Ok d -> d = (W * t1 x, W * t2 x).
Proof.
  intros HL [H1 H2]. unfold nstep. destruct (Rleb (snd ab) (fst ab)) eqn:C.
  - exists (fun _ => 0), (fun _ => 0). split; [apply tends_0|]. split; [apply tends_0|]. intros W x d H. injection H as <-. rewrite Rmult_0_r. reflexivity.
  - assert (Hab : fst ab < snd ab). { unfold Rleb in C. destruct (Rle_dec (snd ab) (fst ab)); [discriminate|lra]. }
    assert (WF := within_fine L (fst ab) (snd ab) H1 Hab H2). set (xx := fine_grid (fst ab) (snd ab)) in *. destruct (mapM (sect_eval EI) xx) as [es|e] eqn:M; cbn [rbind].
    + assert (LE := mapM_length _ _ _ M). 
      exists (fun x => simpson_list (fst ab) (snd ab) (mulpt (fun t => 1 - t / L) xx (curvatures (LPL 1 x) es xx L))), (fun x => simpson_list (fst ab) (snd ab) (mulpt (fun t => - t / L) xx (curvatures (LPL 1 x) es xx L))).
      split; [split; [apply curv_lip; assumption|split; apply curv_zero; auto]|]. split; [split; [apply curv_lip; assumption|split; apply curv_zero; auto]|].
      intros W x d H. injection H as <-. replace (LPL W x) with (scale_load W (LPL 1 x)) by (cbn; rewrite Rmult_1_r; reflexivity).
      rewrite curv_scale, !mulpt_scale, !simpson_list_scale. reflexivity.
    + exists (fun _ => 0), (fun _ => 0). split; [apply tends_0|]. split; [apply tends_0|]. intros W x d H. discriminate.
Qed.
Lemma theta_tends L EI : 0 < L -> Forall (fun x => 0 <= x <= L) (breakpoints EI) -> exists t1 t2, tends L t1 /\ tends L t2 /\
  forall W x th, nonprism_theta0 (LPL W x) EI L = Ok th -> th = (W * t1 x, W * t2 x).
Proof.
  intros HL HB. assert (P : forall ab, In ab (pairs (edges (breakpoints EI) L)) -> 0 <= fst ab /\ snd ab <= L) by (intros ab; apply within_pairs, within_edges; assumption).
  assert (Q : forall ps, (forall ab, In ab ps -> 0 <= fst ab /\ snd ab <= L) -> exists t1 t2, tends L t1 /\ tends L t2 /\
    forall W x acc th, foldM (fun th a => do d <- nstep L EI (LPL W x) a; Ok (padd th d)) ps acc = Ok th -> th = (fst acc + W * t1 x, snd acc + W * t2 x)).
  { induction ps as [|ab ps IH]; intros HP.
    - exists (fun _ => 0), (fun _ => 0). split; [apply tends_0|]. split; [apply tends_0|]. intros W x acc th H. injection H as <-. rewrite !Rmult_0_r, !Rplus_0_r. destruct acc; reflexivity.
    - destruct IH as (u1 & u2 & U1 & U2 & UE); [intros; apply HP; right; assumption|]. destruct (nstep_tends L EI ab HL (HP ab (or_introl eq_refl))) as (v1 & v2 & V1 & V2 & VE).
      exists (fun x => v1 x + u1 x), (fun x => v2 x + u2 x). split; [apply tends_plus; assumption|]. split; [apply tends_plus; assumption|].
      intros W x acc th H. cbn [foldM] in H. apply rbind_ok in H as (acc' & H1 & H2). apply rbind_ok in H1 as (d & Hd & H1). injection H1 as <-. rewrite (VE W x d Hd) in H2.
      rewrite (UE W x _ th H2). unfold padd. cbn [fst snd]. f_equal; ring. }
  destruct (Q _ P) as (t1 & t2 & T1 & T2 & TE). exists t1, t2. split; [exact T1|]. split; [exact T2|]. intros W x th H. rewrite nonprism_steps in H. rewrite (TE W x _ th H). cbn [fst snd]. rewrite !Rplus_0_l. reflexivity.
Qed.

(** ** Unit loads on a member *)
Lemma unit_exists gl mb : 0 < mb_L mb -> mb_kf mb = None -> plain_member mb -> exists f, unit_forces gl mb f.
Proof.
  intros HL Hk [[Hg HM]|(e & g & He & Hg)].
  - destruct (mb_EI mb) as [e|s] eqn:He.
    + exists (rv (mb_L mb) (mb_type mb)). constructor; [apply rv_fits, HL|]. intros W x v Hv p Hp. unfold span_ref in Hv. rewrite Hk in Hv. cbn [foldM] in Hv. unfold ref_one in Hv. rewrite Hg, He in Hv.
      unfold load_get_ref in Hv. cbn [get_cnl rbind] in Hv. injection Hv as <-. unfold rv, cnl_vec, vec4, release, pl_cnl. generalize (mb_type mb). intros et.
      destruct p as [|[|[|[|p]]]]; try lia; destruct et as [|[|[|[|[|et]]]]]; cbn [c_Va c_Ma c_Vb c_Mb]; unfold Rdiv; ring.
    + cbn [marks_inside] in HM. destruct (theta_tends (mb_L mb) s HL HM) as (t1 & t2 & T1 & T2 & TE).
      destruct (k_theta gl s (mb_L mb)) as [K|err] eqn:EK.
      * set (k := match k_nonprismatic gl s (mb_L mb) 1 with Ok k => k | Err _ => fun _ _ => 0 end).
        set (Ma := fun x => m00 K * t1 x + m01 K * t2 x). set (Mb := fun x => m10 K * t1 x + m11 K * t2 x).
        assert (TA : tends (mb_L mb) Ma) by (apply tends_plus; apply tends_scal; assumption). assert (TB : tends (mb_L mb) Mb) by (apply tends_plus; apply tends_scal; assumption).
        exists (fun x => freed (mb_L mb) (mb_type mb) k (pl_cnl 1 x (mb_L mb)) (Ma x) (Mb x)). constructor.
        { destruct TA as (A1 & A2 & A3), TB as (B1 & B2 & B3). apply freed_fits; assumption. }
        intros W x v Hv p Hp. unfold span_ref in Hv. rewrite Hk in Hv. cbn [foldM] in Hv. apply rbind_ok in Hv as (u & Hv & Eu). injection Eu as <-. apply rbind_ok in Hv as (w & Hv & Ew). injection Ew as <-.
        unfold ref_one in Hv. rewrite Hg, He in Hv. unfold ref_nonprismatic in Hv. apply rbind_ok in Hv as (th & Hth & Hv). rewrite EK in Hv. cbn [rbind get_cnl] in Hv.
        rewrite (TE W x th Hth) in Hv. cbn [fst snd] in Hv.
        apply (freed_eq _ _ _ _ _ _ _ k) in Hv; [|intros k' E; unfold k; rewrite E; reflexivity]. rewrite Rplus_0_l, <- (freed_scale _ _ _ W x _ _ p Hp), Hv.
        unfold Ma, Mb. apply freed_ext; ring.
      * exists (rv (mb_L mb) (mb_type mb)). constructor; [apply rv_fits, HL|]. intros W x v Hv. exfalso. unfold span_ref in Hv. rewrite Hk in Hv. cbn [foldM] in Hv. apply rbind_ok in Hv as (u & Hv & _). apply rbind_ok in Hv as (w & Hv & _).
        unfold ref_one in Hv. rewrite Hg, He in Hv. unfold ref_nonprismatic in Hv. apply rbind_ok in Hv as (th & _ & Hv). rewrite EK in Hv. discriminate.
  - set (L := mb_L mb) in *. set (phi := 12 * e / (g * L^2)). set (c := fun x => pl_cnl 1 x L).
    set (k := match k_timoshenko gl (RConst e) (RConst g) L 1 with Ok k => k | Err _ => fun _ _ => 0 end).
    set (Ma := fun x => ((2 + phi) * c_Ma (c x) - phi * c_Mb (c x)) / (2 * (1 + phi))). set (Mb := fun x => (- phi * c_Ma (c x) + (2 + phi) * c_Mb (c x)) / (2 * (1 + phi))).
    assert (B : lip L (fun x => Rmax (L - x) 0)).
    { apply (lip_ext L (fun x => L - x)); [intros x Hx; rewrite Rmax_left; lra|]. lips L. }
    assert (MA : tends L (fun x => c_Ma (c x))).
    { unfold c. cbn [pl_cnl c_Ma]; cbv zeta; unfold pow. split; [lips L; exact B|]. rewrite !Rmax_left by lra. split; field; lra. }
    assert (MB : tends L (fun x => c_Mb (c x))).
    { unfold c. cbn [pl_cnl c_Mb]; cbv zeta; unfold pow. split; [lips L; exact B|]. rewrite !Rmax_left by lra. split; field; lra. }
    assert (TL : forall a b, tends L (fun x => (a * c_Ma (c x) + b * c_Mb (c x)) / (2 * (1 + phi)))).
    { intros a b. assert (T := tends_scal L (/ (2 * (1 + phi))) _ (tends_plus L _ _ (tends_scal L a _ MA) (tends_scal L b _ MB))). destruct T as (T1 & T2 & T3).
      split; [eapply lip_ext; [|exact T1]; intros; unfold Rdiv; ring|]. unfold Rdiv. split; rewrite Rmult_comm; assumption. }
    assert (TX : forall f h, (forall x, f x = h x) -> tends L f -> tends L h).
    { intros f h E (F1 & F2 & F3). split; [eapply lip_ext; [|exact F1]; intros; apply E|]. rewrite <- !E. auto. }
    assert (TA : tends L Ma) by (eapply TX; [|exact (TL (2 + phi) (- phi))]; intros x; unfold Ma, Rdiv; ring).
    assert (TB : tends L Mb) by (eapply TX; [|exact (TL (- phi) (2 + phi))]; intros x; unfold Mb, Rdiv; ring).
    exists (fun x => freed L (mb_type mb) k (c x) (Ma x) (Mb x)). constructor.
    { destruct TA as (A1 & A2 & A3), TB as (B1 & B2 & B3). apply freed_fits; assumption. }
    intros W x v Hv p Hp. unfold span_ref in Hv. rewrite Hk in Hv. cbn [foldM] in Hv. apply rbind_ok in Hv as (u & Hv & Eu). injection Eu as <-. apply rbind_ok in Hv as (w & Hv & Ew). injection Ew as <-.
    unfold ref_one in Hv. rewrite Hg, He in Hv. unfold ref_timoshenko in Hv. cbn [rbind get_cnl fst snd] in Hv.
    apply (freed_eq _ _ _ _ _ _ _ k) in Hv; [|intros k' E; unfold k; fold L in E; rewrite E; reflexivity]. unfold c. rewrite Rplus_0_l, <- (freed_scale _ _ _ W x _ _ p Hp), Hv. fold L.
    unfold Ma, Mb, c. fold phi. apply freed_ext; unfold pl_cnl; cbn [c_Ma c_Mb]; unfold Rdiv; ring.
Qed.
