(** Nodal forces of the plastic analysis. *)
From Coq Require Import ZArith.
From Coquelicot Require Import Coquelicot.
From Verif Require Import Base BaseFacts LinalgFacts SectionModel LoadModel VehicleModel BridgeModel BridgeFacts InfFacts2 AnalysisSpec FoundSpec FoundFacts NonlinModel NonlinSpec NonlinFacts.
Open Scope R_scope.

Section Mesh.
Variable a : nba.
Hypothesis Me : meshed a.
Let c := coord a.
Lemma dof_is : nb_dof a = (2 * (nb_elems a + 1))%nat. Proof. unfold nb_dof. rewrite (me_nodes a Me). lia. Qed.
Lemma total_is : nb_total a = c (nb_elems a). Proof. unfold nb_total, c. rewrite (me_last a Me), start_all. reflexivity. Qed.
Lemma c_lt i j : (i < j <= nb_elems a)%nat -> c i < c j.
Proof.
  intros [L B]. induction L as [|j L IH].
  - assert (P := me_positive a Me i ltac:(lia)). assert (Ms := me_step a Me i ltac:(lia)). fold c in Ms. replace (S i) with (i + 1)%nat by lia. lra.
  - assert (P := me_positive a Me j ltac:(lia)). assert (Ms := me_step a Me j ltac:(lia)). fold c in Ms. replace (S j) with (j + 1)%nat by lia. specialize (IH ltac:(lia)). lra.
Qed.
Lemma c_le i j : (i <= j <= nb_elems a)%nat -> c i <= c j.
Proof. intros H. destruct (Nat.eq_dec i j) as [->|N]; [lra|]. left. apply c_lt. lia. Qed.
Lemma c_rev i j : (i <= nb_elems a)%nat -> (j <= nb_elems a)%nat -> c i <= c j -> (i <= j)%nat.
Proof. intros Hi Hj H. destruct (Nat.ltb_spec j i) as [L|L]; [|exact L]. assert (Q := c_lt j i ltac:(lia)). lra. Qed.
Lemma c_inj i j : (i <= nb_elems a)%nat -> (j <= nb_elems a)%nat -> c i = c j -> i = j.
Proof. intros Hi Hj E. apply Nat.le_antisymm; apply c_rev; try assumption; rewrite E; lra. Qed.

Lemma work_add F i x u : (i < nb_dof a)%nat -> work a (add_to F i x) u = work a F u + x * u i.
Proof.
  intros Hi. unfold work, add_to. rewrite (rsum_ext _ _ (fun k => F k * u k + (if Nat.eqb k i then x * u i else 0))).
  - rewrite rsum_plus. f_equal. rewrite (rsum_single _ i); [rewrite Nat.eqb_refl; reflexivity|exact Hi|]. intros j _ N. destruct (Nat.eqb_spec j i); [contradiction|reflexivity].
  - intros k Hk. unfold vupd. destruct (Nat.eqb_spec k i) as [->|N]; ring.
Qed.
Lemma deflects_at u j y : (j <= nb_elems a)%nat -> deflects a u (c j) y -> y = u (2 * j)%nat.
Proof.
  intros Hj (e & w & He & [B1 B2] & Cu & ->). fold c in B1, B2 |- *. apply c_rev in B1; [|lia|lia]. apply c_rev in B2; [|lia|lia]. destruct Cu as (_ & E0 & _ & E1 & _). assert (C : j = e \/ j = (e + 1)%nat) by lia. destruct C as [->| ->].
  - rewrite Rminus_diag_eq by reflexivity. rewrite E0. unfold ends. f_equal. lia.
  - replace (c (e + 1) - c e) with (element_h a e) by (unfold c; rewrite (me_step a Me e He); ring). rewrite E1. unfold ends. f_equal. lia.
Qed.
Lemma between e e' x : (e < nb_elems a)%nat -> (e' < nb_elems a)%nat -> c e < x < c (e + 1) -> c e' <= x <= c (e' + 1) -> e' = e.
Proof.
  intros He He' B B'. destruct (Nat.lt_trichotomy e' e) as [L|[L|L]]; [|exact L|].
  - assert (Q := c_le (e' + 1) e ltac:(lia)). lra.
  - assert (Q := c_le (e + 1) e' ltac:(lia)). lra.
Qed.
Lemma near x : 0 <= x <= nb_total a -> let ni := nearest (nb_coords a) x in (ni <= nb_elems a)%nat /\ forall j, (j <= nb_elems a)%nat -> Rabs (c ni - x) <= Rabs (c j - x).
Proof.
  intros Hx. cbv zeta. unfold nearest. assert (MN := me_nodes a Me). assert (N : nb_coords a <> []) by (intros X; unfold nb_nodes in MN; rewrite X in MN; cbn in MN; lia). destruct (argmin_first (fun c => Rabs (c - x)) 0 (nb_coords a) N) as (A & B). unfold nb_nodes in MN. split; [lia|]. intros j Hj. apply (B j). lia.
Qed.
Lemma point_work F P x : 0 <= x <= nb_total a -> exists x', (x' = x \/ exists j, (j < nb_nodes a)%nat /\ x' = coord a j /\ Rabs (x' - x) < 1e-10) /\
  forall u y, deflects a u x' y -> work a (add_point a F P x) u = work a F u - P * y.
Proof.
  intros Hx. assert (D := dof_is). assert (T := total_is). destruct (near x Hx) as (Hn & Near). unfold add_point. destruct (Rltb_spec x 0); [lra|]. destruct (Rltb_spec (nb_total a) x); [lra|]. cbn [orb]. cbv zeta. change (nth ?k (nb_coords a) 0) with (c k). set (ni := nearest (nb_coords a) x) in *.
  change (fun j => nth j (nb_coords a) 0) with c. destruct (Rltb_spec (Rabs (c ni - x)) 1e-10) as [Sn|Sn].
  - exists (c ni). split; [right; exists ni; split; [rewrite (me_nodes a Me); lia|split; [reflexivity|exact Sn]]|]. intros u y Hy. rewrite (deflects_at u ni y Hn Hy). rewrite work_add by lia. ring.
  - assert (Hc : c ni <> x) by (intros E; rewrite E, Rminus_diag_eq, Rabs_R0 in Sn by reflexivity; apply Sn; lra).
    set (nL := if Rltb (c ni) x then ni else (ni - 1)%nat). assert (HL : (nL < nb_elems a)%nat /\ c nL < x < c (nL + 1)).
    { unfold nL. destruct (Rltb_spec (c ni) x) as [L|L].
      - assert (ni < nb_elems a)%nat. { destruct (Nat.eq_dec ni (nb_elems a)) as [E|E]; [rewrite E in L; lra|lia]. } split; [assumption|]. split; [exact L|]. specialize (Near (ni + 1)%nat ltac:(lia)). assert (Q := c_lt ni (ni + 1) ltac:(lia)). destruct (Rlt_or_le x (c (ni + 1))) as [W|W]; [exact W|]. rewrite !Rabs_left1 in Near by lra. lra.
      - assert (L' : x < c ni) by lra. assert (ni <> 0%nat). { intros E. rewrite E in L'. unfold c in L'. rewrite (me_first a Me) in L'. lra. } split; [lia|]. replace (ni - 1 + 1)%nat with ni by lia. split; [|exact L']. specialize (Near (ni - 1)%nat ltac:(lia)). assert (Q := c_lt (ni - 1) ni ltac:(lia)). destruct (Rlt_or_le (c (ni - 1)) x) as [W|W]; [exact W|]. rewrite !Rabs_pos_eq in Near by lra. lra. }
    destruct HL as (HL & B). exists x. split; [left; reflexivity|]. intros u y (e & w & He & Be & Cu & ->). fold c in Be |- *. rewrite (between nL e x HL He B Be) in *. clear Be He e.
    rewrite !work_add by lia. assert (Hp := me_positive a Me nL HL). assert (St := me_step a Me nL HL). fold c in St. rewrite (cubic_unique _ _ _ Hp Cu). unfold herm, cub, coef2, coef3, ends. replace (2 * nL + 0)%nat with (2 * nL)%nat by lia. replace (2 * nL + 2)%nat with (2 * (nL + 1))%nat by lia. replace (2 * nL + 3)%nat with (2 * (nL + 1) + 1)%nat by lia.
    change (if Rltb (nth ni (nb_coords a) 0) x then ni else (ni - 1)%nat) with nL. rewrite St. set (h := element_h a nL) in *. set (s := x - c nL). replace (c nL + h - c nL) with h by ring. field. lra.
Qed.
Lemma point_off F P x : x < 0 \/ nb_total a < x -> add_point a F P x = F.
Proof. intros H. unfold add_point. destruct (Rltb_spec x 0); [reflexivity|]. destruct (Rltb_spec (nb_total a) x); [reflexivity|]. lra. Qed.

Lemma udl_fold w xs xe u m : forall F, (m <= nb_elems a)%nat ->
  work a (fold_left (fun F e =>
    if (Rleb (nth (e + 1) (nb_coords a) 0) (xs + 1e-10) || Rleb (xe - 1e-10) (nth e (nb_coords a) 0))%bool then F
    else let h := nth e (nb_eL a) 0 in add_to (add_to F (2 * e) (- (w * h / 2))) (2 * (e + 1)) (- (w * h / 2))) (seq 0 m) F) u
  = work a F u + rsum m (fun e => if (Rleb (c (e + 1)) (xs + 1e-10) || Rleb (xe - 1e-10) (c e))%bool then 0 else - (w * element_h a e * (u (2 * e)%nat + u (2 * (e + 1))%nat) / 2)).
Proof.
  assert (D := dof_is). induction m as [|m IH]; intros F Hm; [cbn [seq fold_left rsum]; ring|]. rewrite seq_S, fold_left_app. cbn [fold_left Nat.add rsum]. rewrite <- Rplus_assoc, <- (IH F) by lia. change (nth (m + 1) (nb_coords a) 0) with (c (m + 1)). change (nth m (nb_coords a) 0) with (c m). destruct (Rleb (c (m + 1)) (xs + 1e-10) || Rleb (xe - 1e-10) (c m))%bool.
  - rewrite Rplus_0_r. reflexivity.
  - cbv zeta. rewrite !work_add by lia. change (nth m (nb_eL a) 0) with (element_h a m). field.
Qed.
Lemma chord_int u w e W : (e < nb_elems a)%nat -> is_RInt (fun x => w * chord_at a u e x) 0 (element_h a e) W -> W = w * element_h a e * (u (2 * e)%nat + u (2 * (e + 1))%nat) / 2.
Proof.
  intros He H. assert (Hp := me_positive a Me e He). assert (Q : is_RInt (fun x => w * chord_at a u e x) 0 (element_h a e) (w * element_h a e * (u (2 * e)%nat + u (2 * (e + 1))%nat) / 2)).
  { set (h := element_h a e) in *. set (v0 := u (2 * e)%nat). set (v1 := u (2 * (e + 1))%nat). set (G := fun x : R => w * (v0 * x + (v1 - v0) * (x ^ 2 / (2 * h)))). replace (w * h * (v0 + v1) / 2) with (minus (G h) (G 0)) by (unfold minus, plus, opp; cbn; unfold G; field; lra).
    apply (is_RInt_derive G).
    - intros x _. unfold G, chord_at. fold h v0 v1. auto_derive; [exact I|]. field. lra.
    - intros x _. apply (ex_derive_continuous (V := R_NormedModule)). unfold chord_at. auto_derive. exact I. }
  assert (E := is_RInt_unique (V := R_CompleteNormedModule) _ _ _ _ H). assert (E' := is_RInt_unique (V := R_CompleteNormedModule) _ _ _ _ Q). rewrite <- E. exact E'.
Qed.
End Mesh.

Section Made.
Variables (a : nba) (Ls : list R) (EI : eiargs) (rs : list R) (Mp : narg) (My : option narg) (q msz : R).
Hypothesis H : made a Ls EI rs Mp My q msz.
Let Me := is_meshed _ _ _ _ _ _ _ _ H.
Let c := coord a.
Lemma L_is : nb_L a = Ls. Proof. destruct (parts _ _ _ _ _ _ _ _ H) as (ei & _ & E & _). exact E. Qed.
Definition fine : Prop := forall e, (e < nb_elems a)%nat -> 1e-10 < element_h a e.
Lemma skip_share i e x : fine -> (i < length Ls)%nat -> (e < nb_elems a)%nat ->
  (if (Rleb (c (e + 1)) (start Ls i + 1e-10) || Rleb (start Ls (i + 1) - 1e-10) (c e))%bool then 0 else x) = share a i e x.
Proof.
  intros Fi Hi He. assert (P := lens _ _ _ _ _ _ _ _ H). destruct (span_of_element _ _ _ _ _ _ _ _ H e He) as (k & Hk & (K1 & K2) & _). unfold share. fold c. rewrite L_is in *. fold c in K1, K2. assert (St := me_step a Me e He). fold c in St. specialize (Fi e He). destruct (Nat.lt_trichotomy k i) as [L|[L|L]].
  - assert (Z := start_le Ls (k + 1) i P ltac:(lia)). destruct (Rleb_spec (c (e + 1)) (start Ls i + 1e-10)) as [|N]; [|exfalso; apply N; lra]. cbn [orb]. destruct (Rle_dec (start Ls i) (c e)); [|reflexivity]. lra.
  - subst k. destruct (Rleb_spec (c (e + 1)) (start Ls i + 1e-10)); [lra|]. destruct (Rleb_spec (start Ls (i + 1) - 1e-10) (c e)); [lra|]. cbn [orb]. destruct (Rle_dec (start Ls i) (c e)); [|lra]. destruct (Rle_dec (c (e + 1)) (start Ls (i + 1))); [reflexivity|lra].
  - assert (Z := start_le Ls (i + 1) k P ltac:(lia)). destruct (Rleb_spec (start Ls (i + 1) - 1e-10) (c e)) as [|N]; [|exfalso; apply N; lra]. rewrite Bool.orb_true_r. destruct (Rle_dec (start Ls i) (c e)); [|reflexivity]. destruct (Rle_dec (c (e + 1)) (start Ls (i + 1))); [lra|reflexivity].
Qed.
Lemma udl_work F w i u Is : fine -> (i < length Ls)%nat -> (forall e, (e < nb_elems a)%nat -> is_RInt (fun x => w * chord_at a u e x) 0 (element_h a e) (Is e)) ->
  work a (add_udl a F w (start Ls i) (start Ls (i + 1))) u = work a F u - rsum (nb_elems a) (fun e => share a i e (Is e)).
Proof.
  intros Fi Hi HI. unfold add_udl. rewrite (udl_fold a Me) by lia. unfold Rminus. f_equal. rewrite <- rsum_opp. apply rsum_ext. intros e He. rewrite (skip_share i e _ Fi Hi He). rewrite (chord_int a Me u w e _ He (HI e He)). unfold share. destruct (Rle_dec _ _); [destruct (Rle_dec _ _)|]; ring.
Qed.
Lemma telescope (G : R -> R) m : rsum m (fun e => G (c (e + 1)) - G (c e)) = G (c m) - G (c 0%nat).
Proof. induction m as [|m IH]; cbn [rsum]; [ring|]. rewrite IH. replace (m + 1)%nat with (S m) by lia. ring. Qed.
Lemma udl_rigid F w i u al be W : fine -> (i < length Ls)%nat -> moves_rigidly a al be u -> is_RInt (fun x => - w * (al + be * x)) (start Ls i) (start Ls (i + 1)) W ->
  work a (add_udl a F w (start Ls i) (start Ls (i + 1))) u = work a F u + W.
Proof.
  intros Fi Hi Ru HW. unfold add_udl. rewrite (udl_fold a Me) by lia. f_equal. set (xs := start Ls i) in *. set (xe := start Ls (i + 1)) in *. set (G := fun x : R => - w * (al * x + be * x ^ 2 / 2)).
  assert (P := lens _ _ _ _ _ _ _ _ H). assert (Lx : xs < xe) by (apply start_lt; [exact P|lia]).
  assert (EW : W = G xe - G xs). { assert (Q : is_RInt (fun x => - w * (al + be * x)) xs xe (minus (G xe) (G xs))). { apply (is_RInt_derive G).
      - intros x _. unfold G. auto_derive; [exact I|]. field.
      - intros x _. apply (ex_derive_continuous (V := R_NormedModule)). auto_derive. exact I. }
    rewrite <- (is_RInt_unique (V := R_CompleteNormedModule) _ _ _ _ HW). exact (is_RInt_unique (V := R_CompleteNormedModule) _ _ _ _ Q). }
  set (clamp := fun x => Rmax xs (Rmin x xe)). rewrite (rsum_ext _ _ (fun e => G (clamp (c (e + 1))) - G (clamp (c e)))).
  - rewrite (telescope (fun x => G (clamp x))). rewrite EW. assert (C0 := me_first a Me). assert (C1 := me_last a Me). rewrite L_is in C1. fold c in C0, C1. assert (S0 := start_le Ls 0 i P ltac:(lia)). assert (S1 := start_le Ls (i + 1) (length Ls) P ltac:(lia)). rewrite start_0 in S0. fold xs in S0. fold xe in S1. unfold clamp. rewrite C0, C1.
    rewrite (Rmin_right _ xe) by exact S1. rewrite (Rmax_right xs xe) by lra. rewrite (Rmin_left 0 xe) by lra. rewrite (Rmax_left xs 0) by exact S0. reflexivity.
  - assert (EX : xs = start Ls i) by reflexivity. assert (EE : xe = start Ls (i + 1)) by reflexivity. intros e He. unfold xs, xe. rewrite (skip_share i e _ Fi Hi He). unfold share. rewrite L_is. fold c. destruct (span_of_element _ _ _ _ _ _ _ _ H e He) as (k & Hk & (K1 & K2) & _). rewrite L_is in K1, K2. fold c in K1, K2. assert (St := me_step a Me e He). assert (Hp := me_positive a Me e He). fold c in St. unfold clamp, xs, xe. assert (MN := me_nodes a Me). destruct (Ru e ltac:(lia)) as (U0 & _). destruct (Ru (e + 1)%nat ltac:(lia)) as (U1 & _). fold c in U0, U1. destruct (Nat.lt_trichotomy k i) as [L|[L|L]].
    + assert (Z := start_le Ls (k + 1) i P ltac:(lia)). destruct (Rle_dec (start Ls i) (c e)); [lra|]. rewrite !Rmin_left, !Rmax_left by lra. ring.
    + subst k. destruct (Rle_dec (start Ls i) (c e)); [|lra]. destruct (Rle_dec (c (e + 1)) (start Ls (i + 1))); [|lra]. rewrite !Rmin_left, !Rmax_right by lra. rewrite U0, U1, St. unfold G. field.
    + assert (Z := start_le Ls (i + 1) k P ltac:(lia)). destruct (Rle_dec (c (e + 1)) (start Ls (i + 1))); [lra|]. assert (E1 : Rmin (c (e + 1)) (start Ls (i + 1)) = start Ls (i + 1)) by (apply Rmin_right; lra). assert (E2 : Rmin (c e) (start Ls (i + 1)) = start Ls (i + 1)) by (apply Rmin_right; lra). rewrite E1, E2. destruct (Rle_dec (start Ls i) (c e)); ring.
Qed.
Lemma starts_get s : (0 <= s <= Z.of_nat (length Ls))%Z -> pyget (nb_starts a) s = Ok (start Ls (Z.to_nat s)).
Proof.
  intros Hs. unfold pyget, nb_starts. rewrite L_is. destruct (Z.ltb_spec s 0); [lia|]. destruct (Z.ltb_spec s 0); [lia|]. rewrite (nth_error_nth' _ 0) by (rewrite cumsum_length; lia). rewrite cumsum_nth by lia. rewrite Rplus_0_l. reflexivity.
Qed.
Lemma rigid_deflects u al be x y : moves_rigidly a al be u -> deflects a u x y -> y = al + be * x.
Proof.
  intros Ru (e & w & He & B & Cu & ->). fold c in B |- *. assert (Hp := me_positive a Me e He). rewrite (cubic_unique _ _ _ Hp Cu). unfold herm, cub, coef2, coef3, ends. assert (MN := me_nodes a Me). destruct (Ru e ltac:(lia)) as (U0 & U1). destruct (Ru (e + 1)%nat ltac:(lia)) as (U2 & U3). replace (2 * e + 0)%nat with (2 * e)%nat by lia. replace (2 * e + 2)%nat with (2 * (e + 1))%nat by lia. replace (2 * e + 3)%nat with (2 * (e + 1) + 1)%nat by lia.
  assert (St := me_step a Me e He). fold c in St, U0, U1, U2, U3. rewrite U0, U1, U2, U3, St. field. lra.
Qed.
Lemma find_element x : 0 <= x <= nb_total a -> exists e, (e < nb_elems a)%nat /\ c e <= x <= c (e + 1).
Proof.
  intros [X0 X1]. rewrite (total_is a Me) in X1. assert (Sm := me_some a Me). assert (E0 := me_first a Me). fold c in E0, X1. assert (Q : forall m, (1 <= m <= nb_elems a)%nat -> x <= c m -> exists e, (e < m)%nat /\ c e <= x <= c (e + 1)).
  { induction m as [|m IH]; [lia|]. intros Hm Hx. destruct (Rle_or_lt (c m) x) as [L|L].
    - exists m. split; [lia|]. replace (m + 1)%nat with (S m) by lia. lra.
    - destruct m as [|m]; [rewrite E0 in L; lra|]. destruct (IH ltac:(lia) ltac:(lra)) as (e & He & B). exists e. split; [lia|exact B]. }
  destruct (Q (nb_elems a) ltac:(lia) X1) as (e & He & B). exists e. split; assumption.
Qed.
Lemma deflects_some u x : 0 <= x <= nb_total a -> exists y, deflects a u x y.
Proof.
  intros Hx. destruct (find_element x Hx) as (e & He & B). exists (herm (element_h a e) (ends u e) (x - c e)), e, (herm (element_h a e) (ends u e)). split; [exact He|]. split; [exact B|]. split; [apply herm_cubic, (me_positive a Me e He)|reflexivity].
Qed.
Lemma row_work al be u F r W : fine -> moves_rigidly a al be u -> load_work a al be r W -> exists F', add_row a F r = Ok F' /\ work a F' u = work a F u + W.
Proof.
  intros Fi Ru HW. destruct HW as [s w rest W Hs HI|s P p rest Hs Hp Hf].
  - rewrite L_is in *. unfold add_row. cbn [get nth_error rbind]. rewrite Z.eqb_refl. rewrite !starts_get by lia. cbn [rbind]. eexists. split; [reflexivity|]. replace (Z.to_nat (s - 1 + 1)) with (Z.to_nat (s - 1) + 1)%nat by lia. apply (udl_rigid _ _ _ _ al be); [exact Fi|lia|exact Ru|]. replace (Z.to_nat (s - 1) + 1)%nat with (Z.to_nat s) by lia. exact HI.
  - rewrite L_is in *. unfold add_row. cbn [get nth_error rbind]. replace (2 =? 1)%Z with false by reflexivity. rewrite Z.eqb_refl. rewrite starts_get by lia. cbn [rbind]. eexists. split; [reflexivity|]. set (x := start Ls (Z.to_nat (s - 1)) + p) in *. assert (T : nb_total a = start Ls (length Ls)) by (unfold nb_total; rewrite L_is, start_all; reflexivity). rewrite <- T in Hp.
    destruct (point_work a Me F P x Hp) as (x' & Hx' & Q). assert (x' = x) as ->. { destruct Hx' as [E|(j & Hj & -> & L)]; [exact E|]. destruct (Hf j Hj) as [E|G]; [exact E|]. exfalso. lra. }
    destruct (deflects_some u x Hp) as (y & Hy). rewrite (Q u y Hy). rewrite (rigid_deflects u al be x y Ru Hy). ring.
Qed.
Lemma rows_work al be u LM Ws : fine -> moves_rigidly a al be u -> Forall2 (load_work a al be) LM Ws -> exists F, force_vector a LM = Ok F /\ work a F u = lsum Ws.
Proof.
  intros Fi Ru HW. unfold force_vector. assert (G : forall F0, exists F, foldM (add_row a) LM F0 = Ok F /\ work a F u = work a F0 u + lsum Ws).
  { induction HW as [|r W LM Ws Hr HW IH]; intros F0; [exists F0; split; [reflexivity|unfold lsum; cbn; ring]|]. destruct (row_work al be u F0 r W Fi Ru Hr) as (F1 & E1 & Q1). destruct (IH F1) as (F & E & Q). exists F. cbn [foldM]. rewrite E1. cbn [rbind]. split; [exact E|]. rewrite Q, Q1. unfold lsum. cbn [fold_right]. ring. }
  destruct (G (fun _ => 0)) as (F & E & Q). exists F. split; [exact E|]. rewrite Q. unfold work. rewrite rsum_0 by (intros i _; ring). ring.
Qed.
End Made.
Lemma row_skipped a F s t v rest : (t <> 1)%Z -> (t <> 2)%Z -> add_row a F (Row s t (v :: rest)) = Ok F.
Proof. intros H1 H2. unfold add_row. cbn [get nth_error rbind]. destruct (Z.eqb_spec t 1); [contradiction|]. destruct (Z.eqb_spec t 2); [contradiction|reflexivity]. Qed.
