(** Stations of a member and the rotation at its released end. *)
From Coquelicot Require Import Coquelicot.
From Coq Require Import Lia Sorting.
From Verif Require Import Base BaseFacts Linalg SectionModel FlexModel LoadModel LoadSpec LoadFacts DiagFacts ClampFacts FoundationModel ElementModel ElementSpec ElementFacts
  TimoFacts UtilsModel BeamModel AnalysisModel AnalysisSpec MechFacts ResultsModel ResultsSpec ResultsFacts ExactSpec ExactFacts ExactFacts2 ConvFacts ConvFacts2.
Open Scope R_scope.

(** ** Stations *)
Lemma increasing_nth l : increasing l -> forall i j, (i <= j < length l)%nat -> nth i l 0 <= nth j l 0.
Proof.
  induction 1 as [|x l S IH F]; intros i j Hij; cbn [length] in *; [lia|]. destruct i as [|i], j as [|j]; cbn [nth]; [lra| |lia|apply IH; lia].
  rewrite Forall_forall in F. apply F, nth_In. lia.
Qed.
Lemma stations_nodes L n sp : 0 < L -> (0 < n)%nat ->
  nodes L (L / INR n) (length (stations L n sp) - 2) (fun k => nth k (stations L n sp) 0).
Proof.
  intros HL Hn. assert (HN : 0 < INR n) by (apply lt_0_INR; exact Hn). assert (Hh : 0 < L / INR n) by (apply Rdiv_lt_0_compat; assumption). set (h := L / INR n) in *.
  assert (LEN := stations_len L n sp). set (xs := stations L n sp) in *.
  assert (G := stations_grid L n sp 0 ltac:(lra) Hn). fold xs in G.
  assert (X0 : nth 1 xs 0 = 0). { pose proof (sg_second _ _ _ _ G) as Q. rewrite nth_map_R in Q by lia. lra. }
  assert (X1 : nth (length xs - 2) xs 0 = L). { pose proof (sg_before_last _ _ _ _ G) as Q. rewrite nth_map_R in Q by lia. rewrite <- LEN in Q. lra. }
  assert (S := stations_sorted L n sp ltac:(lra) Hn). fold xs in S. assert (ORD := increasing_nth xs S).
  constructor; [exact X0|exact X1|lia|]. intros k Hk.
  assert (A := ORD k (Datatypes.S k) ltac:(lia)). split; [lra|]. destruct (Rle_dec (nth (Datatypes.S k) xs 0 - nth k xs 0) h) as [Q|Q]; [exact Q|exfalso].
  apply Rnot_le_lt in Q. assert (Z := ORD 1%nat k ltac:(lia)). rewrite X0 in Z. assert (Z1 := ORD (Datatypes.S k) (length xs - 2)%nat ltac:(lia)). rewrite X1 in Z1.
  destruct (nfloor_ex (nth k xs 0 / h)) as (j & J1 & J2); [apply Rmult_le_pos; [exact Z|left; apply Rinv_0_lt_compat, Hh]|].
  set (s := INR (j + 1) * h). assert (Es : INR (j + 1) = INR j + 1) by (rewrite plus_INR; reflexivity).
  assert (B1 : nth k xs 0 < s). { apply (Rmult_lt_reg_r (/ h)); [apply Rinv_0_lt_compat, Hh|]. unfold s. rewrite Rmult_assoc, Rinv_r, Rmult_1_r by lra. rewrite Es. exact J2. }
  assert (B2 : s <= nth k xs 0 + h). { unfold s. rewrite Es. assert (INR j * h <= nth k xs 0); [|lra]. apply (Rmult_le_compat_r h) in J1; [|lra]. unfold Rdiv in J1. rewrite Rmult_assoc, Rinv_l, Rmult_1_r in J1 by lra. exact J1. }
  assert (C : (j + 1 <= n)%nat).
  { destruct (Nat.le_gt_cases (j + 1) n) as [E|E]; [exact E|exfalso]. apply lt_INR in E. assert (INR n * h = L) by (unfold h; field; lra). assert (INR n * h < s) by (apply Rmult_lt_compat_r; assumption). lra. }
  assert (I : In s xs). { apply stations_places; [lra|exact Hn|]. left. exists (j + 1)%nat. split; [exact C|]. unfold s, h. field. lra. }
  apply (In_nth _ _ 0) in I as (p & Hp & Ep). destruct (Nat.le_gt_cases p k) as [E|E].
  - assert (W := ORD p k ltac:(lia)). rewrite Ep in W. lra.
  - assert (W := ORD (Datatypes.S k) p ltac:(lia)). rewrite Ep in W. lra.
Qed.

(** ** Imposed curvatures *)
Lemma imposed_quadratic lds : Forall (fun ld => match ld with LIC k _ => (length k <= 3)%nat | _ => True end) lds ->
  exists k0 k1 k2, forall x, imposed lds x = k0 + k1 * x + k2 * x ^ 2.
Proof.
  induction 1 as [|ld lds H _ (k0 & k1 & k2 & E)]; [exists 0, 0, 0; intros x; unfold imposed; cbn; ring|].
  destruct ld; try (exists k0, k1, k2; intros x; specialize (E x); unfold imposed in *; cbn [map]; rewrite lsum_cons, E; ring).
  destruct (kappa_short _ H) as (a & b & c & K). exists (k0 + a), (k1 + b), (k2 + c). intros x. specialize (E x). unfold imposed in *. cbn [map]. rewrite lsum_cons, E, (proj1 (K x)). ring.
Qed.

(** ** The rotation at the left end *)
Definition end_sums (gl : nat -> list (R * R)) (lds : list load) (L Ma Mb : R) : Prop :=
  exists cs, mapM (fun ld => get_cnl gl ld L) lds = Ok cs /\ Ma = lsum (map c_Ma cs) /\ Mb = lsum (map c_Mb cs).
Lemma fold_sum {A} (g : A -> R) l : forall s, fold_left (fun s c => s + g c) l s = s + lsum (map g l).
Proof. induction l as [|a l IH]; intros s; cbn [fold_left map]; [unfold lsum; cbn; ring|]. rewrite IH, lsum_cons. ring. Qed.
Lemma start_rotation gl m lds f d npts sp r : member_values gl m lds f d npts sp = Ok r -> 0 < mb_L m -> (0 < npts)%nat -> (1 < mb_type m)%nat ->
  ~ end_matched m lds (stations (mb_L m) npts sp) ->
  exists ei Ma Mb, mb_EI m = RConst ei /\ end_sums gl lds (mb_L m) Ma Mb /\
    nth 1 (r_R r) 0 = (d 2%nat - d 0%nat) / mb_L m - (mb_L m / (3 * ei)) * (- (f 1%nat - 1/2 * f 3%nat) + (Ma - 1/2 * Mb)).
Proof.
  intros H HL Hn Ht NM. revert H. unfold member_values. set (xs := stations (mb_L m) npts sp) in *. intros H. set (res := fold_left _ lds _) in H.
  assert (T0 : table (mb_L m) xs (fun x => (f 1%nat + f 3%nat) / mb_L m + V_all (mb_L m) lds x)
    (fun x => ((f 1%nat + f 3%nat) / mb_L m * x - f 1%nat) + M_all (mb_L m) lds x) res).
  { apply loads_table. exact (load_table (mb_L m) xs (LMaMb (f 1%nat) (f 3%nat))). }
  clearbody res. assert (N : (4 <= length xs)%nat) by (unfold xs; rewrite stations_len; lia).
  destruct (mb_EI m) as [ei|s] eqn:EE; [|exfalso; apply NM; left; exists s; exact EE].
  destruct (mb_GAv m) as [g|] eqn:EG; [exfalso; apply NM; right; left; exists g; exact EG|].
  apply rbind_ok in H as (cs & Hcs & H). apply rbind_ok in H as (es & Hei & H). apply rbind_ok in H as (g & Hg & H).
  exists ei, (lsum (map c_Ma cs)), (lsum (map c_Mb cs)). split; [reflexivity|]. split; [exists cs; auto|].
  destruct T0 as [t1 (t2 & t3 & t4 & t5) _ _].
  set (kap := map _ xs) in H. assert (NZ : nonzero kap = false).
  { destruct (nonzero kap) eqn:Q; [exfalso|reflexivity]. apply existsb_exists in Q as (v & Hv & Ev). apply in_map_iff in Hv as (x & Ex & Hx). apply NM. right. right. exists x. split; [exact Hx|].
    rewrite imposed_fold in Ex. intros Z. rewrite Z in Ex. unfold Reqb in Ev. destruct (Req_EM_T v 0); [discriminate|lra]. }
  rewrite NZ in H. cbn [is_sect orb] in H. apply Nat.ltb_lt in Ht. rewrite Ht in H. injection H as <-. cbn [r_R].
  assert (Lei := rigid_at_len _ _ _ Hei). assert (Lk : length kap = length xs) by apply map_length.
  set (curv := map2 Rplus _ kap). assert (LC : length curv = length xs) by (apply map2_len; [apply map2_len; [exact t3|exact Lei]|exact Lk]). clearbody curv.
  set (prov := cumtrapz (inner curv) (inner xs)). assert (Pl : length prov = (length xs - 2)%nat) by (unfold prov; rewrite cumtrapz_len; rewrite !inner_len, ?LC; reflexivity).
  assert (PH : nth 0 prov 0 = 0) by apply cumtrapz_hd. clearbody prov.
  rewrite nth_set_inner by (rewrite ?map_length, ?t4, ?Pl; lia). rewrite nth_map_R by lia. rewrite PH, !fold_sum. lra.
Qed.
