(** Facts about vehicles, trains and the library. *)
From Coq Require Import Lia ZArith.
From Verif Require Import Base BaseFacts VehicleModel VehicleSpec.
Open Scope R_scope.

(** * Sums *)
Lemma fold_plus l : forall x, fold_left Rplus l x = x + lsum l.
Proof. unfold lsum. induction l as [|y l IH]; intros x; cbn; [lra|]. rewrite IH. lra. Qed.
Lemma pysum_eq l : pysum l = lsum l.
Proof. unfold pysum. rewrite fold_plus. lra. Qed.
Lemma lsum_app' a b : lsum (a ++ b) = lsum a + lsum b.
Proof. unfold lsum. induction a as [|x a IH]; cbn; [lra|]. rewrite IH. lra. Qed.
Lemma lsum_rev a : lsum (rev a) = lsum a.
Proof. induction a as [|x a IH]; [reflexivity|]. cbn [rev]. rewrite lsum_app', IH. unfold lsum. cbn. lra. Qed.

(** * Coordinates *)
Lemma cumul_length axs : forall x, length (cumul x axs) = S (length axs).
Proof. induction axs as [|s t IH]; intros x; cbn; [reflexivity|]. rewrite IH. reflexivity. Qed.
Lemma cumul_nth axs : forall x i, (i <= length axs)%nat -> nth i (cumul x axs) 0 = x + lsum (firstn i axs).
Proof.
  induction axs as [|s t IH]; intros x i H.
  - cbn in H. assert (i = 0%nat) as -> by lia. unfold lsum. cbn. lra.
  - destruct i as [|i]; [unfold lsum; cbn; lra|]. cbn [cumul nth firstn]. rewrite IH by (cbn in H; lia). unfold lsum. cbn. lra.
Qed.
Lemma cumul_shift axs : forall x d, cumul (d + x) axs = map (fun c => d + c) (cumul x axs).
Proof. induction axs as [|s t IH]; intros x d; cbn; [reflexivity|]. rewrite <- IH. rewrite Rplus_assoc. reflexivity. Qed.
Lemma cumul_app a : forall x b, cumul x (a ++ b) = cumul x a ++ tl (cumul (x + lsum a) b).
Proof.
  induction a as [|s t IH]; intros x b; cbn [app cumul].
  - unfold lsum. cbn [fold_right]. rewrite Rplus_0_r. destruct b; reflexivity.
  - rewrite IH. cbn [app]. replace (x + s + lsum t) with (x + lsum (s :: t)) by (unfold lsum; cbn; lra). reflexivity.
Qed.

Lemma vehicle_spec axs axw :
  (length axw = S (length axs) -> exists v, vehicle_init axs axw = Ok v /\ v_axs v = axs /\ v_axw v = axw /\ v_L v = lsum axs /\ v_W v = lsum axw /\
     length (v_coords v) = length axw /\ forall i, (i < length axw)%nat -> nth i (v_coords v) 0 = lsum (firstn i axs)) /\
  (length axw <> S (length axs) -> vehicle_init axs axw = Err ValueError).
Proof.
  unfold vehicle_init. split; intros H.
  - rewrite (proj2 (Nat.eqb_eq _ _)) by lia. cbn [negb]. eexists. split; [reflexivity|]. cbn. rewrite !pysum_eq, cumul_length.
    repeat split; try lia. intros i Hi. rewrite cumul_nth by lia. lra.
  - rewrite (proj2 (Nat.eqb_neq _ _)) by lia. reflexivity.
Qed.
Lemma init_inv axs axw v : vehicle_init axs axw = Ok v -> length axw = S (length axs) /\
  v = {| v_axs := axs; v_axw := axw; v_L := pysum axs; v_W := pysum axw; v_coords := cumul 0 axs |}.
Proof.
  unfold vehicle_init. destruct (Nat.eqb_spec (length axs + 1) (length axw)) as [E|]; [|discriminate]. cbn. intros H. injection H as <-. split; [lia|reflexivity].
Qed.

(** * Reversal *)
Lemma firstn_rev_sum axs i : (i <= length axs)%nat -> lsum (firstn i (rev axs)) = lsum axs - lsum (firstn (length axs - i) axs).
Proof.
  intros H. rewrite firstn_rev, lsum_rev. pose proof (lsum_app' (firstn (length axs - i) axs) (skipn (length axs - i) axs)) as E. rewrite firstn_skipn in E. lra.
Qed.
Lemma reversed_spec axs axw v : vehicle_init axs axw = Ok v -> exists r, reversed v = Ok r /\ v_L r = v_L v /\ v_W r = v_W v /\
  length (v_coords r) = length (v_coords v) /\ v_axw r = rev (v_axw v) /\ v_axs r = rev (v_axs v) /\
  (forall i, (i < length axw)%nat -> nth i (v_coords r) 0 = v_L v - nth (length axw - 1 - i) (v_coords v) 0) /\
  reversed r = Ok v /\ axles (reverse_in_place v) = rev (axles r).
Proof.
  intros H. apply init_inv in H as [HL ->]. unfold reversed at 1. cbn [v_axs v_axw].
  destruct (vehicle_spec (rev axs) (rev axw)) as [S _]. destruct S as (r & Hr & A1 & A2 & A3 & A4 & A5 & A6); [rewrite !rev_length; exact HL|].
  exists r. split; [exact Hr|]. rewrite A3, A4, A1, A2. cbn [v_L v_W v_coords v_axw v_axs]. rewrite !lsum_rev, !pysum_eq.
  split; [reflexivity|]. split; [reflexivity|]. rewrite A5, cumul_length, rev_length. split; [exact HL|]. split; [reflexivity|]. split; [reflexivity|].
  assert (M : forall i, (i < length axw)%nat -> nth i (v_coords r) 0 = lsum axs - nth (length axw - 1 - i) (cumul 0 axs) 0).
  { intros i Hi. rewrite A6 by (rewrite rev_length; exact Hi). rewrite firstn_rev_sum by lia. rewrite cumul_nth by lia.
    replace (length axw - 1 - i)%nat with (length axs - i)%nat by lia. lra. }
  split; [exact M|]. split.
  - unfold reversed. rewrite A1, A2, !rev_involutive. unfold vehicle_init. rewrite (proj2 (Nat.eqb_eq _ _)) by lia. cbn [negb]. rewrite !pysum_eq. reflexivity.
  - unfold axles, reverse_in_place. cbn [v_coords v_axw v_L]. rewrite A2.
    apply (nth_ext _ _ (0, 0) (0, 0)).
    + rewrite rev_length, !combine_length, map_length, cumul_length, rev_length, A5, rev_length. lia.
    + intros n Hn. rewrite combine_length, map_length, cumul_length in Hn. assert (Hn' : (n < length axw)%nat) by lia.
      assert (LC : length (v_coords r) = length (rev axw)) by (rewrite A5; reflexivity).
      assert (LB : length (map (fun c => lsum axs - c) (cumul 0 axs)) = length axw) by (rewrite map_length, cumul_length; lia).
      rewrite combine_nth by exact LB. rewrite rev_nth by (rewrite combine_length, A5, rev_length; lia).
      rewrite combine_length, A5, rev_length, Nat.min_id. rewrite combine_nth by exact LC.
      rewrite M by lia. rewrite rev_nth by lia. f_equal; [|f_equal; lia].
      rewrite (nth_indep _ 0 (lsum axs - 0)) by (rewrite map_length, cumul_length; lia).
      rewrite (map_nth (fun c => lsum axs - c)). do 2 f_equal. lia.
Qed.
Lemma in_place_twice v : reverse_in_place (reverse_in_place v) = v.
Proof.
  destruct v as [a w L W c]. unfold reverse_in_place. cbn. f_equal. rewrite map_map. rewrite <- (map_id c) at 2. apply map_ext. intros x. lra.
Qed.

(** * Trains *)
Lemma all_some_map {A} (l : list A) : all_some (map Some l) = Some l.
Proof. induction l as [|a l IH]; cbn; [reflexivity|]. rewrite IH. reflexivity. Qed.
Lemma all_some_inv {A} (l : list (option A)) r : all_some l = Some r -> l = map Some r.
Proof.
  revert r. induction l as [|[a|] l IH]; intros r H; cbn in H; try discriminate; [injection H as <-; reflexivity|].
  destruct (all_some l) as [q|]; [|discriminate]. injection H as <-. cbn. rewrite (IH q eq_refl). reflexivity.
Qed.
Lemma fill_nonzero l : Forall (fun s => s <> 0) l -> forall r vals, fill_seq (l ++ r) vals = l ++ fill_seq r vals.
Proof.
  induction 1 as [|x l Hx Hl IH]; intros r vals; [reflexivity|]. cbn [app fill_seq]. destruct (Reqb_spec x 0); [contradiction|]. rewrite IH. reflexivity.
Qed.
Lemma filter_nonzero l : Forall (fun s => s <> 0) l -> filter (fun x => Reqb x 0) l = [].
Proof. induction 1 as [|x l Hx Hl IH]; [reflexivity|]. cbn. destruct (Reqb_spec x 0); [contradiction|exact IH]. Qed.
Definition spaces (vs : list vehicle) : list R := flat_map (fun v => 0 :: v_axs v) vs.
Lemma Reqb_00 : Reqb 0 0 = true.
Proof. destruct (Reqb_spec 0 0); [reflexivity|contradiction]. Qed.
Lemma spaces_zeros vs : Forall (fun v => Forall (fun s => s <> 0) (v_axs v)) vs -> length (filter (fun x => Reqb x 0) (spaces vs)) = length vs.
Proof.
  induction 1 as [|v vs Hv Hvs IH]; [reflexivity|]. unfold spaces in *. cbn [flat_map app filter]. rewrite Reqb_00, filter_app, (filter_nonzero _ Hv). cbn. f_equal. exact IH.
Qed.
Lemma count_zeros_ge vs : (length vs <= length (filter (fun x => Reqb x 0) (spaces vs)))%nat.
Proof. induction vs as [|v vs IH]; [reflexivity|]. unfold spaces in *. cbn [flat_map app filter length]. rewrite Reqb_00, filter_app. cbn. rewrite app_length. lia. Qed.
Lemma count_zeros_gt vs v : In v vs -> In 0 (v_axs v) -> (length vs < length (filter (fun x => Reqb x 0) (spaces vs)))%nat.
Proof.
  induction vs as [|u vs IH]; [intros []|]. intros Hv H0. pose proof (count_zeros_ge vs) as G. unfold spaces in *. cbn [flat_map app filter length]. rewrite Reqb_00, filter_app. cbn. rewrite app_length.
  destruct Hv as [->|Hv]; [|specialize (IH Hv H0); lia].
  assert (0 < length (filter (fun x => Reqb x 0) (v_axs v)))%nat; [|lia].
  assert (I : In 0 (filter (fun x => Reqb x 0) (v_axs v))) by (apply filter_In; split; [exact H0|exact Reqb_00]).
  destruct (filter _ (v_axs v)); [destruct I|cbn; lia].
Qed.
(** The spacings with the gaps filled in. *)
Fixpoint gapped (vs : list vehicle) (gs : list R) : list R :=
  match vs with [] => [] | v :: vs => hd 0 gs :: v_axs v ++ gapped vs (tl gs) end.
Lemma fill_gapped vs : forall gs, Forall (fun v => Forall (fun s => s <> 0) (v_axs v)) vs -> length gs = length vs -> fill_seq (spaces vs) gs = gapped vs gs.
Proof.
  induction vs as [|v vs IH]; intros gs H L; [reflexivity|]. inversion H; subst. destruct gs as [|g gs]; [discriminate|].
  change (spaces (v :: vs)) with (0 :: v_axs v ++ spaces vs). cbn [fill_seq gapped hd tl]. rewrite Reqb_00. rewrite fill_nonzero by assumption.
  rewrite IH; [reflexivity|assumption|]. cbn in L. lia.
Qed.
Lemma init_fresh axs axw v : vehicle_init axs axw = Ok v -> fresh v.
Proof. intros H. destruct (init_inv _ _ _ H) as [_ E]. unfold fresh. rewrite E. cbn. rewrite <- E. exact H. Qed.
Lemma fresh_facts v : fresh v -> length (v_axw v) = S (length (v_axs v)) /\ v_coords v = cumul 0 (v_axs v) /\ v_L v = lsum (v_axs v) /\ v_W v = lsum (v_axw v).
Proof. intros H. destruct (init_inv _ _ _ H) as [L E]. rewrite E. cbn. rewrite !pysum_eq. rewrite E in L. cbn in L. auto. Qed.

Lemma combine_app {A B} (a a' : list A) (b b' : list B) : length a = length b -> combine (a ++ a') (b ++ b') = combine a b ++ combine a' b'.
Proof. revert b. induction a as [|x a IH]; intros [|y b] H; cbn in *; try discriminate; [reflexivity|]. f_equal. apply IH. lia. Qed.
(** The coordinates of a train, starting from [x] at the last axle of what is before it. *)
Lemma gapped_cumul vs : forall gs x, Forall fresh vs ->
  combine (tl (cumul x (gapped vs gs))) (flat_map v_axw vs) = convoy (x + hd 0 gs) vs (tl gs) /\
  length (tl (cumul x (gapped vs gs))) = length (flat_map v_axw vs).
Proof.
  induction vs as [|v vs IH]; intros gs x H; [auto|]. inversion H as [|? ? Hv Hvs]; subst. destruct (fresh_facts v Hv) as (L1 & C1 & S1 & W1).
  cbn [gapped cumul tl flat_map convoy]. rewrite cumul_app. destruct (IH (tl gs) (x + hd 0 gs + lsum (v_axs v)) Hvs) as [I1 I2].
  split; [|rewrite !app_length, I2, cumul_length; lia].
  rewrite combine_app by (rewrite cumul_length; lia). f_equal.
  - unfold axles. rewrite C1. rewrite <- (Rplus_0_r (x + hd 0 gs)) at 1. rewrite cumul_shift. generalize (cumul 0 (v_axs v)) as c, (v_axw v) as w.
    induction c as [|a c IHc]; intros [|b w]; cbn; try reflexivity. f_equal. apply IHc.
  - rewrite I1, S1. reflexivity.
Qed.
Lemma gapped_sum vs : forall gs, Forall fresh vs -> length gs = length vs -> lsum (gapped vs gs) = lsum (map v_L vs) + lsum gs.
Proof.
  induction vs as [|v vs IH]; intros gs H L; [destruct gs; [unfold lsum; cbn; lra|discriminate]|]. destruct gs as [|g gs]; [discriminate|]. inversion H as [|? ? Hv Hvs]; subst.
  cbn [gapped hd tl]. change (lsum (g :: v_axs v ++ gapped vs gs)) with (g + lsum (v_axs v ++ gapped vs gs)). rewrite lsum_app', IH by (cbn in L; auto; lia).
  destruct (fresh_facts v Hv) as (_ & _ & S1 & _). cbn [map]. change (lsum (v_L v :: map v_L vs)) with (v_L v + lsum (map v_L vs)). change (lsum (g :: gs)) with (g + lsum gs). rewrite S1. lra.
Qed.
Lemma flat_sum vs : Forall fresh vs -> lsum (flat_map v_axw vs) = lsum (map v_W vs).
Proof.
  induction 1 as [|v vs Hv Hvs IH]; [reflexivity|]. cbn [flat_map map]. rewrite lsum_app', IH. change (lsum (v_W v :: map v_W vs)) with (v_W v + lsum (map v_W vs)).
  destruct (fresh_facts v Hv) as (_ & _ & _ & ->). reflexivity.
Qed.
Lemma fill_zero_one l : map (fun x => if Reqb x 0 then 0 else x) l = l.
Proof. rewrite <- (map_id l) at 2. apply map_ext. intros x. destruct (Reqb_spec x 0); auto. Qed.
Lemma train_spec vs gaps : Forall fresh vs -> length vs = S (length gaps) -> (gaps = [] \/ Forall (fun v => Forall (fun s => s <> 0) (v_axs v)) vs) ->
  exists t, make_train (map Some vs) gaps = Ok t /\ axles t = convoy 0 vs gaps /\ v_L t = lsum (map v_L vs) + lsum gaps /\ v_W t = lsum (map v_W vs) /\ fresh t.
Proof.
  intros F L Z. unfold make_train. rewrite map_length, L. replace (Z.of_nat (S (length gaps)) - 1)%Z with (Z.of_nat (length gaps)) by lia. rewrite Z.eqb_refl. cbn [negb].
  rewrite all_some_map. fold (spaces vs).
  assert (E : fill_zeros (spaces vs) (0 :: gaps) = Ok (gapped vs (0 :: gaps))).
  { destruct vs as [|v vs]; [discriminate|]. destruct gaps as [|g gaps].
    - cbn [fill_zeros]. rewrite fill_zero_one. destruct vs; [|discriminate]. cbn. rewrite app_nil_r. reflexivity.
    - destruct Z as [Z|Z]; [discriminate|]. cbn [fill_zeros]. rewrite spaces_zeros by exact Z. rewrite (proj2 (Nat.eqb_eq _ _)) by (cbn in L |- *; lia).
      rewrite fill_gapped; [reflexivity|exact Z|cbn in L |- *; lia]. }
  rewrite E. cbn [rbind]. destruct (gapped_cumul vs (0 :: gaps) 0 F) as [G1 G2]. assert (GS := gapped_sum vs (0 :: gaps) F ltac:(cbn; lia)).
  destruct vs as [|v vs]; [discriminate|]. set (w := v :: vs) in *. assert (GT : gapped w (0 :: gaps) = 0 :: tl (gapped w (0 :: gaps))) by reflexivity.
  assert (C : tl (cumul 0 (gapped w (0 :: gaps))) = cumul 0 (tl (gapped w (0 :: gaps)))).
  { rewrite GT at 1. cbn [cumul tl]. rewrite Rplus_0_r. reflexivity. }
  rewrite C in *. rewrite cumul_length in G2.
  destruct (vehicle_spec (tl (gapped w (0 :: gaps))) (flat_map v_axw w)) as [S _]. destruct S as (t & Ht & A1 & A2 & A3 & A4 & A5 & A6); [lia|].
  exists t. split; [exact Ht|]. destruct (init_inv _ _ _ Ht) as [_ Et]. split; [|split; [|split]].
  - unfold axles. rewrite A2. replace (v_coords t) with (cumul 0 (tl (gapped w (0 :: gaps)))) by (rewrite Et; reflexivity). rewrite G1. cbn [hd tl]. rewrite Rplus_0_r. reflexivity.
  - rewrite A3. rewrite GT in GS. change (lsum (0 :: tl (gapped w (0 :: gaps)))) with (0 + lsum (tl (gapped w (0 :: gaps)))) in GS. change (lsum (0 :: gaps)) with (0 + lsum gaps) in GS. lra.
  - rewrite A4. apply flat_sum, F.
  - exact (init_fresh _ _ _ Ht).
Qed.
(** Everything else raises. *)
Lemma train_rejects vs gaps : length vs <> S (length gaps) \/ In None vs \/ (gaps <> [] /\ exists v, In (Some v) vs /\ In 0 (v_axs v)) ->
  make_train vs gaps = Err ValueError.
Proof.
  intros H. unfold make_train. destruct (Z.eqb_spec (Z.of_nat (length vs) - 1) (Z.of_nat (length gaps))) as [E|E]; cbn [negb]; [|reflexivity].
  destruct (all_some vs) as [us|] eqn:Es; [|reflexivity]. apply all_some_inv in Es. subst vs. destruct H as [H|[H|(Hg & v & Hv & H0)]].
  - lia.
  - apply in_map_iff in H as (x & Hx & _). discriminate.
  - apply in_map_iff in Hv as (u & Eu & Hu). injection Eu as ->. rewrite map_length in E. fold (spaces us).
    destruct gaps as [|g gaps]; [contradiction|]. cbn [fill_zeros]. assert (G := count_zeros_gt us v Hu H0).
    rewrite (proj2 (Nat.eqb_neq _ _)); [reflexivity|]. cbn [length] in *. lia.
Qed.

(** * Library *)
Lemma is_vehicle_intro axs axw l g : length axw = S (length axs) -> Forall (Rlt 0) axs -> Forall (Rlt 0) axw ->
  combine (cumul 0 axs) axw = l -> pysum axw = g -> is_vehicle (vehicle_init axs axw) l g.
Proof.
  intros L A B C D. unfold vehicle_init. rewrite (proj2 (Nat.eqb_eq _ _)) by lia. eexists. split; [reflexivity|]. repeat split; assumption.
Qed.
Ltac lib := apply is_vehicle_intro; [reflexivity|repeat constructor; lra|repeat constructor; lra|cbn; repeat (f_equal; try lra)|unfold pysum; cbn; lra].

Lemma rail_axs_app s n : forall acc, rail_axs s n acc = acc ++ concat (repeat ((s - pysum ags) :: ags) n).
Proof. induction n as [|n IH]; intros acc; cbn [rail_axs repeat concat]; [rewrite app_nil_r; reflexivity|]. rewrite IH, <- app_assoc. reflexivity. Qed.
Lemma rail_axw_app n : forall acc, rail_axw n acc = acc ++ concat (repeat agw n).
Proof. induction n as [|n IH]; intros acc; cbn [rail_axw repeat concat]; [rewrite app_nil_r; reflexivity|]. rewrite IH, <- app_assoc. reflexivity. Qed.
Lemma ags_sum : pysum ags = 45/10.
Proof. unfold pysum. cbn. lra. Qed.
Lemma agw_len n : length (concat (repeat agw n)) = (4 * n)%nat.
Proof. induction n as [|n IH]; [reflexivity|]. cbn [repeat concat]. rewrite app_length, IH. cbn. lia. Qed.
Lemma rail_tail s w n : forall j x, x = 2 + INR j * s + 45/10 ->
  combine (tl (cumul x (concat (repeat ((s - pysum ags) :: ags) n)))) (map (fun u => w / 300 * u) (concat (repeat agw n))) =
  flat_map (fun j => rail_group w (2 + INR j * s)) (seq (S j) n).
Proof.
  induction n as [|n IH]; intros j x Hx; [reflexivity|]. cbn [repeat concat seq flat_map]. rewrite map_app.
  rewrite cumul_app. rewrite ags_sum at 1. cbn [cumul ags tl app]. cbn [map agw app combine].
  rewrite (IH (S j)); [|rewrite S_INR; unfold lsum; rewrite ags_sum; cbn; lra].
  unfold rail_group. cbn [app]. rewrite S_INR. repeat (f_equal; try lra).
Qed.
Lemma la_rail_spec count s w :
  ((1 <= count)%Z -> 12 <= s <= 20 -> 0 < w ->
   is_vehicle (get_la_rail count s w) (rail_axles (Z.to_nat count) s w) (w * (12/10 + 4 * IZR count))) /\
  ((count < 1)%Z \/ s < 12 \/ 20 < s -> get_la_rail count s w = Err ValueError).
Proof.
  split.
  - intros Hc Hs Hw. unfold get_la_rail, Rltb. destruct (Rlt_dec s 12); [lra|]. destruct (Rlt_dec 20 s); [lra|]. cbn [orb].
    destruct (Z.ltb_spec count 1); [lia|]. rewrite rail_axs_app, rail_axw_app. set (k := Z.to_nat (count - 1)).
    assert (Ek : Z.to_nat count = S k) by (unfold k; lia). rewrite Ek.
    assert (Ec : IZR count = INR k + 1) by (rewrite <- S_INR, INR_IZR_INZ; f_equal; lia).
    assert (P : forall m, Forall (Rlt 0) (concat (repeat ((s - pysum ags) :: ags) m)) /\ length (concat (repeat ((s - pysum ags) :: ags) m)) = (4 * m)%nat).
    { induction m as [|m [I1 I2]]; [cbn; auto|]. cbn [repeat concat]. rewrite ags_sum in *. rewrite app_length, I2. split; [|cbn; lia].
      apply Forall_app. split; [repeat constructor; lra|exact I1]. }
    assert (Q : forall m, Forall (Rlt 0) (concat (repeat agw m)) /\ lsum (concat (repeat agw m)) = 1200 * INR m).
    { induction m as [|m [I1 I2]]; [cbn; split; [constructor|unfold lsum; cbn; lra]|]. cbn [repeat concat]. split; [apply Forall_app; split; [repeat constructor; lra|exact I1]|].
      rewrite lsum_app', I2, S_INR. unfold lsum. cbn. lra. }
    destruct (P k) as [P1 P2]. destruct (Q k) as [Q1 Q2]. assert (W0 : 0 < w / 300) by lra.
    apply is_vehicle_intro.
    + rewrite map_length, !app_length, agw_len, P2. cbn. lia.
    + apply Forall_app. split; [repeat constructor; lra|exact P1].
    + apply Forall_forall. intros y Hy. apply in_map_iff in Hy as (u & <- & Hu). apply Rmult_lt_0_compat; [exact W0|].
      rewrite Forall_forall in Q1. apply in_app_iff in Hu as [Hu|Hu]; [|exact (Q1 u Hu)]. cbn in Hu. destruct Hu as [<-|[<-|[<-|[<-|[<-|[]]]]]]; lra.
    + rewrite cumul_app, map_app. rewrite combine_app by (rewrite cumul_length, map_length; reflexivity). unfold rail_axles. cbn [seq flat_map].
      rewrite (rail_tail s w k 0); [|unfold lsum; cbn; lra]. cbn [cumul app ags agw map combine]. unfold rail_group. cbn [app INR]. repeat (f_equal; try lra).
    + rewrite pysum_eq, map_app, lsum_app'. assert (M : forall c l, lsum (map (fun u => c * u) l) = c * lsum l).
      { intros c l. unfold lsum. induction l as [|u l IH]; cbn; [lra|]. rewrite IH. lra. }
      rewrite !M, Q2, Ec. unfold lsum. cbn. lra.
  - intros H. unfold get_la_rail, Rltb. destruct (Rlt_dec s 12); [reflexivity|]. destruct (Rlt_dec 20 s); [reflexivity|]. cbn [orb].
    destruct (Z.ltb_spec count 1); [reflexivity|]. destruct H as [H|[H|H]]; [lia|lra|lra].
Qed.
Lemma m1600_spec s : (625/100 <= s -> is_vehicle (get_m1600 s) (axles_1600 s 120) 1440) /\ (s < 625/100 -> get_m1600 s = Err ValueError).
Proof.
  unfold get_m1600, Rltb. destruct (Rlt_dec s (625/100)); split; try (intros; reflexivity); try (intros; lra). intros H. lib.
Qed.
Lemma s1600_spec s : (625/100 <= s -> is_vehicle (get_s1600 s) (axles_1600 s 80) 960) /\ (s < 625/100 -> get_s1600 s = Err ValueError).
Proof.
  unfold get_s1600, Rltb. destruct (Rlt_dec s (625/100)); split; try (intros; reflexivity); try (intros; lra). intros H. lib.
Qed.
Ltac range H := unfold Rleb; intros H; repeat match goal with |- context [Rle_dec ?a ?b] => destruct (Rle_dec a b) end; cbn [andb negb]; try lra; try reflexivity.
Lemma t44_spec s : (3 <= s <= 8 -> is_vehicle (get_t44 s) [(0, 48); (37/10, 96); (49/10, 96); (49/10 + s, 96); (61/10 + s, 96)] 432) /\
  (~ 3 <= s <= 8 -> get_t44 s = Err ValueError).
Proof. unfold get_t44. split; range H. lib. Qed.
Lemma ms18_spec s : (427/100 <= s <= 914/100 -> is_vehicle (get_ms18 s) [(0, 356/10); (427/100, 1423/10); (427/100 + s, 1423/10)] (3202/10)) /\
  (~ 427/100 <= s <= 914/100 -> get_ms18 s = Err ValueError).
Proof. unfold get_ms18. split; range H. lib. Qed.
Lemma hl93_spec s : (43/10 <= s <= 9 -> is_vehicle (get_hl93_truck s) [(0, 35); (43/10, 145); (43/10 + s, 145)] 325) /\
  (~ 43/10 <= s <= 9 -> get_hl93_truck s = Err ValueError).
Proof. unfold get_hl93_truck. split; range H. lib. Qed.
Lemma fixed_spec :
  is_vehicle get_a160 [(0, 160)] 160 /\ is_vehicle get_w80 [(0, 80)] 80 /\ is_vehicle get_hl93_tandem [(0, 110); (12/10, 110)] 220 /\
  is_vehicle get_cl625 [(0, 50); (36/10, 125); (48/10, 125); (114/10, 175); (18, 150)] 625 /\
  is_vehicle get_jtg_vehicle [(0, 30); (3, 120); (44/10, 120); (114/10, 140); (128/10, 140)] 550 /\
  is_vehicle get_validation_truck [(0, 5); (4, 4); (8, 3)] 12.
Proof. repeat apply conj; lib. Qed.
Lemma scaled_spec alpha : 0 < alpha ->
  is_vehicle (get_lm1 alpha) [(0, 300 * alpha); (12/10, 300 * alpha)] (600 * alpha) /\
  is_vehicle (get_lm71 alpha) (map (fun x => (x, 250 * alpha)) [0; 16/10; 32/10; 48/10]) (1000 * alpha).
Proof. intros H. split; lib. Qed.
Lemma hb_spec units inner : 0 < units -> 0 < inner ->
  is_vehicle (get_hb units inner) (map (fun x => (x, 10 * units)) [0; 18/10; 18/10 + inner; 36/10 + inner]) (40 * units).
Proof. intros H1 H2. lib. Qed.
Lemma cooper_spec E : 0 < E -> is_vehicle (get_cooper E) (cooper_axles E (44482216/10000000) (3048/10000)) (2 * 71 * (E / 10) * (44482216/10000000)).
Proof.
  intros H. apply is_vehicle_intro.
  - reflexivity.
  - unfold FT. repeat constructor; lra.
  - apply Forall_forall. intros y Hy. apply in_map_iff in Hy as (u & <- & Hu). apply Rmult_lt_0_compat; [|unfold KIP; lra]. apply Rmult_lt_0_compat; [|lra].
    cbn in Hu. repeat (destruct Hu as [<-|Hu]; [lra|]). destruct Hu.
  - unfold cooper_axles, FT, KIP. cbn. repeat (f_equal; try lra).
  - unfold pysum, KIP. cbn. lra.
Qed.
Lemma bdouble_spec : forall i, (0 <= i <= 2)%Z ->
  let a := 55/10 + IZR i / 2 in
  is_vehicle (get_abag_bdouble i) (map (fun p => (fst p, snd p * (981/100))) [(0, 6); (3, 85/10); (42/10, 85/10); (42/10 + a, 75/10); (54/10 + a, 75/10); (66/10 + a, 75/10); (186/10, 75/10); (198/10, 75/10); (21, 75/10)]) (68 * (981/100)).
Proof.
  intros i Hi a. assert (C : i = 0%Z \/ i = 1%Z \/ i = 2%Z) by lia. subst a.
  destruct C as [-> | [-> | ->]]; unfold get_abag_bdouble; cbn [pyget abag_bdouble_as Z.ltb Z.compare Z.to_nat Pos.to_nat nth_error rbind];
    unfold abag_bdouble_aw; lib.
Qed.
Lemma semitrailer_spec : forall i, (0 <= i <= 3)%Z ->
  let a := 44/10 + 2 * IZR i in
  is_vehicle (get_abag_semitrailer i) (map (fun p => (fst p, snd p * (981/100))) [(0, 6); (3, 85/10); (42/10, 85/10); (42/10 + a, 1125/100); (54/10 + a, 1125/100); (66/10 + a, 75/10)]) (53 * (981/100)).
Proof.
  intros i Hi a. assert (C : i = 0%Z \/ i = 1%Z \/ i = 2%Z \/ i = 3%Z) by lia. subst a.
  destruct C as [-> | [-> | [-> | ->]]]; unfold get_abag_semitrailer; cbn [pyget abag_semitrailer_as Z.ltb Z.compare Z.to_nat Pos.to_nat nth_error rbind];
    unfold abag_semitrailer_aw; lib.
Qed.
Lemma permit_spec : is_vehicle get_example_permit (combine [0; 1793/1000; 43/10; 567/100; 11073/1000; 12305/1000; 13537/1000; 1984/100; 21072/1000; 22304/1000]
  (map (fun t => t * (981/100)) [55/10; 55/10; 85/10; 85/10; 75/10; 75/10; 75/10; 75/10; 75/10; 75/10])) (73 * (981/100)).
Proof. unfold get_example_permit. lib. Qed.
Lemma library_index {A} (l : list A) i : (exists a, pyget l i = Ok a) <-> (- Z.of_nat (length l) <= i < Z.of_nat (length l))%Z.
Proof.
  unfold pyget. destruct (Z.ltb_spec i 0) as [Hi|Hi].
  - destruct (Z.ltb_spec (i + Z.of_nat (length l)) 0) as [H|H]; [split; [intros (a & E); discriminate|lia]|].
    destruct (nth_error l (Z.to_nat (i + Z.of_nat (length l)))) eqn:E; [split; [lia|eauto]|]. apply nth_error_None in E. lia.
  - destruct (Z.ltb_spec i 0) as [H|H]; [lia|].
    destruct (nth_error l (Z.to_nat i)) eqn:E; [split; [intros _; assert (Z.to_nat i < length l)%nat by (apply nth_error_Some; congruence); lia|eauto]|].
    apply nth_error_None in E. split; [intros (a & X); discriminate|lia].
Qed.
Lemma abag_index i : ((exists v, get_abag_bdouble i = Ok v) <-> (-3 <= i < 3)%Z) /\ ((exists v, get_abag_semitrailer i = Ok v) <-> (-4 <= i < 4)%Z).
Proof.
  assert (V : forall (ls : list (list R)) n aw, Forall (fun l => length l = n) ls -> length aw = S n ->
    ((exists v, (do axs <- pyget ls i; vehicle_init axs aw) = Ok v) <-> exists a, pyget ls i = Ok a)).
  { intros ls n aw H L. split; [intros (v & E); apply rbind_ok in E as (a & E & _); eauto|]. intros (a & E). rewrite E. cbn [rbind].
    assert (La : length a = n). { rewrite Forall_forall in H. apply H. revert E. unfold pyget. cbv zeta. set (j := if Z.ltb i 0 then _ else _). destruct (Z.ltb j 0); [discriminate|].
      destruct (nth_error ls (Z.to_nat j)) as [b|] eqn:Eb; [|discriminate]. intros E. injection E as <-. eapply nth_error_In. exact Eb. }
    destruct (proj1 (vehicle_spec a aw)) as (v & Ev & _); [lia|]. eauto. }
  split.
  - unfold get_abag_bdouble. rewrite (V _ 8%nat); [|repeat constructor|reflexivity]. exact (library_index abag_bdouble_as i).
  - unfold get_abag_semitrailer. rewrite (V _ 5%nat); [|repeat constructor|reflexivity]. exact (library_index abag_semitrailer_as i).
Qed.
Lemma train_ignores_reversal v : fresh v -> make_train [Some (reverse_in_place v)] [] = Ok v.
Proof.
  intros F. unfold make_train. cbn -[Reqb]. rewrite fill_zero_one, !app_nil_r. exact F.
Qed.
Definition truck : vehicle := {| v_axs := [4; 6]; v_axw := [35; 145; 140]; v_L := 0 + 4 + 6; v_W := 0 + 35 + 145 + 140; v_coords := [0; 0 + 4; 0 + 4 + 6] |}.
Lemma truck_reversed : exists v t, vehicle_init (v_axs v) (v_axw v) = Ok v /\
  make_train [Some (reverse_in_place v)] [] = Ok t /\ axles t = axles v /\ axles t <> axles (reverse_in_place v) /\ axles t <> rev (axles (reverse_in_place v)).
Proof.
  exists truck, truck. split; [reflexivity|]. split; [apply train_ignores_reversal; reflexivity|].
  split; [reflexivity|]. split; unfold axles; cbn; intros E; injection E; intros; lra.
Qed.
