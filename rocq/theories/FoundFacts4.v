(** The condensed member as the analysis calls it (C41). *)
From Coquelicot Require Import Coquelicot.
From Verif Require Import Base BaseFacts Linalg LinalgFacts SectionModel FlexModel LoadModel FoundationModel ElementModel ElementSpec AnalysisSpec AnalysisFacts AnalysisFacts2 LinearFacts FoundSpec FoundFacts FoundFacts2 FoundFacts3 ModalModel LoadSpec ClampFacts.
Open Scope R_scope.

Lemma size_range m EI kf : (8 <= mesh_size m EI kf <= 400)%nat.
Proof. unfold mesh_size, auto_subdivisions. lia. Qed.
Lemma mass_is_found mb L i j : m_consistent mb L i j = k_found mb L i j.
Proof. reflexivity. Qed.

Section Member.
Variable gl : nat -> list (R * R).
Variables (m : member) (EI kf : R).
Hypothesis W : winkler m EI kf.
Let f := the_mesh m EI kf.
Lemma mesh_n : (1 <= fe_n f)%nat. Proof. assert (H := size_range m EI kf). cbn. lia. Qed.
Lemma mesh_L : 0 < fe_L f. Proof. apply W. Qed.
Lemma mesh_EI : 0 < fe_EI f. Proof. apply W. Qed.
Lemma mesh_kf : 0 <= fe_kf f. Proof. destruct W as (_ & H & _). cbn. lra. Qed.
Lemma is_mesh : foundation_of m kf = Ok f.
Proof. destruct W as (_ & _ & E & _ & E2 & E3 & _). unfold foundation_of. rewrite E, E2, E3. reflexivity. Qed.
Lemma span_k_found : span_k gl m = fe_k f.
Proof. unfold span_k. destruct W as (-> & _). rewrite is_mesh. reflexivity. Qed.
Lemma span_ref_found lds : span_ref gl m lds = fe_ref gl f lds.
Proof. unfold span_ref. destruct W as (-> & _). rewrite is_mesh. reflexivity. Qed.
Lemma k_total : exists k, span_k gl m = Ok k.
Proof. rewrite span_k_found. destruct (solvable f mesh_n mesh_L mesh_EI mesh_kf) as [B HB]. unfold fe_k. rewrite HB. cbn [rbind]. eauto. Qed.
Lemma k_is k : span_k gl m = Ok k -> exists B, fe_Kcc_inv f = Ok B /\ k = k_cond f B.
Proof. rewrite span_k_found. unfold fe_k. intros H. destruct (fe_Kcc_inv f) as [B|] eqn:E; [|discriminate]. exists B. split; [reflexivity|]. cbn [rbind] in H. inversion H. reflexivity. Qed.
Lemma loads_unique lds rs rs' : mesh_loads gl m EI kf lds rs -> mesh_loads gl m EI kf lds rs' -> rs = rs'.
Proof.
  intros [L H] [L' H']. apply (nth_ext rs rs' cnl_zero cnl_zero); [congruence|]. intros e He. rewrite L in He. destruct (H e He) as (sl & E1 & E2). destruct (H' e He) as (sl' & E1' & E2'). rewrite E1 in E1'. inversion E1'; subst sl'. rewrite E2 in E2'. inversion E2'. reflexivity.
Qed.
Lemma refs_are lds rs : fe_refs gl f lds = Ok rs <-> mesh_loads gl m EI kf lds rs.
Proof.
  split.
  - intros H. split.
    + unfold fe_refs in H. apply mapM_length in H. rewrite seq_length in H. exact H.
    + intros e He. assert (E := fe_refs_nth gl f lds rs e H He). unfold felt in E. destruct (sub_loads f lds e) as [sl|] eqn:S; [|discriminate]. exists sl. split; [exact S|exact E].
  - intros H. destruct (fe_refs_total gl f lds (fun e => nth e rs cnl_zero)) as (rs' & E & N).
    { intros e He. destruct H as [_ H]. destruct (H e He) as (sl & E1 & E2). unfold felt. fold f in E1. rewrite E1. exact E2. }
    rewrite E. f_equal. destruct H as [L _]. apply (nth_ext rs' rs cnl_zero cnl_zero); [unfold fe_refs in E; apply mapM_length in E; rewrite seq_length in E; rewrite E, L; reflexivity|].
    intros e He. apply N. unfold fe_refs in E. apply mapM_length in E. rewrite seq_length in E. rewrite E in He. exact He.
Qed.
Lemma ref_is lds r B : fe_Kcc_inv f = Ok B -> span_ref gl m lds = Ok r -> exists rs, mesh_loads gl m EI kf lds rs /\ forall i, r i = r_cond f B (fun e => cnl_vec (nth e rs cnl_zero)) i.
Proof.
  intros HB. rewrite span_ref_found. unfold fe_ref, fe_rfull. intros H. destruct (fe_refs gl f lds) as [rs|] eqn:E; [|discriminate]. cbn [rbind] in H. rewrite HB in H. cbn [rbind] in H. inversion H.
  exists rs. split; [apply refs_are; exact E|]. intros i. reflexivity.
Qed.
Lemma condensed lds k r rs : span_k gl m = Ok k -> span_ref gl m lds = Ok r -> mesh_loads gl m EI kf lds rs ->
  forall dr d, on_mesh m EI kf rs dr d -> forall i, (i < 4)%nat -> mesh_end_forces m EI kf rs d i = end_forces k dr i + r i.
Proof.
  intros Hk Hr Hl dr d Hd i Hi. destruct (k_is k Hk) as (B & HB & ->). destruct (ref_is lds r B HB Hr) as (rs' & Hl' & E). assert (E' := loads_unique lds rs rs' Hl Hl'). subst rs'.
  rewrite E. exact (ends_condensed f mesh_n B HB _ dr d Hd i Hi).
Qed.
Lemma has_loads lds r : span_ref gl m lds = Ok r -> exists rs, mesh_loads gl m EI kf lds rs.
Proof.
  rewrite span_ref_found. unfold fe_ref, fe_rfull. intros H. destruct (fe_refs gl f lds) as [rs|] eqn:E; [|discriminate]. exists rs. apply refs_are. exact E.
Qed.
Lemma mesh_exists rs dr : exists d, on_mesh m EI kf rs dr d /\ forall d', on_mesh m EI kf rs dr d' -> forall i, (i < 2 * (mesh_size m EI kf + 1))%nat -> d' i = d i.
Proof.
  destruct (solvable f mesh_n mesh_L mesh_EI mesh_kf) as [B HB]. exists (recovered f B (fun e => cnl_vec (nth e rs cnl_zero)) dr). assert (H := recovered_state f mesh_n B HB (fun e => cnl_vec (nth e rs cnl_zero)) dr).
  split; [exact H|]. intros d' H' i Hi. exact (state_unique f mesh_n B HB _ dr d' _ H' H i Hi).
Qed.
Lemma dmesh_state lds dr d rs : fe_dmesh gl f dr lds = Ok d -> mesh_loads gl m EI kf lds rs -> on_mesh m EI kf rs dr d.
Proof.
  unfold fe_dmesh, fe_rfull. intros H Hl. apply refs_are in Hl. rewrite Hl in H. cbn [rbind] in H. destruct (fe_Kcc_inv f) as [B|] eqn:HB; [|discriminate]. cbn [rbind] in H. inversion H.
  exact (recovered_state f mesh_n B HB (fun e => cnl_vec (nth e rs cnl_zero)) dr).
Qed.
Lemma ref_total lds rs : mesh_loads gl m EI kf lds rs -> (exists r, span_ref gl m lds = Ok r) /\ forall dr, exists d, fe_dmesh gl f dr lds = Ok d.
Proof.
  intros Hl. apply refs_are in Hl. destruct (solvable f mesh_n mesh_L mesh_EI mesh_kf) as [B HB]. rewrite span_ref_found. unfold fe_ref, fe_dmesh, fe_rfull. rewrite Hl, HB. cbn [rbind]. split; [eauto|]. intros dr. eauto.
Qed.
Lemma k_sym k : span_k gl m = Ok k -> symmetric4 k.
Proof. intros Hk. destruct (k_is k Hk) as (B & HB & ->). apply cond_sym. exact HB. Qed.
Lemma k_energy k : span_k gl m = Ok k -> forall dr d, on_mesh m EI kf (repeat cnl_zero (mesh_size m EI kf)) dr d -> energy k dr = mesh_energy m EI kf d.
Proof.
  intros Hk dr d Hd. destruct (k_is k Hk) as (B & HB & ->). apply (cond_energy f mesh_n B HB d dr).
  assert (Z : forall e p, (p < 4)%nat -> cnl_vec (nth e (repeat cnl_zero (mesh_size m EI kf)) cnl_zero) p = 0).
  { intros e p Hp. assert (E : nth e (repeat cnl_zero (mesh_size m EI kf)) cnl_zero = cnl_zero) by (destruct (Nat.ltb_spec e (mesh_size m EI kf)); [apply nth_repeat|apply nth_overflow; rewrite repeat_length; assumption]). rewrite E. destruct p as [|[|[|[|p]]]]; [reflexivity..|lia]. }
  destruct Hd as (E0 & E1 & E2 & E3 & H). unfold mesh_state. split; [exact E0|]. split; [exact E1|]. split; [exact E2|]. split; [exact E3|]. intros j p Hj Hp. specialize (H j p Hj Hp). unfold sub_force in *. rewrite !Z in H by lia. exact H.
Qed.
Lemma k_least k : span_k gl m = Ok k -> forall dr d, follows (mesh_size m EI kf) dr d -> energy k dr <= mesh_energy m EI kf d.
Proof.
  intros Hk dr d (E0 & E1 & E2 & E3). destruct (k_is k Hk) as (B & HB & ->). apply (cond_least f mesh_n mesh_L mesh_EI mesh_kf B HB dr d). intros p Hp. destruct p as [|[|[|[|p]]]]; [exact E0|exact E1|rewrite (fr2 f mesh_n); exact E2|rewrite (fr3 f mesh_n); exact E3|lia].
Qed.
Lemma k_pos k : span_k gl m = Ok k -> forall dr, nonzero4 dr -> 0 < energy k dr.
Proof. intros Hk dr Hz. destruct (k_is k Hk) as (B & HB & ->). apply (cond_pos f mesh_n mesh_L mesh_EI mesh_kf B HB dr); [apply W|exact Hz]. Qed.
End Member.

(** Loads of the accepted kinds can be handled. *)
Lemma trunc_nonneg x : 0 <= x -> (0 <= trunc x)%Z.
Proof.
  intros H. unfold trunc. destruct (Rlt_dec x 0) as [N|_]; [lra|]. assert (B := base_Int_part x). destruct B as [B1 B2]. apply le_IZR. destruct (Z_lt_le_dec (Int_part x) 0) as [N|N]; [|apply IZR_le; exact N].
  assert (Int_part x <= -1)%Z by lia. apply IZR_le in H0. lra.
Qed.
Lemma index_total n z : (0 <= z)%Z -> (1 <= n)%nat -> exists i, py_index n (Z.min z (Z.of_nat n - 1)) = Ok i /\ (i < n)%nat /\ Z.of_nat i = Z.min z (Z.of_nat n - 1).
Proof.
  intros Hz Hn. unfold py_index. destruct (Z.leb_spec 0 (Z.min z (Z.of_nat n - 1))); [|lia]. destruct (Z.ltb_spec (Z.min z (Z.of_nat n - 1)) (Z.of_nat n)); [|lia]. eexists. split; [reflexivity|]. lia.
Qed.
Definition bed_kind (ld : load) : Prop := match ld with LUDL _ | LPL _ _ | LPUDL _ _ _ => True | _ => False end.
Section SubLoads.
Variable f : felem.
Hypothesis Hn : (1 <= fe_n f)%nat.
Hypothesis HL : 0 < fe_L f.
Lemma nh_L : INR (fe_n f) * fe_h f = fe_L f.
Proof. unfold fe_h. field. apply not_0_INR. lia. Qed.
Lemma trunc_bounds x : 0 <= x -> IZR (trunc x) <= x < IZR (trunc x) + 1.
Proof. intros H. unfold trunc. destruct (Rlt_dec x 0) as [N|_]; [lra|]. destruct (base_Int_part x) as [B1 B2]. lra. Qed.
(** The sub-element of a point load, and its place there. *)
Lemma point_place a : 0 <= a <= fe_L f -> exists i, py_index (fe_n f) (Z.min (trunc (a / fe_h f)) (Z.of_nat (fe_n f) - 1)) = Ok i /\ (i < fe_n f)%nat /\
  IZR (Z.min (trunc (a / fe_h f)) (Z.of_nat (fe_n f) - 1)) = INR i /\ 0 <= a - INR i * fe_h f <= fe_h f.
Proof.
  intros Ha. assert (Hh := h_pos f Hn HL). assert (Hq : 0 <= a / fe_h f) by (apply Rdiv_le_0_compat; [apply Ha|exact Hh]).
  destruct (index_total (fe_n f) (trunc (a / fe_h f)) (trunc_nonneg _ Hq) Hn) as (i & E & Hi & Ei). exists i. split; [exact E|]. split; [exact Hi|]. rewrite <- Ei. rewrite <- INR_IZR_INZ. split; [reflexivity|].
  assert (B := trunc_bounds _ Hq). assert (Q : a = a / fe_h f * fe_h f) by (field; lra). set (q := a / fe_h f) in *. assert (Ei' := f_equal IZR Ei). rewrite <- INR_IZR_INZ in Ei'.
  destruct (Z.min_spec (trunc q) (Z.of_nat (fe_n f) - 1)) as [[C D]|[C D]]; rewrite D in Ei'.
  - rewrite Ei'. rewrite Q. split; nra.
  - rewrite minus_IZR, <- INR_IZR_INZ in Ei'. apply IZR_le in C. rewrite minus_IZR, <- INR_IZR_INZ in C. assert (N := nh_L). rewrite Ei'. split; [rewrite Q; nra|nra].
Qed.
Lemma sub_total ld e : bed_load (fe_L f) ld -> exists sl, sub_load f ld e = Ok sl /\ Forall (fun s => within_member (fe_h f) s /\ bed_kind s) sl.
Proof.
  intros Hd. assert (Hh := h_pos f Hn HL). destruct ld as [w|P a|w a c|? ? ? ?|? ?|? ?|? ?]; cbn in Hd; try contradiction; unfold sub_load.
  - eexists. split; [reflexivity|]. repeat constructor.
  - destruct (point_place a Hd) as (i & -> & Hi & Ei & Hp). cbn [rbind]. rewrite Ei. destruct (Nat.eqb i e); eexists; (split; [reflexivity|]); [|constructor]. constructor; [|constructor]. split; [split; [exact Hp|exact I]|exact I].
  - cbv zeta. destruct (Rltb_spec (1e-12 * fe_L f) (Rmin (a + c) ((INR e + 1) * fe_h f) - Rmax a (INR e * fe_h f))) as [Hc|Hc].
    + destruct (_ && _)%bool; eexists; (split; [reflexivity|]); (constructor; [|constructor]); [repeat constructor|]. unfold within_member, on_member, bed_kind.
      assert (0 < 1e-12 * fe_L f) by lra; assert (A := Rmax_r a (INR e * fe_h f)); assert (B := Rmin_r (a + c) ((INR e + 1) * fe_h f)); lra.
    + eexists. split; [reflexivity|]. constructor.
Qed.
Lemma subs_total lds e : Forall (bed_load (fe_L f)) lds -> exists sl, sub_loads f lds e = Ok sl /\ Forall (fun s => within_member (fe_h f) s /\ bed_kind s) sl.
Proof.
  intros H. unfold sub_loads. assert (X : exists ls, mapM (fun ld => sub_load f ld e) lds = Ok ls /\ Forall (Forall (fun s => within_member (fe_h f) s /\ bed_kind s)) ls).
  { induction H as [|ld lds Hd _ IH]; [exists []; split; [reflexivity|constructor]|]. destruct IH as (ls & E & F). cbn [mapM]. destruct (sub_total ld e Hd) as (l1 & -> & F1). cbn [rbind]. rewrite E. cbn [rbind]. eexists. split; [reflexivity|]. constructor; assumption. }
  destruct X as (ls & -> & F). cbn [rbind]. eexists. split; [reflexivity|]. induction F as [|a ls Ha _ IH]; cbn [concat]; [constructor|]. apply Forall_app. split; assumption.
Qed.
End SubLoads.

Lemma bed_loads_ok gl m EI kf lds : winkler m EI kf -> Forall (bed_load (mb_L m)) lds -> exists rs, mesh_loads gl m EI kf lds rs.
Proof.
  intros W H. set (f := the_mesh m EI kf). assert (Hn := mesh_n m EI kf). assert (HL := mesh_L m EI kf W).
  assert (Sr : forall e, exists c, felt gl f lds e = Ok c).
  { intros e. destruct (subs_total f Hn HL lds e H) as (sl & E & F). unfold felt. rewrite E. cbn [rbind]. unfold sum_refs. generalize cnl_zero. clear -F. induction F as [|ld sl [Hd Hb] _ IH]; intros acc; [cbn; eauto|]. cbn [foldM].
    assert (X : exists c, load_get_ref gl ld (fe_h f) 1 = Ok c). { unfold load_get_ref. destruct (get_cnl_ok gl ld (fe_h f)) as (c & ->); [apply Hd|destruct ld; try contradiction; exact I|]. cbn [rbind]. eauto. }
    destruct X as (c & ->). cbn [rbind]. apply IH. }
  destruct (fe_refs_total gl f lds (fun e => match felt gl f lds e with Ok c => c | Err _ => cnl_zero end)) as (rs & E & _).
  { intros e _. destruct (Sr e) as (c & ->). reflexivity. }
  exists rs. apply (refs_are gl m EI kf lds rs). exact E.
Qed.
Lemma bed_total gl m EI kf : winkler m EI kf ->
  (exists k, span_k gl m = Ok k) /\
  forall lds, Forall (bed_load (mb_L m)) lds ->
    (exists rs, mesh_loads gl m EI kf lds rs) /\ (exists r, span_ref gl m lds = Ok r) /\
    forall dr, exists d, fe_dmesh gl (the_mesh m EI kf) dr lds = Ok d.
Proof.
  intros W. split; [apply (k_total gl m EI kf W)|]. intros lds H. destruct (bed_loads_ok gl m EI kf lds W H) as (rs & Hr). split; [eauto|]. exact (ref_total gl m EI kf W lds rs Hr).
Qed.
