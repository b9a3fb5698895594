(** Counting modes, node coordinates, drawn mode shapes. *)
From Coq Require Import Permutation.
From Coquelicot Require Import Coquelicot.
From Verif Require Import Base BaseFacts Linalg LinalgFacts SectionModel FoundationModel BeamModel ElementSpec AnalysisSpec FoundSpec FoundFacts FoundFacts2 FoundFacts3 ModalModel ModalSpec EigFacts ModalFacts ModalFacts2.
Open Scope R_scope.

Lemma filter_split {A} (p : A -> bool) l : (length (filter (fun a => negb (p a)) l) + length (filter p l) = length l)%nat.
Proof. induction l as [|a l IH]; [reflexivity|]. cbn [filter length]. destruct (p a); cbn [negb length]; lia. Qed.

Section Modal.
Variables (b : beam) (mass : massarg) (nseg : nat) (EIs Ls ms : list R).
Hypothesis V : vibrating b mass nseg EIs Ls ms.
Lemma fixed_count : length (filter (modal_fixed (b_R b) nseg) (seq 0 (dofs b nseg))) = rigid_supports b.
Proof.
  unfold rigid_supports. set (l := filter _ (seq 0 (2 * (b_nspans b + 1)))). rewrite <- (map_length (support_dof nseg) l). apply Permutation_length. apply NoDup_Permutation.
  - apply NoDup_filter, seq_NoDup.
  - assert (Nd : NoDup l) by apply NoDup_filter, seq_NoDup. clearbody l. induction Nd as [|a l Na _ IH]; cbn [map]; constructor; [|exact IH]. rewrite in_map_iff. intros (q & E & I). apply sd_inj in E; [subst q; contradiction|]. apply (seg1 _ _ _ _ _ _ V).
  - intros g. rewrite filter_In, in_map_iff, in_seq. split.
    + intros [Hg F]. apply (fixed_iff _ _ _ _ _ _ V g ltac:(lia)) in F as (q & Hq & E & Er). exists q. split; [symmetry; exact E|]. unfold l. rewrite filter_In, in_seq. split; [lia|]. destruct (Req_EM_T (restraint b q) (-1)); [reflexivity|contradiction].
    + intros (q & E & I). unfold l in I. rewrite filter_In, in_seq in I. destruct I as [Hq Er]. destruct (Req_EM_T (restraint b q) (-1)) as [Er'|]; [|discriminate]. assert (Hg : (g < dofs b nseg)%nat) by (rewrite <- E; apply sd_lt; [apply (seg1 _ _ _ _ _ _ V)|lia]).
      split; [lia|]. apply (fixed_iff _ _ _ _ _ _ V g Hg). exists q. split; [lia|]. split; [symmetry; exact E|exact Er'].
Qed.
Lemma free_count : length (modal_free (b_R b) nseg (dofs b nseg)) = motions b nseg.
Proof. unfold motions. rewrite <- fixed_count. unfold modal_free. assert (H := filter_split (modal_fixed (b_R b) nseg) (seq 0 (dofs b nseg))). rewrite seq_length in H. lia. Qed.

Lemma mesh_x_span i s : (s <= nseg)%nat -> mesh_x (seg_h Ls nseg) (i * nseg + s) = mesh_x (seg_h Ls nseg) (i * nseg) + INR s * (nth i Ls 0 / INR nseg).
Proof.
  assert (S1 := seg1 _ _ _ _ _ _ V). induction s as [|s IH]; intros Hs; [rewrite Nat.add_0_r; cbn [INR]; ring|]. rewrite Nat.add_succ_r. cbn [mesh_x]. rewrite IH by lia. unfold seg_h, seg_value. replace ((i * nseg + s) / nseg)%nat with i by (apply (Nat.div_unique _ _ i s); lia). rewrite S_INR. ring.
Qed.
Lemma mesh_x_start i : mesh_x (seg_h Ls nseg) (i * nseg) = rsum i (fun j => nth j Ls 0).
Proof.
  assert (S1 := seg1 _ _ _ _ _ _ V). induction i as [|i IH]; [reflexivity|]. replace (S i * nseg)%nat with (i * nseg + nseg)%nat by lia. rewrite (mesh_x_span i nseg) by lia. rewrite IH. cbn [rsum]. field. apply not_0_INR. lia.
Qed.

Section Call.
Variable eigh : nat -> mat -> mat -> result (list R * list vec).
Hypothesis Sd : eigh_sound eigh.
Variables (n_modes : nat) (r : modal_results).
Hypothesis Hr : solve_modal eigh b mass n_modes nseg = Ok r.
Lemma modes_count : length (mo_omega r) = Nat.min n_modes (motions b nseg) /\ length (mo_phi r) = Nat.min n_modes (motions b nseg).
Proof. destruct (call_modes _ _ _ _ _ _ V eigh Sd n_modes r Hr) as (w & vs & _ & L1 & L2 & _). rewrite <- free_count. split; assumption. Qed.
Lemma modes_vibrate k : (k < length (mo_omega r))%nat ->
  0 <= nth k (mo_omega r) 0 /\ nonzero (dofs b nseg) (column (mo_phi r) k) /\ vibrates b nseg EIs Ls ms (column (mo_phi r) k) (nth k (mo_omega r) 0 ^ 2).
Proof.
  destruct (call_modes _ _ _ _ _ _ V eigh Sd n_modes r Hr) as (w & vs & Hs & L1 & _ & _ & _ & H). rewrite L1. intros Hk. destruct (H k Hk) as (O & O2 & P). rewrite O2, P, O. split; [apply sqrt_pos|]. split; [apply (mode_nonzero _ _ _ _ _ _ _ Hs)|apply (mode_vibrates _ _ _ _ _ _ V _ _ Hs)]; lia.
Qed.
Lemma modes_normal k l : (k < length (mo_omega r))%nat -> (l < length (mo_omega r))%nat ->
  inertia_work b nseg ms Ls (column (mo_phi r) k) (column (mo_phi r) l) (if Nat.eqb k l then 1 else 0) /\
  elastic_work b nseg EIs Ls (column (mo_phi r) k) (column (mo_phi r) l) (if Nat.eqb k l then nth k (mo_omega r) 0 ^ 2 else 0).
Proof.
  destruct (call_modes _ _ _ _ _ _ V eigh Sd n_modes r Hr) as (w & vs & Hs & L1 & _ & _ & _ & H). rewrite L1. intros Hk Hl. destruct (H k Hk) as (O & O2 & P). destruct (H l Hl) as (_ & _ & P'). rewrite O2, P, P'. apply (mode_normal _ _ _ _ _ _ V _ _ Hs); lia.
Qed.
Lemma modes_ascend k l : (k <= l < length (mo_omega r))%nat -> nth k (mo_omega r) 0 <= nth l (mo_omega r) 0.
Proof.
  destruct (call_modes _ _ _ _ _ _ V eigh Sd n_modes r Hr) as (w & vs & Hs & L1 & _ & _ & _ & H). rewrite L1. intros Hk. destruct (H k ltac:(lia)) as (O & _ & _). destruct (H l ltac:(lia)) as (O' & _ & _). rewrite O, O'. apply sqrt_le_1_alt. apply (es_ascending _ _ _ _ _ Hs). lia.
Qed.
Lemma modes_lowest j u E I : (j < length (mo_omega r))%nat -> admissible b nseg u -> (forall k, (k < j)%nat -> inertia_work b nseg ms Ls u (column (mo_phi r) k) 0) ->
  elastic_work b nseg EIs Ls u u E -> inertia_work b nseg ms Ls u u I -> nth j (mo_omega r) 0 ^ 2 * I <= E.
Proof.
  destruct (call_modes _ _ _ _ _ _ V eigh Sd n_modes r Hr) as (w & vs & Hs & L1 & _ & _ & _ & H). rewrite L1. intros Hj Hu Hz HE HI. destruct (H j Hj) as (_ & -> & _). apply (mode_rayleigh _ _ _ _ _ _ V _ _ Hs u j E I); try assumption; [lia|]. intros k Hk. destruct (H k ltac:(lia)) as (_ & _ & <-). apply Hz. exact Hk.
Qed.
Lemma modes_complete u w2 : vibrates b nseg EIs Ls ms u w2 -> nonzero (dofs b nseg) u ->
  (exists k, (k < length (mo_omega r))%nat /\ w2 = nth k (mo_omega r) 0 ^ 2) \/ (length (mo_omega r) = n_modes /\ forall k, (k < length (mo_omega r))%nat -> nth k (mo_omega r) 0 ^ 2 <= w2).
Proof.
  destruct (call_modes _ _ _ _ _ _ V eigh Sd n_modes r Hr) as (w & vs & Hs & L1 & _ & _ & _ & H). rewrite L1. intros Hv Nz. destruct (mode_complete _ _ _ _ _ _ V _ _ Hs u w2 Hv Nz) as (k & Hk & E). destruct (Nat.ltb_spec k n_modes) as [L|L].
  - left. exists k. split; [lia|]. destruct (H k ltac:(lia)) as (_ & -> & _). symmetry. exact E.
  - right. split; [lia|]. intros i Hi. destruct (H i Hi) as (_ & -> & _). rewrite <- E. apply (es_ascending _ _ _ _ _ Hs). lia.
Qed.
Lemma modes_x : length (mo_x r) = (elements b nseg + 1)%nat /\ mo_ndof r = dofs b nseg /\
  forall i s, (i < b_nspans b)%nat -> (s <= nseg)%nat -> nth (i * nseg + s) (mo_x r) 0 = rsum i (fun j => nth j Ls 0) + INR s * (nth i Ls 0 / INR nseg).
Proof.
  destruct (call_modes _ _ _ _ _ _ V eigh Sd n_modes r Hr) as (w & vs & Hs & _ & _ & E & -> & _). split; [rewrite map_length, seq_length; reflexivity|]. split; [exact E|]. intros i s Hi Hs'. assert (L : (i * nseg + s < b_nspans b * nseg + 1)%nat) by nia.
  rewrite (nth_indep _ 0 (mesh_x (seg_h Ls nseg) 0)) by (rewrite map_length, seq_length; exact L). rewrite map_nth, seq_nth by exact L. cbn [Nat.add]. rewrite mesh_x_span, mesh_x_start by exact Hs'. reflexivity.
Qed.
End Call.
End Modal.

(** Drawn shapes. *)
Lemma argmax_from_spec l : forall best ib i, (ib < i)%nat -> let k := argmax_from best ib i l in
  (k = ib /\ (forall j, (j < length l)%nat -> nth j l 0 <= best)) \/
  (exists q, k = (i + q)%nat /\ (q < length l)%nat /\ best < nth q l 0 /\ (forall j, (j < length l)%nat -> nth j l 0 <= nth q l 0) /\ forall j, (j < q)%nat -> nth j l 0 < nth q l 0).
Proof.
  induction l as [|a l IH]; intros best ib i Hi; cbn [argmax_from]; [left; split; [reflexivity|intros j Hj; cbn in Hj; lia]|]. destruct (Rltb_spec best a) as [L|L].
  - destruct (IH a i (S i) ltac:(lia)) as [[E F]|(q & E & Hq & B & F & G)]; cbv zeta.
    + right. exists 0%nat. rewrite E. split; [lia|]. split; [cbn; lia|]. split; [exact L|]. split; [|intros j Hj; lia]. intros [|j] Hj; cbn [nth]; [lra|apply F; cbn in Hj; lia].
    + right. exists (S q). rewrite E. split; [lia|]. split; [cbn; lia|]. cbn [nth]. split; [lra|]. split; intros [|j] Hj; cbn [nth]; [lra|apply F; cbn in Hj; lia|lra|apply G; lia].
  - destruct (IH best ib (S i) ltac:(lia)) as [[E F]|(q & E & Hq & B & F & G)]; cbv zeta.
    + left. rewrite E. split; [reflexivity|]. intros [|j] Hj; cbn [nth]; [lra|apply F; cbn in Hj; lia].
    + right. exists (S q). rewrite E. split; [lia|]. split; [cbn; lia|]. cbn [nth]. split; [exact B|]. split; intros [|j] Hj; cbn [nth]; [lra|apply F; cbn in Hj; lia|lra|apply G; lia].
Qed.
Lemma argmax_spec l : l <> [] -> (argmax l < length l)%nat /\ (forall j, (j < length l)%nat -> nth j l 0 <= nth (argmax l) l 0) /\ forall j, (j < argmax l)%nat -> nth j l 0 < nth (argmax l) l 0.
Proof.
  destruct l as [|a l]; [congruence|]. intros _. cbn [argmax]. destruct (argmax_from_spec l a 0%nat 1%nat ltac:(lia)) as [[E F]|(q & E & Hq & B & F & G)]; cbv zeta in E; rewrite E.
  - split; [cbn; lia|]. split; [|intros j Hj; lia]. intros [|j] Hj; cbn [nth]; [lra|apply F; cbn in Hj; lia].
  - cbn [Nat.add]. split; [cbn; lia|]. split; intros [|j] Hj; cbn [nth]; [lra|apply F; cbn in Hj; lia|lra|apply G; lia].
Qed.
Lemma fold_max l : forall s, s <= fold_left Rmax l s /\ (forall a, In a l -> a <= fold_left Rmax l s) /\ (fold_left Rmax l s = s \/ In (fold_left Rmax l s) l).
Proof.
  induction l as [|a l IH]; intros s; cbn [fold_left]; [split; [lra|]; split; [intros a []|left; reflexivity]|]. destruct (IH (Rmax s a)) as (A & B & C). assert (M1 := Rmax_l s a). assert (M2 := Rmax_r s a). split; [lra|]. split.
  - intros x [->|Hx]; [lra|apply B; exact Hx].
  - destruct C as [C|C]; [|right; right; exact C]. rewrite C. unfold Rmax. destruct (Rle_dec s a); [right; left; reflexivity|left; reflexivity].
Qed.
Lemma nth_map0 (f : R -> R) l j : f 0 = 0 -> nth j (map f l) 0 = f (nth j l 0).
Proof. intros E. rewrite <- E at 1. apply map_nth. Qed.
Lemma shape_drawn r k phi : nth_error (mo_phi r) k = Some phi -> (2 <= mo_ndof r)%nat -> exists v, mode_shape r k = Ok (mo_x r, v) /\ drawn phi (mo_ndof r / 2) v.
Proof.
  intros Hk Hm. unfold mode_shape. rewrite (proj2 (get_ok _ _ _) Hk). cbn [rbind]. cbv zeta. set (m := (mo_ndof r / 2)%nat). assert (m1 : (1 <= m)%nat) by (unfold m; apply Nat.div_le_lower_bound; lia).
  set (v := map (fun k => phi (2 * k)%nat) (seq 0 m)). assert (Lv : length v = m) by (unfold v; rewrite map_length, seq_length; reflexivity).
  assert (Nv : forall j, (j < m)%nat -> nth j v 0 = phi (2 * j)%nat). { intros j Hj. unfold v. rewrite (nth_indep _ 0 (phi (2 * 0)%nat)) by (rewrite map_length, seq_length; exact Hj). rewrite (map_nth (fun k => phi (2 * k)%nat)), seq_nth by exact Hj. reflexivity. }
  set (vmax := fold_left Rmax (map Rabs v) 0). destruct (fold_max (map Rabs v) 0) as (P0 & Pall & Pin). fold vmax in P0, Pall, Pin.
  set (v1 := if Rltb 0 vmax then map (fun a => a / vmax) v else v).
  assert (S1 : exists c, 0 < c /\ length v1 = m /\ (forall j, (j < m)%nat -> nth j v1 0 = c * phi (2 * j)%nat) /\ (0 < vmax -> c = / vmax)).
  { unfold v1. destruct (Rltb_spec 0 vmax) as [L|L].
    - exists (/ vmax). split; [apply Rinv_0_lt_compat; exact L|]. split; [rewrite map_length; exact Lv|]. split; [|reflexivity]. intros j Hj. rewrite nth_map0 by (unfold Rdiv; ring). rewrite (Nv j Hj). field. lra.
    - exists 1. split; [lra|]. split; [exact Lv|]. split; [intros j Hj; rewrite (Nv j Hj); ring|intros X; lra]. }
  destruct S1 as (c & Hc & L1 & N1 & Cv). assert (Ne : map Rabs v1 <> []) by (intros E; apply (f_equal (@length R)) in E; rewrite map_length, L1 in E; change (m = 0%nat) in E; clearbody m; lia).
  destruct (argmax_spec (map Rabs v1) Ne) as (Hp & Amax & Afirst). rewrite map_length, L1 in Hp, Amax. set (p := argmax (map Rabs v1)) in *.
  assert (Ab : forall j, nth j (map Rabs v1) 0 = Rabs (nth j v1 0)) by (intros j; apply nth_map0; apply Rabs_R0).
  assert (Scale : (exists j, (j < m)%nat /\ phi (2 * j)%nat <> 0) -> Rabs (nth p v1 0) = 1).
  { intros (j & Hj & Nz). assert (L : 0 < vmax). { assert (X : Rabs (nth j v 0) <= vmax) by (apply Pall, in_map, nth_In; rewrite Lv; exact Hj). rewrite (Nv j Hj) in X. assert (Y := Rabs_pos_lt _ Nz). lra. }
    destruct Pin as [Pin|Pin]; [lra|]. apply in_map_iff in Pin as (a & Ea & Ia). destruct (In_nth v a 0 Ia) as (q & Hq & Eq). rewrite Lv in Hq. specialize (Cv L).
    assert (Q : Rabs (nth q v1 0) = 1). { rewrite (N1 q Hq), <- (Nv q Hq), Eq, Rabs_mult, Ea, Cv, Rabs_pos_eq by (left; apply Rinv_0_lt_compat; exact L). field. lra. }
    assert (Up : Rabs (nth p v1 0) <= 1). { rewrite (N1 p Hp), <- (Nv p Hp), Rabs_mult, Cv, Rabs_pos_eq by (left; apply Rinv_0_lt_compat; exact L). assert (X : Rabs (nth p v 0) <= vmax) by (apply Pall, in_map, nth_In; rewrite Lv; exact Hp). apply (Rmult_le_reg_l vmax); [exact L|]. rewrite <- Rmult_assoc, Rinv_r by lra. lra. }
    specialize (Amax q Hq). rewrite !Ab, Q in Amax. lra. }
  set (v2 := if Rltb (nth p v1 0) 0 then map (fun a => - a) v1 else v1). exists v2. split; [reflexivity|].
  assert (S2 : exists s, (s = 1 \/ s = -1) /\ length v2 = m /\ (forall j, nth j v2 0 = s * nth j v1 0) /\ 0 <= nth p v2 0).
  { unfold v2. destruct (Rltb_spec (nth p v1 0) 0) as [L|L].
    - exists (-1). split; [right; reflexivity|]. split; [rewrite map_length; exact L1|]. assert (X : forall j, nth j (map (fun a => - a) v1) 0 = -1 * nth j v1 0) by (intros j; rewrite nth_map0 by ring; ring). split; [exact X|]. rewrite X. lra.
    - exists 1. split; [left; reflexivity|]. split; [exact L1|]. split; [intros j; ring|lra]. }
  destruct S2 as (s & Hsn & L2 & N2 & Pos). assert (As : Rabs s = 1) by (destruct Hsn as [->| ->]; [apply Rabs_pos_eq; lra|rewrite Rabs_left by lra; lra]). split.
  - exact L2.
  - exists (s * c). split; [destruct Hsn as [->| ->]; lra|]. intros j Hj. rewrite N2, (N1 j Hj). ring.
  - intros Ex. specialize (Scale Ex). assert (A2 : forall j, Rabs (nth j v2 0) = Rabs (nth j v1 0)) by (intros j; rewrite N2, Rabs_mult, As; ring). split.
    + intros j Hj. rewrite A2. specialize (Amax j Hj). rewrite !Ab, Scale in Amax. exact Amax.
    + exists p. split; [exact Hp|]. split; [rewrite <- (Rabs_pos_eq _ Pos), A2; exact Scale|]. intros j Hj. rewrite A2. specialize (Afirst j Hj). rewrite !Ab, Scale in Afirst. exact Afirst.
Qed.

Lemma mapM_each {A B} (f : A -> result B) l bs : mapM f l = Ok bs -> forall x, In x l -> exists y, f x = Ok y.
Proof.
  revert bs. induction l as [|a l IH]; intros bs H x []; cbn [mapM] in H; apply rbind_ok in H as (y & Hy & H); apply rbind_ok in H as (ys & Hys & _).
  - subst x. exists y. exact Hy.
  - apply (IH ys Hys). assumption.
Qed.
Lemma accepted eigh b mass n_modes nseg r : solve_modal eigh b mass n_modes nseg = Ok r ->
  (forall i, (i < b_nspans b)%nat -> (exists EI, nth_error (b_EIs b) i = Some (RConst EI)) /\ nth_error (b_GAv b) i = Some None /\ nth_error (b_types b) i = Some 1%nat) /\
  (forall l, mass = MList l -> length l = b_nspans b).
Proof.
  unfold solve_modal. cbv zeta. intros H. apply rbind_ok in H as (EIs & H1 & H). apply rbind_ok in H as (ms & H2 & _). split.
  - intros i Hi. assert (Y : exists y, modal_span b i = Ok y) by (apply (mapM_each _ _ _ H1), in_seq; lia). destruct Y as (y & Y). unfold modal_span in Y.
    apply rbind_ok in Y as (e & He & Y). apply get_ok in He. destruct e as [EI|]; [|discriminate]. apply rbind_ok in Y as (g & Hg & Y). apply get_ok in Hg. destruct g; [discriminate|]. apply rbind_ok in Y as (t & Ht & Y). apply get_ok in Ht. destruct (Nat.eqb_spec t 1); [|discriminate]. subst t. split; [exists EI; exact He|]. split; assumption.
  - intros l ->. cbn in H2. destruct (Nat.eqb_spec (length l) (b_nspans b)); [assumption|discriminate].
Qed.

(** With a bed under every span a reported mode does not balance. *)
Lemma bed_unbalanced b mass nseg EIs Ls ms kfs eigh n_modes r k E I B : vibrating b mass nseg EIs Ls ms -> vibrating b (MList kfs) nseg EIs Ls kfs -> eigh_sound eigh ->
  solve_modal eigh b mass n_modes nseg = Ok r -> (k < length (mo_omega r))%nat ->
  elastic_work b nseg EIs Ls (column (mo_phi r) k) (column (mo_phi r) k) E -> inertia_work b nseg ms Ls (column (mo_phi r) k) (column (mo_phi r) k) I ->
  inertia_work b nseg kfs Ls (column (mo_phi r) k) (column (mo_phi r) k) B -> E + B <> nth k (mo_omega r) 0 ^ 2 * I.
Proof.
  intros V V' Sd Hr Hk HE HI HB. destruct (modes_vibrate _ _ _ _ _ _ V eigh Sd n_modes r Hr k Hk) as (_ & Nz & Ad & Vib). rewrite <- (Vib _ E I Ad HE HI).
  apply (inertia_iff _ _ _ _ _ _ V') in HB. assert (P := M_pos _ _ _ _ _ _ V' _ Nz). rewrite <- HB in P. lra.
Qed.
Lemma modal_same eigh b b' mass n_modes nseg : same_structure b b' -> solve_modal eigh b' mass n_modes nseg = solve_modal eigh b mass n_modes nseg.
Proof.
  intros (E1 & E2 & E3 & E4 & E5 & E6). unfold solve_modal. rewrite E5, E1, E6. cbv zeta. replace (mapM (modal_span b') (seq 0 (b_nspans b))) with (mapM (modal_span b) (seq 0 (b_nspans b))); [reflexivity|]. apply mapM_ext. intros i _. unfold modal_span. rewrite E2, E3, E4. reflexivity.
Qed.

(** A concrete beam: one fixed-fixed span of length 2 in two sub-elements, two motions. *)
Definition fixed_beam : beam := {| b_lengths := [2]; b_EIs := [RConst 1]; b_GAv := [None]; b_kf := [None]; b_types := [1%nat];
  b_nspans := 1; b_length := 2; b_terminal := [0; 2]; b_R := [-1; -1; -1; -1]; b_D := []; b_LM := []; b_version := 0 |}.
(** An eigenvalue routine for pairs of diagonal 2 x 2 arrays in ascending order; it fails on
    everything else. *)
Definition diagonal_eigh (n : nat) (A M : mat) : result (list R * list vec) :=
  if (Nat.eqb n 2 && Reqb (A 0%nat 1%nat) 0 && Reqb (A 1%nat 0%nat) 0 && Reqb (M 0%nat 1%nat) 0 && Reqb (M 1%nat 0%nat) 0
      && Rltb 0 (M 0%nat 0%nat) && Rltb 0 (M 1%nat 1%nat) && Rleb (A 0%nat 0%nat / M 0%nat 0%nat) (A 1%nat 1%nat / M 1%nat 1%nat))%bool
  then Ok ([A 0%nat 0%nat / M 0%nat 0%nat; A 1%nat 1%nat / M 1%nat 1%nat],
           [fun i => if Nat.eqb i 0 then / sqrt (M 0%nat 0%nat) else 0; fun i => if Nat.eqb i 1 then / sqrt (M 1%nat 1%nat) else 0])
  else Err LinAlgError.
Lemma diagonal_sound : eigh_sound diagonal_eigh.
Proof.
  intros n A M w vs H _ _ _. unfold diagonal_eigh in H. destruct (Nat.eqb_spec n 2); [|discriminate]. subst n. cbn [andb] in H.
  destruct (Reqb_spec (A 0%nat 1%nat) 0) as [A1|]; [|discriminate]. destruct (Reqb_spec (A 1%nat 0%nat) 0) as [A2|]; [|discriminate].
  destruct (Reqb_spec (M 0%nat 1%nat) 0) as [M1|]; [|discriminate]. destruct (Reqb_spec (M 1%nat 0%nat) 0) as [M2|]; [|discriminate]. cbn [andb] in H.
  destruct (Rltb_spec 0 (M 0%nat 0%nat)) as [P0|]; [|discriminate]. destruct (Rltb_spec 0 (M 1%nat 1%nat)) as [P1|]; [|discriminate]. destruct (Rleb_spec (A 0%nat 0%nat / M 0%nat 0%nat) (A 1%nat 1%nat / M 1%nat 1%nat)) as [O|]; [|discriminate]. cbn [andb] in H.
  assert (H1 := f_equal (fun r => match r with Ok x => fst x | Err _ => [] end) H). assert (H2 := f_equal (fun r => match r with Ok x => snd x | Err _ => [] end) H). cbn [fst snd] in H1, H2. clear H. subst w vs. assert (S0 := sqrt_lt_R0 _ P0). assert (S1 := sqrt_lt_R0 _ P1). assert (Q0 := sqrt_sqrt _ (Rlt_le _ _ P0)). assert (Q1 := sqrt_sqrt _ (Rlt_le _ _ P1)).
  split; try reflexivity.
  - intros [|[|k]] [|[|l]] Hk; cbn [nth]; try lia; lra.
  - intros [|[|k]] [|[|i]] Hk Hi; try lia; unfold column; cbn [nth rsum Nat.eqb]; rewrite ?A1, ?A2, ?M1, ?M2; field; repeat split; lra.
  - intros [|[|k]] [|[|l]] Hk Hl; try lia; unfold dot, column; cbn [nth rsum Nat.eqb]; rewrite ?M1, ?M2; try ring.
    + set (s := sqrt (M 0%nat 0%nat)) in *. clearbody s. rewrite <- Q0. field. lra.
    + set (s := sqrt (M 1%nat 1%nat)) in *. clearbody s. rewrite <- Q1. field. lra.
Qed.
Lemma fixed_vibrates : vibrating fixed_beam (MScalar 420) 2 [1] [2] [420].
Proof.
  split; cbn; try lia.
  - intros i Hi. assert (i = 0%nat) as -> by lia. cbn. repeat apply conj; try reflexivity; lra.
  - intros i Hi. assert (i = 0%nat) as -> by lia. reflexivity.
Qed.
Lemma Reqb_true a : Reqb a a = true. Proof. destruct (Reqb_spec a a); congruence. Qed.
Lemma fixed_free : modal_free (b_R fixed_beam) 2 (dofs fixed_beam 2) = [2%nat; 3%nat].
Proof.
  unfold modal_free, modal_fixed, node_restraint, dofs, elements. cbn -[Reqb]. rewrite Reqb_true. reflexivity.
Qed.
Lemma fixed_modes : motions fixed_beam 2 = 2%nat /\ exists r, solve_modal diagonal_eigh fixed_beam (MScalar 420) 10 2 = Ok r.
Proof.
  split; [rewrite <- (free_count _ _ _ _ _ _ fixed_vibrates), fixed_free; reflexivity|].
  rewrite (call_is _ _ _ _ _ _ fixed_vibrates). rewrite fixed_free. unfold diagonal_eigh. cbn [length Nat.eqb andb].
  set (K := submatrix (modal_K _ _ _ _ _) _). set (M := submatrix (modal_M _ _ _ _) _).
  assert (EK : K 0%nat 0%nat = 24 /\ K 0%nat 1%nat = 0 /\ K 1%nat 0%nat = 0 /\ K 1%nat 1%nat = 8).
  { unfold K, submatrix, modal_K, modal_spring, node_restraint, seg_h, seg_value. cbn -[Rdiv Rltb Reqb INR]. cbn [INR]. repeat apply conj; field. }
  assert (EM : M 0%nat 0%nat = 312 /\ M 0%nat 1%nat = 0 /\ M 1%nat 0%nat = 0 /\ M 1%nat 1%nat = 8).
  { unfold M, submatrix, modal_M, seg_h, seg_value. cbn -[Rdiv INR]. cbn [INR]. repeat apply conj; field. }
  destruct EK as (K1 & K2 & K3 & K4). destruct EM as (M1 & M2 & M3 & M4). rewrite K1, K2, K3, K4, M1, M2, M3, M4, Reqb_true. cbn [andb].
  destruct (Rltb_spec 0 312); [|lra]. destruct (Rltb_spec 0 8); [|lra]. destruct (Rleb_spec (24 / 312) (8 / 8)) as [|N]; [|exfalso; apply N; lra]. cbn [andb rbind]. eexists. reflexivity.
Qed.
Definition bedded_beam : beam := {| b_lengths := [2]; b_EIs := [RConst 1]; b_GAv := [None]; b_kf := [Some 300]; b_types := [1%nat];
  b_nspans := 1; b_length := 2; b_terminal := [0; 2]; b_R := [-1; -1; -1; -1]; b_D := []; b_LM := []; b_version := 0 |}.
Lemma bedded_case : vibrating bedded_beam (MScalar 420) 2 [1] [2] [420] /\ b_kf bedded_beam = map Some [300] /\
  vibrating bedded_beam (MList [300]) 2 [1] [2] [300] /\ exists r, solve_modal diagonal_eigh bedded_beam (MScalar 420) 10 2 = Ok r.
Proof.
  split; [|split; [reflexivity|split]].
  - split; cbn; try lia; intros i Hi; assert (i = 0%nat) as -> by lia; cbn; repeat apply conj; try reflexivity; lra.
  - split; cbn; try lia; try reflexivity; intros i Hi; assert (i = 0%nat) as -> by lia; cbn; repeat apply conj; try reflexivity; lra.
  - rewrite (modal_same diagonal_eigh fixed_beam); [apply fixed_modes|repeat split].
Qed.
