(** Facts about members on an elastic foundation: equilibrium with the loads and the subgrade. *)
From Coquelicot Require Import Coquelicot.
From Coq Require Import Lia Permutation.
From Verif Require Import Base BaseFacts Linalg SectionModel FlexModel LoadModel LoadSpec LoadFacts ClampFacts FoundationModel ElementModel ElementSpec
  AnalysisSpec FoundSpec FoundFacts FoundFacts2 FoundFacts3 FoundFacts4 ResultsModel ResultsSpec BedSpec BedFacts.
Open Scope R_scope.

Lemma RInt_shift (F : R -> R) c a b I : is_RInt (fun x => F (c + x)) a b I -> is_RInt F (c + a) (c + b) I.
Proof.
  intros H. eapply is_RInt_ext; [|apply (is_RInt_comp_lin (fun x => F (c + x)) 1 (- c) (c + a) (c + b) I)].
  - intros x _. unfold scal. cbn. unfold mult. cbn. rewrite Rmult_1_l. f_equal. ring.
  - replace (1 * (c + a) + - c) with a by ring. replace (1 * (c + b) + - c) with b by ring. exact H.
Qed.
Lemma RInt_pieces (F : R -> R) h (I : nat -> R) n : (forall e, (e < n)%nat -> is_RInt (fun x => F (INR e * h + x)) 0 h (I e)) ->
  is_RInt F 0 (INR n * h) (rsum n I).
Proof.
  induction n as [|n IH]; intros H.
  - cbn [INR rsum]. rewrite Rmult_0_l. apply (is_RInt_point (V := R_NormedModule)).
  - cbn [rsum]. apply (is_RInt_Chasles (V := R_NormedModule) _ _ (INR n * h)); [apply IH; intros e He; apply H; lia|].
    assert (Q := RInt_shift F (INR n * h) 0 h (I n) (H n ltac:(lia))). rewrite Rplus_0_r in Q. rewrite S_INR. replace ((INR n + 1) * h) with (INR n * h + h) by ring. exact Q.
Qed.

Lemma RInt_zero (F : R -> R) a b : (forall x, F x = 0) -> is_RInt F a b 0.
Proof.
  intros H. assert (Q := is_RInt_const (V := R_NormedModule) a b 0). unfold scal in Q. cbn in Q. unfold mult in Q. cbn in Q. rewrite Rmult_0_r in Q.
  eapply is_RInt_ext; [|exact Q]. intros x _. rewrite H. reflexivity.
Qed.
Lemma balances_none L : balances L no_action cnl_zero.
Proof. split; exists 0; (split; [apply RInt_zero; intros x; cbn; ring|cbn; ring]). Qed.
Lemma result_of_both L A B g dg W W' : resultant L A g dg W -> resultant L B g dg W' -> resultant L (action_plus A B) g dg (W + W').
Proof.
  intros (I & H & ->) (J & K & ->). exists (I + J). split.
  - eapply is_RInt_ext; [|exact (is_RInt_plus (V := R_NormedModule) _ _ _ _ _ _ H K)]. intros x _. cbn. unfold plus. cbn. ring.
  - cbn [action_plus forces moments]. rewrite !map_app, !lsum_app. ring.
Qed.
Lemma balances_plus L A B e e' : balances L A e -> balances L B e' -> balances L (action_plus A B) (cnl_add e e').
Proof.
  intros [H1 H2] [K1 K2]. split.
  - replace (c_Va (cnl_add e e') + c_Vb (cnl_add e e')) with ((c_Va e + c_Vb e) + (c_Va e' + c_Vb e')) by (cbn; ring). exact (result_of_both _ _ _ _ _ _ _ H1 K1).
  - replace (c_Ma (cnl_add e e') + c_Mb (cnl_add e e') + L * c_Vb (cnl_add e e')) with ((c_Ma e + c_Mb e + L * c_Vb e) + (c_Ma e' + c_Mb e' + L * c_Vb e')) by (cbn; ring). exact (result_of_both _ _ _ _ _ _ _ H2 K2).
Qed.
Lemma sum_refs_from gl L lds : forall acc c, foldM (fun acc ld => do c <- load_get_ref gl ld L 1; Ok (cnl_add acc c)) lds acc = Ok c ->
  0 < L -> Forall (on_member L) lds -> exists c', balances L (actions L lds) c' /\ c_Va c = c_Va acc + c_Va c' /\ c_Ma c = c_Ma acc + c_Ma c' /\ c_Vb c = c_Vb acc + c_Vb c' /\ c_Mb c = c_Mb acc + c_Mb c'.
Proof.
  induction lds as [|ld lds IH]; intros acc c H HL Hw.
  - cbn in H. inversion H. exists cnl_zero. split; [apply balances_none|]. cbn. repeat apply conj; ring.
  - inversion_clear Hw as [|? ? H1 H2]. cbn [foldM] in H. apply rbind_ok in H as (a1 & Ha & H). apply rbind_ok in Ha as (c1 & Hc & Ha). inversion Ha as [Ea]; clear Ha.
    destruct (IH _ _ H HL H2) as (c2 & B & E1 & E2 & E3 & E4). unfold load_get_ref in Hc. apply rbind_ok in Hc as (c0 & Hc & E0). inversion E0 as [E0']; clear E0.
    exists (cnl_add c0 c2). split; [apply balances_plus; [exact (get_cnl_balances gl ld L c0 HL H1 Hc)|exact B]|].
    rewrite E1, E2, E3, E4, <- Ea, <- E0'. cbn [cnl_add c_Va c_Ma c_Vb c_Mb]. repeat apply conj; ring.
Qed.
Lemma sum_refs_balance gl L lds c : sum_refs gl lds L 1 = Ok c -> 0 < L -> Forall (on_member L) lds -> balances L (actions L lds) c.
Proof.
  intros H HL Hw. destruct (sum_refs_from gl L lds _ _ H HL Hw) as (c' & B & E1 & E2 & E3 & E4). cbn in E1, E2, E3, E4.
  unfold balances in *. replace (c_Va c + c_Vb c) with (c_Va c' + c_Vb c') by (rewrite E1, E3; ring).
  replace (c_Ma c + c_Mb c + L * c_Vb c) with (c_Ma c' + c_Mb c' + L * c_Vb c') by (rewrite E2, E3, E4; ring). exact B.
Qed.

Lemma lsum_perm l k : Permutation l k -> lsum l = lsum k.
Proof. induction 1; unfold lsum in *; cbn; lra. Qed.
Lemma lsum_flat {A} (F : A -> R) (G : nat -> list A) n : lsum (map F (flat_map G (seq 0 n))) = rsum n (fun e => lsum (map F (G e))).
Proof. induction n as [|n IH]; [reflexivity|]. rewrite seq_S, flat_map_app, map_app, lsum_app, IH. cbn [flat_map rsum Nat.add]. rewrite app_nil_r. reflexivity. Qed.

(** Telescoping of the nodal equilibrium. *)
Lemma telescope (S : nat -> nat -> R) h n : (1 <= n)%nat ->
  (forall j p, (1 <= j < n)%nat -> (p < 2)%nat -> S (j - 1)%nat (2 + p)%nat + S j p = 0) ->
  rsum n (fun e => S e 0%nat + S e 2%nat) = S 0%nat 0%nat + S (n - 1)%nat 2%nat /\
  rsum n (fun e => S e 1%nat + S e 3%nat + h * S e 2%nat + INR e * h * (S e 0%nat + S e 2%nat)) = S 0%nat 1%nat + S (n - 1)%nat 3%nat + INR n * h * S (n - 1)%nat 2%nat.
Proof.
  intros Hn. induction Hn as [|n Hn IH]; intros H.
  - cbn. split; ring.
  - destruct IH as [A B]; [intros j p Hj Hp; apply H; lia|]. assert (E0 := H n 0%nat ltac:(lia) ltac:(lia)). assert (E1 := H n 1%nat ltac:(lia) ltac:(lia)).
    cbn [Nat.add] in E0, E1. cbn [rsum]. rewrite A, B. rewrite S_INR. replace (Datatypes.S n - 1)%nat with n by lia. split; [lra|].
    assert (E0' : S (n - 1)%nat 2%nat = - S n 0%nat) by lra. rewrite E0'. assert (E1' : S (n - 1)%nat 3%nat = - S n 1%nat) by lra. rewrite E1'. ring.
Qed.

Lemma ebeam_balance EI h d : h <> 0 -> end_forces (k_ebeam EI h) d 0%nat + end_forces (k_ebeam EI h) d 2%nat = 0 /\
  end_forces (k_ebeam EI h) d 1%nat + end_forces (k_ebeam EI h) d 3%nat + h * end_forces (k_ebeam EI h) d 2%nat = 0.
Proof. intros H. unfold end_forces, mulmv. cbn. split; field; exact H. Qed.
Lemma found_balance kf h d u : 0 < h -> cubic_between h d u ->
  is_RInt (fun x => kf * u x) 0 h (end_forces (k_found kf h) d 0%nat + end_forces (k_found kf h) d 2%nat) /\
  is_RInt (fun x => x * (kf * u x)) 0 h (end_forces (k_found kf h) d 1%nat + end_forces (k_found kf h) d 3%nat + h * end_forces (k_found kf h) d 2%nat).
Proof.
  intros Hh Hu. split.
  - assert (C : cubic_between h (vec4 1 0 1 0) (fun _ => 1)).
    { split; [exists 1, 0, 0, 0; intros x; ring|]. rewrite !Derive_const. cbn. auto. }
    assert (Q := found_integral kf h _ _ _ _ Hh C Hu). unfold form in Q. cbn [rsum vec4] in Q.
    match type of Q with is_RInt _ _ _ ?v => replace v with (end_forces (k_found kf h) d 0%nat + end_forces (k_found kf h) d 2%nat) in Q by ring end.
    eapply is_RInt_ext; [|exact Q]. intros x _. cbn. ring.
  - assert (C : cubic_between h (vec4 0 1 h 1) (fun x => x)).
    { split; [exists 0, 1, 0, 0; intros x; ring|]. rewrite !Derive_id. cbn. auto. }
    assert (Q := found_integral kf h _ _ _ _ Hh C Hu). unfold form in Q. cbn [rsum vec4] in Q.
    match type of Q with is_RInt _ _ _ ?v => replace v with (end_forces (k_found kf h) d 1%nat + end_forces (k_found kf h) d 3%nat + h * end_forces (k_found kf h) d 2%nat) in Q by ring end.
    eapply is_RInt_ext; [|exact Q]. intros x _. cbn. ring.
Qed.
Lemma bed_split EI kf h d p : (p < 4)%nat -> end_forces (bed_stiffness EI kf h) d p = end_forces (k_ebeam EI h) d p + end_forces (k_found kf h) d p.
Proof. intros _. unfold end_forces, mulmv, bed_stiffness. rewrite <- rsum_plus. apply rsum_ext. intros; ring. Qed.

Lemma bed_balance gl m EI kf lds rs dr d w : winkler m EI kf ->
  Forall (meshed_load (mesh_size m EI kf) (mesh_step m EI kf)) lds -> mesh_loads gl m EI kf lds rs -> on_mesh m EI kf rs dr d ->
  mesh_shape (mesh_size m EI kf) (mesh_step m EI kf) d w ->
  balances (mb_L m) (with_subgrade kf w (actions (mb_L m) lds)) (as_cnl (mesh_end_forces m EI kf rs d)).
Proof.
  intros W Hm [Hlen Hr] Hs Hw. set (f := the_mesh m EI kf). assert (Hn := mesh_n m EI kf). assert (HL := mesh_L m EI kf W).
  assert (Hmax : (fe_n f <= 400)%nat) by apply (size_range m EI kf). assert (Hh := hp f Hn HL). assert (NH := nh f Hn).
  destruct (loads_cut_into f Hn HL Hmax lds Hm) as (g & Eg & (CI & CP & CM & CN)).
  change (fe_n f) with (mesh_size m EI kf) in *. change (fe_h f) with (mesh_step m EI kf) in *. change (fe_L f) with (mb_L m) in *.
  set (n := mesh_size m EI kf) in *. set (h := mesh_step m EI kf) in *.
  set (S := sub_force (bed_stiffness EI kf h) (fun e => cnl_vec (nth e rs cnl_zero)) d).
  destruct Hs as (_ & _ & _ & _ & Hs). destruct (telescope S h n Hn Hs) as [T1 T2].
  assert (Bl : Forall (bed_load (mb_L m)) lds).
  { eapply Forall_impl; [|exact Hm]. intros ld. destruct ld; cbn; auto. intros Q. rewrite NH in Q. exact Q. }
  (* one sub-element *)
  assert (One : forall e, (e < n)%nat -> exists I J,
    is_RInt (fun x => 1 * intensity (with_subgrade kf w (actions (mb_L m) lds)) (INR e * h + x)) 0 h I /\
    is_RInt (fun x => (INR e * h + x) * intensity (with_subgrade kf w (actions (mb_L m) lds)) (INR e * h + x)) 0 h J /\
    S e 0%nat + S e 2%nat = I + lsum (map (fun pa => fst pa * 1) (map (fun pa => (fst pa, INR e * h + snd pa)) (forces (actions h (g e))))) /\
    S e 1%nat + S e 3%nat + h * S e 2%nat + INR e * h * (S e 0%nat + S e 2%nat) =
      J + lsum (map (fun pa => fst pa * snd pa) (map (fun pa => (fst pa, INR e * h + snd pa)) (forces (actions h (g e)))))).
  { intros e He. destruct (Hr e He) as (sl & Es & Ec). fold f in Es. rewrite (Eg e He) in Es. inversion Es as [X]; subst sl; clear Es.
    assert (Won : Forall (on_member h) (g e)).
    { destruct (subs_total f Hn HL lds e Bl) as (sl & E' & F). rewrite (Eg e He) in E'. inversion E' as [X]; subst sl; clear E'. eapply Forall_impl; [|exact F]. intros s Q. exact (proj1 (proj1 Q)). }
    destruct (sum_refs_balance gl h (g e) _ Ec Hh Won) as [(I & HI & E1) (J & HJ & E2)]. fold h in HI, HJ, E2. rewrite (CN e He) in E1, E2. cbn [map lsum fold_right] in E1, E2.
    destruct (Hw e He) as (u & Hu & Eu). destruct (found_balance kf h (ends d e) u Hh Hu) as [F1 F2].
    destruct (ebeam_balance EI h (ends d e) ltac:(lra)) as [K1 K2].
    set (c := nth e rs cnl_zero) in *.
    set (X0 := end_forces (k_found kf h) (ends d e) 0%nat + end_forces (k_found kf h) (ends d e) 2%nat) in *.
    set (X1 := end_forces (k_found kf h) (ends d e) 1%nat + end_forces (k_found kf h) (ends d e) 3%nat + h * end_forces (k_found kf h) (ends d e) 2%nat) in *.
    assert (Sp : forall p, (p < 4)%nat -> S e p = end_forces (k_ebeam EI h) (ends d e) p + end_forces (k_found kf h) (ends d e) p + cnl_vec c p).
    { intros p Hp. unfold S, sub_force. rewrite bed_split by exact Hp. reflexivity. }
    assert (S0 : S e 0%nat + S e 2%nat = X0 + (c_Va c + c_Vb c)) by (rewrite !Sp by lia; cbn [cnl_vec vec4]; unfold X0; lra).
    assert (S1 : S e 1%nat + S e 3%nat + h * S e 2%nat = X1 + (c_Ma c + c_Mb c + h * c_Vb c)) by (rewrite !Sp by lia; cbn [cnl_vec vec4]; unfold X1; lra).
    exists (I + X0), (J + X1 + INR e * h * (I + X0)).
    assert (Dens : forall x, 0 < x < h -> intensity (with_subgrade kf w (actions (mb_L m) lds)) (INR e * h + x) = intensity (actions h (g e)) x + kf * u x).
    { intros x Hx. cbn [with_subgrade intensity]. rewrite (CI e x He Hx), (Eu x Hx). reflexivity. }
    assert (B1 : is_RInt (fun x => 1 * intensity (with_subgrade kf w (actions (mb_L m) lds)) (INR e * h + x)) 0 h (I + X0)).
    { eapply is_RInt_ext; [|exact (is_RInt_plus (V := R_NormedModule) _ _ _ _ _ _ HI F1)]. rewrite Rmin_left, Rmax_right by lra. intros x Hx. rewrite Dens by exact Hx. unfold plus. cbn. ring. }
    assert (B2 : is_RInt (fun x => x * intensity (with_subgrade kf w (actions (mb_L m) lds)) (INR e * h + x)) 0 h (J + X1)).
    { eapply is_RInt_ext; [|exact (is_RInt_plus (V := R_NormedModule) _ _ _ _ _ _ HJ F2)]. rewrite Rmin_left, Rmax_right by lra. intros x Hx. rewrite Dens by exact Hx. unfold plus. cbn. ring. }
    split; [exact B1|]. split.
    { eapply is_RInt_ext; [|exact (is_RInt_plus (V := R_NormedModule) _ _ _ _ _ _ B2 (is_RInt_scal (V := R_NormedModule) _ _ _ (INR e * h) _ B1))]. intros x _. unfold plus, scal. cbn. unfold mult. cbn. ring. }
    rewrite S0, S1, E1, E2. rewrite !map_map. cbn [fst snd].
    assert (LS : forall l : list (R * R), lsum (map (fun pa => fst pa * (INR e * h + snd pa)) l) = INR e * h * lsum (map (fun pa => fst pa * 1) l) + lsum (map (fun pa => fst pa * snd pa) l)).
    { unfold lsum. induction l as [|q l IH]; cbn in *; [ring|]. rewrite IH. ring. }
    rewrite LS. split; ring. }
  assert (Ch : exists I J : nat -> R, forall e, (e < n)%nat -> 
    is_RInt (fun x => 1 * intensity (with_subgrade kf w (actions (mb_L m) lds)) (INR e * h + x)) 0 h (I e) /\
    is_RInt (fun x => (INR e * h + x) * intensity (with_subgrade kf w (actions (mb_L m) lds)) (INR e * h + x)) 0 h (J e) /\
    S e 0%nat + S e 2%nat = I e + lsum (map (fun pa => fst pa * 1) (map (fun pa => (fst pa, INR e * h + snd pa)) (forces (actions h (g e))))) /\
    S e 1%nat + S e 3%nat + h * S e 2%nat + INR e * h * (S e 0%nat + S e 2%nat) =
      J e + lsum (map (fun pa => fst pa * snd pa) (map (fun pa => (fst pa, INR e * h + snd pa)) (forces (actions h (g e)))))).
  { exists (fun e => RInt (fun x => 1 * intensity (with_subgrade kf w (actions (mb_L m) lds)) (INR e * h + x)) 0 h), (fun e => RInt (fun x => (INR e * h + x) * intensity (with_subgrade kf w (actions (mb_L m) lds)) (INR e * h + x)) 0 h).
    intros e He. destruct (One e He) as (I & J & A & B & C). rewrite (is_RInt_unique (V := R_CompleteNormedModule) _ _ _ _ A), (is_RInt_unique (V := R_CompleteNormedModule) _ _ _ _ B). exact (conj A (conj B C)). }
  destruct Ch as (I & J & Ch).
  assert (Fs : forall G : R * R -> R, lsum (map G (forces (actions (mb_L m) lds))) = rsum n (fun e => lsum (map G (map (fun pa => (fst pa, INR e * h + snd pa)) (forces (actions h (g e))))))).
  { intros G. rewrite (lsum_perm _ _ (Permutation_map G CP)). apply lsum_flat. }
  split.
  - exists (rsum n I). split.
    + refine (eq_ind (INR n * h) (fun b => is_RInt _ 0 b _) (RInt_pieces _ h I n _) _ NH). intros e He. exact (proj1 (Ch e He)).
    + cbn [with_subgrade forces moments as_cnl c_Va c_Vb mesh_end_forces]. rewrite CM. cbn [map lsum fold_right]. rewrite Fs.
      change (mesh_end_forces m EI kf rs d 0%nat) with (S 0%nat 0%nat). change (mesh_end_forces m EI kf rs d 2%nat) with (S (n - 1)%nat 2%nat). rewrite <- T1, <- rsum_plus, Rminus_0_r.
      apply rsum_ext. intros e He. exact (proj1 (proj2 (proj2 (Ch e He)))).
  - exists (rsum n J). split.
    + refine (eq_ind (INR n * h) (fun b => is_RInt _ 0 b _) (RInt_pieces _ h J n _) _ NH). intros e He. exact (proj1 (proj2 (Ch e He))).
    + cbn [with_subgrade forces moments as_cnl c_Ma c_Mb c_Vb mesh_end_forces]. rewrite CM. cbn [map lsum fold_right]. rewrite Fs.
      change (mesh_end_forces m EI kf rs d 1%nat) with (S 0%nat 1%nat). change (mesh_end_forces m EI kf rs d 2%nat) with (S (n - 1)%nat 2%nat). change (mesh_end_forces m EI kf rs d 3%nat) with (S (n - 1)%nat 3%nat).
      rewrite <- NH, <- T2, <- rsum_plus, Rminus_0_r. apply rsum_ext. intros e He. exact (proj2 (proj2 (proj2 (Ch e He)))).
Qed.
