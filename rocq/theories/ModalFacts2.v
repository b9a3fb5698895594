(** The reduced eigenproblem and the reported modes. *)
From Coquelicot Require Import Coquelicot.
From Verif Require Import Base BaseFacts Linalg LinalgFacts SectionModel FoundationModel BeamModel ElementSpec AnalysisSpec FoundSpec FoundFacts FoundFacts2 FoundFacts3 ModalModel ModalSpec EigFacts ModalFacts.
Open Scope R_scope.

Lemma mapM_seq (f : nat -> result R) k l : length l = k -> (forall i, (i < k)%nat -> f i = Ok (nth i l 0)) -> mapM f (seq 0 k) = Ok l.
Proof.
  intros L H. apply mapM_complete. revert l k L H. assert (X : forall l s, (forall i, (i < length l)%nat -> f (s + i)%nat = Ok (nth i l 0)) -> Forall2 (fun a c => f a = Ok c) (seq s (length l)) l).
  { induction l as [|a l IH]; intros s H; [constructor|]. cbn [length seq]. constructor; [specialize (H 0%nat); rewrite Nat.add_0_r in H; apply H; cbn; lia|]. apply IH. intros i Hi. replace (S s + i)%nat with (s + S i)%nat by lia. apply (H (S i)). cbn. lia. }
  intros l k <- H. apply X. exact H.
Qed.
Lemma nth_firstn_lt {A} (l : list A) k m d : (k < m)%nat -> nth k (firstn m l) d = nth k l d.
Proof. revert k m. induction l as [|a l IH]; intros k m H; [rewrite firstn_nil; reflexivity|]. destruct m; [lia|]. destruct k; [reflexivity|]. cbn. apply IH. lia. Qed.
Lemma lsum_nth l (F : nat -> R) : lsum (map F l) = rsum (length l) (fun q => F (nth q l 0%nat)).
Proof. induction l as [|a l IH]; [reflexivity|]. cbn [map length]. rewrite lsum_cons, rsum_S_first, IH. reflexivity. Qed.
Lemma rsum_filter N (p : nat -> bool) F : (forall g, (g < N)%nat -> p g = false -> F g = 0) ->
  rsum N F = rsum (length (filter p (seq 0 N))) (fun q => F (nth q (filter p (seq 0 N)) 0%nat)).
Proof.
  intros H. rewrite <- lsum_nth, <- lsum_seq. assert (X : forall l, (forall g, In g l -> (g < N)%nat) -> lsum (map F l) = lsum (map F (filter p l))).
  { induction l as [|a l IH]; intros Hl; [reflexivity|]. cbn [map filter]. rewrite lsum_cons, IH by (intros g Hg; apply Hl; right; exact Hg). destruct (p a) eqn:E; cbn [map]; [rewrite lsum_cons; reflexivity|]. rewrite (H a (Hl a (or_introl eq_refl)) E). ring. }
  apply X. intros g Hg. apply in_seq in Hg. lia.
Qed.
Lemma index_nth l q : NoDup l -> (q < length l)%nat -> index_of (nth q l 0%nat) l = Some q.
Proof.
  intros Nd. revert q. induction Nd as [|a l Na _ IH]; intros q Hq; [cbn in Hq; lia|]. cbn [index_of]. destruct q as [|q]; cbn [nth length] in *; [rewrite Nat.eqb_refl; reflexivity|].
  destruct (Nat.eqb_spec a (nth q l 0%nat)) as [E|_]; [exfalso; apply Na; rewrite E; apply nth_In; lia|]. rewrite IH by lia. reflexivity.
Qed.
Lemma index_none l g : ~ In g l -> index_of g l = None.
Proof. induction l as [|a l IH]; intros H; [reflexivity|]. cbn [index_of]. destruct (Nat.eqb_spec a g) as [E|_]; [exfalso; apply H; left; exact E|]. rewrite IH; [reflexivity|]. intros X. apply H. right. exact X. Qed.

Section Modal.
Variables (b : beam) (mass : massarg) (nseg : nat) (EIs Ls ms : list R).
Hypothesis V : vibrating b mass nseg EIs Ls ms.
Let n := b_nspans b.
Let N := dofs b nseg.
Let K := modal_K EIs Ls (b_R b) nseg n.
Let M := modal_M ms Ls nseg n.
Let free := modal_free (b_R b) nseg N.
Let nf := length free.
Lemma free_nodup : NoDup free. Proof. apply NoDup_filter, seq_NoDup. Qed.
Lemma free_in g : In g free <-> (g < N)%nat /\ modal_fixed (b_R b) nseg g = false.
Proof. unfold free, modal_free. rewrite filter_In, in_seq. destruct (modal_fixed _ _ g); cbn [negb]; split; intros [A B]; split; try lia; try congruence; reflexivity. Qed.
Lemma fixed_iff g : (g < N)%nat -> modal_fixed (b_R b) nseg g = true <-> exists q, (q < 2 * (n + 1))%nat /\ g = support_dof nseg q /\ restraint b q = -1.
Proof.
  intros Hg. assert (S1 := seg1 _ _ _ _ _ _ V). unfold modal_fixed. split.
  - intros H. destruct (Nat.eq_dec ((g / 2) mod nseg) 0) as [E|E].
    + assert (B := sd_back nseg n g S1 Hg). assert (Q := sd_onto nseg g S1 E). set (q := (2 * ((g / 2) / nseg) + g mod 2)%nat) in *. exists q. split; [exact B|]. split; [exact Q|]. rewrite Q, (restraint_at _ _ _ _ _ _ V q B) in H. apply Reqb_true. exact H.
    + unfold node_restraint in H. destruct (Nat.eqb_spec ((g / 2) mod nseg) 0); [contradiction|discriminate].
  - intros (q & Hq & -> & E). rewrite (restraint_at _ _ _ _ _ _ V q Hq). apply Reqb_true. exact E.
Qed.
Lemma admissible_iff u : admissible b nseg u <-> forall g, (g < N)%nat -> modal_fixed (b_R b) nseg g = true -> u g = 0.
Proof.
  split.
  - intros H g Hg F. apply (fixed_iff g Hg) in F as (q & Hq & -> & E). apply H; assumption.
  - intros H q Hq E. apply H; [apply sd_lt; [apply (seg1 _ _ _ _ _ _ V)|exact Hq]|]. apply fixed_iff; [apply sd_lt; [apply (seg1 _ _ _ _ _ _ V)|exact Hq]|]. exists q. auto.
Qed.
Definition restrict (u : vec) : vec := fun q => u (nth q free 0%nat).
Lemma dot_restrict A u w : admissible b nseg u -> admissible b nseg w -> dot N A u w = dot nf (submatrix A free) (restrict u) (restrict w).
Proof.
  intros Hu Hw. rewrite admissible_iff in Hu, Hw. unfold dot, submatrix, restrict. unfold nf, free, modal_free. rewrite (rsum_filter N (fun g => negb (modal_fixed (b_R b) nseg g))).
  - apply rsum_ext. intros i _. f_equal. apply rsum_filter. intros g Hg E. apply negb_false_iff in E. rewrite Hu by assumption. ring.
  - intros g Hg E. apply negb_false_iff in E. rewrite Hw by assumption. ring.
Qed.
Lemma place_admissible v : admissible b nseg (place free v).
Proof. apply admissible_iff. intros g Hg F. unfold place. rewrite index_none; [reflexivity|]. rewrite free_in. intros [_ E]. congruence. Qed.
Lemma restrict_place v q : (q < nf)%nat -> restrict (place free v) q = v q.
Proof. intros Hq. unfold restrict, place. rewrite index_nth; [reflexivity|exact free_nodup|exact Hq]. Qed.
Lemma dot_place A u v : admissible b nseg u -> dot N A u (place free v) = dot nf (submatrix A free) (restrict u) v.
Proof. intros Hu. rewrite (dot_restrict A u _ Hu (place_admissible v)). apply dot_ext; [reflexivity|]. intros i Hi. apply restrict_place. exact Hi. Qed.
Lemma dot_places A u v : dot N A (place free u) (place free v) = dot nf (submatrix A free) u v.
Proof. rewrite (dot_place A _ v (place_admissible u)). apply dot_ext; [|reflexivity]. intros i Hi. apply restrict_place. exact Hi. Qed.
Lemma free_lt q : (q < nf)%nat -> (nth q free 0 < N)%nat.
Proof. intros Hq. apply (proj1 (free_in (nth q free 0%nat))). apply nth_In. exact Hq. Qed.
Lemma Kff_sym : symmetric nf (submatrix K free).
Proof. intros i j Hi Hj. unfold submatrix. apply (K_symm b nseg EIs Ls); apply free_lt; assumption. Qed.
Lemma Mff_sym : symmetric nf (submatrix M free).
Proof. intros i j Hi Hj. unfold submatrix. apply (M_symm b nseg Ls ms); apply free_lt; assumption. Qed.
Lemma Mff_pos : positive_definite nf (submatrix M free).
Proof.
  intros v (q & Hq & Nz). rewrite <- dot_places. apply (M_pos _ _ _ _ _ _ V). exists (nth q free 0%nat). split; [apply free_lt; exact Hq|]. change (restrict (place free v) q <> 0). rewrite restrict_place; assumption.
Qed.
Lemma restrict_nonzero u : admissible b nseg u -> nonzero N u -> nonzero nf (restrict u).
Proof.
  intros Hu (g & Hg & Nz). rewrite admissible_iff in Hu. destruct (modal_fixed (b_R b) nseg g) eqn:F; [exfalso; apply Nz, Hu; assumption|]. assert (I : In g free) by (apply free_in; auto). destruct (In_nth free g 0%nat I) as (q & Hq & E). exists q. split; [exact Hq|]. unfold restrict. rewrite E. exact Nz.
Qed.
Lemma vibrates_iff u w2 : admissible b nseg u -> vibrates b nseg EIs Ls ms u w2 <-> forall v, dot nf (submatrix K free) (restrict u) v = w2 * dot nf (submatrix M free) (restrict u) v.
Proof.
  intros Hu. split.
  - intros [_ H] v. rewrite <- !(dot_place _ u v Hu). apply (H (place free v)); [apply place_admissible| |].
    + apply (elastic_iff _ _ _ _ _ _ V). reflexivity.
    + apply (inertia_iff _ _ _ _ _ _ V). reflexivity.
  - intros H. split; [exact Hu|]. intros w E I Hw HE HI. apply (elastic_iff _ _ _ _ _ _ V) in HE. apply (inertia_iff _ _ _ _ _ _ V) in HI. fold n N K in HE. fold n N M in HI. rewrite (dot_restrict K u w Hu Hw) in HE. rewrite (dot_restrict M u w Hu Hw) in HI. rewrite HE, HI. apply H.
Qed.
(** Any free vibration. *)
Lemma vib_nonneg u w2 : vibrates b nseg EIs Ls ms u w2 -> nonzero N u -> 0 <= w2 /\ (w2 = 0 <-> mechanism b nseg Ls u).
Proof.
  intros [Hu H] Nz. assert (E := H u (dot N K u u) (dot N M u u) Hu (proj2 (elastic_iff _ _ _ _ _ _ V u u _) eq_refl) (proj2 (inertia_iff _ _ _ _ _ _ V u u _) eq_refl)).
  assert (P := M_pos _ _ _ _ _ _ V u Nz). fold n N M in P. assert (Q := K_nonneg _ _ _ _ _ _ V u). fold n N K in Q. split.
  - rewrite E in Q. destruct (Rle_dec 0 w2) as [X|X]; [exact X|]. exfalso. nra.
  - rewrite <- (K_zero _ _ _ _ _ _ V u). fold n N K. rewrite E. split; [intros ->; ring|]. intros Z. apply Rmult_integral in Z. lra.
Qed.
Lemma vib_orthogonal u v w1 w2 : vibrates b nseg EIs Ls ms u w1 -> vibrates b nseg EIs Ls ms v w2 -> w1 <> w2 ->
  inertia_work b nseg ms Ls u v 0 /\ elastic_work b nseg EIs Ls u v 0.
Proof.
  intros [Hu H] [Hv H'] Ne.
  assert (E := H v (dot N K u v) (dot N M u v) Hv (proj2 (elastic_iff _ _ _ _ _ _ V u v _) eq_refl) (proj2 (inertia_iff _ _ _ _ _ _ V u v _) eq_refl)).
  assert (E' := H' u (dot N K v u) (dot N M v u) Hu (proj2 (elastic_iff _ _ _ _ _ _ V v u _) eq_refl) (proj2 (inertia_iff _ _ _ _ _ _ V v u _) eq_refl)).
  rewrite (dot_sym N K v u (K_symm b nseg EIs Ls)), (dot_sym N M v u (M_symm b nseg Ls ms)) in E'. assert (Z : (w1 - w2) * dot N M u v = 0) by lra. apply Rmult_integral in Z as [Z|Z]; [lra|].
  split; [apply (inertia_iff _ _ _ _ _ _ V)|apply (elastic_iff _ _ _ _ _ _ V)]; fold n N K M; [symmetry; exact Z|rewrite E, Z; ring].
Qed.

Section Solved.
Variables (w : list R) (vs : list vec).
Hypothesis Hs : eigensystem nf (submatrix K free) (submatrix M free) w vs.
Lemma mode_vibrates k : (k < nf)%nat -> vibrates b nseg EIs Ls ms (place free (column vs k)) (nth k w 0).
Proof.
  intros Hk. apply (vibrates_iff _ _ (place_admissible _)). intros v. rewrite <- !(dot_place _ _ v (place_admissible _)), !dot_places. apply (eig_dot _ _ _ _ _ Hs). exact Hk.
Qed.
Lemma mode_nonzero k : (k < nf)%nat -> nonzero N (place free (column vs k)).
Proof.
  intros Hk. destruct (column_nonzero _ _ _ _ _ Hs k Hk) as (q & Hq & Nz). exists (nth q free 0%nat). split; [apply free_lt; exact Hq|]. change (restrict (place free (column vs k)) q <> 0). rewrite restrict_place; assumption.
Qed.
Lemma value_nonneg k : (k < nf)%nat -> 0 <= nth k w 0.
Proof. intros Hk. apply (vib_nonneg _ _ (mode_vibrates k Hk) (mode_nonzero k Hk)). Qed.
Lemma mode_normal k l : (k < nf)%nat -> (l < nf)%nat -> inertia_work b nseg ms Ls (place free (column vs k)) (place free (column vs l)) (if Nat.eqb k l then 1 else 0) /\
  elastic_work b nseg EIs Ls (place free (column vs k)) (place free (column vs l)) (if Nat.eqb k l then nth k w 0 else 0).
Proof.
  intros Hk Hl. assert (E := es_normal _ _ _ _ _ Hs k l Hk Hl). rewrite <- dot_places in E. split.
  - apply (inertia_iff _ _ _ _ _ _ V). symmetry. exact E.
  - apply (elastic_iff _ _ _ _ _ _ V). fold n N K. rewrite dot_places, (eig_dot _ _ _ _ _ Hs k _ Hk), <- dot_places, E. destruct (Nat.eqb k l); ring.
Qed.
Lemma mode_rayleigh u j E I : (j < nf)%nat -> admissible b nseg u -> (forall k, (k < j)%nat -> inertia_work b nseg ms Ls u (place free (column vs k)) 0) ->
  elastic_work b nseg EIs Ls u u E -> inertia_work b nseg ms Ls u u I -> nth j w 0 * I <= E.
Proof.
  intros Hj Hu Hz HE HI. apply (elastic_iff _ _ _ _ _ _ V) in HE. apply (inertia_iff _ _ _ _ _ _ V) in HI. fold n N K in HE. fold n N M in HI. rewrite (dot_restrict _ u u Hu Hu) in HE. rewrite (dot_restrict _ u u Hu Hu) in HI. rewrite HE, HI.
  apply (rayleigh _ _ _ _ _ Mff_sym Hs (restrict u) j Hj). intros k Hk. rewrite <- (dot_place _ u _ Hu). symmetry. apply (inertia_iff _ _ _ _ _ _ V). apply Hz. exact Hk.
Qed.
Lemma mode_complete u w2 : vibrates b nseg EIs Ls ms u w2 -> nonzero N u -> exists k, (k < nf)%nat /\ nth k w 0 = w2.
Proof. intros H Nz. assert (Hu := proj1 H). apply (spectrum _ _ _ _ _ Kff_sym Mff_sym Hs (restrict u) w2 (restrict_nonzero u Hu Nz)). apply vibrates_iff; assumption. Qed.
End Solved.

(** The call. *)
Lemma spans_ok : mapM (modal_span b) (seq 0 n) = Ok EIs.
Proof.
  apply mapM_seq; [apply V|]. intros i Hi. destruct (vb_span _ _ _ _ _ _ V i Hi) as (A & B & C & _). unfold modal_span.
  rewrite (proj2 (get_ok _ _ _) A). cbn [rbind]. rewrite (proj2 (get_ok _ _ _) B). cbn [rbind]. rewrite (proj2 (get_ok _ _ _) C). reflexivity.
Qed.
Lemma mass_ok : broadcast_mass mass n = Ok ms.
Proof.
  destruct (vb_lists _ _ _ _ _ _ V) as (_ & _ & L). assert (H := vb_mass _ _ _ _ _ _ V). unfold broadcast_mass. destruct mass as [m|l].
  - f_equal. apply (nth_ext (repeat m n) ms 0 0); [rewrite repeat_length; symmetry; exact L|]. intros i Hi. rewrite repeat_length in Hi. rewrite (H i Hi). rewrite (nth_indep _ 0 m) by (rewrite repeat_length; exact Hi). apply nth_repeat.
  - subst l. rewrite L. rewrite Nat.eqb_refl. reflexivity.
Qed.
Lemma lengths_ok : mapM (get (b_lengths b)) (seq 0 n) = Ok Ls.
Proof. apply mapM_seq; [apply V|]. intros i Hi. apply get_ok. apply (vb_span _ _ _ _ _ _ V i Hi). Qed.
Lemma restraints_ok : exists l, mapM (get (b_R b)) (seq 0 (2 * (n + 1))) = Ok l.
Proof.
  exists (firstn (2 * (n + 1)) (b_R b)). assert (L := len_restr _ _ _ _ _ _ V). fold n in L. apply mapM_seq; [apply firstn_length_le; exact L|]. intros i Hi. apply get_ok. rewrite <- (firstn_skipn (2 * (n + 1)) (b_R b)) at 1. rewrite nth_error_app1 by (rewrite firstn_length_le; assumption). apply nth_error_nth'. rewrite firstn_length_le; assumption.
Qed.
Section Call.
Variable eigh : nat -> mat -> mat -> result (list R * list vec).
Lemma call_is n_modes : solve_modal eigh b mass n_modes nseg =
  do r <- eigh nf (submatrix K free) (submatrix M free);
  let omega := map sqrt (map (fun w => Rmax w 0) (fst r)) in
  let nm := Nat.min n_modes (length omega) in
  Ok {| mo_omega := firstn nm omega; mo_phi := map (place free) (firstn nm (snd r));
        mo_x := map (mesh_x (seg_h Ls nseg)) (seq 0 (n * nseg + 1)); mo_ndof := N |}.
Proof.
  unfold solve_modal. fold n. rewrite spans_ok. cbn [rbind]. rewrite mass_ok. cbn [rbind]. rewrite lengths_ok. cbn [rbind]. assert (S1 := seg1 _ _ _ _ _ _ V). destruct (Nat.eqb_spec nseg 0); [lia|]. cbn [andb]. destruct restraints_ok as (l & ->). cbn [rbind]. reflexivity.
Qed.
Hypothesis Sd : eigh_sound eigh.
Lemma call_modes n_modes r : solve_modal eigh b mass n_modes nseg = Ok r -> exists w vs, eigensystem nf (submatrix K free) (submatrix M free) w vs /\
  length (mo_omega r) = Nat.min n_modes nf /\ length (mo_phi r) = Nat.min n_modes nf /\ mo_ndof r = N /\ mo_x r = map (mesh_x (seg_h Ls nseg)) (seq 0 (n * nseg + 1)) /\
  forall k, (k < Nat.min n_modes nf)%nat -> nth k (mo_omega r) 0 = sqrt (nth k w 0) /\ nth k (mo_omega r) 0 ^ 2 = nth k w 0 /\ column (mo_phi r) k = place free (column vs k).
Proof.
  rewrite call_is. intros H. destruct (eigh nf (submatrix K free) (submatrix M free)) as [[w vs]|] eqn:E; [|discriminate]. cbn [rbind fst snd] in H. cbv zeta in H. inversion H as [X]. clear H X. exists w, vs.
  assert (Hs := Sd _ _ _ _ _ E Kff_sym Mff_sym Mff_pos). split; [exact Hs|]. assert (Lw := es_values _ _ _ _ _ Hs). assert (Lv := es_vectors _ _ _ _ _ Hs). cbn [mo_omega mo_phi mo_ndof mo_x].
  rewrite !map_length, !firstn_length, !map_length, Lw, Lv. split; [lia|]. split; [lia|]. split; [reflexivity|]. split; [reflexivity|]. intros k Hk. set (nm := Nat.min n_modes nf) in *.
  assert (P := value_nonneg w vs Hs k ltac:(lia)).
  assert (O : nth k (firstn nm (map sqrt (map (fun w0 => Rmax w0 0) w))) 0 = sqrt (nth k w 0)).
  { rewrite nth_firstn_lt by exact Hk. rewrite map_map. rewrite (nth_indep _ 0 (sqrt (Rmax 0 0))) by (rewrite map_length, Lw; lia). rewrite (map_nth (fun x => sqrt (Rmax x 0))). f_equal. apply Rmax_left. lra. }
  split; [exact O|]. split; [rewrite O; apply pow2_sqrt; exact P|]. unfold column. rewrite (nth_indep _ (fun _ => 0) (place free (fun _ => 0))) by (rewrite map_length, firstn_length, Lv; lia). rewrite (map_nth (place free)). rewrite nth_firstn_lt by exact Hk. reflexivity.
Qed.
End Call.
End Modal.
