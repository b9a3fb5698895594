(** Condensation of the subdivided member (C41). *)
From Verif Require Import Base BaseFacts Linalg LinalgFacts SectionModel FlexModel LoadModel FoundationModel ElementModel ElementSpec AnalysisSpec AnalysisFacts AnalysisFacts2 LinearFacts FoundSpec FoundFacts.
Open Scope R_scope.

Lemma chain_blk ks n i j : assemble_chain ks n i j = rsum n (fun m => blk (2 * m) (ks m) i j).
Proof.
  induction n as [|n IH]; cbn [assemble_chain rsum]; [reflexivity|]. rewrite IH. f_equal. unfold blk, scat.
  destruct (Nat.leb (2 * n) i), (Nat.ltb i (2 * n + 4)); cbn [andb]; reflexivity.
Qed.
Lemma vec_scat fe n i : assemble_vec fe n i = rsum n (fun m => scat (2 * m) (fe m) i).
Proof. induction n as [|n IH]; cbn [assemble_vec rsum]; [reflexivity|]. rewrite IH. reflexivity. Qed.
Lemma chain_mul ks n d N i : (2 * (n + 1) <= N)%nat -> mulmv N (assemble_chain ks n) d i = rsum n (fun m => scat (2 * m) (end_forces (ks m) (ends d m)) i).
Proof.
  intros HN. unfold mulmv. rewrite (rsum_ext N _ (fun j => rsum n (fun m => blk (2 * m) (ks m) i j * d j))) by (intros j _; rewrite chain_blk, <- rsum_scal_r; reflexivity).
  rewrite rsum_swap. apply rsum_ext. intros m Hm. rewrite blk_mul by lia. reflexivity.
Qed.
Lemma chain_nodal ks n d i : (i < 2 * (n + 1))%nat -> mulmv (2 * (n + 1)) (assemble_chain ks n) d i = nodal_sum n (fun m => end_forces (ks m) (ends d m)) i.
Proof. intros Hi. rewrite chain_mul by lia. apply scat_nodal. exact Hi. Qed.
Lemma vec_nodal fe n i : (i < 2 * (n + 1))%nat -> assemble_vec fe n i = nodal_sum n fe i.
Proof. intros Hi. rewrite vec_scat. apply scat_nodal. exact Hi. Qed.
Lemma nodal_plus n u v i : nodal_sum n (fun m p => u m p + v m p) i = nodal_sum n u i + nodal_sum n v i.
Proof. unfold nodal_sum. destruct (Nat.ltb i (2 * n)), (Nat.leb 2 i); ring. Qed.

Lemma div2 j p : (p < 2)%nat -> ((2 * j + p) / 2 = j)%nat /\ ((2 * j + p) mod 2 = p)%nat.
Proof. intros H. split; [symmetry; apply (Nat.div_unique _ 2 j p); lia|symmetry; apply (Nat.mod_unique _ 2 j p); lia]. Qed.
Lemma nodal_left n ef p : (1 <= n)%nat -> (p < 2)%nat -> nodal_sum n ef p = ef 0%nat p.
Proof.
  intros Hn Hp. destruct (div2 0 p Hp) as [E1 E2]. cbn [Nat.mul Nat.add] in E1, E2. unfold nodal_sum. rewrite E1, E2. destruct (Nat.ltb_spec p (2 * n)); [|lia]. destruct (Nat.leb_spec 2 p); [lia|]. ring.
Qed.
Lemma nodal_right n ef p : (1 <= n)%nat -> (p < 2)%nat -> nodal_sum n ef (2 * n + p) = ef (n - 1)%nat (2 + p)%nat.
Proof.
  intros Hn Hp. destruct (div2 n p Hp) as [E1 E2]. unfold nodal_sum. rewrite E1, E2. destruct (Nat.ltb_spec (2 * n + p) (2 * n)); [lia|]. destruct (Nat.leb_spec 2 (2 * n + p)); [|lia]. ring.
Qed.
Lemma nodal_inside n ef j p : (1 <= j < n)%nat -> (p < 2)%nat -> nodal_sum n ef (2 * j + p) = ef (j - 1)%nat (2 + p)%nat + ef j p.
Proof.
  intros Hn Hp. destruct (div2 j p Hp) as [E1 E2]. unfold nodal_sum. rewrite E1, E2. destruct (Nat.ltb_spec (2 * j + p) (2 * n)); [|lia]. destruct (Nat.leb_spec 2 (2 * j + p)); [|lia]. ring.
Qed.

Lemma split_dofs n F : (1 <= n)%nat -> rsum (2 * (n + 1)) F = F 0%nat + F 1%nat + rsum (2 * n - 2) (fun q => F (q + 2)%nat) + F (2 * n)%nat + F (2 * n + 1)%nat.
Proof.
  intros Hn. replace (2 * (n + 1))%nat with (2 + ((2 * n - 2) + 2))%nat by lia. rewrite rsum_split, rsum_split. cbn [rsum].
  replace (2 + (2 * n - 2 + 0))%nat with (2 * n)%nat by lia. replace (2 + (2 * n - 2 + 1))%nat with (2 * n + 1)%nat by lia.
  rewrite (rsum_ext (2 * n - 2) (fun i => F (2 + i)%nat) (fun q => F (q + 2)%nat)) by (intros i _; f_equal; lia). ring.
Qed.

Section Elem.
Variable f : felem.
Hypothesis Hn : (1 <= fe_n f)%nat.
Let n := fe_n f.
Lemma fr0 : fe_r f 0 = 0%nat. Proof. reflexivity. Qed.
Lemma fr1 : fe_r f 1 = 1%nat. Proof. reflexivity. Qed.
Lemma fr2 : fe_r f 2 = (2 * n)%nat. Proof. unfold fe_r, fe_ndof. fold n. lia. Qed.
Lemma fr3 : fe_r f 3 = (2 * n + 1)%nat. Proof. unfold fe_r, fe_ndof. fold n. lia. Qed.
Lemma fnc : fe_nc f = (2 * n - 2)%nat. Proof. unfold fe_nc, fe_ndof. fold n. lia. Qed.
Lemma split_f F : rsum (2 * (n + 1)) F = rsum 4 (fun p => F (fe_r f p)) + rsum (fe_nc f) (fun q => F (fe_c q)).
Proof. rewrite (split_dofs n F Hn), fnc. cbn [rsum]. rewrite fr0, fr1, fr2, fr3. unfold fe_c. ring. Qed.

(** The rows of the mesh equations. *)
Definition row_force (refs : nat -> vec) (d : vec) (i : nat) : R := mulmv (2 * (n + 1)) (fe_K f) d i + assemble_vec refs n i.
Lemma row_nodal refs d i : (i < 2 * (n + 1))%nat -> row_force refs d i = nodal_sum n (sub_force (fe_ke f) refs d) i.
Proof.
  intros Hi. unfold row_force, fe_K. fold n. rewrite chain_nodal, vec_nodal by exact Hi. rewrite <- nodal_plus. reflexivity.
Qed.
Lemma row_left refs d p : (p < 2)%nat -> row_force refs d p = sub_force (fe_ke f) refs d 0 p.
Proof. intros Hp. rewrite row_nodal by (unfold n; lia). apply nodal_left; [exact Hn|exact Hp]. Qed.
Lemma row_right refs d p : (p < 2)%nat -> row_force refs d (2 * n + p) = sub_force (fe_ke f) refs d (n - 1) (2 + p).
Proof. intros Hp. rewrite row_nodal by lia. apply nodal_right; [exact Hn|exact Hp]. Qed.
Lemma row_ends refs d i : (i < 4)%nat -> row_force refs d (fe_r f i) = mesh_ends n (fe_ke f) refs d i.
Proof.
  intros Hi. destruct i as [|[|[|[|i]]]]; [..|lia].
  - rewrite fr0. apply row_left. lia.
  - rewrite fr1. apply row_left. lia.
  - rewrite fr2. replace (2 * n)%nat with (2 * n + 0)%nat by lia. apply row_right. lia.
  - rewrite fr3. apply row_right. lia.
Qed.
Lemma state_rows refs dr d : mesh_state n (fe_ke f) refs dr d <->
  (forall p, (p < 4)%nat -> d (fe_r f p) = dr p) /\ (forall q, (q < fe_nc f)%nat -> row_force refs d (fe_c q) = 0).
Proof.
  unfold mesh_state. split.
  - intros (E0 & E1 & E2 & E3 & H). split.
    + intros p Hp. destruct p as [|[|[|[|p]]]]; [..|lia]; rewrite ?fr0, ?fr1, ?fr2, ?fr3; assumption.
    + intros q Hq. rewrite fnc in Hq. unfold fe_c. rewrite row_nodal by lia. assert (E := Nat.div_mod (q + 2) 2 ltac:(lia)). assert (M := Nat.mod_upper_bound (q + 2) 2 ltac:(lia)).
      set (j := ((q + 2) / 2)%nat) in *. set (p := ((q + 2) mod 2)%nat) in *. rewrite E. rewrite nodal_inside by lia. apply H; lia.
  - intros [E H]. assert (E0 := E 0%nat ltac:(lia)). assert (E1 := E 1%nat ltac:(lia)). assert (E2 := E 2%nat ltac:(lia)). assert (E3 := E 3%nat ltac:(lia)). rewrite ?fr0, ?fr1, ?fr2, ?fr3 in *.
    split; [exact E0|]. split; [exact E1|]. split; [exact E2|]. split; [exact E3|]. intros j p Hj Hp. rewrite <- (nodal_inside n (sub_force (fe_ke f) refs d) j p Hj Hp). rewrite <- row_nodal by lia.
    replace (2 * j + p)%nat with (fe_c (2 * j + p - 2)) by (unfold fe_c; lia). apply H. rewrite fnc. lia.
Qed.

Section Inverse.
Variable B : mat.
Hypothesis HB : fe_Kcc_inv f = Ok B.
Let nc := fe_nc f.
Lemma inverse : inv nc (fun i j => fe_K f (fe_c i) (fe_c j)) = Some B.
Proof. unfold fe_Kcc_inv in HB. fold nc in HB. destruct (inv nc _); [injection HB as <-; reflexivity|discriminate]. Qed.

Definition G (i p : nat) : R := rsum nc (fun q => fe_K f (fe_r f i) (fe_c q) * B q p).
Definition k_cond (i j : nat) : R := fe_K f (fe_r f i) (fe_r f j) - rsum nc (fun p => G i p * fe_K f (fe_c p) (fe_r f j)).
Definition r_cond (refs : nat -> vec) (i : nat) : R := assemble_vec refs n (fe_r f i) - rsum nc (fun p => G i p * assemble_vec refs n (fe_c p)).
Definition rhs (refs : nat -> vec) (dr : vec) (p : nat) : R := - assemble_vec refs n (fe_c p) - rsum 4 (fun j => fe_K f (fe_c p) (fe_r f j) * dr j).

Lemma row_interior refs dr d p : (forall p, (p < 4)%nat -> d (fe_r f p) = dr p) ->
  row_force refs d (fe_c p) = mulmv nc (fun i j => fe_K f (fe_c i) (fe_c j)) (fun q => d (fe_c q)) p - rhs refs dr p.
Proof.
  intros E. unfold row_force, mulmv. rewrite split_f. fold nc. unfold rhs. rewrite (rsum_ext 4 (fun p0 => fe_K f (fe_c p) (fe_r f p0) * d (fe_r f p0)) (fun j => fe_K f (fe_c p) (fe_r f j) * dr j)) by (intros j Hj; rewrite E by exact Hj; reflexivity). ring.
Qed.
Lemma solution_interior refs dr d : mesh_state n (fe_ke f) refs dr d -> forall q, (q < nc)%nat -> d (fe_c q) = mulmv nc B (rhs refs dr) q.
Proof.
  intros H. apply state_rows in H as [E H]. apply (inv_unique nc _ B inverse (rhs refs dr) (fun q => d (fe_c q))). intros i Hi. specialize (H i Hi). rewrite (row_interior refs dr d i E) in H. lra.
Qed.
Lemma ends_condensed refs dr d : mesh_state n (fe_ke f) refs dr d -> forall i, (i < 4)%nat -> mesh_ends n (fe_ke f) refs d i = end_forces k_cond dr i + r_cond refs i.
Proof.
  intros H i Hi. assert (Y := solution_interior refs dr d H). apply state_rows in H as [E _]. rewrite <- row_ends by exact Hi. unfold row_force, mulmv. rewrite split_f. fold nc.
  rewrite (rsum_ext 4 _ (fun j => fe_K f (fe_r f i) (fe_r f j) * dr j)) by (intros j Hj; rewrite E by exact Hj; reflexivity).
  rewrite (rsum_ext nc _ (fun q => rsum nc (fun p => fe_K f (fe_r f i) (fe_c q) * B q p * rhs refs dr p))).
  2:{ intros q Hq. rewrite Y by exact Hq. unfold mulmv. rewrite <- rsum_scal. apply rsum_ext. intros p _. ring. }
  rewrite rsum_swap. rewrite (rsum_ext nc _ (fun p => - (G i p * assemble_vec refs n (fe_c p)) - rsum 4 (fun j => G i p * fe_K f (fe_c p) (fe_r f j) * dr j))).
  2:{ intros p _. rewrite rsum_scal_r. fold (G i p). unfold rhs. rewrite (rsum_ext 4 (fun j => G i p * fe_K f (fe_c p) (fe_r f j) * dr j) (fun j => G i p * (fe_K f (fe_c p) (fe_r f j) * dr j))) by (intros j _; ring). rewrite rsum_scal. ring. }
  rewrite rsum_minus, rsum_opp, rsum_swap. unfold end_forces, mulmv, k_cond, r_cond.
  rewrite (rsum_ext 4 (fun j => rsum nc (fun i0 => G i i0 * fe_K f (fe_c i0) (fe_r f j) * dr j)) (fun j => rsum nc (fun p => G i p * fe_K f (fe_c p) (fe_r f j)) * dr j)) by (intros j _; rewrite <- rsum_scal_r; reflexivity).
  rewrite (rsum_ext 4 (fun j => (fe_K f (fe_r f i) (fe_r f j) - rsum nc (fun p => G i p * fe_K f (fe_c p) (fe_r f j))) * dr j) (fun j => fe_K f (fe_r f i) (fe_r f j) * dr j - rsum nc (fun p => G i p * fe_K f (fe_c p) (fe_r f j)) * dr j)) by (intros j _; ring).
  rewrite rsum_minus. ring.
Qed.
(** The displacements the code recovers. *)
Definition recovered (refs : nat -> vec) (dr : vec) : vec := fun g =>
  if Nat.ltb g 2 then dr g else if Nat.ltb g (fe_ndof f - 2) then mulmv nc B (rhs refs dr) (g - 2)%nat else dr (g - (fe_ndof f - 4))%nat.
Lemma recovered_c refs dr q : (q < nc)%nat -> recovered refs dr (fe_c q) = mulmv nc B (rhs refs dr) q.
Proof. intros Hq. unfold recovered, fe_c. unfold nc in Hq. rewrite fnc in Hq. destruct (Nat.ltb_spec (q + 2) 2); [lia|]. unfold fe_ndof. fold n. destruct (Nat.ltb_spec (q + 2) (2 * (n + 1) - 2)); [|lia]. f_equal. lia. Qed.
Lemma recovered_r refs dr p : (p < 4)%nat -> recovered refs dr (fe_r f p) = dr p.
Proof.
  intros Hp. destruct p as [|[|[|[|p]]]]; [reflexivity|reflexivity|..|lia]; rewrite ?fr2, ?fr3; unfold recovered, fe_ndof; fold n; assert (Q : (1 <= n)%nat) by exact Hn.
  - destruct (Nat.ltb_spec (2 * n) 2); [lia|]. destruct (Nat.ltb_spec (2 * n) (2 * (n + 1) - 2)); [lia|]. f_equal. lia.
  - destruct (Nat.ltb_spec (2 * n + 1) 2); [lia|]. destruct (Nat.ltb_spec (2 * n + 1) (2 * (n + 1) - 2)); [lia|]. f_equal. lia.
Qed.
Lemma recovered_state refs dr : mesh_state n (fe_ke f) refs dr (recovered refs dr).
Proof.
  apply state_rows. split; [intros p Hp; apply recovered_r; exact Hp|]. intros q Hq. rewrite (row_interior refs dr) by (intros p Hp; apply recovered_r; exact Hp).
  rewrite (mulmv_ext nc _ (fun i j => fe_K f (fe_c i) (fe_c j)) _ (mulmv nc B (rhs refs dr))); [|reflexivity|intros j Hj; apply recovered_c; exact Hj].
  rewrite (inv_solves nc _ B inverse) by exact Hq. ring.
Qed.
Lemma state_unique refs dr d d' : mesh_state n (fe_ke f) refs dr d -> mesh_state n (fe_ke f) refs dr d' -> forall i, (i < 2 * (n + 1))%nat -> d i = d' i.
Proof.
  intros H H' i Hi. assert (Y := solution_interior refs dr d H). assert (Y' := solution_interior refs dr d' H'). apply state_rows in H as [E _]. apply state_rows in H' as [E' _].
  destruct (Nat.ltb_spec i 2) as [L|L].
  - destruct i as [|[|i]]; [..|lia]; [rewrite <- fr0|rewrite <- fr1]; rewrite E, E' by lia; reflexivity.
  - destruct (Nat.ltb_spec i (2 * n)) as [L2|L2].
    + replace i with (fe_c (i - 2)) by (unfold fe_c; lia). rewrite Y, Y' by (unfold nc; rewrite fnc; lia). reflexivity.
    + assert (C : i = (2 * n)%nat \/ i = (2 * n + 1)%nat) by lia. destruct C as [-> | ->]; [rewrite <- fr2|rewrite <- fr3]; rewrite E, E' by lia; reflexivity.
Qed.
End Inverse.
End Elem.
