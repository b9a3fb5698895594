(** Comparing the frequencies of two beams through a linear map of motions. *)
From Coquelicot Require Import Coquelicot.
From Verif Require Import Base BaseFacts Linalg LinalgFacts SectionModel FoundationModel BeamModel ElementSpec AnalysisSpec FoundSpec FoundFacts FoundFacts2 FoundFacts3 ModalModel ModalSpec EigFacts ModalFacts ModalFacts2 ModalFacts3.
Open Scope R_scope.

(** Fewer equations than unknowns: a solution other than zero. *)
Lemma fewer_equations j : forall a : nat -> nat -> R, exists c : nat -> R, (exists l, (l <= j)%nat /\ c l <> 0) /\ forall k, (k < j)%nat -> rsum (S j) (fun l => a k l * c l) = 0.
Proof.
  induction j as [|j IH]; intros a.
  - exists (fun _ => 1). split; [exists 0%nat; split; [lia|lra]|intros; lia].
  - destruct (Classical_Prop.classic (exists p, (p <= j)%nat /\ a p (S j) <> 0)) as [(p & Hp & Np)|Z].
    + set (t := fun k => if Nat.eqb k p then j else k).
      destruct (IH (fun k l => a (t k) l - a (t k) (S j) / a p (S j) * a p l)) as (c & (l0 & Hl0 & Nl0) & Hc).
      set (s := rsum (S j) (fun l => a p l * c l)).
      set (c' := fun l => if Nat.eqb l (S j) then - s / a p (S j) else c l).
      assert (Sum : forall k, rsum (S (S j)) (fun l => a k l * c' l) = rsum (S j) (fun l => a k l * c l) - a k (S j) * s / a p (S j)).
      { intros k. cbn [rsum]. assert (X : c' (S j) = - s / a p (S j)) by (unfold c'; rewrite Nat.eqb_refl; reflexivity). rewrite X.
        assert (Y : c' j = c j) by (unfold c'; destruct (Nat.eqb_spec j (S j)); [lia|reflexivity]). rewrite Y.
        rewrite (rsum_ext j (fun l => a k l * c' l) (fun l => a k l * c l)) by (intros l Hl; unfold c'; destruct (Nat.eqb_spec l (S j)); [lia|reflexivity]). field. exact Np. }
      exists c'. split.
      * exists l0. split; [lia|]. unfold c'. destruct (Nat.eqb_spec l0 (S j)); [lia|exact Nl0].
      * intros k Hk. rewrite Sum. destruct (Nat.eq_dec k p) as [->|Ne]; [fold s; field; exact Np|].
        assert (K : exists k', (k' < j)%nat /\ t k' = k).
        { destruct (Nat.eq_dec k j) as [->|Nj]; [exists p; split; [lia|]; unfold t; rewrite Nat.eqb_refl; reflexivity|]. exists k. split; [lia|]. unfold t. destruct (Nat.eqb_spec k p); [contradiction|reflexivity]. }
        destruct K as (k' & Hk' & Tk). specialize (Hc k' Hk'). rewrite Tk in Hc. rewrite <- Hc.
        rewrite (rsum_ext (S j) (fun l => (a k l - a k (S j) / a p (S j) * a p l) * c l) (fun l => a k l * c l - a k (S j) / a p (S j) * (a p l * c l))) by (intros l _; ring).
        rewrite rsum_minus, rsum_scal. fold s. field. exact Np.
    + exists (fun l => if Nat.eqb l (S j) then 1 else 0). split; [exists (S j); split; [lia|]; rewrite Nat.eqb_refl; lra|].
      intros k Hk. rewrite (rsum_single _ (S j)); [|lia|].
      * rewrite Nat.eqb_refl. destruct (Req_dec (a k (S j)) 0) as [->|N]; [ring|]. exfalso. apply Z. exists k. split; [lia|exact N].
      * intros l _ Ne. destruct (Nat.eqb_spec l (S j)); [contradiction|ring].
Qed.

Section Compare.
Variables (b : beam) (mass : massarg) (nseg : nat) (EIs Ls ms : list R).
Hypothesis V : vibrating b mass nseg EIs Ls ms.
Variables (b' : beam) (mass' : massarg) (nseg' : nat) (EIs' Ls' ms' : list R).
Hypothesis V' : vibrating b' mass' nseg' EIs' Ls' ms'.
Variables eigh eigh' : nat -> mat -> mat -> result (list R * list vec).
Hypothesis Sd : eigh_sound eigh.
Hypothesis Sd' : eigh_sound eigh'.
Variables (n_modes n_modes' : nat) (r r' : modal_results).
Hypothesis Hr : solve_modal eigh b mass n_modes nseg = Ok r.
Hypothesis Hr' : solve_modal eigh' b' mass' n_modes' nseg' = Ok r'.
Let K := dot (dofs b nseg) (modal_K EIs Ls (b_R b) nseg (b_nspans b)).
Let M := dot (dofs b nseg) (modal_M ms Ls nseg (b_nspans b)).
Let K' := dot (dofs b' nseg') (modal_K EIs' Ls' (b_R b') nseg' (b_nspans b')).
Let M' := dot (dofs b' nseg') (modal_M ms' Ls' nseg' (b_nspans b')).
Variables (T : vec -> vec) (extra : list nat) (al be : R).
Hypothesis T_linear : forall m c (x : nat -> vec) g, T (fun i => rsum m (fun k => c k * x k i)) g = rsum m (fun k => c k * T (x k) g).
Hypothesis T_admissible : forall u, admissible b' nseg' u -> (forall d, In d extra -> u d = 0) -> admissible b nseg (T u).
Hypothesis T_elastic : forall u, admissible b' nseg' u -> (forall d, In d extra -> u d = 0) -> K (T u) (T u) <= al * K' u u.
Hypothesis T_inertia : forall u, be * M' u u <= M (T u) (T u).
Hypothesis al_nonneg : 0 <= al.

Lemma compare j : (j < length (mo_omega r))%nat -> (j + length extra < length (mo_omega r'))%nat ->
  be * nth j (mo_omega r) 0 ^ 2 <= al * nth (j + length extra) (mo_omega r') 0 ^ 2.
Proof.
  intros Hj Hj'. set (s := length extra) in *. set (J := (j + s)%nat) in *.
  destruct (fewer_equations J (fun k l => if Nat.ltb k j then M (T (column (mo_phi r') l)) (column (mo_phi r) k) else column (mo_phi r') l (nth (k - j) extra 0%nat))) as (c & (l0 & Hl0 & Nl0) & Hc).
  set (u := fun i => rsum (S J) (fun l => c l * column (mo_phi r') l i)).
  assert (Nrm := modes_normal _ _ _ _ _ _ V' eigh' Sd' n_modes' r' Hr'). assert (Vb := modes_vibrate _ _ _ _ _ _ V' eigh' Sd' n_modes' r' Hr'). assert (Asc := modes_ascend _ _ _ _ _ _ V' eigh' Sd' n_modes' r' Hr').
  assert (Mn : forall k l, (k <= J)%nat -> (l <= J)%nat -> M' (column (mo_phi r') k) (column (mo_phi r') l) = if Nat.eqb k l then 1 else 0).
  { intros k l Hk Hl. symmetry. apply (inertia_iff _ _ _ _ _ _ V'). apply Nrm; lia. }
  assert (Kn : forall k l, (k <= J)%nat -> (l <= J)%nat -> K' (column (mo_phi r') k) (column (mo_phi r') l) = if Nat.eqb k l then nth k (mo_omega r') 0 ^ 2 else 0).
  { intros k l Hk Hl. symmetry. apply (elastic_iff _ _ _ _ _ _ V'). apply Nrm; lia. }
  assert (Au : admissible b' nseg' u).
  { intros q Hq Hr1. unfold u. apply rsum_0. intros l Hl. assert (A := proj1 (proj2 (proj2 (Vb l ltac:(lia))))). rewrite (A q Hq Hr1). ring. }
  assert (Xu : forall d, In d extra -> u d = 0).
  { intros d Hd. destruct (In_nth extra d 0%nat Hd) as (i & Hi & Ei). fold s in Hi. assert (Q := Hc (j + i)%nat ltac:(unfold J; lia)). destruct (Nat.ltb_spec (j + i) j); [lia|]. replace (j + i - j)%nat with i in Q by lia. rewrite Ei in Q. unfold u. rewrite <- Q. apply rsum_ext. intros l _. ring. }
  assert (Ou : forall k, (k < j)%nat -> M (T u) (column (mo_phi r) k) = 0).
  { intros k Hk. unfold M. rewrite (dot_ext _ _ (T u) (fun i => rsum (S J) (fun l => c l * T (column (mo_phi r') l) i)) _ (column (mo_phi r) k)); [|intros i _; unfold u; apply T_linear|reflexivity].
    rewrite dot_sum_l. assert (Q := Hc k ltac:(unfold J; lia)). cbv beta in Q. destruct (Nat.ltb_spec k j); [|lia]. rewrite <- Q. apply rsum_ext. intros l _. unfold M. apply Rmult_comm. }
  assert (Mu : M' u u = rsum (S J) (fun k => c k ^ 2)).
  { unfold M'. unfold u at 1. rewrite dot_sum_l. apply rsum_ext. intros k Hk. unfold u. rewrite dot_sum_r by exact (M_symm b' nseg' Ls' ms'). change (c k * rsum (S J) (fun l => c l * M' (column (mo_phi r') k) (column (mo_phi r') l)) = c k ^ 2).
    rewrite (rsum_single _ k); [|exact Hk|]; [rewrite Mn by lia; rewrite Nat.eqb_refl; ring|]. intros l Hl Ne. rewrite Mn by lia. destruct (Nat.eqb_spec k l); [congruence|ring]. }
  assert (Ku : K' u u = rsum (S J) (fun k => nth k (mo_omega r') 0 ^ 2 * c k ^ 2)).
  { unfold K'. unfold u at 1. rewrite dot_sum_l. apply rsum_ext. intros k Hk. unfold u. rewrite dot_sum_r by exact (K_symm b' nseg' EIs' Ls'). change (c k * rsum (S J) (fun l => c l * K' (column (mo_phi r') k) (column (mo_phi r') l)) = nth k (mo_omega r') 0 ^ 2 * c k ^ 2).
    rewrite (rsum_single _ k); [|exact Hk|]; [rewrite Kn by lia; rewrite Nat.eqb_refl; ring|]. intros l Hl Ne. rewrite Kn by lia. destruct (Nat.eqb_spec k l); [congruence|ring]. }
  assert (Kle : K' u u <= nth J (mo_omega r') 0 ^ 2 * M' u u).
  { rewrite Ku, Mu, <- rsum_scal. apply rsum_le. intros k Hk. apply Rmult_le_compat_r; [apply pow2_ge_0|]. apply pow_incr. split; [apply Vb; lia|]. apply Asc. lia. }
  assert (Mpos : 0 < M' u u).
  { rewrite Mu. destruct (rsum_nonneg (S J) (fun k => c k ^ 2) (fun k _ => pow2_ge_0 (c k))) as [P|E0]; [exact P|exfalso]. symmetry in E0. assert (Z := rsum_nonneg_0 (S J) _ (fun k _ => pow2_ge_0 (c k)) E0 l0 ltac:(lia)). cbv beta in Z. apply Nl0. nra. }
  assert (Ra : nth j (mo_omega r) 0 ^ 2 * M (T u) (T u) <= K (T u) (T u)).
  { apply (modes_lowest _ _ _ _ _ _ V eigh Sd n_modes r Hr j (T u)); [exact Hj|apply T_admissible; assumption| |apply (elastic_iff _ _ _ _ _ _ V); reflexivity|apply (inertia_iff _ _ _ _ _ _ V); reflexivity].
    intros k Hk. apply (inertia_iff _ _ _ _ _ _ V). symmetry. apply Ou. exact Hk. }
  assert (Te := T_elastic u Au Xu). assert (Ti := T_inertia u). assert (P1 := pow2_ge_0 (nth j (mo_omega r) 0)). fold J.
  apply (Rmult_le_reg_r (M' u u)); [exact Mpos|].
  assert (S1 : be * nth j (mo_omega r) 0 ^ 2 * M' u u <= nth j (mo_omega r) 0 ^ 2 * M (T u) (T u)) by nra.
  assert (S2 : al * K' u u <= al * (nth J (mo_omega r') 0 ^ 2 * M' u u)) by (apply Rmult_le_compat_l; assumption). lra.
Qed.
End Compare.
