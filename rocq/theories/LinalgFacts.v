From Verif Require Import Base BaseFacts Linalg.

Lemma find_pivot_some n A c p : find_pivot n A c = Some p -> (p < n)%nat /\ A p c <> 0.
Proof.
  induction n as [|n IH]; simpl; [discriminate|].
  destruct (find_pivot n A c) as [q|].
  - intros [= <-]; destruct IH; auto.
  - destruct (Req_EM_T (A n c) 0); [discriminate|]. intros [= <-]; auto.
Qed.
Lemma find_pivot_none n A c : find_pivot n A c = None -> forall p, (p < n)%nat -> A p c = 0.
Proof.
  induction n as [|n IH]; simpl; intros H p Hp; [lia|].
  destruct (find_pivot n A c) as [q|]; [discriminate|].
  destruct (Req_EM_T (A n c) 0) as [E|E]; [|discriminate].
  destruct (Nat.eq_dec p n) as [->|]; auto. apply IH; auto; lia.
Qed.

Lemma swap_ix_lt p q i n : (p < n)%nat -> (q < n)%nat -> (i < n)%nat -> (swap_ix p q i < n)%nat.
Proof. unfold swap_ix; destruct (Nat.eqb i p), (Nat.eqb i q); auto. Qed.
Lemma swap_ix_invol p q i : swap_ix p q (swap_ix p q i) = i.
Proof.
  unfold swap_ix.
  destruct (Nat.eqb_spec i p) as [->|Hp].
  - destruct (Nat.eqb_spec q p) as [->|Hq]; auto. rewrite Nat.eqb_refl; auto.
  - destruct (Nat.eqb_spec i q) as [->|Hq].
    + rewrite Nat.eqb_refl; auto.
    + destruct (Nat.eqb_spec i p); try contradiction. destruct (Nat.eqb_spec i q); try contradiction; auto.
Qed.

Lemma vupd_same v i x : vupd v i x i = x.
Proof. unfold vupd; now rewrite Nat.eqb_refl. Qed.
Lemma vupd_other v i x j : j <> i -> vupd v i x j = v j.
Proof. unfold vupd; intros H; now apply Nat.eqb_neq in H as ->. Qed.

Lemma mulmv_S n A x i : mulmv (S n) A x i = mulmv n A x i + A i n * x n.
Proof. reflexivity. Qed.

(** One elimination step, as an equivalence on solutions. *)
Lemma elim_step m (A : mat) (b x : vec) : A m m <> 0 ->
  (forall i, (i < S m)%nat -> mulmv (S m) A x i = b i) <->
  ((forall i, (i < m)%nat ->
      mulmv m (fun i j => A i j - A i m / A m m * A m j) x i = b i - A i m / A m m * b m)
   /\ x m = (b m - rsum m (fun j => A m j * x j)) / A m m).
Proof.
  intros Hp.
  assert (HS : forall i, mulmv m (fun i j => A i j - A i m / A m m * A m j) x i
               = mulmv m A x i - A i m / A m m * mulmv m A x m).
  { intros i. unfold mulmv. rewrite <- rsum_scal, <- rsum_minus. apply rsum_ext; intros; lra. }
  split.
  - intros H. assert (Hm := H m ltac:(lia)). rewrite mulmv_S in Hm. split.
    + intros i Hi. rewrite HS. assert (Hi' := H i ltac:(lia)). rewrite mulmv_S in Hi'.
      rewrite <- Hm, <- Hi'. field; auto.
    + change (rsum m (fun j => A m j * x j)) with (mulmv m A x m). rewrite <- Hm. field; auto.
  - intros [H1 H2].
    assert (Hm : mulmv (S m) A x m = b m).
    { rewrite mulmv_S, H2. change (rsum m (fun j => A m j * x j)) with (mulmv m A x m). field; auto. }
    intros i Hi. destruct (Nat.eq_dec i m) as [->|Hne]; auto.
    specialize (H1 i ltac:(lia)). rewrite HS in H1. rewrite mulmv_S in *. rewrite <- Hm in H1.
    apply (Rplus_eq_reg_r (- (A i m / A m m * (mulmv m A x m + A m m * x m)))).
    transitivity (b i - A i m / A m m * (mulmv m A x m + A m m * x m)); [|lra].
    rewrite <- H1. field; auto.
Qed.

Lemma swap_rows m (A : mat) (b x : vec) p : (p < S m)%nat ->
  (forall i, (i < S m)%nat -> mulmv (S m) A x i = b i) <->
  (forall i, (i < S m)%nat ->
     mulmv (S m) (fun i j => A (swap_ix p m i) j) x i = b (swap_ix p m i)).
Proof.
  intros Hp. split; intros H i Hi.
  - change (mulmv (S m) A x (swap_ix p m i) = b (swap_ix p m i)). apply H. apply swap_ix_lt; lia.
  - specialize (H (swap_ix p m i) (swap_ix_lt p m i (S m) Hp ltac:(lia) Hi)).
    rewrite swap_ix_invol in H. rewrite <- H. unfold mulmv.
    apply rsum_ext; intros j Hj. now rewrite swap_ix_invol.
Qed.

(** Soundness: a returned vector solves the system. *)
Lemma solve_sound n : forall A b x, solve n A b = Some x ->
  forall i, (i < n)%nat -> mulmv n A x i = b i.
Proof.
  induction n as [|m IH]; intros A b x Hs; [intros; lia|].
  cbn [solve] in Hs. destruct (find_pivot (S m) A m) as [p|] eqn:Hp; [|discriminate].
  apply find_pivot_some in Hp as [Hpm Hpiv].
  destruct (solve m _ _) as [y|] eqn:Hy in Hs; [|discriminate]. injection Hs as <-.
  apply (swap_rows m A b _ p Hpm).
  assert (Hpv : A (swap_ix p m m) m <> 0).
  { unfold swap_ix. destruct (Nat.eqb_spec m p) as [E|E].
    - rewrite <- E in Hpiv; auto.
    - now rewrite Nat.eqb_refl. }
  apply (elim_step m (fun i j => A (swap_ix p m i) j) (fun i => b (swap_ix p m i))); auto.
  split.
  - intros i Hi. specialize (IH _ _ _ Hy i Hi). cbv beta in IH. rewrite <- IH.
    apply mulmv_ext; auto. intros j Hj. now rewrite vupd_other by lia.
  - rewrite vupd_same. f_equal. f_equal. apply rsum_ext; intros j Hj. now rewrite vupd_other by lia.
Qed.

(** Uniqueness: if elimination succeeds then two solutions of the same system agree. *)
Lemma solve_unique n : forall A b x, solve n A b = Some x ->
  forall y, (forall i, (i < n)%nat -> mulmv n A y i = b i) -> forall i, (i < n)%nat -> y i = x i.
Proof.
  induction n as [|m IH]; intros A b x Hs y Hy; [intros; lia|].
  cbn [solve] in Hs. destruct (find_pivot (S m) A m) as [p|] eqn:Hp; [|discriminate].
  apply find_pivot_some in Hp as [Hpm Hpiv].
  destruct (solve m _ _) as [z|] eqn:Hz in Hs; [|discriminate]. injection Hs as <-.
  assert (Hpv : A (swap_ix p m m) m <> 0).
  { unfold swap_ix. destruct (Nat.eqb_spec m p) as [E|E].
    - rewrite <- E in Hpiv; auto.
    - now rewrite Nat.eqb_refl. }
  pose proof (proj1 (swap_rows m A b y p Hpm) Hy) as Hy'.
  pose proof (proj1 (elim_step m (fun i j => A (swap_ix p m i) j) (fun i => b (swap_ix p m i)) y Hpv) Hy') as Hy''.
  destruct Hy'' as [Hy1 Hy2].
  assert (Hlt : forall i, (i < m)%nat -> y i = z i) by (apply (IH _ _ _ Hz); auto).
  intros i Hi. destruct (Nat.eq_dec i m) as [->|Hne].
  - rewrite vupd_same, Hy2. f_equal. f_equal. apply rsum_ext; intros j Hj. now rewrite Hlt.
  - rewrite vupd_other by auto. apply Hlt; lia.
Qed.

(** Completeness: failure exhibits a non-zero vector in the kernel. *)
Lemma solve_none n : forall A b, solve n A b = None ->
  exists y, (exists i, (i < n)%nat /\ y i <> 0) /\ forall i, (i < n)%nat -> mulmv n A y i = 0.
Proof.
  induction n as [|m IH]; intros A b Hs; [discriminate|].
  cbn [solve] in Hs. destruct (find_pivot (S m) A m) as [p|] eqn:Hp.
  - apply find_pivot_some in Hp as [Hpm Hpiv].
    destruct (solve m _ _) as [z|] eqn:Hz in Hs; [discriminate|]. clear Hs.
    assert (Hpv : A (swap_ix p m m) m <> 0).
    { unfold swap_ix. destruct (Nat.eqb_spec m p) as [E|E].
      - rewrite <- E in Hpiv; auto.
      - now rewrite Nat.eqb_refl. }
    apply IH in Hz as (y & (i0 & Hi0 & Hnz) & Hker).
    exists (vupd y m ((0 - rsum m (fun j => A (swap_ix p m m) j * y j)) / A (swap_ix p m m) m)).
    split.
    + exists i0; split; [lia|]. now rewrite vupd_other by lia.
    + apply (swap_rows m A (fun _ => 0) _ p Hpm).
      apply (elim_step m (fun i j => A (swap_ix p m i) j) (fun _ => 0)); auto. split.
      * intros i Hi. rewrite Rmult_0_r, Rminus_0_r. rewrite <- (Hker i Hi).
        apply mulmv_ext; auto. intros j Hj. now rewrite vupd_other by lia.
      * rewrite vupd_same. f_equal. f_equal. apply rsum_ext; intros j Hj. now rewrite vupd_other by lia.
  - exists (vupd (fun _ => 0) m 1). split.
    + exists m; split; [lia|]. rewrite vupd_same; lra.
    + intros i Hi. apply rsum_0. intros j Hj. destruct (Nat.eq_dec j m) as [->|Hne].
      * rewrite (find_pivot_none _ _ _ Hp i Hi); lra.
      * rewrite vupd_other by auto; lra.
Qed.

(** Success or failure depends only on the matrix, not on the right-hand side. *)
Lemma solve_some_iff n A b :
  (exists x, solve n A b = Some x) <->
  (forall y, (forall i, (i < n)%nat -> mulmv n A y i = 0) -> forall i, (i < n)%nat -> y i = 0).
Proof.
  split.
  - intros [x Hx] y Hy i Hi.
    assert (Hs := solve_sound _ _ _ _ Hx).
    assert (E : (fun j => x j + y j) i = x i).
    { apply (solve_unique _ _ _ _ Hx (fun j => x j + y j)); auto. intros k Hk. rewrite mulmv_plus, Hs, Hy by auto. lra. }
    simpl in E; lra.
  - intros H. destruct (solve n A b) as [x|] eqn:E; [eauto|].
    apply solve_none in E as (y & (i & Hi & Hnz) & Hker). exfalso; apply Hnz; auto.
Qed.

Lemma solve_some_any n A b b' x : solve n A b = Some x -> exists x', solve n A b' = Some x'.
Proof.
  intros H. apply solve_some_iff. apply (solve_some_iff n A b). eauto.
Qed.

(** The result only depends on the leading block. *)
Lemma solve_ext_some n A B b c x :
  (forall i j, (i < n)%nat -> (j < n)%nat -> A i j = B i j) ->
  (forall i, (i < n)%nat -> b i = c i) ->
  solve n A b = Some x -> exists y, solve n B c = Some y /\ forall i, (i < n)%nat -> y i = x i.
Proof.
  intros HA Hb Hx.
  assert (HB : exists y, solve n B c = Some y).
  { apply solve_some_iff. intros y Hy. apply (proj1 (solve_some_iff n A b) (ex_intro _ x Hx)).
    intros i Hi. rewrite <- (Hy i Hi). apply mulmv_ext; auto. }
  destruct HB as [y Hy]. exists y; split; auto.
  intros i Hi. apply (solve_unique _ _ _ _ Hx); auto.
  intros k Hk. rewrite Hb by auto. rewrite <- (solve_sound _ _ _ _ Hy k Hk).
  apply mulmv_ext; auto.
Qed.

Lemma unit_sum n (f : vec) i : (i < n)%nat -> rsum n (fun j => unit_vec j i * f j) = f i.
Proof.
  intros Hi. rewrite (rsum_single n i) by (auto; intros j Hj Hne; unfold unit_vec;
    rewrite (proj2 (Nat.eqb_neq i j)) by auto; ring).
  unfold unit_vec. rewrite Nat.eqb_refl. ring.
Qed.

Lemma inv_right n A B : inv n A = Some B ->
  forall i j, (i < n)%nat -> (j < n)%nat -> rsum n (fun k => A i k * B k j) = unit_vec j i.
Proof.
  unfold inv. destruct (solve n A (fun _ => 0)) as [x0|] eqn:E0; [|discriminate].
  intros [= <-] i j Hi Hj.
  destruct (solve_some_any n A _ (unit_vec j) _ E0) as [x Ex]. rewrite Ex.
  exact (solve_sound n A _ x Ex i Hi).
Qed.

(** Applying the inverse solves the system. *)
Lemma inv_solves n A B : inv n A = Some B ->
  forall b i, (i < n)%nat -> mulmv n A (mulmv n B b) i = b i.
Proof.
  intros HB b i Hi. unfold mulmv.
  rewrite (rsum_ext n _ (fun k => rsum n (fun j => A i k * B k j * b j))).
  2: { intros k _. rewrite <- rsum_scal. apply rsum_ext. intros; ring. }
  rewrite rsum_swap.
  rewrite (rsum_ext n _ (fun j => unit_vec j i * b j)).
  - apply unit_sum; auto.
  - intros j Hj. rewrite rsum_scal_r. rewrite (inv_right n A B HB i j Hi Hj). reflexivity.
Qed.

Lemma inv_nonsing n A B : inv n A = Some B ->
  forall y, (forall i, (i < n)%nat -> mulmv n A y i = 0) -> forall i, (i < n)%nat -> y i = 0.
Proof.
  unfold inv. destruct (solve n A (fun _ => 0)) as [x0|] eqn:E0; [|discriminate]. intros _.
  apply (solve_some_iff n A (fun _ => 0)). eauto.
Qed.

Lemma inv_unique n A B : inv n A = Some B ->
  forall b y, (forall i, (i < n)%nat -> mulmv n A y i = b i) ->
  forall i, (i < n)%nat -> y i = mulmv n B b i.
Proof.
  intros HB b y Hy i Hi.
  assert (E : forall k, (k < n)%nat -> (fun j => y j + -1 * mulmv n B b j) k = 0).
  { apply (inv_nonsing n A B HB). intros k Hk.
    rewrite (mulmv_plus n A y (fun j => -1 * mulmv n B b j)), (mulmv_scal n A (-1)).
    rewrite Hy, (inv_solves n A B HB) by auto. ring. }
  specialize (E i Hi). cbn in E. lra.
Qed.

(** Inverse of a symmetric matrix is symmetric. *)
Lemma inv_sym n A B : inv n A = Some B ->
  (forall i j, (i < n)%nat -> (j < n)%nat -> A i j = A j i) ->
  forall i j, (i < n)%nat -> (j < n)%nat -> B i j = B j i.
Proof.
  intros HB HA i j Hi Hj.
  (* B i j = sum_k e_i k * B k j ; e_i = A B_i *)
  assert (E1 : B i j = rsum n (fun k => rsum n (fun l => A k l * B l i) * B k j)).
  { rewrite (rsum_ext n _ (fun k => unit_vec i k * B k j)).
    2: { intros k Hk. rewrite (inv_right n A B HB k i Hk Hi). reflexivity. }
    rewrite (rsum_single n i); auto.
    - unfold unit_vec. rewrite Nat.eqb_refl. ring.
    - intros k Hk Hne. unfold unit_vec. rewrite (proj2 (Nat.eqb_neq k i)) by auto. ring. }
  assert (E2 : B j i = rsum n (fun l => rsum n (fun k => A l k * B k j) * B l i)).
  { rewrite (rsum_ext n _ (fun k => unit_vec j k * B k i)).
    2: { intros k Hk. rewrite (inv_right n A B HB k j Hk Hj). reflexivity. }
    rewrite (rsum_single n j); auto.
    - unfold unit_vec. rewrite Nat.eqb_refl. ring.
    - intros k Hk Hne. unfold unit_vec. rewrite (proj2 (Nat.eqb_neq k j)) by auto. ring. }
  rewrite E1, E2.
  rewrite (rsum_ext n (fun k => rsum n (fun l => A k l * B l i) * B k j)
            (fun k => rsum n (fun l => A k l * B l i * B k j))).
  2: { intros k _. rewrite <- rsum_scal_r. reflexivity. }
  rewrite rsum_swap. apply rsum_ext. intros l Hl. rewrite <- rsum_scal_r.
  apply rsum_ext. intros k Hk. rewrite (HA k l) by auto. ring.
Qed.
