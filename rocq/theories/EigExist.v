(** Every symmetric array and positive definite array have an eigensystem. *)
From Coquelicot Require Import Coquelicot.
From Verif Require Import Base BaseFacts Linalg LinalgFacts ModalModel ModalSpec FoundFacts3 EigFacts FreqFacts.
Open Scope R_scope.

Definition sub2 (A M : mat) (t : R) : mat := fun i j => A i j - t * M i j.
Lemma dot_add_l n A u v t w : dot n A (fun i => u i + t * v i) w = dot n A u w + t * dot n A v w.
Proof.
  unfold dot. rewrite <- rsum_scal, <- rsum_plus. apply rsum_ext. intros i _. rewrite (rsum_ext n _ (fun j => A i j * u j + t * (A i j * v j))) by (intros; ring). rewrite rsum_plus, rsum_scal. ring.
Qed.
Lemma dot_add_r n A u v t w : dot n A w (fun i => u i + t * v i) = dot n A w u + t * dot n A w v.
Proof. unfold dot. rewrite <- rsum_scal, <- rsum_plus. apply rsum_ext. intros i _. ring. Qed.
Lemma dot_sub2 n A M t u v : dot n (sub2 A M t) u v = dot n A u v - t * dot n M u v.
Proof.
  unfold dot, sub2. rewrite <- rsum_scal, <- rsum_minus. apply rsum_ext. intros i _. rewrite (rsum_ext n _ (fun j => A i j * u j - t * (M i j * u j))) by (intros; ring). rewrite rsum_minus, rsum_scal. ring.
Qed.
Lemma dot_unit n A u i : (i < n)%nat -> dot n A u (fun k => if Nat.eqb k i then 1 else 0) = rsum n (fun j => A i j * u j).
Proof. intros Hi. unfold dot. rewrite (rsum_single n i); [rewrite Nat.eqb_refl; ring|exact Hi|]. intros k _ Ne. destruct (Nat.eqb_spec k i); [contradiction|ring]. Qed.
Lemma dot_zero n A u v : (forall i, (i < n)%nat -> u i = 0) -> dot n A u v = 0.
Proof. intros H. unfold dot. apply rsum_0. intros i _. rewrite rsum_0; [ring|]. intros j Hj. rewrite (H j Hj). ring. Qed.
Lemma sub2_sym n A M t : symmetric n A -> symmetric n M -> symmetric n (sub2 A M t).
Proof. intros SA SM i j Hi Hj. unfold sub2. rewrite (SA i j Hi Hj), (SM i j Hi Hj). reflexivity. Qed.
Lemma nonzero_dec n u : nonzero n u \/ forall i, (i < n)%nat -> u i = 0.
Proof.
  destruct (Classical_Prop.classic (nonzero n u)) as [H|H]; [left; exact H|right]. intros i Hi. destruct (Req_dec (u i) 0) as [E|E]; [exact E|]. exfalso. apply H. exists i. auto.
Qed.
Lemma pd_nonneg n M u : positive_definite n M -> 0 <= dot n M u u.
Proof. intros P. destruct (nonzero_dec n u) as [H|H]; [left; apply P; exact H|]. rewrite dot_zero by exact H. lra. Qed.

Lemma cauchy n B : symmetric n B -> (forall u, 0 <= dot n B u u) -> forall u v, dot n B u v ^ 2 <= dot n B u u * dot n B v v.
Proof.
  intros S P u v. assert (Q : forall t, 0 <= dot n B u u + 2 * t * dot n B u v + t ^ 2 * dot n B v v).
  { intros t. assert (X := P (fun i => u i + t * v i)). rewrite dot_add_l, !dot_add_r, (dot_sym n B v u S) in X. lra. }
  assert (Pv := P v). destruct (Req_dec (dot n B v v) 0) as [Z|N].
  - rewrite Z. destruct (Req_dec (dot n B u v) 0) as [E|E]; [rewrite E; lra|exfalso]. assert (X := Q (- (dot n B u u + 1) / (2 * dot n B u v))). rewrite Z in X. replace (2 * (- (dot n B u u + 1) / (2 * dot n B u v)) * dot n B u v) with (- (dot n B u u + 1)) in X by (field; exact E). lra.
  - assert (X := Q (- dot n B u v / dot n B v v)). replace (dot n B u u + 2 * (- dot n B u v / dot n B v v) * dot n B u v + (- dot n B u v / dot n B v v) ^ 2 * dot n B v v) with ((dot n B u u * dot n B v v - dot n B u v ^ 2) / dot n B v v) in X by (field; exact N).
    assert (Y := Rmult_le_pos _ _ X Pv). replace ((dot n B u u * dot n B v v - dot n B u v ^ 2) / dot n B v v * dot n B v v) with (dot n B u u * dot n B v v - dot n B u v ^ 2) in Y by (field; exact N). lra.
Qed.
Definition size2 n (u : vec) : R := rsum n (fun i => u i ^ 2).
Lemma size2_nonneg n u : 0 <= size2 n u.
Proof. apply rsum_nonneg. intros i _. apply pow2_ge_0. Qed.
Lemma rsum_part n f i : (i < n)%nat -> (forall k, (k < n)%nat -> 0 <= f k) -> f i <= rsum n f.
Proof.
  intros Hi H.
  apply Rle_trans with (rsum n (fun k => if Nat.eqb k i then f i else 0)).
  - rewrite (rsum_single n i) by (exact Hi || (intros k _ Ne; destruct (Nat.eqb_spec k i); [contradiction|reflexivity])). rewrite Nat.eqb_refl. lra.
  - apply rsum_le. intros k Hk. destruct (Nat.eqb_spec k i); [subst; lra|apply H; exact Hk].
Qed.
Lemma bounded_form n A : exists C, 0 <= C /\ forall u, Rabs (dot n A u u) <= C * size2 n u.
Proof.
  exists (rsum n (fun i => rsum n (fun j => Rabs (A i j)))). split; [apply rsum_nonneg; intros; apply rsum_nonneg; intros; apply Rabs_pos|].
  intros u. assert (Ab : forall m f, Rabs (rsum m f) <= rsum m (fun i => Rabs (f i))).
  { intros m f. induction m as [|m IH]; cbn [rsum]; [rewrite Rabs_R0; lra|]. eapply Rle_trans; [apply Rabs_triang|]. lra. }
  unfold dot. eapply Rle_trans; [apply Ab|]. rewrite <- rsum_scal_r. apply rsum_le. intros i Hi. rewrite <- (rsum_scal_r n (u i)). eapply Rle_trans; [apply Ab|]. rewrite <- (rsum_scal_r n (size2 n u)). apply rsum_le. intros j Hj. rewrite !Rabs_mult, Rmult_assoc. apply Rmult_le_compat_l; [apply Rabs_pos|].
  assert (P1 := rsum_part n (fun i => u i ^ 2) i Hi (fun k _ => pow2_ge_0 (u k))). assert (P2 := rsum_part n (fun i => u i ^ 2) j Hj (fun k _ => pow2_ge_0 (u k))). fold (size2 n u) in P1, P2. cbv beta in P1, P2. rewrite <- (pow2_abs (u i)) in P1. rewrite <- (pow2_abs (u j)) in P2. assert (0 <= (Rabs (u i) - Rabs (u j)) ^ 2) by apply pow2_ge_0. nra.
Qed.
Lemma coercive n B : symmetric n B -> positive_definite n B -> exists C, 0 <= C /\ forall u, size2 n u <= C * dot n B u u.
Proof.
  intros S P. assert (X : forall k, (k < n)%nat -> exists x, forall i, (i < n)%nat -> mulmv n B x i = if Nat.eqb i k then 1 else 0).
  { intros k Hk. destruct (proj2 (solve_some_iff n B (fun i => if Nat.eqb i k then 1 else 0))) as [x Hx]; [|exists x; apply (solve_sound n _ _ _ Hx)].
    intros y Hy. destruct (nonzero_dec n y) as [Nz|Z]; [exfalso|exact Z]. assert (Q := P y Nz). unfold dot in Q. rewrite rsum_0 in Q; [lra|]. intros i Hi. specialize (Hy i Hi). unfold mulmv in Hy. rewrite Hy. ring. }
  assert (Y : exists C, 0 <= C /\ forall u, rsum n (fun i => u i ^ 2) <= C * dot n B u u); [|exact Y].
  assert (Z : forall m, (m <= n)%nat -> exists C, 0 <= C /\ forall u, rsum m (fun i => u i ^ 2) <= C * dot n B u u).
  { induction m as [|m IH]; intros Hm; [exists 0; split; [lra|]; intros u; cbn [rsum]; lra|]. destruct (IH ltac:(lia)) as (C & HC & H). destruct (X m ltac:(lia)) as (x & Hx). exists (C + dot n B x x). split; [assert (Q := pd_nonneg n B x P); lra|].
    intros u. cbn [rsum]. specialize (H u). assert (E : u m = dot n B x u).
    { unfold dot. rewrite (rsum_single n m); [specialize (Hx m ltac:(lia)); unfold mulmv in Hx; rewrite Hx, Nat.eqb_refl; ring|lia|]. intros i Hi Ne. specialize (Hx i Hi). unfold mulmv in Hx. rewrite Hx. destruct (Nat.eqb_spec i m); [contradiction|ring]. }
    assert (Q := cauchy n B S (fun w => pd_nonneg n B w P) x u). rewrite <- E in Q. lra. }
  apply (Z n). lia.
Qed.

Section Pair.
Variables (n : nat) (A M : mat).
Hypothesis SA : symmetric n A.
Hypothesis SM : symmetric n M.
Hypothesis PM : positive_definite n M.
Hypothesis Hn : (1 <= n)%nat.
Lemma lowest : exists la v, nonzero n v /\ (forall i, (i < n)%nat -> rsum n (fun j => A i j * v j) = la * rsum n (fun j => M i j * v j)) /\ forall u, la * dot n M u u <= dot n A u u.
Proof.
  destruct (coercive n M SM PM) as (C & HC & Co). destruct (bounded_form n A) as (Ca & HCa & Ba). destruct (bounded_form n M) as (Cm & HCm & Bm).
  set (E := fun la => forall u, la * dot n M u u <= dot n A u u).
  assert (E1 : E (- (Ca * C))). { intros u. assert (Q := Ba u). assert (Q2 := Co u). assert (Q3 := Rle_abs (- dot n A u u)). rewrite Rabs_Ropp in Q3. assert (Ca * size2 n u <= Ca * (C * dot n M u u)) by (apply Rmult_le_compat_l; assumption). lra. }
  set (e0 := fun k : nat => if Nat.eqb k 0 then 1 else 0). assert (N0 : 0 < dot n M e0 e0) by (apply PM; exists 0%nat; split; [lia|unfold e0; cbn; lra]).
  assert (Bd : bound E). { exists (dot n A e0 e0 / dot n M e0 e0). intros la H. apply (Rmult_le_reg_r (dot n M e0 e0)); [exact N0|]. specialize (H e0). replace (dot n A e0 e0 / dot n M e0 e0 * dot n M e0 e0) with (dot n A e0 e0) by (field; lra). exact H. }
  destruct (completeness E Bd (ex_intro _ _ E1)) as (la & Ub & Lub).
  assert (El : E la).
  { intros u. destruct (nonzero_dec n u) as [Nz|Z]; [|rewrite !dot_zero by exact Z; lra]. assert (Pu := PM u Nz). assert (Q : la <= dot n A u u / dot n M u u).
    { apply Lub. intros x Hx. specialize (Hx u). apply (Rmult_le_reg_r (dot n M u u)); [exact Pu|]. replace (dot n A u u / dot n M u u * dot n M u u) with (dot n A u u) by (field; lra). exact Hx. }
    apply (Rmult_le_compat_r (dot n M u u)) in Q; [|lra]. replace (dot n A u u / dot n M u u * dot n M u u) with (dot n A u u) in Q by (field; lra). exact Q. }
  set (B := sub2 A M la). assert (SB : symmetric n B) by (apply sub2_sym; assumption). assert (PB : forall u, 0 <= dot n B u u) by (intros u; unfold B; rewrite dot_sub2; specialize (El u); lra).
  assert (D : exists v, nonzero n v /\ dot n B v v = 0).
  { apply Classical_Prop.NNPP. intros Nx. assert (PD : positive_definite n B). { intros u Nz. destruct (PB u) as [L|Z]; [exact L|]. exfalso. apply Nx. exists u. auto. }
    destruct (coercive n B SB PD) as (Cb & HCb & Cob). set (ep := / (Cm * Cb + 1)). assert (Pe : 0 < Cm * Cb + 1) by nra. assert (Pep : 0 < ep) by (apply Rinv_0_lt_compat; exact Pe).
    assert (Ee : E (la + ep)).
    { intros u. assert (Q1 := Cob u). assert (Q2 := Bm u). assert (Q3 := Rle_abs (dot n M u u)). assert (Q4 := PB u). assert (Q5 : dot n B u u = dot n A u u - la * dot n M u u) by (unfold B; apply dot_sub2).
      assert (Q6 : Cm * size2 n u <= Cm * (Cb * dot n B u u)) by (apply Rmult_le_compat_l; assumption). assert (Q7 : dot n M u u <= (Cm * Cb + 1) * dot n B u u) by lra.
      apply (Rmult_le_compat_l ep) in Q7; [|lra]. rewrite <- Rmult_assoc in Q7. unfold ep in Q7 at 2. rewrite Rinv_l in Q7 by lra. lra. }
    specialize (Ub _ Ee). lra. }
  destruct D as (v & Nz & Zv). exists la, v. split; [exact Nz|]. split; [|exact El]. intros i Hi.
  assert (Q := cauchy n B SB PB v (fun k => if Nat.eqb k i then 1 else 0)). rewrite Zv, Rmult_0_l, dot_unit in Q by exact Hi. assert (Z : rsum n (fun j => B i j * v j) = 0) by (assert (X := pow2_ge_0 (rsum n (fun j => B i j * v j))); nra).
  unfold B, sub2 in Z. rewrite (rsum_ext n _ (fun j => A i j * v j - la * (M i j * v j))) in Z by (intros; ring). rewrite rsum_minus, rsum_scal in Z. lra.
Qed.
End Pair.

(** [k] of the eigenvectors, lowest first. *)
Record started (n : nat) (A M : mat) (k : nat) (la : nat -> R) (v : nat -> vec) : Prop := {
  st_equation : forall l i, (l < k)%nat -> (i < n)%nat -> rsum n (fun j => A i j * v l j) = la l * rsum n (fun j => M i j * v l j);
  st_normal : forall l p, (l < k)%nat -> (p < k)%nat -> dot n M (v l) (v p) = if Nat.eqb l p then 1 else 0;
  st_lowest : forall l u, (l < k)%nat -> (forall p, (p < l)%nat -> dot n M (v p) u = 0) -> la l * dot n M u u <= dot n A u u }.

Section Deflate.
Variables (n : nat) (A M : mat).
Hypothesis SA : symmetric n A.
Hypothesis SM : symmetric n M.
Hypothesis PM : positive_definite n M.
Definition raised (k : nat) (tau : R) (la : nat -> R) (v : nat -> vec) : mat := fun i j =>
  A i j + rsum k (fun l => (tau - la l) * rsum n (fun p => M i p * v l p) * rsum n (fun p => M j p * v l p)).
Lemma raised_row k tau la v u i : rsum n (fun j => raised k tau la v i j * u j) = rsum n (fun j => A i j * u j) + rsum k (fun l => (tau - la l) * rsum n (fun p => M i p * v l p) * dot n M (v l) u).
Proof.
  unfold raised. rewrite (rsum_ext n _ (fun j => A i j * u j + rsum k (fun l => (tau - la l) * rsum n (fun p => M i p * v l p) * (rsum n (fun p => M j p * v l p) * u j)))).
  - rewrite rsum_plus. f_equal. rewrite rsum_swap. apply rsum_ext. intros l _. rewrite rsum_scal. reflexivity.
  - intros j _. rewrite Rmult_plus_distr_r. f_equal. rewrite <- rsum_scal_r. apply rsum_ext. intros l _. ring.
Qed.
Lemma raised_dot k tau la v u w : dot n (raised k tau la v) u w = dot n A u w + rsum k (fun l => (tau - la l) * dot n M (v l) u * dot n M (v l) w).
Proof.
  unfold dot at 1. rewrite (rsum_ext n _ (fun i => rsum n (fun j => A i j * u j) * w i + rsum k (fun l => (tau - la l) * dot n M (v l) u * (rsum n (fun p => M i p * v l p) * w i)))).
  - rewrite rsum_plus. f_equal. rewrite rsum_swap. apply rsum_ext. intros l _. rewrite rsum_scal. reflexivity.
  - intros i _. rewrite raised_row, Rmult_plus_distr_r. f_equal. rewrite <- rsum_scal_r. apply rsum_ext. intros l _. ring.
Qed.
Lemma raised_sym k tau la v : symmetric n (raised k tau la v).
Proof. intros i j Hi Hj. unfold raised. rewrite (SA i j Hi Hj). f_equal. apply rsum_ext. intros l _. ring. Qed.
Lemma above k (la : nat -> R) x : exists t, x < t /\ forall l, (l < k)%nat -> la l < t.
Proof. induction k as [|k (t & H1 & H2)]; [exists (x + 1); split; [lra|intros; lia]|]. exists (Rmax t (la k + 1)). split; [assert (Q := Rmax_l t (la k + 1)); lra|]. intros l Hl. destruct (Nat.eq_dec l k) as [->|N]; [assert (Q := Rmax_r t (la k + 1)); lra|]. assert (Q := Rmax_l t (la k + 1)). specialize (H2 l ltac:(lia)). lra. Qed.
Lemma dot_scale c u w : dot n M (fun i => c * u i) w = c * dot n M u w.
Proof. unfold dot. rewrite <- rsum_scal. apply rsum_ext. intros i _. rewrite (rsum_ext n _ (fun j => c * (M i j * u j))) by (intros; ring). rewrite rsum_scal. ring. Qed.
Lemma step k la v : (k < n)%nat -> started n A M k la v -> exists la' v', started n A M (S k) la' v'.
Proof.
  intros Hk S.
  (* a direction orthogonal to those found *)
  assert (W : exists w, nonzero n w /\ forall l, (l < k)%nat -> dot n M (v l) w = 0).
  { destruct (fewer_equations k (fun l i => rsum n (fun p => M i p * v l p))) as (c & (i0 & Hi0 & Ni0) & Hc). exists (fun i => if Nat.leb i k then c i else 0). split; [exists i0; split; [lia|]; destruct (Nat.leb_spec i0 k); [exact Ni0|lia]|].
    intros l Hl. unfold dot. replace n with (Datatypes.S k + (n - Datatypes.S k))%nat at 1 by lia. rewrite rsum_split. rewrite (rsum_0 (n - Datatypes.S k)).
    - rewrite Rplus_0_r. etransitivity; [|exact (Hc l Hl)]. apply rsum_ext. intros i Hi. destruct (Nat.leb_spec i k); [reflexivity|lia].
    - intros i _. destruct (Nat.leb_spec (Datatypes.S k + i) k); [lia|ring]. }
  destruct W as (w & Nw & Ow). assert (Pw := PM w Nw).
  destruct (above k la (dot n A w w / dot n M w w)) as (tau & T1 & T2).
  destruct (lowest n (raised k tau la v) M (raised_sym k tau la v) SM PM ltac:(lia)) as (mu & x & Nx & Ex & Lx).
  assert (Lo : mu < tau).
  { specialize (Lx w). rewrite raised_dot, rsum_0 in Lx by (intros l Hl; rewrite (Ow l Hl); ring). apply Rle_lt_trans with (dot n A w w / dot n M w w); [|exact T1]. apply (Rmult_le_reg_r (dot n M w w)); [exact Pw|]. replace (dot n A w w / dot n M w w * dot n M w w) with (dot n A w w) by (field; lra). lra. }
  assert (Dx : forall u, dot n (raised k tau la v) x u = mu * dot n M x u).
  { intros u. unfold dot. rewrite <- rsum_scal. apply rsum_ext. intros i Hi. rewrite (Ex i Hi). ring. }
  assert (Dv : forall l u, (l < k)%nat -> dot n A (v l) u = la l * dot n M (v l) u).
  { intros l u Hl. unfold dot. rewrite <- rsum_scal. apply rsum_ext. intros i Hi. rewrite (st_equation _ _ _ _ _ _ S l i Hl Hi). ring. }
  assert (Ox : forall l, (l < k)%nat -> dot n M (v l) x = 0).
  { intros l Hl. assert (Q := Dx (v l)). rewrite dot_sym in Q by apply raised_sym. rewrite raised_dot, (Dv l x Hl) in Q. rewrite (rsum_single k l) in Q; [|exact Hl|].
    - rewrite (st_normal _ _ _ _ _ _ S l l Hl Hl), Nat.eqb_refl, (dot_sym n M x (v l) SM) in Q. apply (Rmult_eq_reg_l (tau - mu)); [lra|lra].
    - intros p Hp Ne. rewrite (st_normal _ _ _ _ _ _ S p l Hp Hl). destruct (Nat.eqb_spec p l); [contradiction|ring]. }
  assert (Px := PM x Nx). set (s := sqrt (dot n M x x)). assert (Ps : 0 < s) by (apply sqrt_lt_R0; exact Px). assert (Ss : s * s = dot n M x x) by (apply sqrt_sqrt; lra).
  set (y := fun i => / s * x i). set (la' := fun l => if Nat.eqb l k then mu else la l). set (v' := fun l => if Nat.eqb l k then y else v l).
  assert (Lk : la' k = mu) by (unfold la'; rewrite Nat.eqb_refl; reflexivity). assert (Vk : v' k = y) by (unfold v'; rewrite Nat.eqb_refl; reflexivity).
  assert (Ll : forall l, (l < k)%nat -> la' l = la l) by (intros l Hl; unfold la'; destruct (Nat.eqb_spec l k); [lia|reflexivity]). assert (Vl : forall l, (l < k)%nat -> v' l = v l) by (intros l Hl; unfold v'; destruct (Nat.eqb_spec l k); [lia|reflexivity]).
  assert (Ny : forall l, (l < k)%nat -> dot n M y (v l) = 0) by (intros l Hl; unfold y; rewrite dot_scale, dot_sym, (Ox l Hl) by exact SM; ring).
  exists la', v'. split.
  - intros l i Hl Hi. destruct (Nat.eq_dec l k) as [->|N]; [|rewrite (Ll l ltac:(lia)), (Vl l ltac:(lia)); apply S; [lia|exact Hi]]. rewrite Lk, Vk. unfold y. rewrite (rsum_ext n _ (fun j => / s * (A i j * x j))) by (intros; ring). rewrite (rsum_ext n (fun j => M i j * (/ s * x j)) (fun j => / s * (M i j * x j))) by (intros; ring). rewrite !rsum_scal.
    assert (Q := Ex i Hi). rewrite raised_row, (rsum_0 k) in Q by (intros l Hl'; rewrite (Ox l Hl'); ring). rewrite Rplus_0_r in Q. rewrite Q. ring.
  - intros l p Hl Hp. destruct (Nat.eq_dec l k) as [->|N]; destruct (Nat.eq_dec p k) as [->|N'].
    + rewrite Vk, Nat.eqb_refl. unfold y. rewrite dot_scale, dot_sym, dot_scale, <- Ss by exact SM. field. lra.
    + rewrite Vk, (Vl p ltac:(lia)). rewrite (Ny p ltac:(lia)). destruct (Nat.eqb_spec k p); [congruence|reflexivity].
    + rewrite Vk, (Vl l ltac:(lia)). rewrite dot_sym by exact SM. rewrite (Ny l ltac:(lia)). destruct (Nat.eqb_spec l k); [congruence|reflexivity].
    + rewrite (Vl l ltac:(lia)), (Vl p ltac:(lia)). apply S; lia.
  - intros l u Hl Hu. destruct (Nat.eq_dec l k) as [->|N].
    + rewrite Lk. specialize (Lx u). rewrite raised_dot, rsum_0 in Lx; [lra|]. intros p Hp. specialize (Hu p Hp). rewrite (Vl p Hp) in Hu. rewrite Hu. ring.
    + rewrite (Ll l ltac:(lia)). apply (st_lowest _ _ _ _ _ _ S); [lia|]. intros p Hp. rewrite <- (Vl p ltac:(lia)). apply Hu. exact Hp.
Qed.
Lemma all_steps k : (k <= n)%nat -> exists la v, started n A M k la v.
Proof. induction k as [|k IH]; intros Hk; [exists (fun _ => 0), (fun _ _ => 0); split; intros; lia|]. destruct (IH ltac:(lia)) as (la & v & S). apply (step k la v ltac:(lia) S). Qed.
Lemma eigensystem_exists : exists w vs, eigensystem n A M w vs.
Proof.
  destruct (all_steps n (le_n n)) as (la & v & S). exists (map la (seq 0 n)), (map v (seq 0 n)).
  assert (Nl : forall k, (k < n)%nat -> nth k (map la (seq 0 n)) 0 = la k). { intros k Hk. rewrite (nth_indep _ 0 (la 0%nat)) by (rewrite map_length, seq_length; exact Hk). rewrite map_nth, seq_nth by exact Hk. reflexivity. }
  assert (Nv : forall k, (k < n)%nat -> column (map v (seq 0 n)) k = v k). { intros k Hk. unfold column. rewrite (nth_indep _ _ (v 0%nat)) by (rewrite map_length, seq_length; exact Hk). rewrite map_nth, seq_nth by exact Hk. reflexivity. }
  split.
  - rewrite map_length, seq_length. reflexivity.
  - rewrite map_length, seq_length. reflexivity.
  - intros k l Hkl. rewrite !Nl by lia. destruct (Nat.eq_dec k l) as [->|Ne]; [lra|]. assert (Q := st_lowest _ _ _ _ _ _ S k (v l) ltac:(lia)). rewrite (st_normal _ _ _ _ _ _ S l l), Nat.eqb_refl in Q by lia.
    assert (E : dot n A (v l) (v l) = la l * dot n M (v l) (v l)). { unfold dot. rewrite <- rsum_scal. apply rsum_ext. intros i Hi. rewrite (st_equation _ _ _ _ _ _ S l i) by lia. ring. }
    rewrite E, (st_normal _ _ _ _ _ _ S l l), Nat.eqb_refl in Q by lia. enough (la k * 1 <= la l * 1) by lra. apply Q. intros p Hp. rewrite (st_normal _ _ _ _ _ _ S p l) by lia. destruct (Nat.eqb_spec p l); [lia|reflexivity].
  - intros k i Hk Hi. rewrite Nl, Nv by exact Hk. apply S; assumption.
  - intros k l Hk Hl. rewrite !Nv by assumption. apply S; assumption.
Qed.
End Deflate.

(** A routine that answers for one given pair of arrays. *)
Definition same_array (n : nat) (A B : mat) : bool := forallb (fun i => forallb (fun j => Reqb (A i j) (B i j)) (seq 0 n)) (seq 0 n).
Lemma same_array_iff n A B : same_array n A B = true <-> forall i j, (i < n)%nat -> (j < n)%nat -> A i j = B i j.
Proof.
  unfold same_array. rewrite forallb_forall. split.
  - intros H i j Hi Hj. specialize (H i ltac:(apply in_seq; lia)). rewrite forallb_forall in H. specialize (H j ltac:(apply in_seq; lia)). destruct (Reqb_spec (A i j) (B i j)); [assumption|discriminate].
  - intros H i Hi. apply in_seq in Hi. rewrite forallb_forall. intros j Hj. apply in_seq in Hj. rewrite (H i j ltac:(lia) ltac:(lia)). destruct (Reqb_spec (B i j) (B i j)); [reflexivity|congruence].
Qed.
Definition eigh_for (n0 : nat) (A0 M0 : mat) (w : list R) (vs : list vec) (n : nat) (A M : mat) : result (list R * list vec) :=
  if (Nat.eqb n n0 && same_array n A A0 && same_array n M M0)%bool then Ok (w, vs) else Err LinAlgError.
Lemma eigh_for_sound n A M w vs : eigensystem n A M w vs -> eigh_sound (eigh_for n A M w vs) /\ eigh_for n A M w vs n A M = Ok (w, vs).
Proof.
  intros H. split.
  - intros n' A' M' w' vs' E _ _ _. unfold eigh_for in E. destruct (Nat.eqb_spec n' n) as [->|]; [|discriminate]. cbn [andb] in E. destruct (same_array n A' A) eqn:EA; [|discriminate]. destruct (same_array n M' M) eqn:EM; [|discriminate]. cbn [andb] in E. injection E as <- <-.
    rewrite same_array_iff in EA, EM. destruct H as [H1 H2 H3 H4 H5]. split; try assumption.
    + intros k i Hk Hi. rewrite (rsum_ext n _ (fun j => A i j * column vs k j)) by (intros j Hj; rewrite (EA i j Hi Hj); reflexivity). rewrite (rsum_ext n (fun j => M' i j * _) (fun j => M i j * column vs k j)) by (intros j Hj; rewrite (EM i j Hi Hj); reflexivity). apply H4; assumption.
    + intros k l Hk Hl. rewrite <- (H5 k l Hk Hl). unfold dot. apply rsum_ext. intros i Hi. f_equal. apply rsum_ext. intros j Hj. rewrite (EM i j Hi Hj). reflexivity.
  - unfold eigh_for. rewrite Nat.eqb_refl, (proj2 (same_array_iff n A A)), (proj2 (same_array_iff n M M)) by reflexivity. reflexivity.
Qed.
