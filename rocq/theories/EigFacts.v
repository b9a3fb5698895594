(** Symmetric generalised eigensystems. *)
From Coquelicot Require Import Coquelicot.
From Verif Require Import Base BaseFacts Linalg LinalgFacts ModalModel ModalSpec FoundFacts3.
Open Scope R_scope.

Lemma dot_sum_l n A m (c : nat -> R) (x : nat -> vec) v :
  dot n A (fun i => rsum m (fun k => c k * x k i)) v = rsum m (fun k => c k * dot n A (x k) v).
Proof.
  unfold dot. rewrite (rsum_ext n _ (fun i => rsum m (fun k => c k * (rsum n (fun j => A i j * x k j) * v i)))).
  - rewrite rsum_swap. apply rsum_ext. intros k _. rewrite rsum_scal. reflexivity.
  - intros i _. rewrite (rsum_ext n _ (fun j => rsum m (fun k => c k * (A i j * x k j)))) by (intros j _; rewrite <- rsum_scal; apply rsum_ext; intros k _; ring).
    rewrite rsum_swap, <- rsum_scal_r. apply rsum_ext. intros k _. rewrite rsum_scal. ring.
Qed.
Lemma dot_ext n A u u' v v' : (forall i, (i < n)%nat -> u i = u' i) -> (forall i, (i < n)%nat -> v i = v' i) -> dot n A u v = dot n A u' v'.
Proof. intros H H'. unfold dot. apply rsum_ext. intros i Hi. rewrite H' by exact Hi. f_equal. apply rsum_ext. intros j Hj. rewrite H by exact Hj. reflexivity. Qed.
Lemma dot_sym n A u v : symmetric n A -> dot n A u v = dot n A v u.
Proof.
  intros S. unfold dot. rewrite (rsum_ext n _ (fun i => rsum n (fun j => A i j * u j * v i))) by (intros i _; rewrite rsum_scal_r; reflexivity).
  rewrite rsum_swap. apply rsum_ext. intros j Hj. rewrite <- rsum_scal_r. apply rsum_ext. intros i Hi. rewrite (S i j Hi Hj). ring.
Qed.
Lemma dot_sum_r n A m (c : nat -> R) (x : nat -> vec) v : symmetric n A ->
  dot n A v (fun i => rsum m (fun k => c k * x k i)) = rsum m (fun k => c k * dot n A v (x k)).
Proof. intros S. rewrite dot_sym by exact S. rewrite dot_sum_l. apply rsum_ext. intros k _. rewrite (dot_sym n A v (x k) S). reflexivity. Qed.

Section Eig.
Variables (n : nat) (A M : mat) (w : list R) (vs : list vec).
Hypothesis SA : symmetric n A.
Hypothesis SM : symmetric n M.
Hypothesis H : eigensystem n A M w vs.
Lemma eig_dot k v : (k < n)%nat -> dot n A (column vs k) v = nth k w 0 * dot n M (column vs k) v.
Proof. intros Hk. unfold dot. rewrite <- rsum_scal. apply rsum_ext. intros i Hi. rewrite (es_equation _ _ _ _ _ H k i Hk Hi). ring. Qed.
Lemma pick (y : nat -> R) l : (l < n)%nat -> rsum n (fun k => y k * dot n M (column vs k) (column vs l)) = y l.
Proof.
  intros Hl. rewrite (rsum_single n l); [|exact Hl|].
  - rewrite (es_normal _ _ _ _ _ H l l Hl Hl), Nat.eqb_refl. ring.
  - intros k Hk N. rewrite (es_normal _ _ _ _ _ H k l Hk Hl). destruct (Nat.eqb_spec k l); [contradiction|]. ring.
Qed.
Lemma expand u : exists c, (forall i, (i < n)%nat -> u i = rsum n (fun k => c k * column vs k i)) /\ forall l, (l < n)%nat -> c l = dot n M u (column vs l).
Proof.
  destruct (proj2 (solve_some_iff n (fun i k => column vs k i) u)) as [c Hc].
  { intros y Hy l Hl. rewrite <- (pick y l Hl). rewrite <- dot_sum_l. unfold dot. apply rsum_0. intros i Hi. rewrite (rsum_0 n); [ring|]. intros j Hj. specialize (Hy j Hj). unfold mulmv in Hy.
    rewrite (rsum_ext n _ (fun k => column vs k j * y k)) by (intros k _; ring). rewrite Hy. ring. }
  assert (E := solve_sound n _ _ _ Hc). exists c. assert (X : forall i, (i < n)%nat -> u i = rsum n (fun k => c k * column vs k i)).
  { intros i Hi. rewrite <- (E i Hi). unfold mulmv. apply rsum_ext. intros k _. ring. }
  split; [exact X|]. intros l Hl. rewrite (dot_ext n M u (fun i => rsum n (fun k => c k * column vs k i)) _ (column vs l) X) by reflexivity. rewrite dot_sum_l, (pick c l Hl). reflexivity.
Qed.
Lemma energies u c : (forall i, (i < n)%nat -> u i = rsum n (fun k => c k * column vs k i)) -> (forall l, (l < n)%nat -> c l = dot n M u (column vs l)) ->
  dot n A u u = rsum n (fun k => nth k w 0 * c k ^ 2) /\ dot n M u u = rsum n (fun k => c k ^ 2).
Proof.
  intros X C. split.
  - rewrite (dot_ext n A u (fun i => rsum n (fun k => c k * column vs k i)) u u X) by reflexivity. rewrite dot_sum_l. apply rsum_ext. intros k Hk. rewrite (eig_dot k u Hk), (dot_sym n M _ u SM), <- (C k Hk). ring.
  - rewrite (dot_ext n M u (fun i => rsum n (fun k => c k * column vs k i)) u u X) by reflexivity. rewrite dot_sum_l. apply rsum_ext. intros k Hk. rewrite (dot_sym n M _ u SM), <- (C k Hk). ring.
Qed.
Lemma rayleigh u j : (j < n)%nat -> (forall k, (k < j)%nat -> dot n M u (column vs k) = 0) -> nth j w 0 * dot n M u u <= dot n A u u.
Proof.
  intros Hj Hz. destruct (expand u) as (c & X & C). destruct (energies u c X C) as [-> ->]. rewrite <- rsum_scal. apply rsum_le. intros k Hk. destruct (Nat.ltb_spec k j) as [L|L].
  - rewrite (C k Hk), (Hz k L). lra.
  - assert (G := es_ascending _ _ _ _ _ H j k ltac:(lia)). assert (P := pow2_ge_0 (c k)). nra.
Qed.
Lemma spectrum u mu : nonzero n u -> (forall v, dot n A u v = mu * dot n M u v) -> exists k, (k < n)%nat /\ nth k w 0 = mu.
Proof.
  intros (i0 & Hi0 & Nz) E. destruct (expand u) as (c & X & C).
  assert (D : exists k, (k < n)%nat /\ c k <> 0).
  { destruct (Classical_Prop.classic (exists k, (k < n)%nat /\ c k <> 0)) as [Y|Y]; [exact Y|exfalso]. apply Nz. rewrite (X i0 Hi0). apply rsum_0. intros k Hk. destruct (Req_dec (c k) 0) as [->|Q]; [ring|]. exfalso. apply Y. eauto. }
  destruct D as (k & Hk & Ck). exists k. split; [exact Hk|]. assert (Q := E (column vs k)). rewrite (dot_sym n A u _ SA), (eig_dot k u Hk), (dot_sym n M _ u SM), <- (C k Hk) in Q. apply Rmult_eq_reg_r in Q; assumption.
Qed.
Lemma column_nonzero k : (k < n)%nat -> nonzero n (column vs k).
Proof.
  intros Hk. destruct (Classical_Prop.classic (nonzero n (column vs k))) as [Y|Y]; [exact Y|exfalso]. assert (E := es_normal _ _ _ _ _ H k k Hk Hk). rewrite Nat.eqb_refl in E. unfold dot in E. rewrite rsum_0 in E; [lra|]. intros i Hi.
  destruct (Req_dec (column vs k i) 0) as [->|Q]; [ring|]. exfalso. apply Y. exists i. auto.
Qed.
End Eig.
