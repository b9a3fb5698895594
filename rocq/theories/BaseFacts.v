(** Lemmas about the shared vocabulary. *)
From Verif Require Import Base.
From Coq Require Import Permutation.

Lemma Rltb_true x y : Rltb x y = true <-> x < y.
Proof. unfold Rltb; destruct (Rlt_dec x y); split; intros; auto; discriminate || contradiction. Qed.
Lemma Rltb_false x y : Rltb x y = false <-> y <= x.
Proof. unfold Rltb; destruct (Rlt_dec x y); split; intros; auto; try discriminate; lra. Qed.
Lemma Rleb_true x y : Rleb x y = true <-> x <= y.
Proof. unfold Rleb; destruct (Rle_dec x y); split; intros; auto; discriminate || contradiction. Qed.
Lemma Rleb_false x y : Rleb x y = false <-> y < x.
Proof. unfold Rleb; destruct (Rle_dec x y); split; intros; auto; try discriminate; lra. Qed.
Lemma Reqb_true x y : Reqb x y = true <-> x = y.
Proof. unfold Reqb; destruct (Req_EM_T x y); split; intros; auto; discriminate || contradiction. Qed.
Lemma Reqb_false x y : Reqb x y = false <-> x <> y.
Proof. unfold Reqb; destruct (Req_EM_T x y); split; intros; auto; discriminate || contradiction. Qed.

(** Case split on a real comparison occurring in the goal or hypotheses. *)
Ltac rcase x y := destruct (Rltb x y) eqn:?;
  [ match goal with H : Rltb x y = true |- _ => apply Rltb_true in H end
  | match goal with H : Rltb x y = false |- _ => apply Rltb_false in H end ].
Ltac rleb x y := destruct (Rleb x y) eqn:?;
  [ match goal with H : Rleb x y = true |- _ => apply Rleb_true in H end
  | match goal with H : Rleb x y = false |- _ => apply Rleb_false in H end ].
Ltac reqb x y := destruct (Reqb x y) eqn:?;
  [ match goal with H : Reqb x y = true |- _ => apply Reqb_true in H end
  | match goal with H : Reqb x y = false |- _ => apply Reqb_false in H end ].

Lemma rbind_ok {A B} (x : result A) (f : A -> result B) b :
  rbind x f = Ok b -> exists a, x = Ok a /\ f a = Ok b.
Proof. destruct x; simpl; intros H; [eauto | discriminate]. Qed.

Lemma get_ok {A} (l : list A) i a : get l i = Ok a <-> nth_error l i = Some a.
Proof. unfold get; destruct (nth_error l i); split; intros H; congruence. Qed.

Lemma get_lt {A} (l : list A) i : (i < length l)%nat -> exists a, get l i = Ok a.
Proof.
  intros H. unfold get. destruct (nth_error l i) eqn:E; eauto.
  apply nth_error_None in E; lia.
Qed.

Lemma get_nth {A} (l : list A) i a d : get l i = Ok a -> nth i l d = a.
Proof. intros H; apply get_ok in H; now apply nth_error_nth. Qed.

Lemma mapM_ok {A B} (f : A -> result B) l bs :
  mapM f l = Ok bs -> Forall2 (fun a b => f a = Ok b) l bs.
Proof.
  revert bs; induction l as [|a t IH]; simpl; intros bs H.
  - injection H as <-; constructor.
  - apply rbind_ok in H as (b & Hb & H). apply rbind_ok in H as (bs' & Hbs & H).
    injection H as <-. constructor; auto.
Qed.

Lemma mapM_complete {A B} (f : A -> result B) l bs :
  Forall2 (fun a b => f a = Ok b) l bs -> mapM f l = Ok bs.
Proof. induction 1; simpl; auto. rewrite H; simpl; rewrite IHForall2; reflexivity. Qed.

Lemma mapM_length {A B} (f : A -> result B) l bs : mapM f l = Ok bs -> length bs = length l.
Proof. intros H; apply mapM_ok in H; induction H; simpl; auto. Qed.

Lemma mapM_app {A B} (f : A -> result B) l1 l2 :
  mapM f (l1 ++ l2) = do b1 <- mapM f l1; do b2 <- mapM f l2; Ok (b1 ++ b2).
Proof.
  induction l1 as [|a t IH]; simpl.
  - destruct (mapM f l2); reflexivity.
  - destruct (f a); simpl; auto. rewrite IH.
    destruct (mapM f t); simpl; auto. destruct (mapM f l2); reflexivity.
Qed.

Lemma mapM_ext {A B} (f g : A -> result B) l :
  (forall a, In a l -> f a = g a) -> mapM f l = mapM g l.
Proof.
  induction l as [|a t IH]; simpl; intros H; auto.
  rewrite H by now left. rewrite IH; auto.
Qed.

Lemma foldM_app {A S} (f : S -> A -> result S) l1 l2 s :
  foldM f (l1 ++ l2) s = do s' <- foldM f l1 s; foldM f l2 s'.
Proof.
  revert s; induction l1 as [|a t IH]; simpl; intros s; auto.
  destruct (f s a); simpl; auto.
Qed.

(** ** Finite sums *)
Lemma rsum_ext n f g : (forall i, (i < n)%nat -> f i = g i) -> rsum n f = rsum n g.
Proof.
  induction n as [|n IH]; simpl; intros H; auto.
  rewrite IH by (intros; apply H; lia). rewrite H by lia. reflexivity.
Qed.
Lemma rsum_0 n f : (forall i, (i < n)%nat -> f i = 0) -> rsum n f = 0.
Proof.
  induction n as [|n IH]; simpl; intros H; auto.
  rewrite IH by (intros; apply H; lia). rewrite H by lia. lra.
Qed.
Lemma rsum_plus n f g : rsum n (fun i => f i + g i) = rsum n f + rsum n g.
Proof. induction n as [|n IH]; simpl; [lra | rewrite IH; lra]. Qed.
Lemma rsum_minus n f g : rsum n (fun i => f i - g i) = rsum n f - rsum n g.
Proof. induction n as [|n IH]; simpl; [lra | rewrite IH; lra]. Qed.
Lemma rsum_opp n f : rsum n (fun i => - f i) = - rsum n f.
Proof. induction n as [|n IH]; simpl; [lra | rewrite IH; lra]. Qed.
Lemma rsum_scal n c f : rsum n (fun i => c * f i) = c * rsum n f.
Proof. induction n as [|n IH]; simpl; [lra | rewrite IH; lra]. Qed.
Lemma rsum_scal_r n c f : rsum n (fun i => f i * c) = rsum n f * c.
Proof. induction n as [|n IH]; simpl; [lra | rewrite IH; lra]. Qed.
Lemma rsum_swap n m (f : nat -> nat -> R) :
  rsum n (fun i => rsum m (fun j => f i j)) = rsum m (fun j => rsum n (fun i => f i j)).
Proof.
  induction n as [|n IH]; simpl.
  - symmetry; apply rsum_0; auto.
  - rewrite IH. rewrite <- rsum_plus. reflexivity.
Qed.
Lemma rsum_single n i f : (i < n)%nat -> (forall j, (j < n)%nat -> j <> i -> f j = 0) ->
  rsum n f = f i.
Proof.
  induction n as [|n IH]; intros Hi H; [lia|]. simpl.
  destruct (Nat.eq_dec i n) as [->|Hne].
  - rewrite rsum_0; [lra|]. intros j Hj; apply H; lia.
  - rewrite IH by (try lia; intros; apply H; lia). rewrite (H n) by lia. lra.
Qed.
Lemma rsum_split n m f : rsum (n + m) f = rsum n f + rsum m (fun i => f (n + i)%nat).
Proof.
  induction m as [|m IH].
  - rewrite Nat.add_0_r; simpl; lra.
  - rewrite Nat.add_succ_r; simpl; rewrite IH; lra.
Qed.
Lemma rsum_S_first n f : rsum (S n) f = f 0%nat + rsum n (fun i => f (S i)).
Proof. change (S n) with (1 + n)%nat. rewrite rsum_split; simpl; lra. Qed.
Lemma rsum_le n f g : (forall i, (i < n)%nat -> f i <= g i) -> rsum n f <= rsum n g.
Proof.
  induction n as [|n IH]; simpl; intros H; [lra|].
  assert (H1 := H n ltac:(lia)). assert (rsum n f <= rsum n g) by (apply IH; intros; apply H; lia). lra.
Qed.
Lemma rsum_nonneg n f : (forall i, (i < n)%nat -> 0 <= f i) -> 0 <= rsum n f.
Proof. intros H. rewrite <- (rsum_0 n (fun _ => 0)); auto. now apply rsum_le. Qed.
Lemma rsum_nonneg_0 n f : (forall i, (i < n)%nat -> 0 <= f i) -> rsum n f = 0 ->
  forall i, (i < n)%nat -> f i = 0.
Proof.
  induction n as [|n IH]; intros H H0 i Hi; [lia|]. simpl in H0.
  assert (0 <= rsum n f) by (apply rsum_nonneg; intros; apply H; lia).
  assert (0 <= f n) by (apply H; lia).
  destruct (Nat.eq_dec i n) as [->|Hne]; [lra|]. apply IH; try lia; [intros; apply H; lia | lra].
Qed.
Lemma rsum_const n c : rsum n (fun _ => c) = INR n * c.
Proof. induction n as [|n IH]; [simpl; lra|]. rewrite S_INR; simpl. rewrite IH; lra. Qed.

(** Sum over pairs: [2n] terms as [n] pairs. *)
Lemma rsum_pairs n f : rsum (2 * n) f = rsum n (fun i => f (2*i)%nat + f (2*i+1)%nat).
Proof.
  induction n as [|n IH]; [reflexivity|].
  replace (2 * S n)%nat with (S (S (2 * n))) by lia. cbn [rsum]. rewrite IH.
  replace (2 * n + 1)%nat with (S (2 * n)) by lia. lra.
Qed.

Lemma lsum_app a b : lsum (a ++ b) = lsum a + lsum b.
Proof. induction a as [|x a IH]; simpl; [lra | rewrite IH; lra]. Qed.
Lemma lsum_cons x a : lsum (x :: a) = x + lsum a.
Proof. reflexivity. Qed.
Lemma lsum_scal c l : lsum (map (Rmult c) l) = c * lsum l.
Proof. induction l as [|x l IH]; simpl; [lra | rewrite IH; lra]. Qed.
Lemma lsum_map_scal {A} c (f : A -> R) l : lsum (map (fun x => c * f x) l) = c * lsum (map f l).
Proof. induction l as [|x l IH]; simpl; [lra | rewrite IH; lra]. Qed.
Lemma lsum_map_plus {A} (f g : A -> R) l :
  lsum (map (fun x => f x + g x) l) = lsum (map f l) + lsum (map g l).
Proof. induction l as [|x l IH]; simpl; [lra | rewrite IH; lra]. Qed.
Lemma lsum_rev l : lsum (rev l) = lsum l.
Proof. induction l as [|x l IH]; simpl; [reflexivity|]. rewrite lsum_app, IH; simpl; lra. Qed.
Lemma lsum_seq n f : lsum (map f (seq 0 n)) = rsum n f.
Proof.
  induction n as [|n IH]; [reflexivity|].
  rewrite seq_S, map_app, lsum_app, IH; simpl; lra.
Qed.
Lemma lsum_perm a b : Permutation.Permutation a b -> lsum a = lsum b.
Proof. induction 1; simpl; lra. Qed.

Lemma mulmv_ext n A B x y i :
  (forall j, (j < n)%nat -> A i j = B i j) -> (forall j, (j < n)%nat -> x j = y j) ->
  mulmv n A x i = mulmv n B y i.
Proof. intros HA Hx; apply rsum_ext; intros j Hj; rewrite HA, Hx; auto. Qed.
Lemma mulmv_plus n A x y i : mulmv n A (fun j => x j + y j) i = mulmv n A x i + mulmv n A y i.
Proof. unfold mulmv; rewrite <- rsum_plus; apply rsum_ext; intros; lra. Qed.
Lemma mulmv_scal n A c x i : mulmv n A (fun j => c * x j) i = c * mulmv n A x i.
Proof. unfold mulmv; rewrite <- rsum_scal; apply rsum_ext; intros; lra. Qed.

Lemma Rltb_spec x y : Bool.reflect (x < y) (Rltb x y).
Proof. unfold Rltb. destruct (Rlt_dec x y); constructor; assumption. Qed.
Lemma Rleb_spec x y : Bool.reflect (x <= y) (Rleb x y).
Proof. unfold Rleb. destruct (Rle_dec x y); constructor; assumption. Qed.
Lemma Reqb_spec x y : Bool.reflect (x = y) (Reqb x y).
Proof. unfold Reqb. destruct (Req_EM_T x y); constructor; assumption. Qed.
