(** What one update of the plastic state does, and the histories it produces. *)
From Coq Require Import ZArith.
From Verif Require Import Base BaseFacts LoadModel NonlinModel NonlinSpec.
Open Scope R_scope.

Lemma mem_in j l : mem j l = true <-> In j l.
Proof. unfold mem. rewrite existsb_exists. split; [intros (x & I & E); apply Nat.eqb_eq in E; subst; exact I|intros I; exists j; split; [exact I|apply Nat.eqb_refl]]. Qed.
Lemma mem_app j l1 l2 : mem j (l1 ++ l2) = (mem j l1 || mem j l2)%bool. Proof. unfold mem. apply existsb_app. Qed.
Lemma mem_one j k : mem j [k] = Nat.eqb j k. Proof. cbn. apply Bool.orb_false_r. Qed.

Section Update.
Variables (a : nba) (g : nat -> R) (lam : R).
Definition yev j := {| ev_lam := lam; ev_x := nth j (nb_coords a) 0; ev_node := j; ev_kind := InitialYield |}.
Definition hev j := {| ev_lam := lam; ev_x := nth j (nb_coords a) 0; ev_node := j; ev_kind := PlasticHinge |}.
Definition ybit (p : plast) j := (Rleb (nb_gy a j) (g j) && negb (mem j (pl_yielded p)))%bool.
Definition hbit (p : plast) j := (Rleb 1 (g j) && negb (mem j (pl_hinged p)))%bool.
Definition news p j := (if ybit p j then [yev j] else []) ++ (if hbit p j then [hev j] else []).
Lemma slot_same Re j v : owned (set_end Re (j - 1) (if Nat.ltb 0 j then 1 else 0)%nat v) j = v.
Proof. destruct j as [|j]; unfold owned, set_end; cbn [Nat.ltb Nat.leb]; [reflexivity|]. rewrite Nat.sub_succ, Nat.sub_0_r, !Nat.eqb_refl. reflexivity. Qed.
Lemma slot_other Re j k v : k <> j -> owned (set_end Re (j - 1) (if Nat.ltb 0 j then 1 else 0)%nat v) k = owned Re k.
Proof.
  intros N. destruct j as [|j]; destruct k as [|k]; unfold owned, set_end; cbn [Nat.ltb Nat.leb]; try contradiction; try reflexivity.
  - rewrite Bool.andb_false_r. reflexivity.
  - rewrite Bool.andb_false_r. reflexivity.
  - rewrite Nat.sub_succ, Nat.sub_0_r. destruct (Nat.eqb_spec k j); [subst; contradiction|reflexivity].
Qed.
Lemma slot_first Re j v e : (1 <= e)%nat -> set_end Re (j - 1) (if Nat.ltb 0 j then 1 else 0)%nat v e 0%nat = Re e 0%nat.
Proof. intros He. unfold set_end. destruct j as [|j]; cbn [Nat.ltb Nat.leb]; [|rewrite Bool.andb_false_r; reflexivity]. destruct (Nat.eqb_spec e (0 - 1)); [cbn in *; lia|reflexivity]. Qed.
Lemma node_fields p b j : let r := update_node a g lam (p, b) j in
  (forall k, pl_gmax (fst r) k = if Nat.eqb k j then (if Rleb (pl_gmax p j) (g j) then g j else pl_gmax p j) else pl_gmax p k) /\
  (forall k, owned (pl_R (fst r)) k = if Nat.eqb k j then (if Rleb (pl_gmax p j) (g j) then clough (nb_q a) (nb_gy a j) (g j) else 1) else owned (pl_R p) k) /\
  (forall e, (1 <= e)%nat -> pl_R (fst r) e 0%nat = pl_R p e 0%nat) /\
  pl_yielded (fst r) = pl_yielded p ++ (if ybit p j then [j] else []) /\
  pl_hinged (fst r) = pl_hinged p ++ (if hbit p j then [j] else []) /\
  pl_events (fst r) = pl_events p ++ news p j /\
  snd r = (b || hbit p j)%bool.
Proof.
  cbv zeta. unfold update_node. cbn [fst snd pl_gmax pl_R pl_yielded pl_hinged pl_events]. split.
  { intros k. destruct (Rleb (pl_gmax p j) (g j)); cbn [fst]; [unfold vupd|]; destruct (Nat.eqb_spec k j); subst; reflexivity. }
  split. { intros k. destruct (Rleb (pl_gmax p j) (g j)); cbn [snd]; destruct (Nat.eqb_spec k j) as [->|N]; try apply slot_same; apply slot_other; exact N. }
  split. { intros e He. destruct (Rleb (pl_gmax p j) (g j)); cbn [snd]; apply slot_first; exact He. }
  split; [|split; [|split; [|reflexivity]]].
  - unfold ybit. destruct (Rleb (nb_gy a j) (g j) && negb (mem j (pl_yielded p)))%bool; [reflexivity|rewrite app_nil_r; reflexivity].
  - unfold hbit. destruct (Rleb 1 (g j) && negb (mem j (pl_hinged p)))%bool; [reflexivity|rewrite app_nil_r; reflexivity].
  - reflexivity.
Qed.
Lemma fold_fields p b m : let r := fold_left (update_node a g lam) (seq 0 m) (p, b) in
  (forall k, pl_gmax (fst r) k = if Nat.ltb k m then (if Rleb (pl_gmax p k) (g k) then g k else pl_gmax p k) else pl_gmax p k) /\
  (forall k, owned (pl_R (fst r)) k = if Nat.ltb k m then (if Rleb (pl_gmax p k) (g k) then clough (nb_q a) (nb_gy a k) (g k) else 1) else owned (pl_R p) k) /\
  (forall e, (1 <= e)%nat -> pl_R (fst r) e 0%nat = pl_R p e 0%nat) /\
  (forall k, mem k (pl_yielded (fst r)) = (mem k (pl_yielded p) || (Nat.ltb k m && Rleb (nb_gy a k) (g k)))%bool) /\
  (forall k, mem k (pl_hinged (fst r)) = (mem k (pl_hinged p) || (Nat.ltb k m && Rleb 1 (g k)))%bool) /\
  pl_events (fst r) = pl_events p ++ flat_map (news p) (seq 0 m) /\
  snd r = (b || existsb (hbit p) (seq 0 m))%bool.
Proof.
  cbv zeta. induction m as [|m IH].
  - cbn [seq fold_left fst snd flat_map existsb]. repeat apply conj; intros; try reflexivity; try (rewrite Bool.orb_false_r; reflexivity). rewrite app_nil_r. reflexivity.
  - rewrite seq_S, fold_left_app. cbn [fold_left Nat.add]. set (s := fold_left (update_node a g lam) (seq 0 m) (p, b)) in *. destruct IH as (I1 & I2 & I3 & I4 & I5 & I6 & I7). assert (N := node_fields (fst s) (snd s) m). cbv zeta in N. rewrite <- surjective_pairing in N. destruct N as (N1 & N2 & N3 & N4 & N5 & N6 & N7).
    assert (Yb : ybit (fst s) m = ybit p m) by (unfold ybit; rewrite I4, Nat.ltb_irrefl, Bool.orb_false_r; reflexivity). assert (Hb : hbit (fst s) m = hbit p m) by (unfold hbit; rewrite I5, Nat.ltb_irrefl, Bool.orb_false_r; reflexivity).
    assert (Lt : forall k, Nat.ltb k (S m) = (Nat.ltb k m || Nat.eqb k m)%bool). { intros k. destruct (Nat.ltb_spec k (S m)), (Nat.ltb_spec k m), (Nat.eqb_spec k m); try reflexivity; lia. }
    repeat apply conj.
    + intros k. rewrite N1, Lt, !I1, Nat.ltb_irrefl. destruct (Nat.eqb_spec k m) as [->|N]; [rewrite Bool.orb_true_r; reflexivity|rewrite Bool.orb_false_r; reflexivity].
    + intros k. rewrite N2, Lt, I1, I2, Nat.ltb_irrefl. destruct (Nat.eqb_spec k m) as [->|N]; [rewrite Bool.orb_true_r; reflexivity|rewrite Bool.orb_false_r; reflexivity].
    + intros e He. rewrite N3, I3 by exact He. reflexivity.
    + intros k. rewrite N4, Yb, mem_app, I4, Lt. unfold ybit. destruct (Nat.eqb_spec k m) as [->|N].
      * rewrite Nat.ltb_irrefl. cbn [orb andb]. destruct (mem m (pl_yielded p)) eqn:Em; cbn [orb andb negb]; [reflexivity|]. destruct (Rleb (nb_gy a m) (g m)); cbn [andb]; [rewrite mem_one, Nat.eqb_refl; reflexivity|reflexivity].
      * rewrite !Bool.orb_false_r. destruct (Rleb (nb_gy a m) (g m) && negb (mem m (pl_yielded p)))%bool; [rewrite mem_one; destruct (Nat.eqb_spec k m); [contradiction|]|]; cbn [mem existsb]; rewrite Bool.orb_false_r; reflexivity.
    + intros k. rewrite N5, Hb, mem_app, I5, Lt. unfold hbit. destruct (Nat.eqb_spec k m) as [->|N].
      * rewrite Nat.ltb_irrefl. cbn [orb andb]. destruct (mem m (pl_hinged p)) eqn:Em; cbn [orb andb negb]; [reflexivity|]. destruct (Rleb 1 (g m)); cbn [andb]; [rewrite mem_one, Nat.eqb_refl; reflexivity|reflexivity].
      * rewrite !Bool.orb_false_r. destruct (Rleb 1 (g m) && negb (mem m (pl_hinged p)))%bool; [rewrite mem_one; destruct (Nat.eqb_spec k m); [contradiction|]|]; cbn [mem existsb]; rewrite Bool.orb_false_r; reflexivity.
    + rewrite N6, I6, <- app_assoc, flat_map_app. f_equal. f_equal. cbn [flat_map]. rewrite app_nil_r. unfold news. rewrite Yb, Hb. reflexivity.
    + rewrite N7, I7, Hb, existsb_app. cbn [existsb]. rewrite Bool.orb_false_r, Bool.orb_assoc. reflexivity.
Qed.
End Update.

Lemma fold_hinged a g lam p b m : pl_hinged (fst (fold_left (update_node a g lam) (seq 0 m) (p, b))) = pl_hinged p ++ filter (hbit g p) (seq 0 m).
Proof.
  induction m as [|m IH]; [cbn; rewrite app_nil_r; reflexivity|]. rewrite seq_S, fold_left_app, filter_app. cbn [fold_left Nat.add filter]. assert (Fd := fold_fields a g lam p b m). cbv zeta in Fd. destruct Fd as (_ & _ & _ & _ & F5 & _ & _). set (s := fold_left (update_node a g lam) (seq 0 m) (p, b)) in *. assert (N := node_fields a g lam (fst s) (snd s) m). cbv zeta in N. rewrite <- surjective_pairing in N. destruct N as (_ & _ & _ & _ & N5 & _ & _). rewrite N5, IH, <- app_assoc. f_equal. f_equal. unfold hbit. rewrite F5, Nat.ltb_irrefl, Bool.orb_false_r. destruct (Rleb 1 (g m) && negb (mem m (pl_hinged p)))%bool; reflexivity.
Qed.
Lemma hinge_nodes_app l1 l2 : hinge_nodes (l1 ++ l2) = hinge_nodes l1 ++ hinge_nodes l2.
Proof. unfold hinge_nodes. rewrite filter_app, map_app. reflexivity. Qed.
Lemma news_hinged a g lam p l : hinge_nodes (flat_map (news a g lam p) l) = filter (hbit g p) l.
Proof.
  induction l as [|j l IH]; [reflexivity|]. cbn [flat_map filter]. rewrite hinge_nodes_app, IH. unfold news. destruct (ybit a g p j); destruct (hbit g p j); reflexivity.
Qed.

(** * Histories *)
Record tracks (a : nba) (h : hist) (p : plast) : Prop := {
  tr_gmax : forall j, (j < nb_nodes a)%nat -> (forall t, In t h -> ratio a (snd t) j <= pl_gmax p j) /\ (pl_gmax p j = 0 \/ exists t, In t h /\ pl_gmax p j = ratio a (snd t) j);
  tr_yield : forall j, (j < nb_nodes a)%nat -> (mem j (pl_yielded p) = true <-> reached a h j (nb_gy a j));
  tr_hinge : forall j, (j < nb_nodes a)%nat -> (mem j (pl_hinged p) = true <-> reached a h j 1);
  tr_nodes : forall j, mem j (pl_hinged p) = true -> (j < nb_nodes a)%nat;
  tr_R : stiffness_after a h (pl_R p);
  tr_events : events_of a h (pl_events p);
  tr_hn : pl_hinged p = hinge_nodes (pl_events p) }.
Lemma ratio_pos a M j : capacities a -> (j < nb_nodes a)%nat -> 0 <= ratio a M j.
Proof. intros Ca Hj. specialize (Ca j Hj). unfold ratio. apply Rmult_le_pos; [apply Rabs_pos|]. left. apply Rinv_0_lt_compat. exact Ca. Qed.
Lemma tracks_nil a : tracks a [] plast0.
Proof.
  constructor; cbn [plast0 pl_gmax pl_R pl_yielded pl_hinged pl_events].
  - intros j _. split; [intros t []|left; reflexivity].
  - intros j _. cbn. split; [discriminate|intros (t & [] & _)].
  - intros j _. cbn. split; [discriminate|intros (t & [] & _)].
  - intros j E. discriminate E.
  - split; [reflexivity|]. intros j _. split; [intros _; destruct j; reflexivity|]. intros pre t E. destruct pre; discriminate E.
  - constructor.
  - reflexivity.
Qed.
Lemma reached_snoc a h t j x : reached a (h ++ [t]) j x <-> reached a h j x \/ x <= ratio a (snd t) j.
Proof.
  unfold reached. split.
  - intros (t' & I & G). apply in_app_or in I. destruct I as [I|[<-|[]]]; [left; exists t'; split; assumption|right; exact G].
  - intros [(t' & I & G)|G]; [exists t'|exists t]; (split; [apply in_or_app|assumption]); [left; exact I|right; left; reflexivity].
Qed.
Lemma clough_degraded q gy g : degraded q gy g (clough q gy g).
Proof.
  unfold clough, degraded. destruct (Rleb_spec g gy) as [L|L]; [left; split; [exact L|reflexivity]|]. right. destruct (Rleb_spec 1 g) as [K|K]; [left; split; [lra|split; [exact K|reflexivity]]|]. right. split; [lra|]. field. lra.
Qed.
Lemma in_news a g lam p ev k : In ev (news a g lam p k) <-> (ybit a g p k = true /\ ev = yev a lam k) \/ (hbit g p k = true /\ ev = hev a lam k).
Proof.
  unfold news. rewrite in_app_iff. destruct (ybit a g p k); destruct (hbit g p k); cbn [In]; split; intros X; repeat (destruct X as [X|X]); try (destruct X; discriminate); try contradiction; subst; auto; try (destruct X as [_ ->]; auto).
Qed.
Lemma news_node a g lam p ev k : In ev (news a g lam p k) -> ev_node ev = k.
Proof. rewrite in_news. intros [[_ ->]|[_ ->]]; reflexivity. Qed.
Lemma news_nodup a g lam p m k0 : NoDup (map (fun ev => (ev_node ev, ev_kind ev)) (flat_map (news a g lam p) (seq k0 m))).
Proof.
  revert k0. induction m as [|m IH]; intros k0; cbn [seq flat_map map]; [constructor|]. rewrite map_app. assert (D : forall x, In x (map (fun ev => (ev_node ev, ev_kind ev)) (flat_map (news a g lam p) (seq (S k0) m))) -> (S k0 <= fst x)%nat).
  { intros x I. apply in_map_iff in I. destruct I as (ev & <- & I). apply in_flat_map in I. destruct I as (k & Ik & I). apply in_seq in Ik. apply news_node in I. cbn [fst]. lia. }
  specialize (IH (S k0)). unfold news at 1. destruct (ybit a g p k0); destruct (hbit g p k0); cbn [app map]; try exact IH; repeat constructor; try exact IH; cbn [In yev hev ev_node ev_kind]; try (intros [E|I]; [discriminate E|apply D in I; cbn [fst] in I; lia]); intros I; apply D in I; cbn [fst] in I; lia.
Qed.
Lemma news_order a g lam p : forall m k0 l1 e1 l2 e2 l3, flat_map (news a g lam p) (seq k0 m) = l1 ++ e1 :: l2 ++ e2 :: l3 -> ev_node e1 = ev_node e2 -> ev_kind e1 = InitialYield.
Proof.
  induction m as [|m IH]; intros k0 l1 e1 l2 e2 l3; cbn [seq flat_map]; [intros E; destruct l1; discriminate E|]. intros E En.
  assert (I2 : forall e, In e (flat_map (news a g lam p) (seq (S k0) m)) -> (S k0 <= ev_node e)%nat). { intros e I. apply in_flat_map in I. destruct I as (k & Ik & I). apply in_seq in Ik. apply news_node in I. lia. }
  unfold news in E at 1. destruct (ybit a g p k0) eqn:Ey; destruct (hbit g p k0) eqn:Eh; cbn [app] in E.
  - destruct l1 as [|z l1]; cbn [app] in E; injection E as E1 E; [rewrite <- E1; reflexivity|]. destruct l1 as [|z' l1]; cbn [app] in E; injection E as E2 E; [|apply (IH (S k0) l1 e1 l2 e2 l3 E En)]. exfalso. assert (I : In e2 (flat_map (news a g lam p) (seq (S k0) m))) by (rewrite E; apply in_or_app; right; left; reflexivity). apply I2 in I. rewrite <- En, <- E2 in I. cbn in I. lia.
  - destruct l1 as [|z l1]; cbn [app] in E; injection E as E1 E; [rewrite <- E1; reflexivity|]. apply (IH (S k0) l1 e1 l2 e2 l3 E En).
  - destruct l1 as [|z l1]; cbn [app] in E; injection E as E1 E; [|apply (IH (S k0) l1 e1 l2 e2 l3 E En)]. exfalso. assert (I : In e2 (flat_map (news a g lam p) (seq (S k0) m))) by (rewrite E; apply in_or_app; right; left; reflexivity). apply I2 in I. rewrite <- En, <- E1 in I. cbn in I. lia.
  - apply (IH (S k0) l1 e1 l2 e2 l3 E En).
Qed.
Lemma app_snoc_inj {A} (l l' : list A) x y : l ++ [x] = l' ++ [y] -> l = l' /\ x = y. Proof. apply app_inj_tail. Qed.
Lemma tracks_step a h p M lam : capacities a -> tracks a h p -> tracks a (h ++ [(lam, M)]) (fst (update_R a M p lam)).
Proof.
  intros Ca T. assert (Fd := fold_fields a (ratio a M) lam p false (nb_nodes a)). cbv zeta in Fd. change (fold_left (update_node a (ratio a M) lam) (seq 0 (nb_nodes a)) (p, false)) with (update_R a M p lam) in Fd. destruct Fd as (F1 & F2 & F3 & F4 & F5 & F6 & F7). assert (F8 := fold_hinged a (ratio a M) lam p false (nb_nodes a)). change (fold_left (update_node a (ratio a M) lam) (seq 0 (nb_nodes a)) (p, false)) with (update_R a M p lam) in F8. set (p' := fst (update_R a M p lam)) in *. clearbody p'. clear F7. assert (Lt : forall j, (j < nb_nodes a)%nat -> Nat.ltb j (nb_nodes a) = true) by (intros j Hj; apply Nat.ltb_lt; exact Hj).
  constructor.
  - intros j Hj. rewrite F1, (Lt j Hj). destruct (tr_gmax a h p T j Hj) as (G1 & G2). destruct (Rleb_spec (pl_gmax p j) (ratio a M j)) as [L|L].
    + split; [|right; exists (lam, M); split; [apply in_or_app; right; left; reflexivity|reflexivity]]. intros t I. apply in_app_or in I. destruct I as [I|[<-|[]]]; [apply (Rle_trans _ _ _ (G1 t I) L)|cbn [snd]; lra].
    + split. { intros t I. apply in_app_or in I. destruct I as [I|[<-|[]]]; [apply (G1 t I)|cbn [snd]; lra]. } destruct G2 as [G2|(t & I & E)]; [left; exact G2|right; exists t; split; [apply in_or_app; left; exact I|exact E]].
  - intros j Hj. rewrite F4, (Lt j Hj), reached_snoc. cbn [andb snd]. rewrite Bool.orb_true_iff, (tr_yield a h p T j Hj). destruct (Rleb_spec (nb_gy a j) (ratio a M j)); split; intros [X|X]; auto; try discriminate; contradiction.
  - intros j Hj. rewrite F5, (Lt j Hj), reached_snoc. cbn [andb snd]. rewrite Bool.orb_true_iff, (tr_hinge a h p T j Hj). destruct (Rleb_spec 1 (ratio a M j)); split; intros [X|X]; auto; try discriminate; contradiction.
  - intros j E. rewrite F5 in E. apply Bool.orb_true_iff in E. destruct E as [E|E]; [apply (tr_nodes a h p T j E)|]. apply Bool.andb_true_iff in E. apply Nat.ltb_lt. apply E.
  - destruct (tr_R a h p T) as (R1 & _). split; [intros e He; rewrite (F3 e He); apply R1; exact He|]. intros j Hj. split; [intros E; destruct h; discriminate E|]. intros pre t E. apply app_snoc_inj in E. destruct E as [<- <-]. cbn [snd]. rewrite F2, (Lt j Hj). destruct (tr_gmax a h p T j Hj) as (G1 & G2). destruct (Rleb_spec (pl_gmax p j) (ratio a M j)) as [L|L].
    + split; [intros _; apply clough_degraded|]. intros (t' & I & W). specialize (G1 t' I). exfalso. lra.
    + split; [|reflexivity]. intros W. exfalso. destruct G2 as [G2|(t & I & E)]; [assert (Q := ratio_pos a M j Ca Hj); lra|]. specialize (W t I). lra.
  - rewrite F6. constructor; [apply (tr_events a h p T)| |apply news_nodup|apply news_order].
    intros ev. rewrite in_flat_map. unfold due. cbn [fst snd]. split.
    + intros (k & Ik & I). apply in_seq in Ik. assert (Hk : (k < nb_nodes a)%nat) by lia. apply in_news in I. destruct I as [[B ->]|[B ->]]; cbn [yev hev ev_node ev_lam ev_x ev_kind threshold]; (split; [exact Hk|]); (split; [reflexivity|]); (split; [reflexivity|]); [unfold ybit in B|unfold hbit in B]; apply Bool.andb_true_iff in B; destruct B as [B1 B2]; apply Bool.negb_true_iff in B2.
      * split; [destruct (Rleb_spec (nb_gy a k) (ratio a M k)); [assumption|discriminate]|]. rewrite <- (tr_yield a h p T k Hk), B2. discriminate.
      * split; [destruct (Rleb_spec 1 (ratio a M k)); [assumption|discriminate]|]. rewrite <- (tr_hinge a h p T k Hk), B2. discriminate.
    + intros (Hk & El & Ex & Th & Nr). exists (ev_node ev). split; [apply in_seq; lia|]. apply in_news. destruct ev as [l x k kd]. cbn [ev_lam ev_x ev_node ev_kind] in *. subst l x. destruct kd; cbn [threshold] in *; [left|right].
      * split; [|reflexivity]. unfold ybit. destruct (Rleb_spec (nb_gy a k) (ratio a M k)); [|contradiction]. destruct (mem k (pl_yielded p)) eqn:E; [apply (tr_yield a h p T k Hk) in E; contradiction|reflexivity].
      * split; [|reflexivity]. unfold hbit. destruct (Rleb_spec 1 (ratio a M k)); [|contradiction]. destruct (mem k (pl_hinged p)) eqn:E; [apply (tr_hinge a h p T k Hk) in E; contradiction|reflexivity].
  - rewrite F8, F6, hinge_nodes_app, news_hinged, (tr_hn a h p T). reflexivity.
Qed.
Lemma update_old a p M lam : snd (update_R a M p lam) = false -> pl_hinged (fst (update_R a M p lam)) = pl_hinged p.
Proof.
  intros E. assert (Fd := fold_fields a (ratio a M) lam p false (nb_nodes a)). cbv zeta in Fd. change (fold_left (update_node a (ratio a M) lam) (seq 0 (nb_nodes a)) (p, false)) with (update_R a M p lam) in Fd. destruct Fd as (_ & _ & _ & _ & _ & _ & F7). rewrite F7 in E. cbn [orb] in E. unfold update_R. change (fun j => Rabs (M j) / nth j (nb_Mp a) 0) with (ratio a M). rewrite fold_hinged. assert (Z : filter (hbit (ratio a M) p) (seq 0 (nb_nodes a)) = []); [|rewrite Z, app_nil_r; reflexivity].
  clear F7. revert E. induction (seq 0 (nb_nodes a)) as [|j l IH]; intros E; [reflexivity|]. cbn [existsb] in E. apply Bool.orb_false_iff in E. destruct E as [E1 E2]. cbn [filter]. rewrite E1. apply IH. exact E2.
Qed.
Lemma update_new a h p M lam : tracks a h p -> (snd (update_R a M p lam) = true <-> exists j, (j < nb_nodes a)%nat /\ 1 <= ratio a M j /\ ~ reached a h j 1).
Proof.
  intros T. assert (Fd := fold_fields a (ratio a M) lam p false (nb_nodes a)). cbv zeta in Fd. change (fold_left (update_node a (ratio a M) lam) (seq 0 (nb_nodes a)) (p, false)) with (update_R a M p lam) in Fd. destruct Fd as (_ & _ & _ & _ & _ & _ & F7). rewrite F7. cbn [orb]. rewrite existsb_exists. split.
  - intros (j & Ij & B). apply in_seq in Ij. assert (Hj : (j < nb_nodes a)%nat) by lia. exists j. split; [exact Hj|]. unfold hbit in B. apply Bool.andb_true_iff in B. destruct B as [B1 B2]. apply Bool.negb_true_iff in B2. split; [destruct (Rleb_spec 1 (ratio a M j)); [assumption|discriminate]|]. rewrite <- (tr_hinge a h p T j Hj), B2. discriminate.
  - intros (j & Hj & G & N). exists j. split; [apply in_seq; lia|]. unfold hbit. destruct (Rleb_spec 1 (ratio a M j)); [|contradiction]. destruct (mem j (pl_hinged p)) eqn:E; [apply (tr_hinge a h p T j Hj) in E; contradiction|reflexivity].
Qed.

(** * Consequences *)
Lemma stiffness_bounds a h Re e i : stiffness_after a h Re -> nb_q a <= 1 -> capacities a -> nb_nodes a = S (nb_elems a) -> (e < nb_elems a)%nat -> (i < 2)%nat -> nb_q a <= Re e i <= 1.
Proof.
  intros (S1 & S2) Hq Ca Mn He Hi. assert (O : forall j, (j < nb_nodes a)%nat -> nb_q a <= owned Re j <= 1).
  { intros j Hj. destruct (S2 j Hj) as (E0 & E1). assert (Hl : h = [] \/ exists pre t, h = pre ++ [t]) by (destruct h as [|x h] using rev_ind; [left; reflexivity|right; exists h, x; reflexivity]). destruct Hl as [->|(pre & t & ->)]; [rewrite E0 by reflexivity; lra|]. destruct (E1 pre t eq_refl) as (D1 & D2).
    assert (C : (forall t', In t' pre -> ratio a (snd t') j <= ratio a (snd t) j) \/ exists t', In t' pre /\ ratio a (snd t) j < ratio a (snd t') j).
    { clear. induction pre as [|x pre IH]; [left; intros t' []|]. destruct IH as [IH|(t' & I & L)]; [|right; exists t'; split; [right; exact I|exact L]]. destruct (Rle_or_lt (ratio a (snd x) j) (ratio a (snd t) j)) as [L|L]; [left; intros t' [<-|I]; [exact L|apply IH; exact I]|right; exists x; split; [left; reflexivity|exact L]]. }
    destruct C as [C|C]; [|rewrite (D2 C); lra]. specialize (D1 C). destruct D1 as [[_ ->]|[(_ & _ & ->)|([K1 K2] & ->)]]; [lra|lra|].
    assert (Q : 0 <= (1 - ratio a (snd t) j) / (1 - nb_gy a j) <= 1). { split; [apply Rmult_le_pos; [lra|left; apply Rinv_0_lt_compat; lra]|]. apply (Rmult_le_reg_r (1 - nb_gy a j)); [lra|]. unfold Rdiv. rewrite Rmult_assoc, Rinv_l by lra. lra. }
    set (z := (1 - ratio a (snd t) j) / (1 - nb_gy a j)) in *. nra. }
  destruct i as [|[|i]]; [|apply (O (S e)); lia|lia]. destruct e as [|e]; [apply (O 0%nat); lia|]. rewrite (S1 (S e)) by lia. lra.
Qed.
