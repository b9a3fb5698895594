(** Hinge patterns and mechanisms; acceptance of the constructor. *)
From Coq Require Import ZArith Sorted.
From Verif Require Import Base BaseFacts Linalg LinalgFacts SectionModel LoadModel VehicleModel BridgeModel BridgeFacts EnvelopeModel FoundationModel ElementSpec AnalysisSpec FoundSpec FoundFacts2 NonlinModel NonlinSpec NonlinFacts NonlinFacts2 NonlinFacts3 NonlinFacts4 NonlinFacts5 NonlinFacts6.
Open Scope R_scope.

Lemma insert_in x l y : In y (insert_nat x l) <-> y = x \/ In y l.
Proof.
  induction l as [|z l IH]; cbn [insert_nat]; [cbn; split; intros [A|A]; auto|]. destruct (Nat.leb x z); [cbn; split; intros [A|A]; auto|]. cbn [In]. rewrite IH. split; intros [A|[A|A]]; auto.
Qed.
Lemma insert_sorted x l : StronglySorted lt l -> ~ In x l -> StronglySorted lt (insert_nat x l).
Proof.
  intros Hs. induction Hs as [|z l Hs IH F]; intros N; cbn [insert_nat]; [repeat constructor|]. destruct (Nat.leb_spec x z) as [L|L].
  - assert (x < z)%nat. { assert (x <> z) by (intros ->; apply N; left; reflexivity). lia. } constructor; [constructor; assumption|]. constructor; [assumption|]. apply Forall_forall. intros y Iy. rewrite Forall_forall in F. specialize (F y Iy). lia.
  - constructor; [apply IH; intros I; apply N; right; exact I|]. apply Forall_forall. intros y Iy. apply insert_in in Iy. destruct Iy as [->|Iy]; [exact L|]. rewrite Forall_forall in F. apply F. exact Iy.
Qed.
Lemma insert_length x l : length (insert_nat x l) = S (length l).
Proof. induction l as [|z l IH]; cbn [insert_nat]; [reflexivity|]. destruct (Nat.leb x z); cbn [length]; [reflexivity|]. rewrite IH. reflexivity. Qed.
Lemma sort_facts l : NoDup l -> StronglySorted lt (sort_nat l) /\ length (sort_nat l) = length l /\ forall x, In x (sort_nat l) <-> In x l.
Proof.
  intros N. induction N as [|x l Nx N (S1 & S2 & S3)]; cbn [sort_nat fold_right]; [split; [constructor|split; [reflexivity|intros x; reflexivity]]|]. change (fold_right insert_nat [] l) with (sort_nat l). split; [apply insert_sorted; [exact S1|rewrite S3; exact Nx]|]. split; [rewrite insert_length, S2; reflexivity|]. intros y. rewrite insert_in, S3. cbn. split; intros [A|A]; auto.
Qed.
Section Mechanism.
Variable rd : nat -> mat -> bool.
Hypothesis Rx : rank_exact rd.
Variable a : nba.
Hypothesis Me : meshed a.
Hypothesis Bc : forall i, In i (nb_bc a) -> (i < nb_dof a)%nat.
Hypothesis EIpos : forall e, (e < nb_elems a)%nat -> 0 < nth e (nb_EI a) 0.
Lemma row_min_is h : (exists e, (e < nb_elems a)%nat /\ h = element_h a e) -> (forall e, (e < nb_elems a)%nat -> h <= element_h a e) -> row_min (nb_eL a) = h.
Proof.
  intros (e & He & ->) Hl. unfold nb_elems, element_h in *. set (l := nb_eL a) in *. clearbody l. assert (Q : forall l x, (fold_left Rmin l x <= x /\ (forall y, In y l -> fold_left Rmin l x <= y)) /\ (fold_left Rmin l x = x \/ In (fold_left Rmin l x) l)).
  { clear. induction l as [|z l IH]; intros x; cbn [fold_left]; [split; [split; [lra|intros y []]|left; reflexivity]|]. destruct (IH (Rmin x z)) as ((A & B) & C). assert (M1 := Rmin_l x z). assert (M2 := Rmin_r x z). split; [split; [lra|]|].
    - intros y [<-|Iy]; [lra|apply B; exact Iy].
    - destruct C as [C|C]; [|right; right; exact C]. rewrite C. unfold Rmin. destruct (Rle_dec x z); [left; reflexivity|right; left; reflexivity]. }
  destruct l as [|x l]; [cbn in He; lia|]. cbn [row_min]. destruct (Q l x) as ((A & B) & C). apply Rle_antisym.
  - destruct e as [|e]; [exact A|]. cbn [nth]. apply B, nth_In. cbn [length] in He. lia.
  - destruct C as [C|C]; [rewrite C; apply (Hl 0%nat); cbn [length]; lia|]. apply In_nth with (d := 0) in C. destruct C as (k & Hk & <-). apply (Hl (S k)). cbn [length]. lia.
Qed.
Lemma clusters_apart tol : forall l n, StronglySorted lt (n :: l) -> (forall x, In x (n :: l) -> (x < nb_nodes a)%nat) -> (forall x y, In x (n :: l) -> In y (n :: l) -> x <> y -> tol < Rabs (coord a x - coord a y)) ->
  map (fun c => nth (length c / 2) c 0%nat) (clusters (nb_coords a) tol [n] l) = n :: l.
Proof.
  induction l as [|m l IH]; intros n Hs Hb Ha; [reflexivity|]. cbn [clusters last]. inversion Hs as [|x y S1 F1]. subst. inversion F1 as [|x y L1 F2]. subst. assert (Lc : coord a n < coord a m). { assert (Bm := Hb m ltac:(right; left; reflexivity)). rewrite (me_nodes a Me) in Bm. apply (c_lt a Me). lia. }
  assert (G := Ha m n ltac:(right; left; reflexivity) ltac:(left; reflexivity) ltac:(lia)). rewrite Rabs_pos_eq in G by lra. change (nth m (nb_coords a) 0) with (coord a m). change (nth n (nb_coords a) 0) with (coord a n). destruct (Rleb_spec (coord a m - coord a n) tol); [lra|]. cbn [map length]. f_equal. apply IH; [exact S1|intros x Ix; apply Hb; right; exact Ix|intros x y Ix Iy; apply Ha; right; assumption].
Qed.
Lemma reps_apart hs : NoDup hs -> (forall x, In x hs -> (x < nb_nodes a)%nat) -> apart a hs -> length (cluster_hinges a hs) = length hs /\ forall x, In x (cluster_hinges a hs) <-> In x hs.
Proof.
  intros N Hb (h & Hh & Hl & Ha). destruct (sort_facts hs N) as (S1 & S2 & S3). unfold cluster_hinges. rewrite (row_min_is h Hh Hl). destruct (sort_nat hs) as [|n l] eqn:E; [split; [exact S2|exact S3]|]. rewrite clusters_apart; [split; assumption|exact S1|intros x Ix; apply Hb, S3; exact Ix|]. intros x y Ix Iy. apply Ha; apply S3; assumption.
Qed.
Lemma test_R_fold reps : forall Re e i, (e < nb_elems a)%nat -> (i < 2)%nat ->
  fold_left (fun Re j => let Re := if Nat.ltb 0 j then set_end Re (j - 1) 1 0 else Re in if Nat.ltb j (nb_elems a) then set_end Re j 0 0 else Re) reps Re e i
  = if mem (e + i) reps then 0 else Re e i.
Proof.
  induction reps as [|j reps IH]; intros Re e i He Hi; [reflexivity|]. cbn [fold_left]. rewrite IH by assumption. change (mem (e + i) (j :: reps)) with (Nat.eqb (e + i) j || mem (e + i) reps)%bool. destruct (mem (e + i) reps); [rewrite Bool.orb_true_r; reflexivity|]. rewrite Bool.orb_false_r. cbv zeta.
  destruct i as [|[|i]]; [| |lia].
  - rewrite Nat.add_0_r. destruct (Nat.ltb_spec j (nb_elems a)) as [L|L]; unfold set_end; [destruct (Nat.eqb_spec e j) as [->|N]; cbn [andb Nat.eqb]|destruct (Nat.eqb_spec e j); [lia|]]; try reflexivity; destruct (Nat.ltb 0 j); try reflexivity; cbn [Nat.eqb]; rewrite Bool.andb_false_r; reflexivity.
  - assert (E : (if Nat.ltb j (nb_elems a) then set_end (if Nat.ltb 0 j then set_end Re (j - 1) 1 0 else Re) j 0 0 else (if Nat.ltb 0 j then set_end Re (j - 1) 1 0 else Re)) e 1%nat = (if Nat.ltb 0 j then set_end Re (j - 1) 1 0 else Re) e 1%nat). { destruct (Nat.ltb j (nb_elems a)); [|reflexivity]. unfold set_end at 1. cbn [Nat.eqb]. rewrite Bool.andb_false_r. reflexivity. }
    rewrite E. destruct (Nat.ltb_spec 0 j) as [L|L].
    + unfold set_end. cbn [Nat.eqb]. rewrite Bool.andb_true_r. destruct (Nat.eqb_spec e (j - 1)), (Nat.eqb_spec (e + 1) j); try reflexivity; lia.
    + destruct (Nat.eqb_spec (e + 1) j); [lia|reflexivity].
Qed.
Lemma test_R_is reps e i : (e < nb_elems a)%nat -> (i < 2)%nat -> test_R a reps e i = if mem (e + i) reps then 0 else 1.
Proof. intros He Hi. unfold test_R. apply test_R_fold; assumption. Qed.
Lemma test_loose reps u : hinged_motion a reps u <-> loose_motion a (test_R a reps) u.
Proof.
  unfold hinged_motion, loose_motion. split; intros [Hu Ms]; (split; [exact Hu|]); intros e He; destruct (Ms e He) as [A B]; clear Ms; rewrite !test_R_is in * by lia; rewrite Nat.add_0_r in *.
  - split; intros N; [apply A|apply B]; intros I; apply mem_in in I; rewrite I in N; apply N; reflexivity.
  - split; intros N; [apply A|apply B]; [destruct (mem e reps) eqn:M|destruct (mem (e + 1) reps) eqn:M]; try lra; apply mem_in in M; contradiction.
Qed.
Lemma mech_iff hs : is_mechanism rd a hs = true <-> (2 <= length (cluster_hinges a hs))%nat /\ exists u, hinged_motion a (cluster_hinges a hs) u /\ exists i, (i < nb_dof a)%nat /\ u i <> 0.
Proof.
  unfold is_mechanism. set (reps := cluster_hinges a hs). assert (P : nonneg_ends a (test_R a reps)) by (intros e i He Hi; rewrite test_R_is by assumption; destruct (mem (e + i) reps); lra). destruct (Nat.ltb_spec (length reps) 2) as [L|L]; [split; [discriminate|intros [Q _]; lia]|]. unfold rank_exact in Rx. rewrite Rx. split.
  - intros (u & N & K). split; [exact L|]. exists u. split; [|exact N]. apply test_loose. apply (kernel_motion a Me Bc EIpos); [exact P|exact K].
  - intros (_ & u & H & N). exists u. split; [exact N|]. apply (motion_kernel a Me Bc); [exact P|apply test_loose; exact H].
Qed.
Lemma hinged_ext hs hs' u : (forall x, In x hs <-> In x hs') -> hinged_motion a hs u -> hinged_motion a hs' u.
Proof. intros E [Hu Ms]. split; [exact Hu|]. intros e He. destruct (Ms e He) as [A B]. split; intros N; [apply A|apply B]; rewrite E; exact N. Qed.
(** A node released on both sides turns freely. *)
Lemma free_turn hs j : In j hs -> (j < nb_nodes a)%nat -> ~ In (2 * j + 1)%nat (nb_bc a) -> exists u, hinged_motion a hs u /\ exists i, (i < nb_dof a)%nat /\ u i <> 0.
Proof.
  intros Ij Hj Nb. set (u := fun i => if Nat.eqb i (2 * j + 1) then 1 else 0). assert (Ev : forall e, u (2 * e)%nat = 0) by (intros e; unfold u; destruct (Nat.eqb_spec (2 * e) (2 * j + 1)); [lia|reflexivity]). assert (Od : forall e, e <> j -> u (2 * e + 1)%nat = 0) by (intros e N; unfold u; destruct (Nat.eqb_spec (2 * e + 1) (2 * j + 1)); [lia|reflexivity]).
  exists u. split; [split|].
  - intros i Ii. unfold u. destruct (Nat.eqb_spec i (2 * j + 1)) as [->|]; [contradiction|reflexivity].
  - intros e He. unfold slope. rewrite !Ev. split; intros N; (rewrite Od; [unfold Rdiv; ring|intros E; apply N; rewrite E; exact Ij]).
  - exists (2 * j + 1)%nat. split; [unfold nb_dof; lia|]. unfold u. rewrite Nat.eqb_refl. lra.
Qed.
Lemma mech_apart hs : NoDup hs -> (forall x, In x hs -> (x < nb_nodes a)%nat) -> apart a hs -> (2 <= length hs)%nat ->
  (is_mechanism rd a hs = true <-> exists u, hinged_motion a hs u /\ exists i, (i < nb_dof a)%nat /\ u i <> 0).
Proof.
  intros N Hb Ap L. destruct (reps_apart hs N Hb Ap) as (Ln & In'). rewrite mech_iff, Ln. split.
  - intros (_ & u & H & Nz). exists u. split; [apply (hinged_ext _ _ u In' H)|exact Nz].
  - intros (u & H & Nz). split; [exact L|]. exists u. split; [|exact Nz]. apply (hinged_ext hs); [intros x; symmetry; apply In'|exact H].
Qed.
End Mechanism.

(** * The constructor *)
Definition long_enough (v : narg) (n : nat) : Prop := match v with NScalar _ => True | NList l => (n <= length l)%nat end.
Lemma as_spans_length v n : long_enough v n -> (n <= length (as_spans v n))%nat.
Proof. destruct v as [r|l]; cbn; [rewrite repeat_length; lia|auto]. Qed.
Lemma mapM_get (l : list R) ks : (forall k, In k ks -> (k < length l)%nat) -> exists r, mapM (get l) ks = Ok r.
Proof.
  intros Hk. induction ks as [|k ks IH]; [exists []; reflexivity|]. destruct IH as (r & E); [intros k' I; apply Hk; right; exact I|]. cbn [mapM]. destruct (get_lt l k) as (z & Ez); [apply Hk; left; reflexivity|]. rewrite Ez. cbn [rbind]. rewrite E. eexists. reflexivity.
Qed.
Lemma init_ok Ls EI ei rs Mp My q msz : Ls <> [] -> Forall (Rlt 0) Ls -> ei_numbers EI = Ok ei -> long_enough ei (length Ls) -> long_enough Mp (length Ls) -> match My with None => True | Some m => long_enough m (length Ls) end -> (2 * (length Ls + 1) <= length rs)%nat ->
  exists a, made a Ls EI rs Mp My q msz.
Proof.
  intros Ne Lp Ee Le Lm Ly Lr. unfold made. cut (exists a, nba_init Ls EI rs Mp My q msz = Ok a); [intros (a & E); exists a; repeat split; assumption|]. unfold nba_init. rewrite Ee. cbn [rbind]. cbv zeta. set (el := mesh_from 0 0 Ls msz). set (coords := 0 :: map (fun t => snd (fst t)) el). rewrite map_length.
  assert (Bk : forall k, In k (0%nat :: map snd el) -> (k < length Ls)%nat). { intros k [<-|I]; [destruct Ls; [congruence|cbn; lia]|]. apply in_map_iff in I. destruct I as (t & <- & It). destruct (mesh_spec msz Ls Lp 0 0) as (_ & _ & Q & _). fold el in Q. destruct (Q t It) as (k & Hk & E1 & _). cbn [Nat.add] in E1. lia. }
  assert (Eb : exists bc, mesh_bc coords rs (cumsum 0 Ls) = Ok bc).
  { unfold mesh_bc. assert (Q : exists ls, mapM (fun i => bc_at coords rs i (nth i (cumsum 0 Ls) 0)) (seq 0 (length (cumsum 0 Ls))) = Ok ls); [|destruct Q as (ls & E); rewrite E; eexists; reflexivity].
    assert (G : forall l, (forall i, In i l -> (i <= length Ls)%nat) -> exists ls, mapM (fun i => bc_at coords rs i (nth i (cumsum 0 Ls) 0)) l = Ok ls).
    { induction l as [|i l IH]; intros Hi; [exists []; reflexivity|]. destruct IH as (ls & E); [intros k I; apply Hi; right; exact I|]. cbn [mapM]. specialize (Hi i ltac:(left; reflexivity)). unfold bc_at at 1. destruct (get_lt rs (2 * i)) as (z0 & Ez0); [lia|]. destruct (get_lt rs (2 * i + 1)) as (z1 & Ez1); [lia|]. rewrite Ez0, Ez1. cbn [rbind]. rewrite E. eexists. reflexivity. }
    apply G. intros i Ii. apply in_seq in Ii. rewrite cumsum_length in Ii. lia. }
  destruct Eb as (bc & Eb). rewrite Eb. cbn [rbind].
  destruct (mapM_get (as_spans ei (length Ls)) (firstn (length el) (0%nat :: map snd el))) as (r1 & E1). { intros k I. apply Nat.lt_le_trans with (length Ls); [apply Bk|apply as_spans_length; exact Le]. rewrite <- (firstn_skipn (length el)). apply in_or_app. left. exact I. }
  rewrite E1. cbn [rbind]. destruct (mapM_get (as_spans Mp (length Ls)) (0%nat :: map snd el)) as (r2 & E2). { intros k I. apply Nat.lt_le_trans with (length Ls); [apply Bk; exact I|apply as_spans_length; exact Lm]. }
  rewrite E2. cbn [rbind]. destruct (mapM_get (match My with None => map (fun m => m / (115/100)) (as_spans Mp (length Ls)) | Some m => as_spans m (length Ls) end) (0%nat :: map snd el)) as (r3 & E3). { intros k I. apply Nat.lt_le_trans with (length Ls); [apply Bk; exact I|]. destruct My as [m|]; [apply as_spans_length; exact Ly|rewrite map_length; apply as_spans_length; exact Lm]. }
  rewrite E3. cbn [rbind]. eexists. reflexivity.
Qed.
Lemma made_bc a Ls EI rs Mp My q msz : made a Ls EI rs Mp My q msz -> forall i, In i (nb_bc a) -> (i < nb_dof a)%nat.
Proof. intros H i I. apply (bc_iff _ _ _ _ _ _ _ _ H) in I. destruct I as (k & d & j & _ & Hd & Hj & _ & _ & ->). unfold nb_dof. lia. Qed.
Lemma made_EI a Ls EI rs Mp My q msz : made a Ls EI rs Mp My q msz -> (forall i x, (i < length Ls)%nat -> rigidity EI i x -> 0 < x) -> forall e, (e < nb_elems a)%nat -> 0 < nth e (nb_EI a) 0.
Proof.
  intros H Hp e He. assert (Q := element_EI _ _ _ _ _ _ _ _ H e He). apply (Hp (nth e (nb_n2s a) 0%nat)); [|exact Q]. destruct (parts _ _ _ _ _ _ _ _ H) as (ei & _ & _ & _ & _ & _ & E4 & _). destruct e as [|e]; [rewrite E4; cbn [nth]; destruct H as (_ & N & _); destruct Ls; [congruence|cbn; lia]|]. destruct (span_of_element _ _ _ _ _ _ _ _ H e ltac:(lia)) as (k & Hk & _ & -> & _). exact Hk.
Qed.
