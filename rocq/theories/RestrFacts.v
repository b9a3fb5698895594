From Coq Require Import ZArith.
From Verif Require Import Base BaseFacts Linalg LinalgFacts SectionModel LoadModel VehicleModel ElementModel BeamModel BeamSpec AnalysisModel AnalysisSpec ResultsModel BridgeModel RenderModel RestrSpec.
Open Scope R_scope.

Lemma same_neg r r' : same_restraint r r' -> Rltb r 0 = Rltb r' 0.
Proof. intros [->|[A B]]; [reflexivity|]. destruct (Rltb_spec r 0), (Rltb_spec r' 0); try reflexivity; lra. Qed.
Lemma same_pos r r' : same_restraint r r' -> Rltb 0 r = Rltb 0 r'.
Proof. intros [->|[A B]]; [reflexivity|]. destruct (Rltb_spec 0 r), (Rltb_spec 0 r'); try reflexivity; lra. Qed.
Lemma same_zero r r' : same_restraint r r' -> Reqb r 0 = Reqb r' 0.
Proof. intros [->|[A B]]; [reflexivity|]. destruct (Reqb_spec r 0), (Reqb_spec r' 0); try reflexivity; lra. Qed.
Lemma same_val r r' : same_restraint r r' -> 0 < r -> r' = r.
Proof. intros [->|[A B]] H; [reflexivity|lra]. Qed.

(** Reading an entry of either list. *)
Lemma same_get rs rs' : same_restraints rs rs' -> forall i,
  (exists r r', get rs i = Ok r /\ get rs' i = Ok r' /\ same_restraint r r') \/ (get rs i = Err IndexError /\ get rs' i = Err IndexError).
Proof.
  intros H. induction H as [|r r' rs rs' S H IH]; intros i.
  - right. unfold get. destruct i; auto.
  - destruct i as [|i]; [left; exists r, r'; auto|]. exact (IH i).
Qed.
Lemma same_bind {A} rs rs' i (f g : R -> result A) : same_restraints rs rs' -> (forall r r', same_restraint r r' -> f r = g r') ->
  rbind (get rs i) f = rbind (get rs' i) g.
Proof. intros H E. destruct (same_get _ _ H i) as [(r & r' & -> & -> & S)|[-> ->]]; [exact (E _ _ S)|reflexivity]. Qed.
Lemma foldM_ext' {A B} (f g : A -> B -> result A) l : (forall x y, f x y = g x y) -> forall a, foldM f l a = foldM g l a.
Proof. intros E. induction l as [|y l IH]; intros a; cbn; [reflexivity|]. rewrite E. destruct (g a y); cbn; [apply IH|reflexivity]. Qed.

Section Same.
Variables rs rs' : list R.
Hypothesis S : same_restraints rs rs'.
Lemma validate_same ds f n : an_validate rs' ds f n = an_validate rs ds f n.
Proof.
  symmetry. unfold an_validate. apply foldM_ext'. intros [] i. apply same_bind; [exact S|]. intros r r' E. rewrite (same_pos _ _ E). reflexivity.
Qed.
Lemma bc_same ds n k f : an_apply_bc rs' ds n k f = an_apply_bc rs ds n k f.
Proof.
  symmetry. unfold an_apply_bc. apply foldM_ext'. intros kf i. unfold bc_value. destruct (get ds i) as [[v|]|e]; cbn; try reflexivity. 
  assert (Q : (do r <- get rs i; if Rltb r 0 then Ok (Some 0) else Ok None) = (do r <- get rs' i; if Rltb r 0 then Ok (Some 0) else Ok None)).
  { apply same_bind; [exact S|]. intros r r' E. rewrite (same_neg _ _ E). reflexivity. } cbn in Q. rewrite Q. reflexivity.
Qed.
Lemma free_same ds is : free_dofs rs' ds is = free_dofs rs ds is.
Proof.
  symmetry. induction is as [|i t IH]; [reflexivity|]. cbn [free_dofs]. apply same_bind; [exact S|]. intros r r' E. rewrite (same_neg _ _ E), IH. reflexivity.
Qed.
Lemma stability_same ill k ds n : check_stability ill k rs' ds n = check_stability ill k rs ds n.
Proof. unfold check_stability. rewrite free_same. reflexivity. Qed.
Lemma reactions_same n k d f : an_reactions rs' n k d f = an_reactions rs n k d f.
Proof.
  symmetry. unfold an_reactions.
  assert (M : forall l, (exists v v', mapM (get rs) l = Ok v /\ mapM (get rs') l = Ok v' /\ Forall2 same_restraint v v') \/ (mapM (get rs) l = mapM (get rs') l /\ exists e, mapM (get rs') l = Err e)).
  { induction l as [|i l IH]; [left; exists [], []; cbn; auto|]. cbn [mapM].
    destruct (same_get _ _ S i) as [(r & r' & -> & -> & E)|[-> ->]]; [|right; cbn; eauto]. cbn [rbind].
    destruct IH as [(v & v' & -> & -> & F)|(E1 & e & E2)]; cbn [rbind]; [left; exists (r :: v), (r' :: v'); auto|right; rewrite E1, E2; cbn; eauto]. }
  destruct (M (seq 0 n)) as [(v & v' & -> & -> & F)|(E1 & e & E2)]; [|rewrite E1, E2; reflexivity]. cbn [rbind].
  assert (N : forall i, same_restraint (nth i v 0) (nth i v' 0)).
  { clear -F. induction F as [|a b v v' E F IH]; intros i; [destruct i; left; reflexivity|]. destruct i; [exact E|apply IH]. }
  assert (P : forall l, map (fun i => - nth i v 0 * d i) (filter (fun i => Rltb 0 (nth i v 0)) l) = map (fun i => - nth i v' 0 * d i) (filter (fun i => Rltb 0 (nth i v' 0)) l)).
  { induction l as [|i l IH]; [reflexivity|]. cbn [filter]. rewrite <- (same_pos _ _ (N i)). destruct (Rltb_spec 0 (nth i v 0)) as [H|H]; [|exact IH]. cbn [map].
    rewrite IH, (same_val _ _ (N i) H). reflexivity. }
  rewrite P. do 2 f_equal. f_equal. apply filter_ext. intros i. apply same_neg, N.
Qed.
Lemma assemble_same gl b n v : b_R b = rs -> an_assemble gl (with_R b rs' v) n = an_assemble gl b n.
Proof.
  intros E. symmetry. unfold an_assemble. cbn [b_R with_R]. rewrite E.
  change (fun (k : mat) (i : nat) => do m <- member_at (with_R b rs' v) i; do kb <- span_k gl m; Ok (add_block k (2 * i) kb))
    with (fun (k : mat) (i : nat) => do m <- member_at b i; do kb <- span_k gl m; Ok (add_block k (2 * i) kb)).
  destruct (foldM _ (seq 0 n) _) as [k|e]; [|reflexivity]. cbn [rbind]. apply foldM_ext'. intros k' i. apply same_bind; [exact S|].
  intros r r' Q. rewrite (same_pos _ _ Q). destruct (Rltb_spec 0 r') as [H|H]; [|reflexivity].
  destruct Q as [->|[A B]]; [reflexivity|lra].
Qed.
Lemma xs_same Ls : forall i x, support_xs_from i x Ls rs' = support_xs_from i x Ls rs.
Proof.
  induction Ls as [|L t IH]; intros i x; symmetry; cbn [support_xs_from]; apply same_bind; try exact S; intros r r' E; rewrite (same_zero _ _ E); [|rewrite IH]; reflexivity.
Qed.
End Same.

Lemma core_same gl ill a rs' npts check : same_restraints (b_R (an_beam a)) rs' ->
  analyze_core gl ill (edit_restraints a rs') npts check =
  (let (a1, r) := analyze_core gl ill a npts check in (edit_restraints a1 rs', r)).
Proof.
  intros S. unfold analyze_core.
  assert (A : forall a0 : analysis, an_beam a0 = an_beam a ->
     let b := an_beam a0 in let b' := an_beam (edit_restraints a0 rs') in
     an_forces gl b' (an_n a0) = an_forces gl b (an_n a0) /\ an_assemble gl b' (an_n a0) = an_assemble gl b (an_n a0)).
  { intros a0 E. cbn. split; [reflexivity|]. apply (assemble_same (b_R (an_beam a)) rs' S). rewrite E. reflexivity. }
  set (a0 := match npts with Some p => if Nat.ltb 3 p then with_npts a p else a | None => a end).
  assert (B : an_beam a0 = an_beam a) by (unfold a0; destruct npts as [p|]; [destruct (Nat.ltb 3 p)|]; reflexivity).
  assert (B' : (match npts with Some p => if Nat.ltb 3 p then with_npts (edit_restraints a rs') p else edit_restraints a rs' | None => edit_restraints a rs' end) = edit_restraints a0 rs')
    by (unfold a0; destruct npts as [p|]; [destruct (Nat.ltb 3 p)|]; reflexivity).
  rewrite B'. clearbody a0. clear B'. destruct (A a0 B) as [A1 A2]. cbv zeta in A1, A2. change (an_n (edit_restraints a0 rs')) with (an_n a0).
  rewrite A1, A2. change (b_R (an_beam (edit_restraints a0 rs'))) with rs'. change (b_D (an_beam (edit_restraints a0 rs'))) with (b_D (an_beam a0)).
  change (an_ndof (edit_restraints a0 rs')) with (an_ndof a0). change (b_version (an_beam (edit_restraints a0 rs'))) with (b_version (an_beam a0)).
  change (an_checked (edit_restraints a0 rs')) with (an_checked a0). rewrite B. clear A A1 A2.
  destruct (an_forces gl (an_beam a) (an_n a0)) as [f|e]; [|reflexivity]. cbn [rbind]. rewrite (validate_same _ _ S).
  destruct (an_validate _ _ _ _) as [u|e]; [|reflexivity]. cbn [rbind]. destruct (an_assemble _ _ _) as [k|e]; [|reflexivity]. cbn [rbind].
  rewrite (stability_same _ _ S), (bc_same _ _ S).
  destruct (if negb check || opt_eqb (an_checked a0) (b_version (an_beam a)) then Ok tt else check_stability ill k (b_R (an_beam a)) (b_D (an_beam a)) (an_ndof a0)) as [u1|e]; [|reflexivity].
  f_equal; [destruct (negb check || opt_eqb (an_checked a0) (b_version (an_beam a)))%bool; reflexivity|].
  destruct (an_apply_bc _ _ _ _ _) as [kf|e]; [|reflexivity]. cbn [rbind]. destruct (an_solver _ _ _) as [d|e]; [|reflexivity]. cbn [rbind].
  rewrite (reactions_same _ _ S). reflexivity.
Qed.
Lemma analyze_same gl ill a rs' sps npts check : same_restraints (b_R (an_beam a)) rs' ->
  analyze gl ill (edit_restraints a rs') sps npts check =
  (let (a1, r) := analyze gl ill a sps npts check in (edit_restraints a1 rs', r)).
Proof.
  intros S. unfold analyze. rewrite (core_same _ _ _ _ _ _ S). destruct (analyze_core gl ill a npts check) as [a1 [o|e]]; reflexivity.
Qed.
Lemma stable_same gl ill a rs' : same_restraints (b_R (an_beam a)) rs' ->
  is_stable gl ill (edit_restraints a rs') = (let (a1, r) := is_stable gl ill a in (edit_restraints a1 rs', r)).
Proof.
  intros S. unfold is_stable. change (an_n (edit_restraints a rs')) with (an_n a). change (b_R (an_beam (edit_restraints a rs'))) with rs'.
  change (an_beam (edit_restraints a rs')) with (with_R (an_beam a) rs' (b_version (an_beam a))) at 1. rewrite (assemble_same _ _ S) by reflexivity.
  change (an_ndof (edit_restraints a rs')) with (an_ndof a). change (b_D (an_beam (edit_restraints a rs'))) with (b_D (an_beam a)).
  destruct (an_assemble _ _ _) as [k|e]; cbn [rbind]; [rewrite (stability_same _ _ S); destruct (check_stability _ _ _ _ _) as [u|[]]; reflexivity|destruct e; reflexivity].
Qed.
Lemma supports_same b rs' v : same_restraints (b_R b) rs' -> vertical_support_xs (with_R b rs' v) = vertical_support_xs b.
Proof. intros S. unfold vertical_support_xs. cbn [b_R b_lengths with_R]. apply xs_same, S. Qed.
