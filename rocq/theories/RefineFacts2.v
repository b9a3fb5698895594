From Coq Require Import Lia ZArith.
From Verif Require Import Base BaseFacts Linalg LinalgFacts SectionModel LoadModel LoadSpec LMFacts FoundationModel ElementModel UtilsModel BeamModel BeamSpec AnalysisModel AnalysisSpec LinearFacts
  AnalysisFacts AnalysisFacts2 ResultsModel ResultsSpec ResultsFacts EnvelopeModel EnvelopeSpec PatternFacts VehicleModel BridgeModel BridgeSpec RefineSpec RefineFacts.
Open Scope R_scope.

(** ** Sums over rows *)
Definition rsm (g : nat -> R -> R) (rows : list row) : R := lsum (map (rowval g) rows).
Definition axrow (n : nat) (r : row) : Prop := exists j W x, r = Row (Z.of_nat j + 1) 2 [W; x; 0] /\ (j < n)%nat.
Lemma rowval_at g j W x l t : rowval g (Row (Z.of_nat j + 1) t (W :: x :: l)) = W * g j x.
Proof. unfold rowval. replace (Z.to_nat (Z.of_nat j + 1 - 1)) with j by lia. reflexivity. Qed.
Lemma rsm_cons g r rows : rsm g (r :: rows) = rowval g r + rsm g rows.
Proof. reflexivity. Qed.
Lemma rsm_ext n g h rows : Forall (axrow n) rows -> (forall j x, (j < n)%nat -> g j x = h j x) -> rsm g rows = rsm h rows.
Proof.
  intros F E. induction F as [|r rows (j & W & x & -> & Hj) F IH]; [reflexivity|]. rewrite !rsm_cons, !rowval_at, IH, E by exact Hj. reflexivity.
Qed.
Lemma rsm_plus n g h rows : Forall (axrow n) rows -> rsm (fun j x => g j x + h j x) rows = rsm g rows + rsm h rows.
Proof.
  intros F. induction F as [|r rows (j & W & x & -> & Hj) F IH]; [unfold rsm, lsum; cbn; ring|]. rewrite !rsm_cons, !rowval_at, IH. ring.
Qed.
Lemma rsm_scal n c g rows : Forall (axrow n) rows -> rsm (fun j x => c * g j x) rows = c * rsm g rows.
Proof.
  intros F. induction F as [|r rows (j & W & x & -> & Hj) F IH]; [unfold rsm, lsum; cbn; ring|]. rewrite !rsm_cons, !rowval_at, IH. ring.
Qed.
Lemma rsm_0 n rows : Forall (axrow n) rows -> rsm (fun _ _ => 0) rows = 0.
Proof. intros F. induction F as [|r rows (j & W & x & -> & Hj) F IH]; [reflexivity|]. rewrite rsm_cons, rowval_at, IH. ring. Qed.
Lemma rsm_opp n g rows : Forall (axrow n) rows -> rsm (fun j x => - g j x) rows = - rsm g rows.
Proof. intros F. rewrite (rsm_ext n _ (fun j x => -1 * g j x)) by (auto; intros; ring). rewrite (rsm_scal n) by exact F. ring. Qed.
Lemma rsm_rsum n k (g : nat -> nat -> R -> R) rows : Forall (axrow n) rows -> rsm (fun j x => rsum k (fun i => g i j x)) rows = rsum k (fun i => rsm (g i) rows).
Proof. intros F. induction k as [|k IH]; cbn [rsum]; [apply (rsm_0 n), F|]. rewrite (rsm_plus n) by exact F. rewrite IH. reflexivity. Qed.

(** ** Loads of the rows *)
Definition trip (r : row) : Z * load := match r with Row s _ (W :: x :: _) => ((s - 1)%Z, LPL W x) | _ => (0%Z, LPL 0 0) end.
Lemma parse_app_ok A B l : parse_LM (A ++ B) = Ok l -> exists p q, parse_LM A = Ok p /\ parse_LM B = Ok q /\ l = p ++ q.
Proof.
  unfold parse_LM. rewrite forallb_app. destruct (forallb is_list_row A); cbn [andb negb]; [|discriminate]. destruct (forallb is_list_row B); cbn [negb]; [|discriminate].
  intros H. apply rbind_ok in H as (ls & H & E). injection E as <-. rewrite mapM_app in H. apply rbind_ok in H as (la & Ha & H). apply rbind_ok in H as (lb & Hb & H). injection H as <-.
  exists (concat la), (concat lb). rewrite Ha, Hb. split; [reflexivity|]. split; [reflexivity|apply concat_app].
Qed.
Lemma parse_axles n rows : Forall (axrow n) rows -> parse_LM rows = Ok (map trip rows).
Proof.
  intros F. induction F as [|r rows (j & W & x & -> & Hj) F IH]; [reflexivity|]. unfold parse_LM in *. cbn [forallb is_list_row andb].
  destruct (forallb is_list_row rows); cbn [negb] in *; [|discriminate]. apply rbind_ok in IH as (l & Hl & E).
  cbn [mapM]. rewrite Hl. cbn. injection E as ->. reflexivity.
Qed.
Lemma attach_axles b n rows : Forall (axrow n) rows -> mapM (attach_EI b) (map trip rows) = Ok (map trip rows).
Proof.
  intros F. induction F as [|r rows (j & W & x & -> & Hj) F IH]; [reflexivity|]. cbn [map mapM]. rewrite IH. reflexivity.
Qed.
Lemma parsed_axles b n static rows ls : Forall (axrow n) rows -> parsed_loads (set_loads b (static ++ rows)) = Ok ls ->
  exists l0, parsed_loads (set_loads b static) = Ok l0 /\ ls = l0 ++ map trip rows.
Proof.
  intros F H. unfold parsed_loads in *. cbn [set_loads with_LM b_LM] in *. apply rbind_ok in H as (l & Hl & H).
  destruct (parse_app_ok _ _ _ Hl) as (p & q & Hp & Hq & ->). rewrite (parse_axles n rows F) in Hq. injection Hq as <-. rewrite Hp. cbn [rbind].
  rewrite mapM_app in H. apply rbind_ok in H as (l0 & H0 & H).
  exists l0. split; [exact H0|]. change (attach_EI (set_loads b (static ++ rows))) with (attach_EI b) in H. rewrite (attach_axles b n rows F) in H. cbn [rbind] in H. injection H as <-. reflexivity.
Qed.
Lemma loads_of_axle j W x rows t m : loads_of (map trip (Row (Z.of_nat j + 1) t [W; x; 0] :: rows)) m =
  if Nat.eqb j m then LPL W x :: loads_of (map trip rows) m else loads_of (map trip rows) m.
Proof.
  unfold loads_of. cbn [map trip filter fst]. replace (Z.of_nat j + 1 - 1)%Z with (Z.of_nat j) by lia.
  destruct (Z.eqb_spec (Z.of_nat j) (Z.of_nat m)), (Nat.eqb_spec j m); try lia; reflexivity.
Qed.
Lemma M_all_app L l l' x : M_all L (l ++ l') x = M_all L l x + M_all L l' x.
Proof. unfold M_all. rewrite map_app. unfold lsum. induction (map (fun ld => M_of L ld x) l) as [|y l0 IH]; cbn; [ring|]. rewrite IH. ring. Qed.
Lemma M_of_PL L W x s : M_of L (LPL W x) s = W * mv L x s.
Proof. unfold mv, M_of. cbn [diag_of pl_diag f_M]. unfold Rdiv. ring. Qed.
Lemma M_axles n L m s rows : Forall (axrow n) rows -> M_all L (loads_of (map trip rows) m) s = rsm (fun j x => if Nat.eqb j m then mv L x s else 0) rows.
Proof.
  intros F. induction F as [|r rows (j & W & x & -> & Hj) F IH]; [reflexivity|]. rewrite loads_of_axle, rsm_cons, rowval_at. destruct (Nat.eqb j m).
  - change (M_all L (LPL W x :: loads_of (map trip rows) m) s) with (M_of L (LPL W x) s + M_all L (loads_of (map trip rows) m) s). rewrite IH, M_of_PL. ring.
  - rewrite IH. ring.
Qed.

Section Ref.
Variable gl : nat -> list (R * R).
(** [f x]: end forces of the member under a unit load at [x]. *)
Record unit_forces (mb : member) (f : R -> vec) : Prop := {
  uf_fits : fits (mb_L mb) f;
  uf_value : forall W x v, span_ref gl mb [LPL W x] = Ok v -> forall p, (p < 4)%nat -> v p = W * f x p }.
Lemma ref_axles n mb m rows f v : unit_forces mb f -> mb_kf mb = None -> Forall (axrow n) rows -> span_ref gl mb (loads_of (map trip rows) m) = Ok v ->
  forall p, (p < 4)%nat -> v p = rsm (fun j x => if Nat.eqb j m then f x p else 0) rows.
Proof.
  intros U Hk F. revert v. induction F as [|r rows (j & W & x & -> & Hj) F IH]; intros v Hv p Hp.
  - unfold loads_of in Hv. cbn in Hv. unfold span_ref in Hv. rewrite Hk in Hv. injection Hv as <-. reflexivity.
  - rewrite loads_of_axle in Hv. rewrite rsm_cons, rowval_at. destruct (Nat.eqb j m) eqn:Ej.
    + destruct (span_ref_app_ok gl mb [LPL W x] _ v Hv) as (v1 & v2 & H1 & H2 & E). rewrite E, (uf_value _ _ U W x v1 H1 p Hp), (IH v2 H2 p Hp). reflexivity.
    + rewrite (IH v Hv p Hp). ring.
Qed.
End Ref.
