(** Traverses of decks with varying sections or shear flexibility (C83). *)
From Coq Require Import Lia ZArith.
From Verif Require Import Base BaseFacts Linalg SectionModel LoadModel LoadSpec ElementModel UtilsModel BeamModel BeamSpec AnalysisModel AnalysisSpec ResultsModel ResultsSpec
  EnvelopeModel EnvelopeSpec VehicleModel VehicleSpec BridgeModel BridgeSpec RefineSpec RefineFacts RefineFacts2 RefineFacts3 RefineFacts4 RefineUnit.
Open Scope R_scope.

Lemma choose {A} (d : A) (P : nat -> A -> Prop) n : (forall m, (m < n)%nat -> exists x, P m x) -> exists f, forall m, (m < n)%nat -> P m (f m).
Proof.
  induction n as [|n IH]; intros H; [exists (fun _ => d); lia|]. destruct IH as (f & Hf); [auto|]. destruct (H n (Nat.lt_succ_diag_r n)) as (x & Hx).
  exists (fun m => if Nat.eqb m n then x else f m). intros m Hm. destruct (Nat.eqb_spec m n) as [->|D]; [exact Hx|apply Hf; lia].
Qed.

Section Deck.
Variables (gl : nat -> list (R * R)) (ill : nat -> mat -> bool) (a : analysis).
Local Notation b := (an_beam a).
Local Notation n := (an_n a).
Hypothesis BM : bridge_model a.
Hypothesis PM : members b n plain_member.

Lemma unit_choice : exists rvd, (forall m mb, (m < n)%nat -> member_at b m = Ok mb -> unit_forces gl mb (rvd m)) /\ forall j, (j < n)%nat -> fits (lend a j) (rvd j).
Proof using BM PM.
  destruct (choose (fun _ _ => 0) (fun m f => (forall mb, member_at b m = Ok mb -> unit_forces gl mb f) /\ fits (lend a m) f) n) as (f & Hf).
  - intros m Hm. pose proof (lend_pos a BM m Hm) as LP. destruct (member_at b m) as [mb|e] eqn:E.
    + pose proof (member_len a m mb E) as EL. destruct (unit_exists gl mb) as (f & Hf).
      * rewrite EL. exact LP.
      * apply (bm_kf _ BM m mb); [rewrite <- (bm_n _ BM); exact Hm|exact E].
      * exact (PM m mb Hm E).
      * exists f. split; [intros mb' E'; injection E' as <-; exact Hf|]. rewrite <- EL. apply (uf_fits _ _ _ Hf).
    + exists (rv (lend a m) 1). split; [discriminate|]. apply rv_fits, LP.
  - exists f. split; [intros m mb Hm E; apply (proj1 (Hf m Hm)), E|intros j Hj; apply (proj2 (Hf j Hj))].
Qed.
Lemma plain_positions : ends_held b -> exists C, 0 <= C /\
  forall v static sps p p' r r', loaded_at gl ill a v static sps p r -> loaded_at gl ill a v static sps p' r' -> within_of b (C * total_weight v * Rabs (p - p')) r r'.
Proof using BM PM. destruct unit_choice as (rvd & H1 & H2). exact (positions_close gl ill a BM rvd H1 H2). Qed.
Lemma plain_traverse : ends_held b -> exists C, 0 <= C /\ forall g v step pstart pend sp dv g' e, bg_ba g = Some a -> bg_veh g = Some v -> 0 < step -> run_vehicle gl ill g step pstart pend sp dv = (g', Ok e) ->
  exists sps, shear_sections b sp dv sps (bg_spx g') /\ forall p r, given 0 pstart <= p <= given (deck_length b + v_L v) pend -> loaded_at gl ill a v (bg_static g) sps p r -> covered b (C * total_weight v * (step / 2)) e r.
Proof using BM PM. destruct unit_choice as (rvd & H1 & H2). exact (traverse_close gl ill a BM rvd H1 H2). Qed.
Lemma plain_jump v W rest static sps r r' p : axles v = (0, W) :: rest -> Forall (fun ax => 0 < fst ax) rest -> restraint b 0 < 0 -> p < 0 ->
  loaded_at gl ill a v static sps 0 r -> loaded_at gl ill a v static sps p r' -> reaction_of b 0 r - reaction_of b 0 r' = W.
Proof using BM PM. destruct unit_choice as (rvd & H1 & H2). exact (end_jump gl ill a BM rvd H1 H2 v W rest static sps r r' p). Qed.
End Deck.
