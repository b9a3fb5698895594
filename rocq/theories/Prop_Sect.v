(** Property theorems about building a variable section (C40). *)
From Coq Require Import String Lia Lra.
From Verif Require Import Base SectionModel ElementSpec SectBuildModel SectBuildSpec SectBuildFacts SectBuildFacts2 SectBuildFacts3.
Open Scope R_scope.
Local Open Scope list_scope.

(** C40: a segment is accepted exactly when it has two or more rising stations, starts where the
    section ends and its rigidities fit its type and are positive; a rejected segment leaves the
    section as it was; the constructor is the sequence of the calls. *)
Theorem C40_accepted_iff : forall pf acc s c, history pf acc s -> ((exists s', call pf s c = (s', Ok tt)) <-> acceptable (s_end s) c).
Proof. exact accepted_iff. Qed.
Print Assumptions C40_accepted_iff.
Theorem C40_rejected_unchanged : forall pf s c e, snd (call pf s c) = Err e -> fst (call pf s c) = s.
Proof. exact rejected_unchanged. Qed.
Print Assumptions C40_rejected_unchanged.
Theorem C40_constructor : forall pf cs s, sect_init pf cs = Ok s <-> history pf cs s.
Proof. exact init_history. Qed.
Print Assumptions C40_constructor.
Theorem C40_every_history : forall pf cs, exists acc, history pf acc (calls pf sect_empty cs).
Proof. exact calls_history. Qed.
Print Assumptions C40_every_history.

(** Whatever is called, the pieces follow each other within the tolerance; the length is the
    distance from the first to the last coordinate, and a member accepts a section of its length. *)
Theorem C40_contiguous : forall pf cs, let s := calls pf sect_empty cs in
  chain 0 (s_pieces s) (s_end s) /\ (forall p ps, s_pieces s = p :: ps -> sect_length s = p_x1 (last (s_pieces s) p) - p_x0 p).
Proof. exact contiguous. Qed.
Print Assumptions C40_contiguous.
Theorem C40_length : forall pf acc s, history pf acc s -> forall c0 c1 l1 l2, acc = c0 :: l1 -> acc = l2 ++ [c1] -> sect_length s = end_of c1 - start_of c0.
Proof. exact length_ends. Qed.
Print Assumptions C40_length.
Theorem C40_validated : forall pf acc s L, history pf acc s -> (validate_length s L = Ok tt <-> acc <> [] /\ Rabs (sect_length s - L) <= 1e-6 * Rmax 1 (Rabs L)).
Proof. exact validated. Qed.
Print Assumptions C40_validated.

(** Segments that meet exactly: the section evaluates everywhere, to the rigidity described,
    which is positive; its breakpoints are the coordinates at which the description changes. *)
Theorem C40_evaluates : forall pf acc s b c lo hi f x, history pf acc s -> joined 0 acc b -> In c acc -> declares c lo hi f ->
  lo + 1e-12 < x <= hi \/ lo = 0 /\ 0 <= x <= hi -> sect_eval s x = Ok (f x) /\ 0 < f x.
Proof. exact evaluates. Qed.
Print Assumptions C40_evaluates.
Theorem C40_total : forall pf acc s b x, history pf acc s -> joined 0 acc b -> acc <> [] -> exists v, sect_eval s x = Ok v.
Proof. exact total. Qed.
Print Assumptions C40_total.
Theorem C40_breakpoints : forall pf acc s b, history pf acc s -> joined 0 acc b -> acc <> [] -> spaced (1e-9 * Rmax 1 b) 0 (flat_map changes acc) ->
  sect_length s = b /\ breakpoints s = 0 :: flat_map changes acc.
Proof. exact breaks. Qed.
Print Assumptions C40_breakpoints.
(** The rigidity the member formulas need: positive wherever the pieces are evaluated. *)
Theorem C40_positive_rigidity : forall pf acc s b, history pf acc s -> joined 0 acc b -> Forall (fun c => sg_type c <> "poly"%string) acc -> Forall (gentle 1e-12) acc -> positive_rigidity (RSect s).
Proof. exact positive. Qed.
Print Assumptions C40_positive_rigidity.
Theorem C40_gentle : forall d c l, sg_type c = "linear"%string \/ sg_type c = "pwl"%string -> numbers (sg_ei c) l -> rising (sg_x c) -> Forall (Rlt 0) l -> List.length l = List.length (sg_x c) -> 0 <= d ->
  (forall k, (S k < List.length l)%nat -> d * (nth k l 0 - nth (S k) l 0) < nth (S k) l 0 * (nth (S k) (sg_x c) 0 - nth k (sg_x c) 0)) -> gentle d c.
Proof. exact gentle_chords. Qed.
Print Assumptions C40_gentle.

Example C40_nonvacuous : forall pf, exists s, sect_init pf demo = Ok s /\ history pf demo s /\ joined 0 demo 6 /\ sect_length s = 6 /\ breakpoints s = [0; 2; 3; 5; 6] /\
  sect_eval s 4 = Ok 30 /\ sect_eval s 5 = Ok 40 /\ validate_length s 6 = Ok tt /\ positive_rigidity (RSect s) /\
  ~ acceptable (s_end s) (seg "const" [7; 8] [1]) /\ ~ acceptable (s_end s) (seg "linear" [6; 8] [1; 0]).
Proof.
  intros pf. destruct (demo_built pf) as (s & E). exists s. split; [exact E|]. apply C40_constructor in E. split; [exact E|]. split; [exact demo_joined|].
  destruct (C40_breakpoints pf demo s 6 E demo_joined ltac:(discriminate)) as [L B].
  { unfold Rmax. destruct (Rle_dec 1 6); [|lra]. cbn. repeat split; lra. }
  assert (EE := history_end pf _ _ _ E demo_joined).
  split; [exact L|]. split; [exact B|].
  assert (EV : forall x, 3 + 1e-12 < x <= 5 -> sect_eval s x = Ok (chord 3 5 20 40 x)).
  { intros x Hx. refine (proj1 (C40_evaluates pf demo s 6 (seg "pwl" [2; 3; 5] [30; 20; 40]) 3 5 _ x E demo_joined _ _ _)); [right; left; reflexivity| |left; exact Hx].
    exact (dec_linear (seg "pwl" [2; 3; 5] [30; 20; 40]) [30; 20; 40] 1 (or_intror eq_refl) eq_refl ltac:(cbn; lia)). }
  split; [rewrite EV by lra; f_equal; unfold chord; field|]. split; [rewrite EV by lra; f_equal; unfold chord; field|].
  split; [apply (C40_validated pf _ _ _ E); split; [discriminate|]; rewrite L; replace (6 - 6) with 0 by ring; rewrite Rabs_R0; assert (Q := Rmax_l 1 (Rabs 6)); lra|].
  split; [apply (C40_positive_rigidity pf demo s 6 E demo_joined); [repeat constructor; discriminate|exact demo_gentle]|].
  rewrite EE. split.
  - intros (_ & _ & A & _). unfold abut in A. change (start_of (seg "const" [7; 8] [1])) with 7 in A. replace (7 - 6) with 1 in A by ring. rewrite (Rabs_right 1), (Rabs_right 6) in A by lra. unfold Rmax in A. destruct (Rle_dec 1 6); lra.
  - intros (_ & _ & _ & F). inversion F as [|x e d l N _ _ P| | |]; subst. cbn in N. subst l. inversion P as [|? ? _ P']; subst. inversion P'; subst. lra.
Qed.

(** The tolerance lets a section have a gap in which it has no value... *)
Theorem C40_gap_refuted : exists c1 c2 x, forall pf, exists s, sect_init pf [c1; c2] = Ok s /\ 0 < x < sect_length s /\ sect_eval s x = Err Uninitialised.
Proof. exact gap_refuted. Qed.
Print Assumptions C40_gap_refuted.
(** ...and a polynomial through positive rigidities can be negative between them. *)
Theorem C40_poly_refuted : exists c x, 0 < x < end_of c /\ forall pf,
  (forall cf, List.length cf = 3%nat -> map (polyval cf) (sg_x c) = [249/100; 1/100; 5/100] -> pf (sg_x c) [249/100; 1/100; 5/100] 2%nat = cf) ->
  exists s v, sect_init pf [c] = Ok s /\ sect_eval s x = Ok v /\ v < 0.
Proof. exact dip_refuted. Qed.
Print Assumptions C40_poly_refuted.
