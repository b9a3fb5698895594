(** Length, acceptance by a member, and the sections that go wrong. *)
From Coq Require Import String Lia Lra.
From Verif Require Import Base BaseFacts SectionModel LoadModel FoundationModel ElementModel ElementSpec SectBuildModel SectBuildSpec SectBuildFacts SectBuildFacts2.
Open Scope R_scope.
Local Notation length := List.length.
Local Open Scope list_scope.

Section Build.
Variable pf : list R -> list R -> nat -> list R.

Lemma contiguous cs : let s := calls pf sect_empty cs in chain 0 (s_pieces s) (s_end s) /\ (forall p ps, s_pieces s = p :: ps -> sect_length s = p_x1 (last (s_pieces s) p) - p_x0 p).
Proof.
  cbv zeta. destruct (calls_history pf cs) as (acc & H). assert (Sn := history_sane _ _ _ H). set (s := calls pf sect_empty cs) in *. split; [exact (sn_chain _ Sn)|]. intros p ps E. unfold sect_length. rewrite (sn_x0 _ Sn p ps E). f_equal.
  assert (C := sn_chain _ Sn). assert (N : s_pieces s <> []) by (rewrite E; discriminate). clear - C N.
  induction C as [a|a q qs b A L C IH]; [congruence|]. destruct qs as [|r qs]; [inversion C; subst; reflexivity|]. change (last (q :: r :: qs) p) with (last (r :: qs) p). apply IH. discriminate.
Qed.
Lemma length_ends acc s : history pf acc s -> forall c0 c1 l1 l2, acc = c0 :: l1 -> acc = l2 ++ [c1] -> sect_length s = end_of c1 - start_of c0.
Proof.
  intros H c0 c1 l1 l2 E0 E1. destruct (history_laid pf _ _ H) as (nws & LD). assert (Sn := history_sane _ _ _ H). destruct LD as [A B _ _].
  assert (X0 : s_x0 s = start_of c0).
  { rewrite E0 in A. inversion A as [|? nw ? nws' [Sd P] A' ]; subst. destruct Sd as (K & L & R0). destruct (parts_first pf c0 nw P L) as (p & ps & EP & Ep). cbn [flat_map] in B. rewrite EP in B. cbn [app] in B. rewrite (sn_x0 _ Sn p _ B). exact Ep. }
  assert (X1 : s_end s = end_of c1).
  { clear - H E1. revert c1 l2 E1. induction H as [|acc s c s' H IH E|acc s c s' e H IH E]; intros c1 l2 E1; [destruct l2; discriminate| |rewrite (call_err _ _ _ _ _ E); exact (IH _ _ E1)].
    apply app_inj_tail in E1 as [_ <-]. destruct (add1_inv _ _ _ _ (call_inv _ _ _ _ E)) as (_ & _ & _ & _ & nw & _ & ->). reflexivity. }
  unfold sect_length. rewrite X0, X1. reflexivity.
Qed.
Lemma validated acc s L : history pf acc s -> (validate_length s L = Ok tt <-> acc <> [] /\ Rabs (sect_length s - L) <= 1e-6 * Rmax 1 (Rabs L)).
Proof.
  intros H. destruct (history_laid pf _ _ H) as (nws & LD). assert (NE : s_pieces s = [] <-> acc = []).
  { split; [|intros ->; destruct LD as [A B _ _]; inversion A; subst; exact B]. intros E. destruct acc as [|c acc]; [reflexivity|]. exfalso. apply (laid_nonempty pf _ _ _ LD); [discriminate|exact E]. }
  unfold validate_length, isclose0. destruct (s_pieces s) as [|p ps].
  - split; [discriminate|]. intros [N _]. exfalso. apply N. apply NE. reflexivity.
  - destruct (Rleb_spec (Rabs (sect_length s - L)) (1e-6 * Rmax 1 (Rabs L))) as [Q|Q]; split; try discriminate; try (intros [_ ?]; contradiction); [|reflexivity]. intros _. split; [|exact Q]. intros ->. destruct NE as [_ NE]. discriminate (NE eq_refl).
Qed.

Lemma gentle_const d c : sg_type c = "const"%string -> fits c -> gentle d c.
Proof.
  intros T F lo hi f D t _. destruct D as [c v Tc N|c l k [Tc|Tc] N Hk]; [|rewrite T in Tc; discriminate|rewrite T in Tc; discriminate].
  destruct F as [x e d' v' N' P|x e d' l N' L2 L1 P|x e d' l N' L P|x e d' l N' L P|x f d' P]; try discriminate. cbn in N. assert (E := numbers_fun _ _ _ N N'). injection E as ->. exact P.
Qed.
Lemma gentle_chords d c l : sg_type c = "linear"%string \/ sg_type c = "pwl"%string -> numbers (sg_ei c) l -> rising (sg_x c) -> Forall (Rlt 0) l -> length l = length (sg_x c) -> 0 <= d ->
  (forall k, (S k < length l)%nat -> d * (nth k l 0 - nth (S k) l 0) < nth (S k) l 0 * (nth (S k) (sg_x c) 0 - nth k (sg_x c) 0)) -> gentle d c.
Proof.
  intros T N Ri Pl L Hd G lo hi f D t Ht. destruct D as [c v Tc N'|c l' k Tc N' Hk]; [destruct T as [T|T]; rewrite T in Tc; discriminate|].
  assert (E := numbers_fun _ _ _ N N'). subst l'. specialize (G k ltac:(lia)). assert (Lt := Ri k Hk). assert (P1 := Forall_nth_pos l (S k) Pl ltac:(lia)). unfold chord.
  set (xa := nth k (sg_x c) 0) in *. set (xb := nth (S k) (sg_x c) 0) in *. set (ya := nth k l 0) in *. set (yb := nth (S k) l 0) in *.
  replace (ya + (yb - ya) * ((t - xa) / (xb - xa))) with ((yb * (xb - xa) - (ya - yb) * (t - xb)) / (xb - xa)) by (field; lra).
  apply Rmult_lt_0_compat; [|apply Rinv_0_lt_compat; lra]. destruct (Rle_lt_dec ya yb).
  - assert (0 < yb * (xb - xa)) by (apply Rmult_lt_0_compat; lra). assert (0 <= (yb - ya) * (t - xb)) by (apply Rmult_le_pos; lra). lra.
  - assert ((ya - yb) * (t - xb) <= (ya - yb) * d) by (apply Rmult_le_compat_l; lra). lra.
Qed.
End Build.

(** ** Sections that go wrong *)
Definition seg (t : string) (x l : list R) : segment := {| sg_type := t; sg_x := x; sg_ei := EArr l; sg_degree := None |}.
Definition gap_a : segment := seg "const" [0; 1] [1].
Definition gap_b : segment := seg "const" [1 + 5e-10; 2] [1].
Definition gap_sect : sect :=
  {| s_pieces := [{| p_x0 := 0; p_x1 := 1; p_coeffs := [1]; p_degree := 0 |}; {| p_x0 := 1 + 5e-10; p_x1 := 2; p_coeffs := [1]; p_degree := 0 |}];
     s_joins := [1; 2]; s_kinks := []; s_x0 := 0; s_end := 2 |}.
Lemma Rleb_t a b : a <= b -> Rleb a b = true.
Proof. intros H. destruct (Rleb_spec a b); [reflexivity|contradiction]. Qed.
Lemma Rleb_f a b : b < a -> Rleb a b = false.
Proof. intros H. destruct (Rleb_spec a b); [lra|reflexivity]. Qed.
Lemma const_call pf s x0 x1 v : Rabs (x0 - anchor s) <= 1e-9 * Rmax 1 (Rabs (anchor s)) -> x0 < x1 -> 0 < v ->
  add1 pf s (seg "const" [x0; x1] [v]) = Ok (extend s [x0; x1] ([{| p_x0 := x0; p_x1 := x1; p_coeffs := [v]; p_degree := 0 |}], [])).
Proof.
  intros A L P. rewrite add1_eq. cbn [seg sg_type sg_x known String.eqb Ascii.eqb Bool.eqb orb andb negb length Nat.ltb Nat.leb strictly_incr head_R hd]. rewrite (Rleb_f (x1 - x0) 0) by lra. cbn [negb andb]. unfold isclose0. rewrite (Rleb_t _ _ A). cbn [negb].
  unfold parts. cbn [sg_type sg_x sg_ei String.eqb Ascii.eqb Bool.eqb seg]. rewrite (proj2 (scalar_inv (EArr [v]) v) eq_refl). cbn [rbind]. rewrite (proj2 (positive_check [v])) by (constructor; [exact P|constructor]). reflexivity.
Qed.
Lemma start_close : Rabs (0 - 0) <= 1e-9 * Rmax 1 (Rabs 0).
Proof. rewrite Rminus_0_r, Rabs_R0. assert (Q := Rmax_l 1 0). lra. Qed.
Lemma gap_built pf : sect_init pf [gap_a; gap_b] = Ok gap_sect.
Proof.
  unfold sect_init. cbn [foldM]. unfold gap_a, gap_b. rewrite const_call; [|exact start_close|lra|lra]. cbn [rbind].
  rewrite const_call; [reflexivity| |lra|lra]. change (Rabs (1 + 5e-10 - 1) <= 1e-9 * Rmax 1 (Rabs 1)). replace (1 + 5e-10 - 1) with 5e-10 by ring. rewrite (Rabs_right 5e-10), (Rabs_right 1) by lra. assert (Q := Rmax_l 1 1). lra.
Qed.
Lemma gap_eval : sect_eval gap_sect (1 + 2e-10) = Err Uninitialised.
Proof.
  unfold sect_eval, gap_sect. cbn [s_pieces find_piece p_x0 p_x1 s_x0 s_end]. rewrite (Rleb_t (0 - 1e-12)), (Rleb_f (1 + 2e-10) (1 + 1e-12)), (Rleb_f (1 + 5e-10 - 1e-12)) by lra. cbn [andb].
  destruct (Rltb_spec (1 + 2e-10) 0); [lra|]. destruct (Rltb_spec 2 (1 + 2e-10)); [lra|]. reflexivity.
Qed.
Lemma gap_refuted : exists c1 c2 x, forall pf, exists s, sect_init pf [c1; c2] = Ok s /\ 0 < x < sect_length s /\ sect_eval s x = Err Uninitialised.
Proof. exists gap_a, gap_b, (1 + 2e-10). intros pf. exists gap_sect. split; [apply gap_built|]. split; [unfold sect_length; cbn; lra|apply gap_eval]. Qed.

(** A parabola through three positive values. *)
Definition dip : segment := seg "poly" [0; 1; 2] [249/100; 1/100; 5/100].
Definition dip_curve : list R := [126/100; -374/100; 249/100].
Lemma dip_through : map (polyval dip_curve) (sg_x dip) = [249/100; 1/100; 5/100].
Proof. unfold dip_curve, dip, polyval, seg. cbn [map fold_left sg_x]. repeat apply f_equal2; try reflexivity; lra. Qed.
Lemma dip_refuted : exists c x, 0 < x < end_of c /\ forall pf,
  (forall cf, length cf = 3%nat -> map (polyval cf) (sg_x c) = [249/100; 1/100; 5/100] -> pf (sg_x c) [249/100; 1/100; 5/100] 2%nat = cf) ->
  exists s v, sect_init pf [c] = Ok s /\ sect_eval s x = Ok v /\ v < 0.
Proof.
  exists dip, (14/10). split; [cbn; lra|]. intros pf PF. specialize (PF dip_curve eq_refl dip_through).
  exists (extend sect_empty [0; 1; 2] ([{| p_x0 := 0; p_x1 := 2; p_coeffs := dip_curve; p_degree := 2 |}], [])), (polyval dip_curve (14/10)). split.
  - unfold sect_init. cbn [foldM]. rewrite add1_eq. unfold dip in *. cbn [seg sg_type sg_x known String.eqb Ascii.eqb Bool.eqb orb andb negb length Nat.ltb Nat.leb strictly_incr head_R hd] in *. rewrite (Rleb_f (1 - 0) 0), (Rleb_f (2 - 1) 0) by lra. cbn [negb andb]. unfold isclose0. rewrite Rleb_t.
    + cbn [negb]. unfold parts, seg. cbn [sg_type sg_x sg_ei sg_degree String.eqb Ascii.eqb Bool.eqb orb ei_ravel rbind length Nat.eqb negb]. rewrite (proj2 (positive_check [249/100; 1/100; 5/100])) by (repeat constructor; lra). cbn [orb rbind Nat.sub head_R last_R hd last]. rewrite PF. reflexivity.
    + exact start_close.
  - split; [|unfold dip_curve, polyval; cbn [fold_left]; lra]. unfold sect_eval. cbn [extend s_pieces sect_empty app fst find_piece p_x0 p_x1]. rewrite !Rleb_t by lra. reflexivity.
Qed.

(** ** A section of three segments *)
Definition demo : list segment := [seg "const" [0; 2] [30]; seg "pwl" [2; 3; 5] [30; 20; 40]; seg "linear" [5; 6] [25; 10]].
Lemma demo_built pf : exists s, sect_init pf demo = Ok s.
Proof.
  assert (RS : forall x, strictly_incr x = true -> rising x) by (intros x; apply incr_rising).
  assert (G : forall acc s c, history pf acc s -> acceptable (s_end s) c -> exists s', history pf (acc ++ [c]) s' /\ s_end s' = end_of c).
  { intros acc s c H A. apply (accepted_iff pf acc s c H) in A as (s' & E). exists s'. split; [exact (h_accepted pf _ _ _ _ H E)|]. destruct (add1_inv _ _ _ _ (call_inv _ _ _ _ E)) as (_ & _ & _ & _ & nw & _ & ->). reflexivity. }
  destruct (G [] sect_empty (seg "const" [0; 2] [30]) (h_new pf)) as (s1 & H1 & E1).
  { split; [cbn; lia|]. split; [intros [|i] Hi; cbn in *; [lra|lia]|]. split; [apply abut_refl|]. apply (fits_const _ _ _ 30); [reflexivity|lra]. }
  destruct (G _ s1 (seg "pwl" [2; 3; 5] [30; 20; 40]) H1) as (s2 & H2 & E2).
  { split; [cbn; lia|]. split; [intros [|[|i]] Hi; cbn in *; [lra|lra|lia]|]. split; [rewrite E1; apply abut_refl|]. apply (fits_pwl _ _ _ [30; 20; 40]); [reflexivity|reflexivity|repeat constructor; lra]. }
  destruct (G _ s2 (seg "linear" [5; 6] [25; 10]) H2) as (s3 & H3 & E3).
  { split; [cbn; lia|]. split; [intros [|i] Hi; cbn in *; [lra|lia]|]. split; [rewrite E2; apply abut_refl|]. apply (fits_linear _ _ _ [25; 10]); [reflexivity|reflexivity|reflexivity|repeat constructor; lra]. }
  exists s3. apply init_history. exact H3.
Qed.
Lemma demo_joined : joined 0 demo 6.
Proof. repeat (constructor; [reflexivity|]). constructor. Qed.
Lemma demo_gentle : Forall (gentle 1e-12) demo.
Proof.
  repeat constructor.
  - apply gentle_const; [reflexivity|]. apply (fits_const _ _ _ 30); [reflexivity|lra].
  - apply (gentle_chords _ _ [30; 20; 40]); [right; reflexivity|reflexivity|intros [|[|i]] Hi; cbn in *; [lra|lra|lia]|repeat constructor; lra|reflexivity|lra|]. intros [|[|k]] Hk; cbn in *; [lra|lra|lia].
  - apply (gentle_chords _ _ [25; 10]); [left; reflexivity|reflexivity|intros [|i] Hi; cbn in *; [lra|lia]|repeat constructor; lra|reflexivity|lra|]. intros [|k] Hk; cbn in *; [lra|lia].
Qed.
