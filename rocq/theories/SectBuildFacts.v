(** Facts about section building. *)
From Coq Require Import String Lia Lra Permutation Sorted.
From Verif Require Import Base BaseFacts SectionModel SectBuildModel SectBuildSpec.
Open Scope R_scope.
Local Notation length := List.length.
Local Open Scope list_scope.

Section Build.
Variable pf : list R -> list R -> nat -> list R.

(** ** Acceptance *)
Lemma incr_rising x : strictly_incr x = true <-> rising x.
Proof.
  induction x as [|a x IH]; [split; [intros _ i Hi; cbn in Hi; lia|reflexivity]|]. destruct x as [|b x]; [split; [intros _ i Hi; cbn in Hi; lia|reflexivity]|].
  change (strictly_incr (a :: b :: x)) with (negb (Rleb (b - a) 0) && strictly_incr (b :: x)). rewrite Bool.andb_true_iff, IH. split.
  - intros [A B] [|i] Hi; [cbn; destruct (Rleb_spec (b - a) 0); [discriminate|lra]|]. cbn [length] in Hi. apply (B i). cbn [length]. lia.
  - intros H. split; [destruct (Rleb_spec (b - a) 0); [|reflexivity]; specialize (H 0%nat ltac:(cbn; lia)); cbn in H; lra|]. intros i Hi. apply (H (S i)). cbn [length] in *. lia.
Qed.
Lemma ravel_numbers e l : ei_ravel e = Ok l <-> numbers e l.
Proof. destruct e; cbn; split; intros H; try (injection H as H; congruence); try congruence; try discriminate; try destruct H. Qed.
Lemma positive_check l : check_positive l = Ok tt <-> Forall (Rlt 0) l.
Proof.
  unfold check_positive. split.
  - intros H. destruct (existsb _ l) eqn:E; [discriminate|]. apply Forall_forall. intros x Hx. destruct (Rlt_dec 0 x) as [L|L]; [exact L|].
    assert (T : existsb (fun v => Rleb v 0) l = true) by (apply existsb_exists; exists x; split; [exact Hx|destruct (Rleb_spec x 0); [reflexivity|lra]]). congruence.
  - intros F. destruct (existsb _ l) eqn:E; [|reflexivity]. apply existsb_exists in E as (x & Hx & Ex). rewrite Forall_forall in F. specialize (F x Hx). destruct (Rleb_spec x 0); [lra|discriminate].
Qed.
Lemma check_inv l u : check_positive l = Ok u -> check_positive l = Ok tt.
Proof. destruct u. auto. Qed.
(** What a call adds: pieces and kinks. *)
Definition parts (c : segment) : result (list piece * list R) :=
  let x := sg_x c in let x0 := head_R x in let x1 := last_R x in
  if String.eqb (sg_type c) "const" then
    do v <- ei_scalar (sg_ei c); do _ <- check_positive [v]; Ok ([{| p_x0 := x0; p_x1 := x1; p_coeffs := [v]; p_degree := 0 |}], [])
  else if String.eqb (sg_type c) "linear" || String.eqb (sg_type c) "pwl" then
    do arr <- ei_ravel (sg_ei c);
    if negb (Nat.eqb (length arr) (length x)) then Err ValueError
    else if String.eqb (sg_type c) "linear" && negb (Nat.eqb (length x) 2) then Err ValueError
    else do _ <- check_positive arr; Ok (linear_pieces x arr, interior x)
  else
    match sg_ei c with
    | EFun f =>
        let deg := match sg_degree c with None => 8%nat | Some d => d end in
        let xs := linspace x0 x1 (deg + 2) in let ys := map f xs in
        do _ <- check_positive ys; Ok ([{| p_x0 := x0; p_x1 := x1; p_coeffs := pf xs ys deg; p_degree := deg |}], [])
    | _ =>
        do arr <- ei_ravel (sg_ei c);
        if negb (Nat.eqb (length arr) (length x)) then Err ValueError
        else do _ <- check_positive arr;
          let deg := match sg_degree c with None => (length x - 1)%nat | Some d => d end in
          Ok ([{| p_x0 := x0; p_x1 := x1; p_coeffs := pf x arr deg; p_degree := deg |}], [])
    end.
Definition known (t : string) : bool := String.eqb t "const" || String.eqb t "linear" || String.eqb t "pwl" || String.eqb t "poly".
Definition anchor (s : sect) : R := match s_pieces s with [] => 0 | _ => s_end s end.
Definition extend (s : sect) (x : list R) (nw : list piece * list R) : sect :=
  {| s_pieces := s_pieces s ++ fst nw; s_joins := s_joins s ++ [last_R x]; s_kinks := s_kinks s ++ snd nw;
     s_x0 := match s_joins s with [] => head_R x | _ => s_x0 s end; s_end := last_R x |}.
Lemma add1_eq s c : add1 pf s c =
  if negb (known (sg_type c)) then Err ValueError
  else if Nat.ltb (length (sg_x c)) 2 then Err ValueError
  else if negb (strictly_incr (sg_x c)) then Err ValueError
  else if negb (isclose0 (head_R (sg_x c)) (anchor s) (1e-9 * Rmax 1 (Rabs (anchor s)))) then Err ValueError
  else do nw <- parts c; Ok (extend s (sg_x c) nw).
Proof. reflexivity. Qed.
Lemma add1_inv s c s' : add1 pf s c = Ok s' -> known (sg_type c) = true /\ (2 <= length (sg_x c))%nat /\ rising (sg_x c) /\ abut (anchor s) (start_of c) /\
  exists nw, parts c = Ok nw /\ s' = extend s (sg_x c) nw.
Proof.
  rewrite add1_eq. destruct (known (sg_type c)); [cbn [negb]|discriminate]. destruct (Nat.ltb_spec (length (sg_x c)) 2); [discriminate|].
  destruct (strictly_incr (sg_x c)) eqn:EI; cbn [negb]; [|discriminate]. unfold isclose0. destruct (Rleb_spec (Rabs (head_R (sg_x c) - anchor s)) (1e-9 * Rmax 1 (Rabs (anchor s)))) as [A|]; cbn [negb]; [|discriminate].
  intros H'. apply rbind_ok in H' as (nw & E & Hs). injection Hs as <-. split; [reflexivity|]. split; [exact H|]. split; [apply incr_rising; exact EI|]. split; [exact A|]. exists nw. auto.
Qed.
Lemma scalar_inv e v : ei_scalar e = Ok v <-> numbers e [v].
Proof.
  unfold ei_scalar. rewrite <- ravel_numbers. split.
  - intros H. apply rbind_ok in H as (l & El & H). destruct l as [|r [|]]; try discriminate. injection H as <-. exact El.
  - intros ->. reflexivity.
Qed.
Lemma linspace_samples c deg : linspace (head_R (sg_x c)) (last_R (sg_x c)) (deg + 2) = samples c deg.
Proof. unfold linspace, samples. replace (deg + 2 - 1)%nat with (deg + 1)%nat by lia. reflexivity. Qed.
Lemma parts_fits c nw : known (sg_type c) = true -> parts c = Ok nw -> fits c.
Proof.
  destruct c as [t x e d]. unfold known, parts. cbn [sg_type sg_x sg_ei sg_degree]. intros K H.
  destruct (String.eqb_spec t "const") as [->|N1].
  { apply rbind_ok in H as (v & Ev & H). apply rbind_ok in H as (u & Ep & _). apply scalar_inv in Ev. apply check_inv, positive_check in Ep. inversion Ep; subst. econstructor; eassumption. }
  destruct (String.eqb_spec t "linear") as [->|N2]; [|destruct (String.eqb_spec t "pwl") as [->|N3]]; cbn [orb andb] in *.
  - apply rbind_ok in H as (l & El & H). apply ravel_numbers in El. destruct (Nat.eqb_spec (length l) (length x)) as [E1|]; [cbn [negb] in H|discriminate]. destruct (Nat.eqb_spec (length x) 2) as [E2|]; [cbn [negb] in H|discriminate].
    apply rbind_ok in H as (u & Ep & _). apply check_inv, positive_check in Ep. apply (fits_linear x e d l); auto. congruence.
  - apply rbind_ok in H as (l & El & H). apply ravel_numbers in El. destruct (Nat.eqb_spec (length l) (length x)) as [E1|]; [cbn [negb] in H|discriminate].
    apply rbind_ok in H as (u & Ep & _). apply check_inv, positive_check in Ep. apply (fits_pwl x e d l); auto.
  - destruct (String.eqb_spec t "poly") as [->|]; [|discriminate]. destruct e as [r|l|f].
    + apply rbind_ok in H as (l & El & H). apply ravel_numbers in El. destruct (Nat.eqb_spec (length l) (length x)) as [E1|]; [cbn [negb] in H|discriminate].
      apply rbind_ok in H as (u & Ep & _). apply check_inv, positive_check in Ep. apply (fits_poly x _ d l); auto.
    + apply rbind_ok in H as (l' & El & H). apply ravel_numbers in El. destruct (Nat.eqb_spec (length l') (length x)) as [E1|]; [cbn [negb] in H|discriminate].
      apply rbind_ok in H as (u & Ep & _). apply check_inv, positive_check in Ep. apply (fits_poly x _ d l'); auto.
    + apply rbind_ok in H as (u & Ep & _). apply check_inv, positive_check in Ep. apply fits_fun.
      change (linspace (head_R x) (last_R x)) with (linspace (head_R (sg_x {| sg_type := "poly"; sg_x := x; sg_ei := EFun f; sg_degree := d |})) (last_R (sg_x {| sg_type := "poly"; sg_x := x; sg_ei := EFun f; sg_degree := d |}))) in Ep.
      rewrite linspace_samples in Ep. apply Forall_forall. intros v Hv. rewrite Forall_forall in Ep. apply Ep. apply in_map. destruct d; exact Hv.
Qed.
Lemma fits_parts c : fits c -> known (sg_type c) = true /\ exists nw, parts c = Ok nw.
Proof.
  intros H. destruct H as [x e d v N P|x e d l N L2 L1 P|x e d l N L P|x e d l N L P|x f d P]; (split; [reflexivity|]); unfold parts; cbn [sg_type sg_x sg_ei sg_degree String.eqb Ascii.eqb Bool.eqb orb andb].
  - apply scalar_inv in N. rewrite N. cbn [rbind]. assert (E : check_positive [v] = Ok tt) by (apply positive_check; constructor; [exact P|constructor]). rewrite E. eexists. reflexivity.
  - apply ravel_numbers in N. rewrite N. cbn [rbind]. rewrite L1, L2. cbn [Nat.eqb negb]. apply positive_check in P. rewrite P. eexists. reflexivity.
  - apply ravel_numbers in N. rewrite N. cbn [rbind]. rewrite L, Nat.eqb_refl. cbn [negb]. apply positive_check in P. rewrite P. eexists. reflexivity.
  - assert (N' := N). apply ravel_numbers in N. destruct e as [r|l'|f]; [..|destruct N']; rewrite N; cbn [rbind]; rewrite L, Nat.eqb_refl; cbn [negb]; apply positive_check in P; rewrite P; eexists; reflexivity.
  - set (c := {| sg_type := "poly"; sg_x := x; sg_ei := EFun f; sg_degree := d |}) in *. change (head_R x) with (head_R (sg_x c)). change (last_R x) with (last_R (sg_x c)). rewrite linspace_samples.
    assert (E : check_positive (map f (samples c (match d with Some n => n | None => 8%nat end))) = Ok tt).
    { apply positive_check. apply Forall_forall. intros v Hv. apply in_map_iff in Hv as (t & <- & Ht). rewrite Forall_forall in P. exact (P t Ht). }
    destruct d; rewrite E; eexists; reflexivity.
Qed.

(** ** The invariant of histories *)
Lemma chain_app a ps b qs d : chain a ps b -> chain b qs d -> chain a (ps ++ qs) d.
Proof. induction 1; intros Q; [exact Q|]. cbn [app]. constructor; auto. Qed.
Lemma abut_refl a : abut a a.
Proof. unfold abut. replace (a - a) with 0 by ring. rewrite Rabs_R0. assert (H := Rmax_l 1 (Rabs a)). lra. Qed.
Lemma linear_chain x : forall y a, length y = length x -> (2 <= length x)%nat -> rising x -> abut a (hd 0 x) -> chain a (linear_pieces x y) (last x 0).
Proof.
  induction x as [|xa x IH]; intros y a L L2 I A; [cbn in L2; lia|]. destruct x as [|xb x]; [cbn in L2; lia|]. destruct y as [|ya [|yb y]]; try discriminate.
  change (linear_pieces (xa :: xb :: x) (ya :: yb :: y)) with ({| p_x0 := xa; p_x1 := xb; p_coeffs := [(yb - ya) / (xb - xa); ya - (yb - ya) / (xb - xa) * xa]; p_degree := 1 |} :: linear_pieces (xb :: x) (yb :: y)).
  constructor; [exact A|exact (I 0%nat ltac:(cbn; lia))|]. cbn [p_x1]. change (last (xa :: xb :: x) 0) with (last (xb :: x) 0).
  destruct x as [|xc x]; [destruct y; [|discriminate]; constructor|]. apply IH; [cbn in *; lia|cbn; lia| |apply abut_refl].
  intros i Hi. apply (I (S i)). cbn [length] in *. lia.
Qed.
Lemma last_nth (l : list R) : last l 0 = nth (length l - 1) l 0.
Proof. induction l as [|a l IH]; [reflexivity|]. destruct l as [|b l]; [reflexivity|]. change (last (a :: b :: l) 0) with (last (b :: l) 0). rewrite IH. cbn [length]. rewrite !Nat.sub_succ, Nat.sub_0_r. reflexivity. Qed.
Lemma rising_lt l i j : rising l -> (i < j)%nat -> (j < length l)%nat -> nth i l 0 < nth j l 0.
Proof. intros H L. induction L as [|j L IH]; intros Hj; [exact (H i Hj)|]. eapply Rlt_trans; [apply IH; lia|apply H; exact Hj]. Qed.
Lemma rising_ends l : rising l -> (2 <= length l)%nat -> hd 0 l < last l 0.
Proof. intros H L. rewrite last_nth. replace (hd 0 l) with (nth 0 l 0) by (destruct l; reflexivity). apply rising_lt; [exact H|lia|lia]. Qed.
Lemma parts_chain c nw a : known (sg_type c) = true -> parts c = Ok nw -> (2 <= length (sg_x c))%nat -> rising (sg_x c) -> abut a (start_of c) -> chain a (fst nw) (end_of c) /\ fst nw <> [].
Proof.
  destruct c as [t x e d]. unfold known, parts, start_of, end_of. cbn [sg_type sg_x sg_ei sg_degree]. intros K H L I A.
  assert (ONE : forall q, p_x0 q = hd 0 x -> p_x1 q = last x 0 -> chain a [q] (last x 0) /\ [q] <> []).
  { intros q E0 E1. split; [|discriminate]. rewrite <- E1. constructor; [rewrite E0; exact A|rewrite E0, E1; apply rising_ends; assumption|constructor]. }
  destruct (String.eqb_spec t "const") as [->|N1].
  { apply rbind_ok in H as (v & Ev & H). apply rbind_ok in H as (u & Ep & H). injection H as <-. apply ONE; reflexivity. }
  destruct (String.eqb t "linear" || String.eqb t "pwl") eqn:E.
  - apply rbind_ok in H as (l & El & H). destruct (Nat.eqb_spec (length l) (length x)) as [E1|]; [cbn [negb] in H|discriminate]. destruct (_ && _) in H; [discriminate|]. apply rbind_ok in H as (u & Ep & H). injection H as <-. cbn [fst].
    split; [apply linear_chain; assumption|]. destruct x as [|xa [|xb x]]; cbn in L; try lia. destruct l as [|ya [|yb l]]; try discriminate.
  - destruct e as [r|l|f].
    + apply rbind_ok in H as (l & El & H). destruct (negb _) in H; [discriminate|]. apply rbind_ok in H as (u & Ep & H). injection H as <-. apply ONE; reflexivity.
    + apply rbind_ok in H as (l' & El & H). destruct (negb _) in H; [discriminate|]. apply rbind_ok in H as (u & Ep & H). injection H as <-. apply ONE; reflexivity.
    + apply rbind_ok in H as (u & Ep & H). injection H as <-. apply ONE; reflexivity.
Qed.
Record sane (s : sect) : Prop := {
  sn_chain : chain 0 (s_pieces s) (s_end s);
  sn_empty : s_pieces s = [] -> s = sect_empty;
  sn_joins : s_joins s = [] <-> s_pieces s = [];
  sn_x0 : forall p ps, s_pieces s = p :: ps -> s_x0 s = p_x0 p }.
Lemma sane_anchor s : sane s -> anchor s = s_end s.
Proof. intros H. unfold anchor. destruct (s_pieces s) eqn:E; [|reflexivity]. rewrite (sn_empty _ H E). reflexivity. Qed.
Lemma call_inv s c s' : call pf s c = (s', Ok tt) -> add1 pf s c = Ok s'.
Proof. unfold call. destruct (add1 pf s c); intros H; [injection H as <-; reflexivity|discriminate]. Qed.
Lemma call_err s c s' e : call pf s c = (s', Err e) -> s' = s.
Proof. unfold call. destruct (add1 pf s c); intros H; [discriminate|injection H as <- _; reflexivity]. Qed.
Lemma parts_first c nw : parts c = Ok nw -> (2 <= length (sg_x c))%nat -> exists p ps, fst nw = p :: ps /\ p_x0 p = start_of c.
Proof.
  destruct c as [t x e d]. unfold parts, start_of. cbn [sg_type sg_x sg_ei sg_degree]. intros H L.
  destruct (String.eqb t "const").
  { apply rbind_ok in H as (v & Ev & H). apply rbind_ok in H as (u & Ep & H). injection H as <-. do 2 eexists. split; reflexivity. }
  destruct (String.eqb t "linear" || String.eqb t "pwl").
  - apply rbind_ok in H as (l & El & H). destruct (Nat.eqb_spec (length l) (length x)) as [E1|]; [cbn [negb] in H|discriminate]. destruct (_ && _) in H; [discriminate|]. apply rbind_ok in H as (u & Ep & H). injection H as <-. cbn [fst].
    destruct x as [|xa [|xb x]]; cbn in L; try lia. destruct l as [|ya [|yb l]]; try discriminate. do 2 eexists. split; reflexivity.
  - destruct e as [r|l|f].
    + apply rbind_ok in H as (l & El & H). destruct (negb _) in H; [discriminate|]. apply rbind_ok in H as (u & Ep & H). injection H as <-. do 2 eexists. split; reflexivity.
    + apply rbind_ok in H as (l' & El & H). destruct (negb _) in H; [discriminate|]. apply rbind_ok in H as (u & Ep & H). injection H as <-. do 2 eexists. split; reflexivity.
    + apply rbind_ok in H as (u & Ep & H). injection H as <-. do 2 eexists. split; reflexivity.
Qed.
Lemma sane_step s c s' : sane s -> add1 pf s c = Ok s' -> sane s'.
Proof.
  intros S H. destruct (add1_inv _ _ _ H) as (K & L & I & A & nw & P & ->). rewrite (sane_anchor s S) in A. destruct (parts_chain c nw _ K P L I A) as [C N].
  constructor; unfold extend; cbn [s_pieces s_end s_joins s_x0].
  - exact (chain_app _ _ _ _ _ (sn_chain _ S) C).
  - intros E. apply app_eq_nil in E as [_ E]. contradiction.
  - split; intros E; apply app_eq_nil in E as [_ E]; [discriminate|contradiction].
  - intros p ps E. destruct (s_pieces s) as [|q qs] eqn:Eq.
    + rewrite (proj2 (sn_joins _ S) Eq). destruct (parts_first c nw P L) as (p' & ps' & E1 & E2). cbn [app] in E. rewrite E1 in E. injection E as <- _. symmetry. exact E2.
    + destruct (s_joins s) eqn:EJ; [apply (sn_joins _ S) in EJ; congruence|]. injection E as <- _. exact (sn_x0 _ S q qs Eq).
Qed.
Lemma sane_empty : sane sect_empty.
Proof. constructor; cbn; try reflexivity; [constructor|split; reflexivity|intros; discriminate]. Qed.
Lemma history_sane acc s : history pf acc s -> sane s.
Proof.
  induction 1 as [|acc s c s' H IH E|acc s c s' e H IH E]; [apply sane_empty|exact (sane_step _ _ _ IH (call_inv _ _ _ E))|rewrite (call_err _ _ _ _ E); exact IH].
Qed.
Lemma accepted_iff acc s c : history pf acc s -> ((exists s', call pf s c = (s', Ok tt)) <-> acceptable (s_end s) c).
Proof.
  intros H. assert (S := history_sane _ _ H). split.
  - intros (s' & E). destruct (add1_inv _ _ _ (call_inv _ _ _ E)) as (K & L & I & A & nw & P & _). rewrite (sane_anchor s S) in A. split; [exact L|]. split; [exact I|]. split; [exact A|]. exact (parts_fits c nw K P).
  - intros (L & I & A & F). destruct (fits_parts c F) as (K & nw & P). exists (extend s (sg_x c) nw). unfold call. rewrite add1_eq, K. cbn [negb]. destruct (Nat.ltb_spec (length (sg_x c)) 2); [lia|].
    apply incr_rising in I. rewrite I. cbn [negb]. rewrite (sane_anchor s S). unfold abut, start_of in A. unfold isclose0, head_R. destruct (Rleb_spec (Rabs (hd 0 (sg_x c) - s_end s)) (1e-9 * Rmax 1 (Rabs (s_end s)))); [|contradiction]. cbn [negb]. rewrite P. reflexivity.
Qed.
Lemma rejected_unchanged s c e : snd (call pf s c) = Err e -> fst (call pf s c) = s.
Proof. intros H. destruct (call pf s c) as [s' r] eqn:E. cbn in *. subst r. exact (call_err _ _ _ _ E). Qed.
Lemma calls_app cs : forall s ds, calls pf s (cs ++ ds) = calls pf (calls pf s cs) ds.
Proof. induction cs as [|c cs IH]; intros s ds; cbn; [reflexivity|apply IH]. Qed.
Lemma calls_history cs : exists acc, history pf acc (calls pf sect_empty cs).
Proof.
  induction cs as [|c cs IH] using rev_ind; [exists []; constructor|]. destruct IH as (acc & H). rewrite calls_app. cbn [calls]. destruct (call pf (calls pf sect_empty cs) c) as [s' [[]|e]] eqn:E; cbn [fst].
  - exists (acc ++ [c]). exact (h_accepted pf _ _ _ _ H E).
  - exists acc. exact (h_rejected pf _ _ _ _ _ H E).
Qed.
Lemma foldM_app {A B} (f : A -> B -> result A) l m : forall a, foldM f (l ++ m) a = do x <- foldM f l a; foldM f m x.
Proof. induction l as [|b l IH]; intros a; cbn [app foldM]; [reflexivity|]. destruct (f a b); cbn [rbind]; [apply IH|reflexivity]. Qed.
Lemma init_history cs s : sect_init pf cs = Ok s <-> history pf cs s.
Proof.
  revert s. induction cs as [|c cs IH] using rev_ind; intros s; unfold sect_init in *; rewrite ?foldM_app.
  - split; [intros H; injection H as <-; constructor|]. intros H. remember (@nil segment) as acc eqn:EA. induction H as [|acc s c s' H IH E|acc s c s' e H IH E]; [reflexivity|destruct acc; discriminate|rewrite (call_err _ _ _ _ E); auto].
  - split.
    + intros H. apply rbind_ok in H as (s1 & H1 & H). apply IH in H1. cbn [foldM] in H. apply rbind_ok in H as (s2 & H2 & H). injection H as <-. apply (h_accepted pf _ s1 _ _ H1). unfold call. rewrite H2. reflexivity.
    + intros H. remember (cs ++ [c]) as acc eqn:EA. induction H as [|acc s c' s' H IH' E|acc s c' s' e H IH' E]; [destruct cs; discriminate|..].
      * apply app_inj_tail in EA as [-> ->]. apply IH in H. rewrite H. cbn [rbind foldM]. rewrite (call_inv _ _ _ E). reflexivity.
      * rewrite (call_err _ _ _ _ E). auto.
Qed.
End Build.
