(** Evaluation and breakpoints of built sections. *)
From Coq Require Import String Lia Lra Permutation Sorted.
From Verif Require Import Base BaseFacts SectionModel LoadModel FoundationModel ElementModel ElementSpec SectBuildModel SectBuildSpec SectBuildFacts.
Open Scope R_scope.
Local Notation length := List.length.
Local Open Scope list_scope.

Section Build.
Variable pf : list R -> list R -> nat -> list R.

(** ** Pieces of the accepted segments *)
Definition solid (c : segment) : Prop := known (sg_type c) = true /\ (2 <= length (sg_x c))%nat /\ rising (sg_x c).
Record laid (acc : list segment) (s : sect) (nws : list (list piece * list R)) : Prop := {
  ld_parts : Forall2 (fun c nw => solid c /\ parts pf c = Ok nw) acc nws;
  ld_pieces : s_pieces s = flat_map fst nws;
  ld_joins : s_joins s = map end_of acc;
  ld_kinks : s_kinks s = flat_map snd nws }.
Lemma history_laid acc s : history pf acc s -> exists nws, laid acc s nws.
Proof.
  induction 1 as [|acc s c s' H (nws & [A B C D]) E|acc s c s' e H IH E]; [exists []; constructor; constructor| |rewrite (call_err _ _ _ _ _ E); exact IH].
  destruct (add1_inv _ _ _ _ (call_inv _ _ _ _ E)) as (K & L & I & _ & nw & P & ->). exists (nws ++ [nw]). unfold extend. constructor; cbn [s_pieces s_joins s_kinks].
  - apply Forall2_app; [exact A|]. constructor; [|constructor]. split; [split; [exact K|split; assumption]|exact P].
  - rewrite flat_map_app, B. cbn [flat_map]. rewrite app_nil_r. reflexivity.
  - rewrite map_app, C. reflexivity.
  - rewrite flat_map_app, D. cbn [flat_map]. rewrite app_nil_r. reflexivity.
Qed.
Lemma history_end acc s b : history pf acc s -> joined 0 acc b -> s_end s = b.
Proof.
  intros H J. assert (E : s_end s = last (map end_of acc) 0).
  { clear J. induction H as [|acc s c s' H IH E|acc s c s' e H IH E]; [reflexivity| |rewrite (call_err _ _ _ _ _ E); exact IH].
    destruct (add1_inv _ _ _ _ (call_inv _ _ _ _ E)) as (_ & _ & _ & _ & nw & _ & ->). rewrite map_app. cbn [map extend s_end]. rewrite last_last. reflexivity. }
  rewrite E. clear - J. revert J. generalize 0 at 1 2. induction acc as [|c acc IH]; intros a J; inversion J; subst; [reflexivity|]. cbn [map]. destruct acc as [|d acc]; [inversion H4; subst; reflexivity|].
  change (last (end_of c :: map end_of (d :: acc)) (start_of c)) with (last (map end_of (d :: acc)) (start_of c)).
  assert (LD : forall (l : list R) x y, l <> [] -> last l x = last l y).
  { induction l as [|z l IHl]; intros x y N; [congruence|]. destruct l as [|w l]; [reflexivity|]. change (last (z :: w :: l) x) with (last (w :: l) x). change (last (z :: w :: l) y) with (last (w :: l) y). apply IHl. discriminate. }
  rewrite (LD _ (start_of c) (end_of c)) by discriminate. exact (IH _ H4).
Qed.

Inductive exact_ : R -> list piece -> R -> Prop :=
| ex_nil a : exact_ a [] a
| ex_cons p ps b : p_x0 p < p_x1 p -> exact_ (p_x1 p) ps b -> exact_ (p_x0 p) (p :: ps) b.
Lemma exact_app a ps b qs d : exact_ a ps b -> exact_ b qs d -> exact_ a (ps ++ qs) d.
Proof. induction 1; intros Q; [exact Q|]. cbn [app]. constructor; auto. Qed.
Lemma linear_exact x : forall y, length y = length x -> (2 <= length x)%nat -> rising x -> exact_ (hd 0 x) (linear_pieces x y) (last x 0).
Proof.
  induction x as [|xa x IH]; intros y L L2 I; [cbn in L2; lia|]. destruct x as [|xb x]; [cbn in L2; lia|]. destruct y as [|ya [|yb y]]; try discriminate.
  change (linear_pieces (xa :: xb :: x) (ya :: yb :: y)) with ({| p_x0 := xa; p_x1 := xb; p_coeffs := [(yb - ya) / (xb - xa); ya - (yb - ya) / (xb - xa) * xa]; p_degree := 1 |} :: linear_pieces (xb :: x) (yb :: y)).
  change (hd 0 (xa :: xb :: x)) with (p_x0 {| p_x0 := xa; p_x1 := xb; p_coeffs := [(yb - ya) / (xb - xa); ya - (yb - ya) / (xb - xa) * xa]; p_degree := 1 |}).
  constructor; [exact (I 0%nat ltac:(cbn; lia))|]. cbn [p_x1]. change (last (xa :: xb :: x) 0) with (last (xb :: x) 0).
  destruct x as [|xc x]; [destruct y; [|discriminate]; constructor|]. apply (IH (yb :: y)); [cbn in *; lia|cbn; lia|].
  intros i Hi. apply (I (S i)). cbn [length] in *. lia.
Qed.
(** The three shapes of what a call adds. *)
Lemma parts_shape c nw : solid c -> parts pf c = Ok nw ->
  (sg_type c = "const"%string /\ exists v, numbers (sg_ei c) [v] /\ 0 < v /\ nw = ([{| p_x0 := start_of c; p_x1 := end_of c; p_coeffs := [v]; p_degree := 0 |}], [])) \/
  ((sg_type c = "linear"%string \/ sg_type c = "pwl"%string) /\ exists l, numbers (sg_ei c) l /\ length l = length (sg_x c) /\ Forall (Rlt 0) l /\ nw = (linear_pieces (sg_x c) l, interior (sg_x c))) \/
  (sg_type c = "poly"%string /\ exists q, p_x0 q = start_of c /\ p_x1 q = end_of c /\ nw = ([q], [])).
Proof.
  destruct c as [t x e d]. unfold solid, known, parts, start_of, end_of. cbn [sg_type sg_x sg_ei sg_degree]. intros (K & L & I) H.
  destruct (String.eqb_spec t "const") as [->|N1].
  { apply rbind_ok in H as (v & Ev & H). apply rbind_ok in H as (u & Ep & H). injection H as <-. left. split; [reflexivity|]. exists v. apply scalar_inv in Ev. apply check_inv, positive_check in Ep. inversion Ep; subst. auto. }
  destruct (String.eqb t "linear" || String.eqb t "pwl") eqn:E.
  - right. left. split; [apply Bool.orb_true_iff in E as [E|E]; apply String.eqb_eq in E; auto|].
    apply rbind_ok in H as (l & El & H). destruct (Nat.eqb_spec (length l) (length x)) as [E1|]; [cbn [negb] in H|discriminate]. destruct (_ && _) in H; [discriminate|]. apply rbind_ok in H as (u & Ep & H). injection H as <-.
    exists l. apply ravel_numbers in El. apply check_inv, positive_check in Ep. auto.
  - right. right. cbn [orb] in K. apply Bool.orb_false_iff in E as [E1 E2]. rewrite E1, E2 in K. cbn [orb] in K. apply String.eqb_eq in K. split; [exact K|]. destruct e as [r|l|f].
    + apply rbind_ok in H as (l & El & H). destruct (negb _) in H; [discriminate|]. apply rbind_ok in H as (u & Ep & H). injection H as <-. eexists. repeat split; reflexivity.
    + apply rbind_ok in H as (l' & El & H). destruct (negb _) in H; [discriminate|]. apply rbind_ok in H as (u & Ep & H). injection H as <-. eexists. repeat split; reflexivity.
    + apply rbind_ok in H as (u & Ep & H). injection H as <-. eexists. repeat split; reflexivity.
Qed.
Lemma parts_exact c nw : solid c -> parts pf c = Ok nw -> exact_ (start_of c) (fst nw) (end_of c).
Proof.
  intros Sd P. assert (Sd' := Sd). destruct Sd' as (K & L & I). assert (R1 := rising_ends _ I L).
  assert (ONE : forall q, p_x0 q = start_of c -> p_x1 q = end_of c -> exact_ (start_of c) [q] (end_of c)).
  { intros q E0 E1. rewrite <- E0, <- E1. constructor; [rewrite E0, E1; exact R1|constructor]. }
  destruct (parts_shape c nw Sd P) as [(_ & v & _ & _ & ->)|[(_ & l & N & E & _ & ->)|(_ & q & E0 & E1 & ->)]]; cbn [fst].
  - apply ONE; reflexivity.
  - apply linear_exact; assumption.
  - apply ONE; assumption.
Qed.
Lemma joined_exact acc nws : Forall2 (fun c nw => solid c /\ parts pf c = Ok nw) acc nws -> forall a b, joined a acc b -> exact_ a (flat_map fst nws) b.
Proof.
  induction 1 as [|c nw acc nws [Sd P] F IH]; intros a b J; inversion J; subst; [constructor|]. cbn [flat_map]. eapply exact_app; [exact (parts_exact c nw Sd P)|apply IH; assumption].
Qed.

(** ** Evaluation *)
Lemma exact_le a ps b : exact_ a ps b -> a <= b /\ Forall (fun p => a <= p_x0 p /\ p_x1 p <= b) ps.
Proof.
  induction 1 as [a|p ps b L E [IH1 IH2]]; [split; [lra|constructor]|]. split; [lra|]. constructor; [lra|]. eapply Forall_impl; [|exact IH2]. cbn. intros q [A B]. lra.
Qed.
Lemma find_exact a ps b p x : exact_ a ps b -> In p ps -> (p_x0 p + 1e-12 < x <= p_x1 p \/ p_x0 p = a /\ a <= x <= p_x1 p) -> find_piece ps x = Some p.
Proof.
  induction 1 as [a|q ps b L E IH]; intros I Hx; [destruct I|]. cbn [find_piece]. assert (T : 0 < 1e-12) by lra. destruct (exact_le _ _ _ E) as [Lb F]. destruct I as [->|I].
  - destruct (Rleb_spec (p_x0 p - 1e-12) x) as [_|N]; [|lra]. destruct (Rleb_spec x (p_x1 p + 1e-12)) as [_|N]; [reflexivity|lra].
  - rewrite Forall_forall in F. destruct (F p I) as [A B]. destruct Hx as [Hx|[Hx _]]; [|lra].
    destruct (Rleb_spec (p_x0 q - 1e-12) x) as [_|N]; [|lra]. destruct (Rleb_spec x (p_x1 q + 1e-12)) as [N|_]; [lra|]. cbn [andb]. apply IH; [exact I|left; lra].
Qed.
Lemma numbers_fun e l l' : numbers e l -> numbers e l' -> l = l'.
Proof. destruct e; cbn; intros; subst; congruence || contradiction. Qed.
Lemma linear_nth : forall x l k, length l = length x -> (S k < length x)%nat -> nth k x 0 < nth (S k) x 0 -> exists p, In p (linear_pieces x l) /\ p_x0 p = nth k x 0 /\ p_x1 p = nth (S k) x 0 /\
  forall t, piece_eval p t = chord (nth k x 0) (nth (S k) x 0) (nth k l 0) (nth (S k) l 0) t.
Proof.
  induction x as [|xa x IH]; intros l k L Hk Lt; [cbn in Hk; lia|]. destruct x as [|xb x]; [cbn in Hk; lia|]. destruct l as [|ya [|yb l]]; try discriminate. destruct k as [|k].
  - exists {| p_x0 := xa; p_x1 := xb; p_coeffs := [(yb - ya) / (xb - xa); ya - (yb - ya) / (xb - xa) * xa]; p_degree := 1 |}. split; [left; reflexivity|]. split; [reflexivity|]. split; [reflexivity|].
    intros t. cbn [nth] in *. unfold piece_eval, polyval, chord. cbn [p_coeffs fold_left]. field. lra.
  - destruct (IH (yb :: l) k) as (p & I & A & B & C); [cbn in *; lia|cbn in *; lia|exact Lt|]. exists p. split; [right; exact I|]. auto.
Qed.
Lemma chord_pos xa xb ya yb t : xa < xb -> 0 < ya -> 0 < yb -> xa <= t <= xb -> 0 < chord xa xb ya yb t.
Proof.
  intros L A B [T1 T2]. unfold chord. set (u := (t - xa) / (xb - xa)). assert (U : 0 <= u <= 1).
  { unfold u. split; [apply Rmult_le_pos; [lra|]; apply Rlt_le, Rinv_0_lt_compat; lra|]. apply (Rmult_le_reg_r (xb - xa)); [lra|]. unfold Rdiv. rewrite Rmult_assoc, Rinv_l by lra. lra. }
  replace (ya + (yb - ya) * u) with (ya * (1 - u) + yb * u) by ring. destruct (Rle_lt_dec u (1/2)).
  - assert (0 < ya * (1 - u)) by (apply Rmult_lt_0_compat; lra). assert (0 <= yb * u) by (apply Rmult_le_pos; lra). lra.
  - assert (0 <= ya * (1 - u)) by (apply Rmult_le_pos; lra). assert (0 < yb * u) by (apply Rmult_lt_0_compat; lra). lra.
Qed.
Lemma Forall_nth_pos l k : Forall (Rlt 0) l -> (k < length l)%nat -> 0 < nth k l 0.
Proof. intros F H. rewrite Forall_forall in F. apply F. apply nth_In. exact H. Qed.
Lemma declared_piece c nw lo hi f : solid c -> parts pf c = Ok nw -> declares c lo hi f ->
  (exists p, In p (fst nw) /\ p_x0 p = lo /\ p_x1 p = hi /\ forall t, piece_eval p t = f t) /\ lo < hi /\ forall t, lo <= t <= hi -> 0 < f t.
Proof.
  intros Sd P D. assert (Sd' := Sd). destruct Sd' as (K & L & I). destruct D as [c v Tc N|c l k Tc N Hk].
  - destruct (parts_shape c nw Sd P) as [(_ & v' & N' & Pv & ->)|[([T|T] & _)|(T & _)]]; [|rewrite Tc in T; discriminate|rewrite Tc in T; discriminate|rewrite Tc in T; discriminate].
    assert (E := numbers_fun _ _ _ N N'). injection E as ->. split; [|split; [apply rising_ends; assumption|intros _ _; exact Pv]].
    eexists. split; [left; reflexivity|]. split; [reflexivity|]. split; [reflexivity|]. intros t. unfold piece_eval, polyval. cbn. ring.
  - destruct (parts_shape c nw Sd P) as [(T & _)|[(_ & l' & N' & E & Pl & ->)|(T & _)]]; [destruct Tc as [Tc|Tc]; rewrite Tc in T; discriminate| |destruct Tc as [Tc|Tc]; rewrite Tc in T; discriminate].
    assert (E' := numbers_fun _ _ _ N N'). subst l'. assert (Lt := I k Hk). destruct (linear_nth (sg_x c) l k E Hk Lt) as (p & Ip & A & B & C). split; [exists p; auto|]. split; [exact Lt|].
    intros t Ht. apply chord_pos; try assumption; apply Forall_nth_pos; try assumption; lia.
Qed.
Lemma piece_declared c nw p : solid c -> parts pf c = Ok nw -> sg_type c <> "poly"%string -> In p (fst nw) -> exists f, declares c (p_x0 p) (p_x1 p) f /\ forall t, piece_eval p t = f t.
Proof.
  intros Sd P NP I. assert (Sd' := Sd). destruct Sd' as (K & L & Ri). destruct (parts_shape c nw Sd P) as [(T & v & N & _ & ->)|[(T & l & N & E & Pl & ->)|(T & _)]]; [| |contradiction]; cbn [fst] in I.
  - destruct I as [<-|[]]. eexists. split; [apply dec_const; eassumption|]. intros t. unfold piece_eval, polyval. cbn. ring.
  - assert (G : forall x l0, length l0 = length x -> rising x -> In p (linear_pieces x l0) -> exists k, (S k < length x)%nat /\ p_x0 p = nth k x 0 /\ p_x1 p = nth (S k) x 0 /\ forall t, piece_eval p t = chord (nth k x 0) (nth (S k) x 0) (nth k l0 0) (nth (S k) l0 0) t).
    { clear. induction x as [|xa x IH]; intros l0 E R I; [destruct I|]. destruct x as [|xb x]; [destruct I|]. destruct l0 as [|ya [|yb l0]]; try discriminate. destruct I as [<-|I].
      - exists 0%nat. split; [cbn; lia|]. split; [reflexivity|]. split; [reflexivity|]. intros t. assert (Lt := R 0%nat ltac:(cbn; lia)). cbn [nth] in *. unfold piece_eval, polyval, chord. cbn [p_coeffs fold_left]. field. lra.
      - destruct (IH (yb :: l0)) as (k & Hk & A & B & C); [cbn in *; lia| |exact I|].
        + intros i Hi. apply (R (S i)). cbn [length] in *. lia.
        + exists (S k). split; [cbn in *; lia|]. auto. }
    destruct (G _ _ E Ri I) as (k & Hk & A & B & C). rewrite A, B. eexists. split; [apply dec_linear; [exact T|exact N|exact Hk]|exact C].
Qed.
Lemma F2_in {A B} (Q : A -> B -> Prop) l m x : Forall2 Q l m -> In x l -> exists y, In y m /\ Q x y.
Proof. induction 1 as [|a b l m H F IH]; intros I; [destruct I|]. destruct I as [->|I]; [exists b; split; [left; reflexivity|exact H]|]. destruct (IH I) as (y & Iy & Hy). exists y. split; [right; exact Iy|exact Hy]. Qed.
Lemma F2_in_r {A B} (Q : A -> B -> Prop) l m y : Forall2 Q l m -> In y m -> exists x, In x l /\ Q x y.
Proof. induction 1 as [|a b l m H F IH]; intros I; [destruct I|]. destruct I as [->|I]; [exists a; split; [left; reflexivity|exact H]|]. destruct (IH I) as (x & Ix & Hx). exists x. split; [right; exact Ix|exact Hx]. Qed.
Lemma eval_found s x p : find_piece (s_pieces s) x = Some p -> sect_eval s x = Ok (piece_eval p x).
Proof. unfold sect_eval. destruct (s_pieces s); [discriminate|]. intros ->. reflexivity. Qed.
Lemma evaluates acc s b c lo hi f x : history pf acc s -> joined 0 acc b -> In c acc -> declares c lo hi f -> lo + 1e-12 < x <= hi \/ lo = 0 /\ 0 <= x <= hi ->
  sect_eval s x = Ok (f x) /\ 0 < f x.
Proof.
  intros H J I D Hx. destruct (history_laid _ _ H) as (nws & [A B _ _]). destruct (F2_in _ _ _ _ A I) as (nw & Inw & Sd & P). destruct (declared_piece c nw lo hi f Sd P D) as ((p & Ip & E0 & E1 & Ef) & Lt & Pos).
  assert (EX := joined_exact _ _ A _ _ J). rewrite <- B in EX.
  assert (Ips : In p (s_pieces s)) by (rewrite B; apply in_flat_map; exists nw; auto).
  rewrite (eval_found s x p), Ef; [|apply (find_exact _ _ _ p x EX Ips); rewrite E0, E1; exact Hx]. split; [reflexivity|]. apply Pos. lra.
Qed.
Lemma find_total a ps b x : exact_ a ps b -> ps <> [] -> a <= x <= b -> exists q, find_piece ps x = Some q /\ In q ps /\ p_x0 q <= x <= p_x1 q + 1e-12.
Proof.
  induction 1 as [a|q ps b L E IH]; intros N Hx; [congruence|]. cbn [find_piece]. assert (T : 0 < 1e-12) by lra. destruct (Rleb_spec (p_x0 q - 1e-12) x) as [_|Q]; [|lra].
  destruct (Rleb_spec x (p_x1 q + 1e-12)) as [Q|Q]; cbn [andb].
  - exists q. split; [reflexivity|]. split; [left; reflexivity|lra].
  - destruct ps as [|r ps]; [inversion E; subst; lra|]. destruct IH as (q' & F & I & B); [discriminate|lra|]. exists q'. split; [exact F|]. split; [right; exact I|exact B].
Qed.
Lemma laid_nonempty acc s nws : laid acc s nws -> acc <> [] -> s_pieces s <> [].
Proof.
  intros [A B _ _] N. destruct A as [|c nw acc nws [Sd P] A]; [congruence|]. destruct (parts_first pf c nw P) as (p & ps & E & _); [destruct Sd as (_ & L & _); exact L|]. rewrite B. cbn [flat_map]. rewrite E. discriminate.
Qed.
Lemma total acc s b x : history pf acc s -> joined 0 acc b -> acc <> [] -> exists v, sect_eval s x = Ok v.
Proof.
  intros H J N. destruct (history_laid _ _ H) as (nws & LD). assert (NP := laid_nonempty _ _ _ LD N). destruct LD as [A B _ _]. assert (EX := joined_exact _ _ A _ _ J). rewrite <- B in EX.
  assert (EE := history_end _ _ _ H J). assert (SN := history_sane _ _ _ H). destruct (s_pieces s) as [|p ps] eqn:EP; [congruence|].
  assert (X0 : s_x0 s = 0). { rewrite (sn_x0 _ SN p ps EP). inversion EX; subst; auto. }
  unfold sect_eval. rewrite EP. destruct (find_piece (p :: ps) x) eqn:EF; [eauto|]. rewrite X0, EE. destruct (Rltb_spec x 0); [eauto|]. destruct (Rltb_spec b x); [eauto|].
  destruct (find_total _ _ _ x EX) as (q & F & _); [discriminate|lra|congruence].
Qed.
Lemma find_sound a ps b x q : exact_ a ps b -> find_piece ps x = Some q -> forall p, In p ps -> p_x0 p <= x <= p_x1 p -> In q ps /\ p_x0 q <= x <= p_x1 q + 1e-12.
Proof.
  intros E F p I Hx. destruct (exact_le _ _ _ E) as [_ G]. rewrite Forall_forall in G. destruct (G p I) as [G1 G2]. destruct (find_total _ _ _ x E) as (q' & F' & R); [intros ->; destruct I|lra|]. rewrite F in F'. injection F' as <-. exact R.
Qed.
Lemma positive acc s b : history pf acc s -> joined 0 acc b -> Forall (fun c => sg_type c <> "poly"%string) acc -> Forall (gentle 1e-12) acc -> positive_rigidity (RSect s).
Proof.
  intros H J NP G. destruct (history_laid _ _ H) as (nws & [A B _ _]). assert (EX := joined_exact _ _ A _ _ J). rewrite <- B in EX. split.
  - clear - EX. induction EX; constructor; auto.
  - intros p x v I Hx EV. destruct (find_piece (s_pieces s) x) as [q|] eqn:EF.
    + rewrite (eval_found s x q EF) in EV. injection EV as <-. destruct (find_sound _ _ _ x q EX EF p I Hx) as [Iq Bq]. rewrite B in Iq. apply in_flat_map in Iq as (nw & Inw & Iq).
      destruct (F2_in_r _ _ _ _ A Inw) as (c & Ic & Sd & P). rewrite Forall_forall in NP, G. destruct (piece_declared c nw q Sd P (NP c Ic) Iq) as (f & D & Ef). rewrite Ef.
      destruct (declared_piece c nw _ _ f Sd P D) as (_ & _ & Pos). destruct (Rle_lt_dec x (p_x1 q)); [apply Pos; lra|]. apply (G c Ic _ _ f D). lra.
    + exfalso. destruct (exact_le _ _ _ EX) as [_ Q]. rewrite Forall_forall in Q. destruct (Q p I). destruct (find_total _ _ _ x EX) as (q & F' & _); [intros E; rewrite E in I; destruct I|lra|congruence].
Qed.

(** ** Breakpoints *)
Lemma insert_perm x l : Permutation (x :: l) (insert_R x l).
Proof. induction l as [|y l IH]; cbn [insert_R]; [reflexivity|]. destruct (Rle_dec x y); [reflexivity|]. rewrite perm_swap. constructor. exact IH. Qed.
Lemma sort_perm l : Permutation l (sort_R l).
Proof. induction l as [|x l IH]; [reflexivity|]. cbn [sort_R fold_right]. fold (sort_R l). rewrite <- insert_perm. constructor. exact IH. Qed.
Lemma insert_sorted x l : StronglySorted Rle l -> StronglySorted Rle (insert_R x l).
Proof.
  induction 1 as [|y l So IH F]; cbn [insert_R]; [constructor; constructor|]. destruct (Rle_dec x y) as [L|L].
  - constructor; [constructor; assumption|]. constructor; [exact L|]. eapply Forall_impl; [|exact F]. cbn. intros; lra.
  - constructor; [exact IH|]. apply (Permutation_Forall (insert_perm x l)). constructor; [lra|exact F].
Qed.
Lemma sort_sorted l : StronglySorted Rle (sort_R l).
Proof. induction l as [|x l IH]; [constructor|]. apply insert_sorted. exact IH. Qed.
Lemma sorted_unique l : forall m, StronglySorted Rle l -> StronglySorted Rle m -> Permutation l m -> l = m.
Proof.
  induction l as [|x l IH]; intros m S1 S2 P; [apply Permutation_nil in P; congruence|]. destruct m as [|y m]; [symmetry in P; apply Permutation_nil in P; discriminate|].
  inversion S1 as [|? ? S1' F1]; subst. inversion S2 as [|? ? S2' F2]; subst. assert (E : x = y).
  { assert (I1 : In y (x :: l)) by (eapply Permutation_in; [symmetry; exact P|left; reflexivity]). assert (I2 : In x (y :: m)) by (eapply Permutation_in; [exact P|left; reflexivity]).
    destruct I1 as [->|I1]; [reflexivity|]. destruct I2 as [->|I2]; [reflexivity|]. rewrite Forall_forall in F1, F2. specialize (F1 y I1). specialize (F2 x I2). lra. }
  subst y. f_equal. apply IH; try assumption. eapply Permutation_cons_inv. exact P.
Qed.
Lemma spaced_sorted tol : 0 <= tol -> forall l a, spaced tol a l -> StronglySorted Rle (a :: l).
Proof.
  intros T. induction l as [|b l IH]; intros a H; [constructor; constructor|]. destruct H as [H1 H2]. specialize (IH b H2). constructor; [exact IH|]. inversion IH; subst. constructor; [lra|]. eapply Forall_impl; [|eassumption]. cbn. intros; lra.
Qed.
Lemma spaced_keep tol : forall l a, spaced tol a l -> keep_gaps tol a l = l.
Proof. induction l as [|b l IH]; intros a H; [reflexivity|]. destruct H as [H1 H2]. cbn [keep_gaps]. destruct (Rltb_spec tol (b - a)); [|lra]. rewrite IH by exact H2. reflexivity. Qed.
Lemma changes_perm c nw : solid c -> parts pf c = Ok nw -> Permutation (end_of c :: snd nw) (changes c).
Proof.
  intros Sd P. assert (Sd' := Sd). destruct Sd' as (K & L & I). unfold changes. destruct (parts_shape c nw Sd P) as [(T & v & _ & _ & ->)|[(T & l & _ & E & _ & ->)|(T & q & _ & _ & ->)]]; cbn [snd].
  - rewrite T. reflexivity.
  - assert (B : (String.eqb (sg_type c) "linear" || String.eqb (sg_type c) "pwl")%bool = true) by (destruct T as [-> | ->]; reflexivity). rewrite B.
    unfold interior, end_of. destruct (sg_x c) as [|a [|b x]]; cbn in L; try lia. cbn [List.tl]. change (last (a :: b :: x) 0) with (last (b :: x) 0).
    rewrite (app_removelast_last 0 (l := b :: x)) at 3 by discriminate. rewrite Permutation_cons_append. reflexivity.
  - rewrite T. reflexivity.
Qed.
Lemma breaks acc s b : history pf acc s -> joined 0 acc b -> acc <> [] -> spaced (1e-9 * Rmax 1 b) 0 (flat_map changes acc) ->
  sect_length s = b /\ breakpoints s = 0 :: flat_map changes acc.
Proof.
  intros H J N SP. destruct (history_laid _ _ H) as (nws & LD). assert (NP := laid_nonempty _ _ _ LD N). destruct LD as [A B C D]. assert (EX := joined_exact _ _ A _ _ J). rewrite <- B in EX.
  assert (EE := history_end _ _ _ H J). assert (SN := history_sane _ _ _ H). destruct (s_pieces s) as [|p ps] eqn:EP; [congruence|].
  assert (X0 : s_x0 s = 0) by (rewrite (sn_x0 _ SN p ps EP); inversion EX; subst; auto).
  assert (LE : sect_length s = b) by (unfold sect_length; rewrite X0, EE; ring). split; [exact LE|].
  assert (PM : Permutation (s_joins s ++ s_kinks s) (flat_map changes acc)).
  { rewrite C, D. clear - A. induction A as [|c nw acc nws [Sd P] A IH]; [reflexivity|]. cbn [map flat_map]. rewrite <- (changes_perm c nw Sd P). cbn [app]. constructor.
    rewrite app_assoc, (Permutation_app_comm (map end_of acc) (snd nw)), <- app_assoc. apply Permutation_app_head. exact IH. }
  assert (T : 0 <= 1e-9 * Rmax 1 b) by (assert (Q := Rmax_l 1 b); lra).
  assert (SR : sort_R (s_x0 s :: s_joins s ++ s_kinks s) = 0 :: flat_map changes acc).
  { apply sorted_unique; [apply sort_sorted|exact (spaced_sorted _ T _ _ SP)|]. rewrite <- sort_perm, X0. constructor. exact PM. }
  unfold breakpoints. rewrite SR, LE. f_equal. apply spaced_keep. exact SP.
Qed.
End Build.
