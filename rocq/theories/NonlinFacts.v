(** The mesh of the plastic analysis. *)
From Coq Require Import ZArith.
From Coquelicot Require Import Coquelicot.
From Verif Require Import Base BaseFacts SectionModel LoadModel VehicleModel BridgeModel BridgeFacts InfFacts2 AnalysisSpec FoundSpec NonlinModel NonlinSpec.
Open Scope R_scope.

Lemma ne_pos L m : (1 <= mesh_ne L m)%nat. Proof. unfold mesh_ne. lia. Qed.
Lemma start_S L Ls i : start (L :: Ls) (S i) = L + start Ls i.
Proof. unfold start. rewrite rsum_S_first. reflexivity. Qed.
Lemma start_0 Ls : start Ls 0 = 0. Proof. reflexivity. Qed.
Lemma start_step Ls i : start Ls (S i) = start Ls i + nth i Ls 0. Proof. reflexivity. Qed.
Lemma start_all Ls : start Ls (length Ls) = lsum Ls.
Proof. induction Ls as [|L Ls IH]; [reflexivity|]. cbn [length]. rewrite start_S, IH. reflexivity. Qed.
Lemma start_le Ls i j : Forall (Rlt 0) Ls -> (i <= j)%nat -> start Ls i <= start Ls j.
Proof.
  intros P H. induction H as [|j H IH]; [lra|]. rewrite start_step. destruct (Nat.ltb_spec j (length Ls)) as [L|L]; [|rewrite nth_overflow by exact L; lra]. assert (0 < nth j Ls 0) by (apply (proj1 (Forall_forall _ _) P), nth_In, L). lra.
Qed.
Lemma start_lt Ls i j : Forall (Rlt 0) Ls -> (i < j <= length Ls)%nat -> start Ls i < start Ls j.
Proof.
  intros P H. apply Rlt_le_trans with (start Ls (S i)); [|apply start_le; [exact P|lia]]. rewrite start_step. assert (0 < nth i Ls 0) by (apply (proj1 (Forall_forall _ _) P), nth_In; lia). lra.
Qed.
Lemma cumsum_length x Ls : length (cumsum x Ls) = S (length Ls).
Proof. revert x. induction Ls as [|L Ls IH]; intros x; cbn [cumsum length]; [reflexivity|]. rewrite IH. reflexivity. Qed.
Lemma cumsum_nth Ls : forall x i, (i <= length Ls)%nat -> nth i (cumsum x Ls) 0 = x + start Ls i.
Proof.
  induction Ls as [|L Ls IH]; intros x [|i] Hi; cbn [cumsum nth length] in *; try lia; try (rewrite start_0; ring). rewrite IH by lia. rewrite start_S. ring.
Qed.

Lemma mapM_nth_gen {A B} (f : A -> result B) l : forall bs i d d', mapM f l = Ok bs -> (i < length l)%nat -> f (nth i l d) = Ok (nth i bs d').
Proof.
  induction l as [|x l IH]; intros bs i d d' H Hi; [cbn in Hi; lia|]. cbn [mapM] in H. apply rbind_ok in H as (y & Hy & H). apply rbind_ok in H as (ys & Hys & H). inversion H as [X]. clear H X. destruct i as [|i]; cbn [nth]; [exact Hy|]. apply IH; [exact Hys|cbn in Hi; lia].
Qed.
(** Elements in a row: (length, right coordinate, span). *)
Fixpoint linked (x : R) (l : list (R * R * nat)) : Prop :=
  match l with [] => True | t :: r => snd (fst t) = x + fst (fst t) /\ 0 < fst (fst t) /\ linked (snd (fst t)) r end.
Fixpoint end_x (x : R) (l : list (R * R * nat)) : R := match l with [] => x | t :: r => end_x (snd (fst t)) r end.
Lemma linked_app l1 : forall x l2, linked x l1 -> linked (end_x x l1) l2 -> linked x (l1 ++ l2).
Proof. induction l1 as [|t l1 IH]; intros x l2 H1 H2; [exact H2|]. cbn [linked end_x app] in *. destruct H1 as (A & B & C). repeat apply conj; [exact A|exact B|apply IH; assumption]. Qed.
Lemma end_x_app l1 : forall x l2, end_x x (l1 ++ l2) = end_x (end_x x l1) l2.
Proof. induction l1 as [|t l1 IH]; intros x l2; [reflexivity|]. cbn [end_x app]. apply IH. Qed.
Lemma equal_linked h i x0 : 0 < h -> forall n k, linked (x0 + INR k * h) (map (fun j => (h, x0 + INR (j + 1) * h, i)) (seq k n)) /\ end_x (x0 + INR k * h) (map (fun j => (h, x0 + INR (j + 1) * h, i)) (seq k n)) = x0 + INR (k + n) * h.
Proof.
  intros Hh. induction n as [|n IH]; intros k; cbn [seq map linked end_x fst snd]; [rewrite Nat.add_0_r; split; [exact I|reflexivity]|]. destruct (IH (S k)) as [A B]. replace (k + 1)%nat with (S k) by lia. rewrite B. split; [|f_equal; f_equal; f_equal; lia].
  split; [rewrite S_INR; ring|]. split; [exact Hh|exact A].
Qed.
Lemma mesh_spec m Ls : Forall (Rlt 0) Ls -> forall x0 i0, linked x0 (mesh_from x0 i0 Ls m) /\ end_x x0 (mesh_from x0 i0 Ls m) = x0 + start Ls (length Ls) /\
  (forall t, In t (mesh_from x0 i0 Ls m) -> exists k, (k < length Ls)%nat /\ snd t = (i0 + k)%nat /\ fst (fst t) = nth k Ls 0 / INR (mesh_ne (nth k Ls 0) m) /\
     x0 + start Ls k <= snd (fst t) - fst (fst t) /\ snd (fst t) <= x0 + start Ls (S k)) /\
  (forall k, (k <= length Ls)%nat -> In (x0 + start Ls k) (x0 :: map (fun t => snd (fst t)) (mesh_from x0 i0 Ls m))).
Proof.
  induction 1 as [|L Ls HL HP IH]; intros x0 i0; cbn [mesh_from].
  - split; [exact I|]. split; [unfold start; cbn; ring|]. split; [intros t []|]. intros k Hk. cbn [length] in Hk. assert (k = 0%nat) as -> by lia. left. rewrite start_0. ring.
  - cbv zeta. set (ne := mesh_ne L m). assert (N1 : (1 <= ne)%nat) by apply ne_pos. assert (NI : 0 < INR ne) by (apply lt_0_INR; lia). assert (Hh : 0 < L / INR ne) by (apply Rdiv_lt_0_compat; assumption). set (h := L / INR ne) in *.
    assert (E : INR ne * h = L) by (unfold h; field; lra). destruct (equal_linked h i0 x0 Hh ne 0) as [A B]. replace (x0 + INR 0 * h) with x0 in A, B by (cbn; ring). cbn [Nat.add] in B. destruct (IH (x0 + INR ne * h) (S i0)) as (C & D & F & G). split; [|split; [|split]].
    + apply linked_app; [exact A|]. rewrite B. exact C.
    + rewrite end_x_app, B, D. cbn [length]. rewrite start_S, E. ring.
    + intros t Ht. apply in_app_or in Ht as [Ht|Ht].
      * apply in_map_iff in Ht as (j & <- & Hj). apply in_seq in Hj. exists 0%nat. cbn [fst snd nth length]. split; [lia|]. split; [lia|]. split; [reflexivity|]. rewrite start_0, start_S, start_0, <- E. rewrite plus_INR. cbn [INR]. assert (0 <= INR j) by apply pos_INR. assert (INR j + 1 <= INR ne) by (rewrite <- S_INR; apply le_INR; lia). split; nra.
      * destruct (F t Ht) as (k & Hk & E1 & E2 & E3 & E4). exists (S k). cbn [length nth]. split; [lia|]. split; [lia|]. split; [exact E2|]. rewrite !start_S. rewrite E in E3, E4. lra.
    + intros [|k] Hk; [left; rewrite start_0; ring|]. cbn [length] in Hk. rewrite start_S. replace (x0 + (L + start Ls k)) with (x0 + INR ne * h + start Ls k) by (rewrite E; ring). rewrite map_app. destruct (G k ltac:(lia)) as [Q|Q]; [|right; apply in_or_app; right; exact Q].
      right. apply in_or_app. left. rewrite <- Q. apply in_map_iff. exists (h, x0 + INR (ne - 1 + 1) * h, i0). cbn [fst snd]. split; [rewrite Nat.sub_add by exact N1; reflexivity|]. apply in_map_iff. exists (ne - 1)%nat. split; [reflexivity|]. apply in_seq. lia.
Qed.
Lemma linked_nth l : forall x e, linked x l -> (e < length l)%nat -> let xs := x :: map (fun t => snd (fst t)) l in
  nth (e + 1) xs 0 = nth e xs 0 + nth e (map (fun t => fst (fst t)) l) 0 /\ 0 < nth e (map (fun t => fst (fst t)) l) 0.
Proof.
  induction l as [|t l IH]; intros x e H He; [cbn in He; lia|]. destruct H as (A & B & C). cbn [map]. destruct e as [|e]; [cbn; split; assumption|]. cbn [length] in He. assert (Q := IH _ e C ltac:(lia)). cbv zeta in Q. cbn [nth Nat.add] in *. exact Q.
Qed.
Lemma end_x_nth l : forall x, nth (length l) (x :: map (fun t => snd (fst t)) l) 0 = end_x x l.
Proof. induction l as [|t l IH]; intros x; [reflexivity|]. cbn [length map end_x]. change (nth (length l) (snd (fst t) :: map (fun t0 => snd (fst t0)) l) 0 = end_x (snd (fst t)) l). apply IH. Qed.

Section Made.
Variables (a : nba) (Ls : list R) (EI : eiargs) (rs : list R) (Mp : narg) (My : option narg) (q msz : R).
Hypothesis H : made a Ls EI rs Mp My q msz.
Let el := mesh_from 0 0 Ls msz.
Lemma lens : Forall (Rlt 0) Ls. Proof. apply H. Qed.
Lemma some : (1 <= length Ls)%nat. Proof. destruct H as (_ & N & _). destruct Ls; [congruence|cbn; lia]. Qed.
Lemma parts : exists ei, ei_numbers EI = Ok ei /\ nb_L a = Ls /\ nb_q a = q /\ nb_coords a = 0 :: map (fun t => snd (fst t)) el /\ nb_eL a = map (fun t => fst (fst t)) el /\
  nb_n2s a = 0%nat :: map snd el /\ mesh_bc (nb_coords a) rs (cumsum 0 Ls) = Ok (nb_bc a) /\
  mapM (get (as_spans ei (length Ls))) (firstn (length el) (0%nat :: map snd el)) = Ok (nb_EI a) /\
  mapM (get (as_spans Mp (length Ls))) (0%nat :: map snd el) = Ok (nb_Mp a) /\
  mapM (get (match My with None => map (fun m => m / (115/100)) (as_spans Mp (length Ls)) | Some m => as_spans m (length Ls) end)) (0%nat :: map snd el) = Ok (nb_My a).
Proof.
  destruct H as (E & _). unfold nba_init in E. cbv zeta in E. fold el in E. apply rbind_ok in E as (ei & E0 & E). apply rbind_ok in E as (bc & E1 & E). apply rbind_ok in E as (ee & E2 & E). apply rbind_ok in E as (np & E3 & E). apply rbind_ok in E as (ny & E4 & E). rewrite map_length in E2.
  inversion E as [X]. clear E X. exists ei. cbn [nb_L nb_q nb_coords nb_eL nb_bc nb_n2s nb_EI nb_Mp nb_My]. repeat apply conj; try reflexivity; assumption.
Qed.
Lemma el_some : (1 <= length el)%nat.
Proof.
  assert (S1 := some). unfold el. destruct Ls as [|L t]; [cbn in S1; lia|]. cbn [mesh_from]. cbv zeta. rewrite app_length, map_length, seq_length. assert (N := ne_pos L msz). lia.
Qed.
Lemma elems_el : nb_elems a = length el.
Proof. destruct parts as (ei & _ & _ & _ & _ & E & _). unfold nb_elems. rewrite E, map_length. reflexivity. Qed.
Lemma is_meshed : meshed a.
Proof.
  assert (EL := elems_el). destruct parts as (ei & _ & E1 & _ & E2 & E3 & _). destruct (mesh_spec msz Ls lens 0 0) as (A & B & _). fold el in A, B. split.
  - unfold nb_nodes. rewrite E2, EL. cbn [length]. rewrite map_length. reflexivity.
  - rewrite EL. apply el_some.
  - unfold coord. rewrite E2. reflexivity.
  - intros e He. rewrite EL in He. unfold coord, element_h. rewrite E2, E3. apply (linked_nth el 0 e A He).
  - intros e He. rewrite EL in He. unfold element_h. rewrite E3. apply (linked_nth el 0 e A He).
  - unfold coord. rewrite E2, EL, end_x_nth, B, E1. ring.
Qed.
(** The span an element is in. *)
Lemma span_of_element e : (e < nb_elems a)%nat -> exists i, (i < length Ls)%nat /\ lies_in a e i /\ nth (S e) (nb_n2s a) 0%nat = i /\ element_h a e = nth i Ls 0 / INR (mesh_ne (nth i Ls 0) msz).
Proof.
  intros He. assert (M := me_step a is_meshed e He). assert (EL := elems_el). destruct parts as (ei & _ & E1 & _ & E2 & E3 & E4 & _). rewrite EL in He. destruct (mesh_spec msz Ls lens 0 0) as (_ & _ & F & _). fold el in F.
  destruct (F (nth e el (0, 0, 0%nat)) ltac:(apply nth_In; exact He)) as (k & Hk & Q1 & Q2 & Q3 & Q4). cbn [Nat.add] in Q1. exists k. split; [exact Hk|].
  assert (C1 : coord a (e + 1) = snd (fst (nth e el (0, 0, 0%nat)))). { unfold coord. rewrite E2, Nat.add_1_r. cbn [nth]. rewrite (nth_indep _ 0 (snd (fst (0, 0, 0%nat)))) by (rewrite map_length; exact He). rewrite (map_nth (fun t => snd (fst t))). reflexivity. }
  assert (C2 : element_h a e = fst (fst (nth e el (0, 0, 0%nat)))). { unfold element_h. rewrite E3. rewrite (nth_indep _ 0 (fst (fst (0, 0, 0%nat)))) by (rewrite map_length; exact He). rewrite (map_nth (fun t => fst (fst t))). reflexivity. }
  split; [|split].
  - unfold lies_in. rewrite E1, Nat.add_1_r with (n := k). rewrite <- C1, <- C2 in Q3. rewrite <- C1 in Q4. lra.
  - rewrite E4. cbn [nth]. rewrite <- Q1. apply (map_nth snd el (0, 0, 0%nat)).
  - rewrite C2. exact Q2.
Qed.
Lemma lies_unique e i k : (e < nb_elems a)%nat -> (i < length Ls)%nat -> (k < length Ls)%nat -> lies_in a e i -> lies_in a e k -> i = k.
Proof.
  intros He Hi Hk (A1 & A2) (B1 & B2). assert (P := me_positive a is_meshed e He). assert (Ms := me_step a is_meshed e He). destruct parts as (ei & _ & E1 & _). rewrite E1 in *.
  destruct (Nat.lt_trichotomy i k) as [L|[L|L]]; [|exact L|].
  - assert (Q := start_le Ls (i + 1) k lens ltac:(lia)). lra.
  - assert (Q := start_le Ls (k + 1) i lens ltac:(lia)). lra.
Qed.
Lemma coord_lt i j : (i < j <= nb_elems a)%nat -> coord a i < coord a j.
Proof.
  intros [L B]. induction L as [|j L IH].
  - assert (P := me_positive a is_meshed i ltac:(lia)). assert (Ms := me_step a is_meshed i ltac:(lia)). replace (S i) with (i + 1)%nat by lia. lra.
  - assert (P := me_positive a is_meshed j ltac:(lia)). assert (Ms := me_step a is_meshed j ltac:(lia)). replace (S j) with (j + 1)%nat by lia. specialize (IH ltac:(lia)). lra.
Qed.
Lemma support_node i : (i <= length Ls)%nat -> exists j, (j < nb_nodes a)%nat /\ coord a j = start Ls i.
Proof.
  intros Hi. destruct (mesh_spec msz Ls lens 0 0) as (_ & _ & _ & G). fold el in G. specialize (G i Hi). destruct parts as (ei & _ & _ & _ & E2 & _). rewrite <- E2 in G. apply In_nth with (d := 0) in G as (j & Hj & E). exists j. split; [exact Hj|]. unfold coord. rewrite E. ring.
Qed.
Lemma nearest_exact x j : (j < nb_nodes a)%nat -> coord a j = x -> nearest (nb_coords a) x = j.
Proof.
  intros Hj E. unfold nearest. assert (N : nb_coords a <> []) by (intros X; unfold nb_nodes in Hj; rewrite X in Hj; cbn in Hj; lia). destruct (argmin_first (fun c => Rabs (c - x)) 0 (nb_coords a) N) as (A & B). set (p := argmin (map (fun c => Rabs (c - x)) (nb_coords a))) in *.
  destruct (B j Hj) as [C _]. change (nth j (nb_coords a) 0) with (coord a j) in C. rewrite E in C. replace (x - x) with 0 in C by ring. rewrite Rabs_R0 in C. assert (Z : nth p (nb_coords a) 0 = x). { assert (Q := Rabs_pos (nth p (nb_coords a) 0 - x)). destruct (Req_dec (nth p (nb_coords a) 0 - x) 0) as [W|W]; [lra|]. apply Rabs_pos_lt in W. lra. }
  assert (MN := me_nodes a is_meshed). destruct (Nat.lt_trichotomy p j) as [L|[L|L]]; [|exact L|].
  - assert (Q := coord_lt p j ltac:(unfold nb_nodes in *; lia)). unfold coord in Q at 1. lra.
  - assert (Q := coord_lt j p ltac:(unfold nb_nodes in *; lia)). unfold coord in Q at 2. lra.
Qed.
Lemma bc_iff g : In g (nb_bc a) <-> exists i d j, (i <= length Ls)%nat /\ (d < 2)%nat /\ (j < nb_nodes a)%nat /\ coord a j = start Ls i /\ nth_error rs (2 * i + d) = Some (-1) /\ g = (2 * j + d)%nat.
Proof.
  destruct parts as (ei & _ & _ & _ & _ & _ & _ & E & _). unfold mesh_bc in E. apply rbind_ok in E as (ls & E & E'). inversion E' as [X]. clear E'.
  rewrite cumsum_length in E. assert (EA : forall i, (i <= length Ls)%nat -> exists l, bc_at (nb_coords a) rs i (start Ls i) = Ok l /\ nth i ls [] = l).
  { intros i Hi. exists (nth i ls []). split; [|reflexivity]. assert (Q := mapM_nth_gen _ _ _ i 0%nat [] E ltac:(rewrite seq_length; lia)). rewrite seq_nth in Q by lia. cbn [Nat.add] in Q. rewrite cumsum_nth in Q by exact Hi. rewrite Rplus_0_l in Q. exact Q. }
  assert (Len : length ls = S (length Ls)) by (rewrite (mapM_length _ _ _ E), seq_length; reflexivity).
  assert (BC : forall i l, (i <= length Ls)%nat -> bc_at (nb_coords a) rs i (start Ls i) = Ok l -> forall g, In g l <-> exists d j, (d < 2)%nat /\ (j < nb_nodes a)%nat /\ coord a j = start Ls i /\ nth_error rs (2 * i + d) = Some (-1) /\ g = (2 * j + d)%nat).
  { clear E X EA. intros i l Hi B g'. destruct (support_node i Hi) as (j & Hj & Cj). unfold bc_at in B. cbv zeta in B. rewrite (nearest_exact _ j Hj Cj) in B. apply rbind_ok in B as (r0 & B0 & B). apply rbind_ok in B as (r1 & B1 & B). apply get_ok in B0, B1. inversion B as [X]. clear B X.
    assert (U : forall j', (j' < nb_nodes a)%nat -> coord a j' = start Ls i -> j' = j) by (intros j' Hj' Cj'; rewrite <- (nearest_exact _ j Hj Cj); symmetry; apply nearest_exact; assumption).
    split.
    - intros I. apply in_app_or in I as [I|I].
      + destruct (Reqb_spec r0 (-1)) as [->|]; [|destruct I]. destruct I as [<-|[]]. exists 0%nat, j. rewrite Nat.add_0_r. repeat apply conj; try lia; assumption.
      + destruct (Reqb_spec r1 (-1)) as [->|]; [|destruct I]. destruct I as [<-|[]]. exists 1%nat, j. repeat apply conj; try lia; assumption.
    - intros (d & j' & Hd & Hj' & Cj' & En & ->). rewrite (U j' Hj' Cj'). apply in_or_app. destruct d as [|[|d]]; [| |lia].
      + left. rewrite Nat.add_0_r in En. rewrite B0 in En. inversion En. destruct (Reqb_spec (-1) (-1)); [|lra]. left. lia.
      + right. rewrite B1 in En. inversion En. destruct (Reqb_spec (-1) (-1)); [|lra]. left. lia. }
  rewrite in_concat. split.
  - intros (l & Hl & Hg). apply In_nth with (d := []) in Hl as (i & Hi & Ei). rewrite Len in Hi. destruct (EA i ltac:(lia)) as (l' & B & E2). rewrite Ei in E2. subst l'. apply (BC i l ltac:(lia) B) in Hg as (d & j & Q). exists i, d, j. split; [lia|exact Q].
  - intros (i & d & j & Hi & Q). destruct (EA i Hi) as (l & B & E2). exists l. split; [rewrite <- E2; apply nth_In; lia|]. apply (BC i l Hi B). exists d, j. exact Q.
Qed.

Lemma get_span v n i x : get (as_spans v n) i = Ok x -> for_span v i x.
Proof.
  intros G. apply get_ok in G. destruct v as [r|l]; cbn [as_spans for_span] in *; [|exact G]. apply nth_error_In in G. apply repeat_spec in G. exact G.
Qed.
Lemma ei_span ei i x : ei_numbers EI = Ok ei -> for_span ei i x -> rigidity EI i x.
Proof.
  destruct EI as [[r|s]|l]; cbn [ei_numbers rigidity]; [|discriminate|]; intros E F.
  - inversion E. subst ei. cbn [for_span] in F. congruence.
  - apply rbind_ok in E as (xs & E & E'). inversion E'. subst ei. cbn [for_span] in F. assert (Hi : (i < length l)%nat) by (rewrite <- (mapM_length _ _ _ E); apply nth_error_Some; congruence).
    assert (Q := mapM_nth_gen _ _ _ i (RConst 0) 0 E Hi). rewrite (nth_error_nth _ _ _ F) in Q. destruct (nth_error l i) as [y|] eqn:Y; [|apply nth_error_None in Y; lia]. rewrite (nth_error_nth _ _ _ Y) in Q. destruct y; [|discriminate]. inversion Q. reflexivity.
Qed.
(** The rigidity used for element [e] is that of the span of the element before it. *)
Lemma element_EI e : (e < nb_elems a)%nat -> rigidity EI (nth e (nb_n2s a) 0%nat) (nth e (nb_EI a) 0).
Proof.
  intros He. assert (EL := elems_el). destruct parts as (ei & E0 & _ & _ & _ & _ & E4 & _ & E5 & _). rewrite EL in He. apply (ei_span ei _ _ E0). apply (get_span _ (length Ls)).
  assert (Q := mapM_nth_gen _ _ _ e 0%nat 0 E5 ltac:(rewrite firstn_length; cbn [length]; rewrite map_length; lia)). rewrite E4. rewrite <- Q. f_equal. symmetry.
  rewrite <- (firstn_skipn (length el) (0%nat :: map snd el)) at 2. rewrite app_nth1; [reflexivity|]. rewrite firstn_length. cbn [length]. rewrite map_length. lia.
Qed.
Lemma first_span e : (e < nb_elems a)%nat -> coord a e = 0 -> lies_in a e 0.
Proof.
  intros He E. destruct (span_of_element e He) as (i & Hi & Li & _). destruct i as [|i]; [exact Li|]. destruct parts as (ei & _ & E1 & _). destruct Li as (L1 & _). rewrite E1 in L1. assert (Q := start_lt Ls 0 (S i) lens ltac:(lia)). rewrite start_0 in Q. lra.
Qed.
Lemma inner_EI e i : (e < nb_elems a)%nat -> (i < length Ls)%nat -> lies_in a e i -> (i = 0%nat \/ start Ls i < coord a e) -> rigidity EI i (nth e (nb_EI a) 0).
Proof.
  intros He Hi Li C. assert (Q := element_EI e He). replace i with (nth e (nb_n2s a) 0%nat); [exact Q|]. destruct parts as (ei & _ & E1 & _ & _ & _ & E4 & _). destruct e as [|e].
  - rewrite E4. cbn [nth]. destruct C as [C|C]; [symmetry; exact C|]. assert (F := me_first a is_meshed). assert (Z := start_le Ls 0 i lens ltac:(lia)). rewrite start_0 in Z. lra.
  - destruct (span_of_element e ltac:(lia)) as (k & Hk & Lk & E & _). rewrite E. destruct Li as (L1 & L2). destruct Lk as (K1 & K2). rewrite E1 in *. replace (e + 1)%nat with (S e) in * by lia. destruct (Nat.lt_trichotomy i k) as [L|[L|L]]; [|symmetry; exact L|].
    + assert (Z := start_le Ls (i + 1) k lens ltac:(lia)). assert (C1 := coord_lt e (S e) ltac:(lia)). assert (C2 := coord_lt (S e) (S e + 1) ltac:(lia)). lra.
    + assert (Z := start_le Ls (k + 1) i lens ltac:(lia)). destruct C as [C|C]; [lia|]. lra.
Qed.
Lemma junction_EI e i : (e < nb_elems a)%nat -> (S i < length Ls)%nat -> coord a e = start Ls (S i) -> lies_in a e (S i) /\ rigidity EI i (nth e (nb_EI a) 0).
Proof.
  intros He Hi C. destruct parts as (ei & _ & E1 & _ & _ & _ & E4 & _). destruct (span_of_element e He) as (k & Hk & (K1 & K2) & _). rewrite E1 in K1, K2. assert (M := coord_lt e (e + 1) ltac:(lia)).
  assert (k = S i) as ->. { destruct (Nat.lt_trichotomy k (S i)) as [L|[L|L]]; [|exact L|].
    - assert (Z := start_le Ls (k + 1) (S i) lens ltac:(lia)). lra.
    - assert (Z := start_lt Ls (S i) k lens ltac:(lia)). lra. }
  split; [unfold lies_in; rewrite E1; split; assumption|]. assert (Q := element_EI e He). replace i with (nth e (nb_n2s a) 0%nat); [exact Q|]. destruct e as [|e].
  - assert (F := me_first a is_meshed). assert (Z := start_lt Ls 0 (S i) lens ltac:(lia)). rewrite start_0 in Z. lra.
  - destruct (span_of_element e ltac:(lia)) as (m & Hm & (M1 & M2) & E & _). rewrite E. rewrite E1 in M1, M2. replace (e + 1)%nat with (S e) in * by lia. assert (C0 := coord_lt e (S e) ltac:(lia)). destruct (Nat.lt_trichotomy i m) as [L|[L|L]]; [|symmetry; exact L|].
    + assert (Z := start_le Ls (S i) m lens ltac:(lia)). lra.
    + assert (Z := start_lt Ls (m + 1) (S i) lens ltac:(lia)). lra.
Qed.
(** Capacities: each node takes those of the span that ends at it or contains it. *)
Definition yield_for (i : nat) (x : R) : Prop := match My with Some m => for_span m i x | None => exists p, for_span Mp i p /\ x = p / (115/100) end.
Lemma node_caps j i : (j < nb_nodes a)%nat -> (i < length Ls)%nat -> ((j = 0%nat /\ i = 0%nat) \/ start Ls i < coord a j <= start Ls (i + 1)) -> for_span Mp i (nth j (nb_Mp a) 0) /\ yield_for i (nth j (nb_My a) 0).
Proof.
  intros Hj Hi C. assert (MN := me_nodes a is_meshed). assert (EL := elems_el). destruct parts as (ei & _ & E1 & _ & _ & _ & E4 & _ & _ & E6 & E7).
  assert (Ei : nth j (0%nat :: map snd el) 0%nat = i).
  { rewrite <- E4. destruct j as [|e]; [rewrite E4; cbn [nth]|].
    - destruct C as [[_ C]|C]; [symmetry; exact C|]. rewrite (me_first a is_meshed) in C. assert (Z := start_le Ls 0 i lens ltac:(lia)). rewrite start_0 in Z. lra.
    - destruct (span_of_element e ltac:(lia)) as (k & Hk & (K1 & K2) & E & _). rewrite E. rewrite E1 in K1, K2. replace (e + 1)%nat with (S e) in * by lia. destruct C as [[C _]|C]; [lia|]. assert (C0 := coord_lt e (S e) ltac:(lia)). destruct (Nat.lt_trichotomy i k) as [L|[L|L]]; [|symmetry; exact L|].
      + assert (Z := start_le Ls (i + 1) k lens ltac:(lia)). lra.
      + assert (Z := start_le Ls (k + 1) i lens ltac:(lia)). lra. }
  assert (Lj : (j < length (0%nat :: map snd el))%nat) by (cbn [length]; rewrite map_length; lia).
  assert (Q := mapM_nth_gen _ _ _ j 0%nat 0 E6 Lj). rewrite Ei in Q. split; [apply (get_span _ _ _ _ Q)|]. assert (Q' := mapM_nth_gen _ _ _ j 0%nat 0 E7 Lj). rewrite Ei in Q'. unfold yield_for. destruct My as [m|]; [apply (get_span _ _ _ _ Q')|].
  apply get_ok in Q'. rewrite nth_error_map in Q'. apply get_ok in Q. rewrite Q in Q'. cbn [option_map] in Q'. exists (nth j (nb_Mp a) 0). split; [apply (get_span _ (length Ls)); apply get_ok; exact Q|]. inversion Q'. reflexivity.
Qed.
End Made.
