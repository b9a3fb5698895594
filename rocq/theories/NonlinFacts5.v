(** The course of the incremental analysis. *)
From Coq Require Import ZArith.
From Verif Require Import Base BaseFacts Linalg LinalgFacts LoadModel FoundationModel ElementSpec AnalysisSpec FoundSpec NonlinModel NonlinSpec NonlinFacts3 NonlinFacts4.
Open Scope R_scope.

Lemma every_snoc {A} k (l : list A) x : every k (l ++ [x]) = every k l ++ (if (Nat.ltb 0 k && Nat.eqb (S (length l) mod k) 0)%bool then [x] else []).
Proof.
  unfold every. rewrite app_length. cbn [length]. rewrite Nat.add_1_r, seq_S. assert (C : forall (l1 l2 : list nat) (m1 m2 : list A), length l1 = length m1 -> combine (l1 ++ l2) (m1 ++ m2) = combine l1 m1 ++ combine l2 m2).
  { induction l1 as [|z l1 IH]; intros l2 [|y m1] m2 E; cbn in *; try discriminate; [reflexivity|]. f_equal. apply IH. lia. }
  rewrite C by (rewrite seq_length; reflexivity). rewrite filter_app, map_app. f_equal. cbn [combine Nat.add filter fst]. destruct (Nat.ltb 0 k && Nat.eqb (S (length l) mod k) 0)%bool; reflexivity.
Qed.
Lemma every_1 {A} (l : list A) : every 1 l = l.
Proof. induction l as [|x l IH] using rev_ind; [reflexivity|]. rewrite every_snoc, IH. rewrite Nat.mod_1_r. reflexivity. Qed.
Lemma combine_map {A B} (l : list (A * B)) : combine (map fst l) (map snd l) = l.
Proof. induction l as [|[x y] l IH]; cbn; [reflexivity|]. rewrite IH. reflexivity. Qed.

Section Run.
Variable rd : nat -> mat -> bool.
Variables (a : nba) (F : vec) (lmax : R) (ms : nat).
Hypothesis Me : meshed a.
Hypothesis Bc : forall i, In i (nb_bc a) -> (i < nb_dof a)%nat.
Hypothesis Ca : capacities a.

Definition still (h : hist) : Prop := nb_q a = 0 -> (forall j, (j < nb_nodes a)%nat -> nb_gy a j < 1) ->
  forall h1 t h2 j, h = h1 ++ t :: h2 -> (j < nb_nodes a)%nat -> 1 <= ratio a (snd t) j -> forall t', In t' h2 -> snd t' j = snd t j.
Record sinv (h : hist) (s : nlstate) : Prop := {
  si_tracks : tracks a h (ns_p s);
  si_len : length h = ns_step s;
  si_last : (h = [] /\ ns_lam s = 0 /\ ns_M s = fun _ => 0) \/ exists pre, h = pre ++ [(ns_lam s, ns_M s)];
  si_rise : rising_to (map fst h) (ns_lam s);
  si_max : 0 <= ns_lam s <= Rmax 0 lmax;
  si_pace : INR (ns_step s) / 1000 <= ns_lam s \/ ns_lam s = lmax;
  si_bal : forall t, In t h -> exists f, balanced a (fun i => fst t * F i) (snd t) f;
  si_u : held a (ns_u s);
  si_still : still h }.
Lemma sinv_0 : sinv [] nlstate0.
Proof.
  constructor; cbn [nlstate0 ns_p ns_step ns_lam ns_M ns_u].
  - apply tracks_nil.
  - reflexivity.
  - left. repeat split.
  - split; [cbn; lia|intros x []].
  - split; [lra|apply Rmax_l].
  - left. cbn [INR]. lra.
  - intros t [].
  - intros i _. reflexivity.
  - intros _ _ h1 t h2 j E. destruct h1; discriminate E.
Qed.
Lemma increment_cases Rmn lam : lam < lmax -> 0 < increment Rmn lmax lam /\ lam + increment Rmn lmax lam <= lmax /\ (1 / 1000 <= increment Rmn lmax lam \/ lam + increment Rmn lmax lam = lmax).
Proof.
  intros L. unfold increment. cbv zeta. set (dl := if Rltb (1 / 2) Rmn then 1 / 10 else if Rltb (1 / 4) Rmn then 1 / 100 else 1 / 1000). assert (D : 1 / 1000 <= dl) by (unfold dl; destruct (Rltb (1 / 2) Rmn); [lra|]; destruct (Rltb (1 / 4) Rmn); lra). clearbody dl. unfold Rmin. destruct (Rle_dec dl (lmax - lam)); repeat split; try lra.
Qed.
Lemma bal_last h s : sinv h s -> exists f, balanced a (fun i => ns_lam s * F i) (ns_M s) f.
Proof.
  intros I. destruct (si_last h s I) as [(_ & E & M)|(pre & E)].
  - exists (fun _ _ => 0). rewrite M. apply (balanced_ext a (fun _ => 0)); [intros i; rewrite E; ring|apply balanced_zero].
  - apply (si_bal h s I (ns_lam s, ns_M s)). rewrite E. apply in_or_app. right. left. reflexivity.
Qed.
Lemma still_last h s j : sinv h s -> nb_q a = 0 -> (forall j, (j < nb_nodes a)%nat -> nb_gy a j < 1) -> (j < nb_nodes a)%nat ->
  forall t, In t h -> 1 <= ratio a (snd t) j -> ns_M s j = snd t j /\ owned (pl_R (ns_p s)) j = 0.
Proof.
  intros I Hq Gy Hj t It G. assert (St := si_still h s I Hq Gy). destruct (si_last h s I) as [(-> & _)|(pre & E)]; [destruct It|]. assert (Eq : ns_M s j = snd t j).
  { rewrite E in It. apply in_app_or in It. destruct It as [It|[<-|[]]]; [|reflexivity]. apply in_split in It. destruct It as (p1 & p2 & Ep). apply (St p1 t (p2 ++ [(ns_lam s, ns_M s)]) j) with (t' := (ns_lam s, ns_M s)); [rewrite E, Ep, <- app_assoc; reflexivity|exact Hj|exact G|apply in_or_app; right; left; reflexivity]. }
  split; [exact Eq|]. assert (Er : ratio a (ns_M s) j = ratio a (snd t) j) by (unfold ratio; rewrite Eq; reflexivity).
  destruct (tr_R a h (ns_p s) (si_tracks h s I)) as (_ & Q). destruct (Q j Hj) as (_ & Q1). destruct (Q1 pre _ E) as (Q2 & _). cbn [snd] in Q2. assert (Mx : forall t', In t' pre -> ratio a (snd t') j <= ratio a (ns_M s) j).
  { intros t' It'. destruct (Rle_or_lt 1 (ratio a (snd t') j)) as [L|L]; [|lra]. apply in_split in It'. destruct It' as (p1 & p2 & Ep). right. unfold ratio. f_equal. f_equal. symmetry. apply (St p1 t' (p2 ++ [(ns_lam s, ns_M s)]) j) with (t' := (ns_lam s, ns_M s)); [rewrite E, Ep, <- app_assoc; reflexivity|exact Hj|exact L|apply in_or_app; right; left; reflexivity]. }
  specialize (Q2 Mx). specialize (Gy j Hj). destruct Q2 as [[B _]|[(_ & _ & B)|[B _]]]; [lra|rewrite B; exact Hq|lra].
Qed.
Lemma ends_nonneg h Re : stiffness_after a h Re -> 0 <= nb_q a <= 1 -> nonneg_ends a Re.
Proof. intros Sf Hq e i He Hi. assert (B := stiffness_bounds a h Re e i Sf ltac:(lra) Ca (me_nodes a Me) He Hi). lra. Qed.

Definition advance (s : nlstate) (u : vec) : nlstate :=
  let Re := pl_R (ns_p s) in
  let dl := increment (Rmin_all a Re) lmax (ns_lam s) in
  let M := fun j => ns_M s j + extract_moments a u Re j in
  {| ns_lam := ns_lam s + dl; ns_step := S (ns_step s); ns_p := fst (update_R a M (ns_p s) (ns_lam s + dl)); ns_M := M; ns_u := fun i => ns_u s i + u i; ns_lh := ns_lh s; ns_mh := ns_mh s |}.
Lemma sinv_step h s u : sinv h s -> ns_lam s < lmax ->
  solve (nb_dof a) (bc_matrix (nb_bc a) (nb_assemble a (pl_R (ns_p s)))) (bc_vector (nb_bc a) (fun i => increment (Rmin_all a (pl_R (ns_p s))) lmax (ns_lam s) * F i)) = Some u ->
  sinv (h ++ [(ns_lam (advance s u), ns_M (advance s u))]) (advance s u).
Proof.
  intros I L E. set (Re := pl_R (ns_p s)) in *. set (dl := increment (Rmin_all a Re) lmax (ns_lam s)) in *. destruct (increment_cases (Rmin_all a Re) (ns_lam s) L) as (D1 & D2 & D3). fold dl in D1, D2, D3. destruct (increment_balanced a Me Bc (nb_k a Re) _ u (k_balanced a Me Re) E) as (B & Hu).
  unfold advance. fold Re. fold dl. set (M := fun j => ns_M s j + extract_moments a u Re j). constructor; cbn [ns_p ns_step ns_lam ns_M ns_u].
  - apply tracks_step; [exact Ca|apply (si_tracks h s I)].
  - rewrite app_length. cbn [length]. rewrite (si_len h s I). lia.
  - right. exists h. reflexivity.
  - destruct (si_rise h s I) as (R1 & R2). rewrite map_app. cbn [map fst]. split.
    + intros i Hi. rewrite app_length in Hi. cbn [length] in Hi. rewrite Nat.add_1_r in Hi. assert (Hi' : (i < length (map fst h))%nat) by lia. rewrite (app_nth1 _ _ _ Hi'). destruct (Nat.eq_dec (S i) (length (map fst h))) as [En|En].
      * rewrite En, app_nth2, Nat.sub_diag by lia. cbn [nth]. specialize (R2 (nth i (map fst h) 0) (nth_In _ _ Hi')). lra.
      * rewrite app_nth1 by lia. apply R1. lia.
    + intros x Ix. apply in_app_or in Ix. destruct Ix as [Ix|[<-|[]]]; [specialize (R2 x Ix); lra|]. assert (Q := si_max h s I). lra.
  - assert (Q := si_max h s I). assert (Z := Rmax_r 0 lmax). lra.
  - destruct D3 as [D3|D3]; [left|right; exact D3]. rewrite S_INR. destruct (si_pace h s I) as [P|P]; lra.
  - intros t It. apply in_app_or in It. destruct It as [It|[<-|[]]]; [apply (si_bal h s I t It)|]. cbn [fst snd]. destruct (bal_last h s I) as (f & Bf). eexists. eapply balanced_ext; [|apply (balanced_add a _ _ _ _ _ _ Bf B)]. intros i. cbn beta. ring.
  - intros i Ii. rewrite (si_u h s I i Ii), (Hu i Ii). ring.
  - intros Hq Gy h1 t h2 j Eh Hj G t' It'. destruct h2 as [|x h2 _] using rev_ind; [destruct It'|]. rewrite app_comm_cons, app_assoc in Eh. apply app_inj_tail in Eh. destruct Eh as [Eh Ex]. apply in_app_or in It'. destruct It' as [It'|[<-|[]]]; [apply (si_still h s I Hq Gy h1 t h2 j Eh Hj G t' It')|]. rewrite <- Ex. cbn [snd]. unfold M.
    destruct (still_last h s j I Hq Gy Hj t ltac:(rewrite Eh; apply in_or_app; right; left; reflexivity) G) as (E1 & E2). rewrite (released_moment a Me); [rewrite E1; ring|exact Hj| |exact E2]. apply (ends_nonneg h); [apply (tr_R a h _ (si_tracks h s I))|lra].
Qed.

Definition with_lists (s : nlstate) (k : nat) (h : hist) : nlstate :=
  {| ns_lam := ns_lam s; ns_step := ns_step s; ns_p := ns_p s; ns_M := ns_M s; ns_u := ns_u s; ns_lh := map fst (every k h); ns_mh := map snd (every k h) |}.
Definition with_recs (r : nlresult) (k : nat) (h : hist) : nlresult :=
  {| nr_lambda := nr_lambda r; nr_collapsed := nr_collapsed r; nr_events := nr_events r; nr_moments := nr_moments r; nr_R := nr_R r;
     nr_lam_hist := map fst (every k h); nr_mom_hist := map snd (every k h); nr_u := nr_u r |}.
(** How a run ends, in state [s] after the updates [h], of which [rec] were recorded. *)
Record ended (rec h : hist) (s : nlstate) (r : nlresult) : Prop := {
  en_inv : sinv h s;
  en_lam : nr_lambda r = ns_lam s;
  en_ev : nr_events r = pl_events (ns_p s);
  en_M : nr_moments r = ns_M s;
  en_R : nr_R r = pl_R (ns_p s);
  en_u : nr_u r = ns_u s;
  en_steps : (length h <= ms)%nat;
  en_how : (rec = h /\ nr_collapsed r = false /\ is_mechanism rd a (pl_hinged (ns_p s)) = false /\ (length h = ms \/ lmax <= ns_lam s)) \/
           (rec = h /\ nr_collapsed r = true /\ ns_lam s < lmax /\ exists b, solve (nb_dof a) (bc_matrix (nb_bc a) (nb_assemble a (pl_R (ns_p s)))) b = None) \/
           (nr_collapsed r = true /\ h = rec ++ [(ns_lam s, ns_M s)] /\ is_mechanism rd a (pl_hinged (ns_p s)) = true /\
            exists j, (j < nb_nodes a)%nat /\ 1 <= ratio a (ns_M s) j /\ ~ reached a rec j 1) }.
Lemma run_ends fuel : forall h s, sinv h s -> is_mechanism rd a (pl_hinged (ns_p s)) = false -> (length h + fuel = ms)%nat -> exists rec h' s' r, ended rec h' s' r /\ forall k, increments rd a F lmax k fuel (with_lists s k h) = with_recs r k rec.
Proof.
  induction fuel as [|fuel IH]; intros h s I Nm Hf.
  - exists h, h, s, (finish s (ns_lam s) false). split.
    + constructor; try reflexivity; [exact I|lia|]. left. split; [reflexivity|]. split; [reflexivity|]. split; [exact Nm|]. left. lia.
    + intros k. reflexivity.
  - cbn [increments with_lists ns_lam]. destruct (Rltb_spec (ns_lam s) lmax) as [L|L].
    + unfold increment_step. cbn [with_lists ns_p ns_lam ns_step ns_M ns_u ns_lh ns_mh]. set (Re := pl_R (ns_p s)). set (dl := increment (Rmin_all a Re) lmax (ns_lam s)).
      destruct (solve (nb_dof a) (bc_matrix (nb_bc a) (nb_assemble a Re)) (bc_vector (nb_bc a) (fun i => dl * F i))) as [u|] eqn:E.
      * assert (I' := sinv_step h s u I L E). set (s1 := advance s u) in *. set (M := fun j => ns_M s j + extract_moments a u Re j) in *. set (up := update_R a M (ns_p s) (ns_lam s + dl)) in *.
        destruct (snd up && is_mechanism rd a (pl_hinged (fst up)))%bool eqn:Em.
        -- apply Bool.andb_true_iff in Em. destruct Em as [Em1 Em2]. exists h, (h ++ [(ns_lam s1, ns_M s1)]), s1, (finish s1 (ns_lam s1) true). split; [|intros k; reflexivity]. constructor; try reflexivity; [exact I'|rewrite app_length; cbn [length]; lia|]. right. right. split; [reflexivity|]. split; [reflexivity|]. split; [exact Em2|]. apply (update_new a h (ns_p s) M (ns_lam s + dl) (si_tracks h s I)). exact Em1.
        -- assert (Nm' : is_mechanism rd a (pl_hinged (ns_p s1)) = false). { change (ns_p s1) with (fst up). destruct (snd up) eqn:Eu; [exact Em|]. unfold up. rewrite update_old by exact Eu. exact Nm. }
           destruct (IH (h ++ [(ns_lam s1, ns_M s1)]) s1 I' Nm' ltac:(rewrite app_length; cbn [length]; lia)) as (rec & h' & s' & r & En & Q). exists rec, h', s', r. split; [exact En|]. intros k. rewrite <- (Q k). f_equal. unfold with_lists. rewrite every_snoc. rewrite (si_len h s I). destruct (Nat.ltb 0 k && Nat.eqb (S (ns_step s) mod k) 0)%bool; [rewrite !map_app; reflexivity|rewrite !app_nil_r; reflexivity].
      * exists h, h, s, (finish s (ns_lam s + dl - dl) true). split; [|intros k; reflexivity]. constructor; try reflexivity; [exact I|cbn [finish nr_lambda]; ring|lia|]. right. left. split; [reflexivity|]. split; [reflexivity|]. split; [exact L|]. exists (bc_vector (nb_bc a) (fun i => dl * F i)). exact E.
    + exists h, h, s, (finish s (ns_lam s) false). split; [|intros k; reflexivity]. constructor; try reflexivity; [exact I|lia|]. left. split; [reflexivity|]. split; [reflexivity|]. split; [exact Nm|]. right. lra.
Qed.
Lemma analysis_ends LM : force_vector a LM = Ok F -> exists rec h s r, ended rec h s r /\ forall k, nl_analyze rd a LM lmax k ms = Ok (with_recs r k rec).
Proof.
  intros EF. destruct (run_ends ms [] nlstate0 sinv_0 eq_refl ltac:(cbn; lia)) as (rec & h & s & r & En & Q). exists rec, h, s, r. split; [exact En|]. intros k. unfold nl_analyze. rewrite EF. cbn [rbind]. f_equal. rewrite <- (Q k). reflexivity.
Qed.
End Run.
