(** Consequences for the two analyses, and a worked beam. *)
From Coq Require Import ZArith Sorted.
From Coquelicot Require Import Coquelicot.
From Verif Require Import Base BaseFacts Linalg LinalgFacts SectionModel LoadModel VehicleModel BridgeModel BridgeFacts EnvelopeModel FoundationModel ElementSpec AnalysisSpec FoundSpec FoundFacts FoundFacts2 NonlinModel NonlinSpec NonlinFacts NonlinFacts2 NonlinFacts3 NonlinFacts4 NonlinFacts5 NonlinFacts6 NonlinFacts7 NonlinFacts8.
Open Scope R_scope.

Lemma every_map {A B} (f : A -> B) k (l : list A) : map f (every k l) = every k (map f l).
Proof. induction l as [|x l IH] using rev_ind; [reflexivity|]. rewrite map_app. cbn [map]. rewrite !every_snoc, map_app, IH, map_length. destruct (Nat.ltb 0 k && Nat.eqb (S (length l) mod k) 0)%bool; reflexivity. Qed.
Lemma force_some rd a LM lmax k ms r : nl_analyze rd a LM lmax k ms = Ok r -> exists F, force_vector a LM = Ok F.
Proof. unfold nl_analyze. intros E. apply rbind_ok in E as (F & E & _). exists F. exact E. Qed.

Section Static.
Variable rd : nat -> mat -> bool.
Variables (a : nba) (Ls : list R) (EI : eiargs) (rs : list R) (Mp : narg) (My : option narg) (q msz : R).
Hypothesis H : made a Ls EI rs Mp My q msz.
Hypothesis Ca : capacities a.
Let Me := is_meshed _ _ _ _ _ _ _ _ H.
Let Bc := made_bc _ _ _ _ _ _ _ _ H.
Variables (LM : list row) (lmax : R) (ms : nat).
Lemma q_is : nb_q a = q. Proof. destruct (parts _ _ _ _ _ _ _ _ H) as (ei & _ & _ & E & _). exact E. Qed.
Lemma run_of k r : nl_analyze rd a LM lmax k ms = Ok r -> exists F rec h s r0, force_vector a LM = Ok F /\ ended rd a F lmax ms rec h s r0 /\ r = with_recs r0 k rec /\ forall k', nl_analyze rd a LM lmax k' ms = Ok (with_recs r0 k' rec).
Proof.
  intros E. destruct (force_some _ _ _ _ _ _ _ E) as (F & EF). destruct (analysis_ends rd a F lmax ms Me Bc Ca LM EF) as (rec & h & s & r0 & En & Q). exists F, rec, h, s, r0. split; [exact EF|]. split; [exact En|]. split; [|exact Q]. rewrite Q in E. inversion E as [X]. reflexivity.
Qed.
Lemma recording r1 : nl_analyze rd a LM lmax 1 ms = Ok r1 -> forall k, exists r, nl_analyze rd a LM lmax k ms = Ok r /\ same_outcome r1 r /\ nr_lam_hist r = every k (nr_lam_hist r1) /\ nr_mom_hist r = every k (nr_mom_hist r1).
Proof.
  intros E k. destruct (run_of 1 r1 E) as (F & rec & h & s & r0 & _ & _ & -> & Q). exists (with_recs r0 k rec). split; [apply Q|]. split; [repeat split|]. cbn [with_recs nr_lam_hist nr_mom_hist]. rewrite !every_1, !every_map. split; reflexivity.
Qed.
Lemma factor k r : nl_analyze rd a LM lmax k ms = Ok r -> 0 <= nr_lambda r <= Rmax 0 lmax /\
  (nr_collapsed r = false -> nr_lambda r = Rmax 0 lmax \/ INR ms / 1000 <= nr_lambda r).
Proof.
  intros E. destruct (run_of k r E) as (F & rec & h & s & r0 & _ & En & -> & _). cbn [with_recs nr_lambda nr_collapsed]. rewrite (en_lam _ _ _ _ _ _ _ _ _ En). assert (I := en_inv _ _ _ _ _ _ _ _ _ En). assert (Mx := si_max _ _ _ _ _ I). split; [exact Mx|]. intros C. destruct (en_how _ _ _ _ _ _ _ _ _ En) as [(_ & _ & _ & [L|L])|[(_ & C' & _)|(C' & _)]]; try congruence.
  - destruct (si_pace _ _ _ _ _ I) as [P|P]; [right; rewrite <- L, (si_len _ _ _ _ _ I); exact P|left]. apply Rle_antisym; [lra|]. rewrite P in *. apply Rmax_lub; lra.
  - left. apply Rle_antisym; [lra|]. apply Rmax_lub; lra.
Qed.
Lemma reaches k r : 1000 * lmax <= INR ms -> nl_analyze rd a LM lmax k ms = Ok r -> nr_collapsed r = false -> nr_lambda r = Rmax 0 lmax.
Proof.
  intros L E C. destruct (factor k r E) as (Mx & Q). destruct (Q C) as [P|P]; [exact P|]. apply Rle_antisym; [lra|]. apply Rmax_lub; lra.
Qed.
Lemma ratios k r : q <= 1 -> nl_analyze rd a LM lmax k ms = Ok r -> forall e i, (e < nb_elems a)%nat -> (i < 2)%nat -> q <= nr_R r e i <= 1.
Proof.
  intros Hq E e i He Hi. destruct (run_of k r E) as (F & rec & h & s & r0 & _ & En & -> & _). cbn [with_recs nr_R]. rewrite (en_R _ _ _ _ _ _ _ _ _ En). assert (I := en_inv _ _ _ _ _ _ _ _ _ En). rewrite <- q_is in *. apply (stiffness_bounds a h); [apply (tr_R _ _ _ (si_tracks _ _ _ _ _ I))|exact Hq|exact Ca|apply (me_nodes a Me)|exact He|exact Hi].
Qed.
Lemma course r : nl_analyze rd a LM lmax 1 ms = Ok r -> exists h, updates r h /\ stiffness_after a h (nr_R r) /\ events_of a h (nr_events r) /\ rising_to (map fst h) (nr_lambda r) /\
  ((h = [] /\ nr_lambda r = 0 /\ nr_moments r = fun _ => 0) \/ exists pre, h = pre ++ [(nr_lambda r, nr_moments r)]).
Proof.
  intros E. destruct (run_of 1 r E) as (F & rec & h & s & r0 & _ & En & -> & _). assert (I := en_inv _ _ _ _ _ _ _ _ _ En). exists h. unfold updates. cbn [with_recs nr_R nr_events nr_lambda nr_moments nr_lam_hist nr_mom_hist nr_collapsed]. rewrite every_1, !map_length, combine_map, (en_R _ _ _ _ _ _ _ _ _ En), (en_lam _ _ _ _ _ _ _ _ _ En), (en_ev _ _ _ _ _ _ _ _ _ En), (en_M _ _ _ _ _ _ _ _ _ En).
  split; [split; [reflexivity|]|split; [apply (tr_R _ _ _ (si_tracks _ _ _ _ _ I))|split; [apply (tr_events _ _ _ (si_tracks _ _ _ _ _ I))|split; [apply (si_rise _ _ _ _ _ I)|apply (si_last _ _ _ _ _ I)]]]].
  destruct (en_how _ _ _ _ _ _ _ _ _ En) as [(-> & _)|[(-> & _)|(C & Eh & _)]]; [left; reflexivity|left; reflexivity|right; split; assumption].
Qed.
Lemma steps_made r : nl_analyze rd a LM lmax 1 ms = Ok r -> (length (nr_lam_hist r) <= ms)%nat /\ (nr_collapsed r = false -> nr_lambda r < lmax -> length (nr_lam_hist r) = ms).
Proof.
  intros E. destruct (run_of 1 r E) as (F & rec & h & s & r0 & _ & En & -> & _). assert (I := en_inv _ _ _ _ _ _ _ _ _ En). assert (St := en_steps _ _ _ _ _ _ _ _ _ En). cbn [with_recs nr_lam_hist nr_collapsed nr_lambda]. rewrite every_1, map_length, (en_lam _ _ _ _ _ _ _ _ _ En). destruct (en_how _ _ _ _ _ _ _ _ _ En) as [(-> & _ & _ & [L|L])|[(-> & C & _)|(C & Eh & _)]].
  - split; [exact St|intros _ _; exact L].
  - split; [exact St|intros _ L'; lra].
  - split; [exact St|congruence].
  - split; [|congruence]. rewrite Eh, app_length in St. lia.
Qed.
Lemma events_good k r : nl_analyze rd a LM lmax k ms = Ok r -> once_each (nr_events r) /\ chronological (nr_events r) /\
  (forall ev, In ev (nr_events r) -> (ev_node ev < nb_nodes a)%nat /\ ev_x ev = coord a (ev_node ev) /\ 0 < ev_lam ev <= nr_lambda r) /\
  ((forall j, (j < nb_nodes a)%nat -> nb_gy a j <= 1) -> yield_first (nr_events r)).
Proof.
  intros E. destruct (run_of k r E) as (F & rec & h & s & r0 & _ & En & -> & _). cbn [with_recs nr_events nr_lambda]. rewrite (en_ev _ _ _ _ _ _ _ _ _ En), (en_lam _ _ _ _ _ _ _ _ _ En). assert (I := en_inv _ _ _ _ _ _ _ _ _ En). assert (Te := tr_events _ _ _ (si_tracks _ _ _ _ _ I)). destruct (si_rise _ _ _ _ _ I) as (R1 & R2). split; [apply (ev_once a h); exact Te|]. split; [apply (ev_chrono a h); [exact Te|apply rising_ss; exact R1]|]. split; [|intros Gy; apply (ev_yield a h); assumption].
  intros ev Iv. destruct (ev_due a h _ ev Te Iv) as (pre & t & post & Eh & (D1 & D2 & D3 & _)). split; [exact D1|]. split; [exact D3|]. rewrite D2. apply R2. apply in_map. rewrite Eh. apply in_or_app. right. left. reflexivity.
Qed.
Lemma keeps_moment r : nl_analyze rd a LM lmax 1 ms = Ok r -> q = 0 -> (forall j, (j < nb_nodes a)%nat -> nb_gy a j < 1) ->
  forall i j, (i < length (nr_mom_hist r))%nat -> (j < nb_nodes a)%nat -> 1 <= ratio a (nth i (nr_mom_hist r) (fun _ => 0)) j ->
  nr_moments r j = nth i (nr_mom_hist r) (fun _ => 0) j /\ forall i', (i < i' < length (nr_mom_hist r))%nat -> nth i' (nr_mom_hist r) (fun _ => 0) j = nth i (nr_mom_hist r) (fun _ => 0) j.
Proof.
  intros E Hq Gy i j Hi Hj G. destruct (run_of 1 r E) as (F & rec & h & s & r0 & _ & En & -> & _). assert (I := en_inv _ _ _ _ _ _ _ _ _ En). cbn [with_recs nr_mom_hist nr_moments] in *. rewrite every_1 in *. rewrite map_length in Hi. rewrite (en_M _ _ _ _ _ _ _ _ _ En). rewrite <- q_is in Hq.
  assert (Ih : exists post, h = rec ++ post). { destruct (en_how _ _ _ _ _ _ _ _ _ En) as [(-> & _)|[(-> & _)|(_ & Eh & _)]]; [exists []; rewrite app_nil_r; reflexivity|exists []; rewrite app_nil_r; reflexivity|eexists; exact Eh]. } destruct Ih as (post & Eh).
  assert (Nm : forall i, (i < length rec)%nat -> nth i (map snd rec) (fun _ => 0) = snd (nth i rec (0, fun _ => 0))). { intros k Hk. rewrite (nth_indep _ _ (snd (0, fun _ : nat => 0))) by (rewrite map_length; exact Hk). apply map_nth. }
  rewrite Nm in G |- * by exact Hi. destruct (nth_split rec (0, fun _ => 0) Hi) as (l1 & l2 & El & Ll). set (t := nth i rec (0, fun _ => 0)) in *. split.
  - apply (still_last a F lmax h s j I Hq Gy Hj t); [rewrite Eh, El; apply in_or_app; left; apply in_or_app; right; left; reflexivity|exact G].
  - intros i' Hi'. rewrite map_length in Hi'. rewrite Nm by lia. apply (si_still _ _ _ _ _ I Hq Gy l1 t (l2 ++ post) j); [rewrite Eh, El, <- app_assoc; reflexivity|exact Hj|exact G|]. apply in_or_app. left. rewrite El, app_nth2 by lia. replace (i' - length l1)%nat with (S (i' - length l1 - 1)) by lia. cbn [nth]. apply nth_In. rewrite El, app_length in Hi'. cbn [length] in Hi'. lia.
Qed.

(** Equilibrium. *)
Lemma in_equilibrium k r F : force_vector a LM = Ok F -> nl_analyze rd a LM lmax k ms = Ok r ->
  (exists f, balanced a (fun i => nr_lambda r * F i) (nr_moments r) f) /\ held a (nr_u r) /\
  forall t, In t (combine (nr_lam_hist r) (nr_mom_hist r)) -> exists f, balanced a (fun i => fst t * F i) (snd t) f.
Proof.
  intros EF E. destruct (run_of k r E) as (F' & rec & h & s & r0 & EF' & En & -> & _). rewrite EF in EF'. inversion EF' as [X]. clear EF'. subst F'. assert (I := en_inv _ _ _ _ _ _ _ _ _ En). cbn [with_recs nr_lambda nr_moments nr_u nr_lam_hist nr_mom_hist]. rewrite (en_lam _ _ _ _ _ _ _ _ _ En), (en_M _ _ _ _ _ _ _ _ _ En), (en_u _ _ _ _ _ _ _ _ _ En). split; [apply (bal_last a F lmax h s I)|]. split; [apply (si_u _ _ _ _ _ I)|]. rewrite combine_map. intros t It. apply (si_bal _ _ _ _ _ I).
  assert (Ir : In t rec). { unfold every in It. apply in_map_iff in It. destruct It as ([n t'] & <- & It). apply filter_In in It. destruct It as [It _]. apply in_combine_r in It. exact It. }
  destruct (en_how _ _ _ _ _ _ _ _ _ En) as [(-> & _)|[(-> & _)|(_ & Eh & _)]]; [exact Ir|exact Ir|rewrite Eh; apply in_or_app; left; exact Ir].
Qed.

(** Collapse. *)
Hypothesis EIpos : forall i x, (i < length Ls)%nat -> rigidity EI i x -> 0 < x.
Let Ep := made_EI _ _ _ _ _ _ _ _ H EIpos.
Lemma clusters_incl coords tol : forall l cur c x, In c (clusters coords tol cur l) -> In x c -> In x cur \/ In x l.
Proof.
  induction l as [|n l IH]; intros cur c x Ic Ix; cbn [clusters] in Ic; [destruct Ic as [<-|[]]; left; exact Ix|]. destruct (Rleb _ tol).
  - destruct (IH _ _ _ Ic Ix) as [A|A]; [|right; right; exact A]. apply in_app_or in A. destruct A as [A|[<-|[]]]; [left; exact A|right; left; reflexivity].
  - destruct Ic as [<-|Ic]; [left; exact Ix|]. destruct (IH _ _ _ Ic Ix) as [[<-|[]]|A]; [right; left; reflexivity|right; right; exact A].
Qed.
Lemma clusters_some coords tol : forall l cur c, cur <> [] -> In c (clusters coords tol cur l) -> c <> [].
Proof.
  induction l as [|n l IH]; intros cur c Nc Ic; cbn [clusters] in Ic; [destruct Ic as [<-|[]]; exact Nc|]. destruct (Rleb _ tol); [refine (IH _ _ _ Ic); destruct cur; discriminate|]. destruct Ic as [<-|Ic]; [exact Nc|]. refine (IH [n] c _ Ic). discriminate.
Qed.
Lemma sort_in l x : In x (sort_nat l) <-> In x l.
Proof. induction l as [|y l IH]; [reflexivity|]. cbn [sort_nat fold_right]. change (fold_right insert_nat [] l) with (sort_nat l). rewrite insert_in, IH. cbn. split; intros [A|A]; auto. Qed.
Lemma reps_incl hs x : In x (cluster_hinges a hs) -> In x hs.
Proof.
  unfold cluster_hinges. assert (Q := sort_in hs x). destruct (sort_nat hs) as [|n l]; [intros []|]. intros I. apply Q. apply in_map_iff in I. destruct I as (c & <- & Ic). assert (Nc : c <> []) by (refine (clusters_some _ _ _ [n] c _ Ic); discriminate). assert (Ix : In (nth (length c / 2) c 0%nat) c). { apply nth_In. destruct c as [|z c]; [congruence|]. apply Nat.div_lt; cbn [length]; lia. }
  destruct (clusters_incl _ _ _ _ _ _ Ic Ix) as [[E|[]]|A]; [left; exact E|right; exact A].
Qed.
Lemma collapse_shown k r : rank_exact rd -> 0 <= q <= 1 -> nl_analyze rd a LM lmax k ms = Ok r -> nr_collapsed r = true ->
  exists u, (exists i, (i < nb_dof a)%nat /\ u i <> 0) /\ (loose_motion a (nr_R r) u \/ hinged_motion a (hinge_nodes (nr_events r)) u).
Proof.
  intros Rx Hq E C. destruct (run_of k r E) as (F & rec & h & s & r0 & _ & En & -> & _). assert (I := en_inv _ _ _ _ _ _ _ _ _ En). cbn [with_recs nr_collapsed nr_R nr_events] in *. rewrite (en_R _ _ _ _ _ _ _ _ _ En), (en_ev _ _ _ _ _ _ _ _ _ En). destruct (en_how _ _ _ _ _ _ _ _ _ En) as [(_ & C' & _)|[(_ & _ & _ & b & Eb)|(_ & _ & Mc & _)]]; [congruence| |].
  - apply (singular_motion a Me Bc Ep) in Eb. { destruct Eb as (u & Lu & Nz). exists u. split; [exact Nz|left; exact Lu]. } apply (ends_nonneg a Me Ca h); [apply (tr_R _ _ _ (si_tracks _ _ _ _ _ I))|rewrite q_is; exact Hq].
  - apply (mech_iff rd Rx a Me Bc Ep) in Mc. destruct Mc as (_ & u & [Hu Ms] & Nz). exists u. split; [exact Nz|right]. rewrite <- (tr_hn _ _ _ (si_tracks _ _ _ _ _ I)). split; [exact Hu|]. intros e He. destruct (Ms e He) as [A B]. split; intros N; [apply A|apply B]; intros J; apply N, reps_incl; exact J.
Qed.
Lemma survivors k r : rank_exact rd -> nl_analyze rd a LM lmax k ms = Ok r -> nr_collapsed r = false -> apart a (hinge_nodes (nr_events r)) -> (2 <= length (hinge_nodes (nr_events r)))%nat ->
  forall u, hinged_motion a (hinge_nodes (nr_events r)) u -> forall i, (i < nb_dof a)%nat -> u i = 0.
Proof.
  intros Rx E C Ap L u Hu i Hi. destruct (run_of k r E) as (F & rec & h & s & r0 & _ & En & -> & _). assert (I := en_inv _ _ _ _ _ _ _ _ _ En). cbn [with_recs nr_collapsed nr_events] in *. rewrite (en_ev _ _ _ _ _ _ _ _ _ En) in *. assert (T := si_tracks _ _ _ _ _ I). rewrite <- (tr_hn _ _ _ T) in *.
  destruct (en_how _ _ _ _ _ _ _ _ _ En) as [(_ & _ & Nm & _)|[(_ & C' & _)|(C' & _)]]; try congruence. destruct (Req_dec (u i) 0) as [Z|Z]; [exact Z|exfalso]. assert (Q : is_mechanism rd a (pl_hinged (ns_p s)) = true); [|congruence]. apply (mech_apart rd Rx a Me Bc Ep).
  - rewrite (tr_hn _ _ _ T). assert (O := ev_once a h _ (tr_events _ _ _ T)). unfold once_each in O. unfold hinge_nodes. clear - O. induction (pl_events (ns_p s)) as [|e l IH]; [constructor|]. cbn [map] in O. inversion O as [|x l' O1 O2]. subst. cbn [filter]. destruct (ev_kind e) eqn:Ek; [apply IH; exact O2|]. cbn [map]. constructor; [|apply IH; exact O2]. intros J. apply O1. apply in_map_iff in J. destruct J as (e' & En & J). apply filter_In in J. destruct J as [J1 J2]. apply in_map_iff. exists e'. split; [|exact J1]. rewrite En. destruct (ev_kind e'); [discriminate|reflexivity].
  - intros x Ix. apply (tr_nodes _ _ _ T). apply mem_in. exact Ix.
  - exact Ap.
  - exact L.
  - exists u. split; [exact Hu|]. exists i. split; assumption.
Qed.
Lemma premature k r j : rank_exact rd -> nl_analyze rd a LM lmax k ms = Ok r -> apart a (hinge_nodes (nr_events r)) -> (2 <= length (hinge_nodes (nr_events r)))%nat -> In j (hinge_nodes (nr_events r)) -> ~ In (2 * j + 1)%nat (nb_bc a) -> nr_collapsed r = true.
Proof.
  intros Rx E Ap L Ij Nb. destruct (nr_collapsed r) eqn:C; [reflexivity|exfalso]. assert (Hj : (j < nb_nodes a)%nat). { unfold hinge_nodes in Ij. apply in_map_iff in Ij. destruct Ij as (ev & <- & J). apply filter_In in J. destruct J as [J _]. apply (events_good k r E). exact J. }
  destruct (free_turn a (hinge_nodes (nr_events r)) j Ij Hj Nb) as (u & Hu & i & Hi & Nz). apply Nz. apply (survivors k r Rx E C Ap L u Hu i Hi).
Qed.
End Static.

(** Axles of a vehicle as nodal forces. *)
Lemma axles_work a aw cs pos : meshed a -> exists xs, Forall2 (fun wc x' => 0 <= pos - snd wc <= nb_total a -> x' = pos - snd wc \/ exists j, (j < nb_nodes a)%nat /\ x' = coord a j /\ Rabs (x' - (pos - snd wc)) < 1e-10) (combine aw cs) xs /\
  forall u ys, Forall2 (fun x y => 0 <= x <= nb_total a -> deflects a u x y) xs ys ->
    work a (vehicle_forces a aw cs pos) u = - lsum (map (fun t => if Rle_dec 0 (pos - snd (fst t)) then if Rle_dec (pos - snd (fst t)) (nb_total a) then fst (fst t) * snd t else 0 else 0) (combine (combine aw cs) ys)).
Proof.
  intros Me. unfold vehicle_forces. set (l := combine aw cs). clearbody l. assert (T := total_is a Me). assert (W0 : forall u, work a (fun _ => 0) u = 0) by (intros u; unfold work; apply rsum_0; intros; ring).
  assert (G : forall l F, exists xs, Forall2 (fun wc x' => 0 <= pos - snd wc <= nb_total a -> x' = pos - snd wc \/ exists j, (j < nb_nodes a)%nat /\ x' = coord a j /\ Rabs (x' - (pos - snd wc)) < 1e-10) l xs /\
    forall u ys, Forall2 (fun x y => 0 <= x <= nb_total a -> deflects a u x y) xs ys ->
      work a (fold_left (fun F wc => if (Rleb 0 (pos - snd wc) && Rleb (pos - snd wc) (nb_total a))%bool then add_point a F (fst wc) (pos - snd wc) else F) l F) u = work a F u - lsum (map (fun t => if Rle_dec 0 (pos - snd (fst t)) then if Rle_dec (pos - snd (fst t)) (nb_total a) then fst (fst t) * snd t else 0 else 0) (combine l ys))).
  { clear l. induction l as [|[w c] l IH]; intros F; [exists []; split; [constructor|]; intros u ys Hy; inversion Hy; subst; unfold lsum; cbn; ring|]. cbn [fold_left snd fst]. set (x := pos - c). destruct (Rleb_spec 0 x) as [L0|L0]; [destruct (Rleb_spec x (nb_total a)) as [L1|L1]|]; cbn [andb].
    - destruct (point_work a Me F w x (conj L0 L1)) as (x' & Hx & Q). destruct (IH (add_point a F w x)) as (xs & F2 & W). exists (x' :: xs). split; [constructor; [intros _; exact Hx|exact F2]|]. intros u ys Hy. inversion Hy as [|x0 y l0 ys' Hy1 Hy2 E1 E2]. subst. rewrite (W u ys' Hy2). assert (Hx' : 0 <= x' <= nb_total a). { destruct Hx as [->|(j & Hj & -> & _)]; [split; assumption|]. rewrite (me_nodes a Me) in Hj. split; [rewrite <- (me_first a Me); apply (c_le a Me); lia|rewrite T; apply (c_le a Me); lia]. }
      rewrite (Q u y (Hy1 Hx')). cbn [combine map]. unfold lsum. cbn [fold_right fst snd]. fold x. destruct (Rle_dec 0 x); [|contradiction]. destruct (Rle_dec x (nb_total a)); [|contradiction]. ring.
    - destruct (IH F) as (xs & F2 & W). exists (0 :: xs). split; [constructor; [cbn [snd]; fold x; intros [_ B]; contradiction|exact F2]|]. intros u ys Hy. inversion Hy as [|x0 y l0 ys' Hy1 Hy2 E1 E2]. subst. rewrite (W u ys' Hy2). cbn [combine map]. unfold lsum. cbn [fold_right fst snd]. fold x. destruct (Rle_dec 0 x); [|contradiction]. destruct (Rle_dec x (nb_total a)); [contradiction|]. ring.
    - destruct (IH F) as (xs & F2 & W). exists (0 :: xs). split; [constructor; [cbn [snd]; fold x; intros [B _]; contradiction|exact F2]|]. intros u ys Hy. inversion Hy as [|x0 y l0 ys' Hy1 Hy2 E1 E2]. subst. rewrite (W u ys' Hy2). cbn [combine map]. unfold lsum. cbn [fold_right fst snd]. fold x. destruct (Rle_dec 0 x); [contradiction|]. ring. }
  destruct (G l (fun _ => 0)) as (xs & F2 & W). exists xs. split; [exact F2|]. intros u ys Hy. etransitivity; [exact (W u ys Hy)|]. rewrite W0. ring.
Qed.
