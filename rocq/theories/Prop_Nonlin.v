(** C44, C45, C58, C59, C60: incremental plastic analysis. *)
From Coq Require Import ZArith.
From Coquelicot Require Import Coquelicot.
From Verif Require Import Base SectionModel LoadModel VehicleModel ElementSpec AnalysisSpec FoundSpec NonlinModel NonlinSpec NonlinFacts NonlinFacts2 NonlinFacts4 NonlinFacts9 NonlinFacts10 NonlinFacts11 NonlinFacts12 NonlinFacts13.
Open Scope R_scope.

(** * C45: mesh and loads *)
Theorem C45_accepted : forall Ls EI rs Mp My q msz, Ls <> [] -> (forall L, In L Ls -> 0 < L) -> constants EI (length Ls) -> per_span Mp (length Ls) ->
  (forall m, My = Some m -> per_span m (length Ls)) -> (2 * (length Ls + 1) <= length rs)%nat ->
  exists a, nba_init Ls EI rs Mp My q msz = Ok a.
Proof. exact accepted. Qed.
Print Assumptions C45_accepted.
Theorem C45_sections_refused : forall Ls EI rs Mp My q msz, has_section EI -> nba_init Ls EI rs Mp My q msz = Err TypeError.
Proof. exact sections_refused. Qed.
Print Assumptions C45_sections_refused.
Theorem C45_mesh : forall a Ls EI rs Mp My q msz, made a Ls EI rs Mp My q msz ->
  meshed a /\ nb_L a = Ls /\ (forall i, (i <= length Ls)%nat -> exists j, (j < nb_nodes a)%nat /\ coord a j = start Ls i) /\
  (forall e, (e < nb_elems a)%nat -> exists i n, (i < length Ls)%nat /\ lies_in a e i /\ (1 <= n)%nat /\ element_h a e = nth i Ls 0 / INR n /\
     ((n = 1%nat /\ nth i Ls 0 / msz <= 1 / 2) \/ Rabs (nth i Ls 0 / msz - INR n) <= 1 / 2)).
Proof. exact mesh_covers. Qed.
Print Assumptions C45_mesh.
(** Only rigid restraints act: springs are ignored. *)
Theorem C45_supports : forall a Ls EI rs Mp My q msz, made a Ls EI rs Mp My q msz ->
  forall g, In g (nb_bc a) <-> exists i d j, (i <= length Ls)%nat /\ (d < 2)%nat /\ (j < nb_nodes a)%nat /\ coord a j = start Ls i /\ nth_error rs (2 * i + d) = Some (-1) /\ g = (2 * j + d)%nat.
Proof. exact bc_iff. Qed.
Print Assumptions C45_supports.
(** A node belongs to the span at its left. *)
Theorem C45_capacities : forall a Ls EI rs Mp My q msz, made a Ls EI rs Mp My q msz ->
  forall j i, (j < nb_nodes a)%nat -> (i < length Ls)%nat -> (j = 0%nat /\ i = 0%nat) \/ start Ls i < coord a j <= start Ls (i + 1) ->
  for_span Mp i (nth j (nb_Mp a) 0) /\ yields_at Mp My i (nth j (nb_My a) 0).
Proof. exact caps. Qed.
Print Assumptions C45_capacities.
Theorem C45_rigidity : forall a Ls EI rs Mp My q msz, made a Ls EI rs Mp My q msz ->
  forall e i, (e < nb_elems a)%nat -> (i < length Ls)%nat -> lies_in a e i -> i = 0%nat \/ start Ls i < coord a e -> rigidity EI i (nth e (nb_EI a) 0).
Proof. exact inner_EI. Qed.
Print Assumptions C45_rigidity.
(** The first element of every later span has the rigidity of the span before. *)
Theorem C45_first_element : forall a Ls EI rs Mp My q msz, made a Ls EI rs Mp My q msz ->
  forall e i, (e < nb_elems a)%nat -> (S i < length Ls)%nat -> coord a e = start Ls (S i) -> lies_in a e (S i) /\ rigidity EI i (nth e (nb_EI a) 0).
Proof. exact junction_EI. Qed.
Print Assumptions C45_first_element.
Theorem C45_rigidity_refuted : ~ (forall a Ls EI rs Mp My q msz, made a Ls EI rs Mp My q msz ->
  forall e i, (e < nb_elems a)%nat -> (i < length Ls)%nat -> lies_in a e i -> rigidity EI i (nth e (nb_EI a) 0)).
Proof. exact rigidity_false. Qed.
Print Assumptions C45_rigidity_refuted.

(** A point load does the work of the deflection under it, for any motion of the mesh. *)
Theorem C45_point_load : forall a Ls EI rs Mp My q msz, made a Ls EI rs Mp My q msz ->
  forall s P p rest, (1 <= s <= Z.of_nat (length Ls))%Z -> let x := start Ls (Z.to_nat (s - 1)) + p in 0 <= x <= nb_total a ->
  exists F, force_vector a [Row s 2 (P :: p :: rest)] = Ok F /\
  exists x', (x' = x \/ exists j, (j < nb_nodes a)%nat /\ x' = coord a j /\ Rabs (x' - x) < 1e-10) /\
  forall u y, deflects a u x' y -> work a F u = - (P * y).
Proof. exact one_point. Qed.
Print Assumptions C45_point_load.
(** A uniform load does the work of the chords of the elements of its span. *)
Theorem C45_uniform_load : forall a Ls EI rs Mp My q msz, made a Ls EI rs Mp My q msz ->
  forall s w rest, (1 <= s <= Z.of_nat (length Ls))%Z -> no_slivers a ->
  exists F, force_vector a [Row s 1 (w :: rest)] = Ok F /\
  forall u (Is : nat -> R), (forall e, (e < nb_elems a)%nat -> is_RInt (fun x => w * chord_at a u e x) 0 (element_h a e) (Is e)) ->
  work a F u = - rsum (nb_elems a) (fun e => share a (Z.to_nat (s - 1)) e (Is e)).
Proof. exact one_udl. Qed.
Print Assumptions C45_uniform_load.
(** Total force and moment of any list of uniform and point loads. *)
Theorem C45_resultant : forall a Ls EI rs Mp My q msz, made a Ls EI rs Mp My q msz ->
  forall al be u LM Ws, no_slivers a -> moves_rigidly a al be u -> Forall2 (load_work a al be) LM Ws ->
  exists F, force_vector a LM = Ok F /\ work a F u = lsum Ws.
Proof. exact rows_work. Qed.
Print Assumptions C45_resultant.
Theorem C45_axles : forall a Ls EI rs Mp My q msz, made a Ls EI rs Mp My q msz ->
  forall aw cs pos, exists xs,
  Forall2 (fun wc x' => 0 <= pos - snd wc <= nb_total a -> x' = pos - snd wc \/ exists j, (j < nb_nodes a)%nat /\ x' = coord a j /\ Rabs (x' - (pos - snd wc)) < 1e-10) (combine aw cs) xs /\
  forall u ys, Forall2 (fun x y => 0 <= x <= nb_total a -> deflects a u x y) xs ys ->
    work a (vehicle_forces a aw cs pos) u = - lsum (map (fun t => if Rle_dec 0 (pos - snd (fst t)) then if Rle_dec (pos - snd (fst t)) (nb_total a) then fst (fst t) * snd t else 0 else 0) (combine (combine aw cs) ys)).
Proof. exact axles_at. Qed.
Print Assumptions C45_axles.
(** Partial uniform, moment, trapezoidal and imposed-curvature loads are left out without notice. *)
Theorem C45_other_loads_ignored : forall a l1 l2 s t v rest, t <> 1%Z -> t <> 2%Z ->
  force_vector a (l1 ++ Row s t (v :: rest) :: l2) = force_vector a (l1 ++ l2).
Proof. exact others_ignored. Qed.
Print Assumptions C45_other_loads_ignored.
Example C45_nonvacuous : exists a, made a [4; 1] (EIOne (RConst 1)) ex_rs (NList [1/2; 1000]) None 0 10 /\ nb_coords a = [0; 4; 5] /\ nb_EI a = [1; 1] /\ no_slivers a /\
  (exists F, force_vector a ex_load = Ok F /\ F 3%nat = -50) /\ moves_rigidly a 1 0 (fun i => if Nat.even i then 1 else 0) /\ load_work a 1 0 (Row 2 2 [400; 1/2]) (- 400 * (1 + 0 * (start (nb_L a) 1 + 1/2))).
Proof.
  destruct (ex_made (1/2)) as (a & H). exists a. split; [exact H|]. split; [apply (ex_coords _ _ _ _ _ H)|]. split; [apply (ex_EI _ _ H)|]. assert (Eh := ex_eL _ _ _ _ _ H). assert (N2 := ex_elems _ _ _ _ _ H). assert (N3 := ex_nodes _ _ _ _ _ H). assert (EL := ex_L _ _ _ _ _ H). split.
  { intros e He. unfold element_h. rewrite Eh. rewrite N2 in He. destruct e as [|[|e]]; [| |lia]; cbn [nth]; lra. }
  split; [apply (ex_force _ _ H)|]. split.
  { intros j Hj. rewrite N3 in Hj. destruct j as [|[|[|j]]]; [| | |lia]; cbn [Nat.mul Nat.add Nat.even]; split; ring. }
  apply (lw_pl a 1 0 2 400 (1/2) []); change (Z.to_nat (2 - 1)) with 1%nat; rewrite EL; cbn [length]; [lia| |].
  - rewrite !ex_start by lia. cbn [nth]. lra.
  - intros j Hj. right. rewrite N3 in Hj. rewrite (ex_coord _ _ _ _ _ H j Hj), ex_start by lia. destruct j as [|[|[|j]]]; [| | |lia]; cbn [nth]; unfold Rabs; destruct (Rcase_abs _); lra.
Qed.

(** * C44: the course of an analysis *)
(** The factor stays within its limit; without collapse the limit is reached or all steps are used. *)
Theorem C44_factor : forall rd a Ls EI rs Mp My q msz, made a Ls EI rs Mp My q msz -> capacities a ->
  forall LM lmax ms k r, nl_analyze rd a LM lmax k ms = Ok r ->
  0 <= nr_lambda r <= Rmax 0 lmax /\ (nr_collapsed r = false -> nr_lambda r = Rmax 0 lmax \/ INR ms / 1000 <= nr_lambda r).
Proof. exact factor. Qed.
Print Assumptions C44_factor.
Theorem C44_reaches_limit : forall rd a Ls EI rs Mp My q msz, made a Ls EI rs Mp My q msz -> capacities a ->
  forall LM lmax ms k r, 1000 * lmax <= INR ms -> nl_analyze rd a LM lmax k ms = Ok r -> nr_collapsed r = false -> nr_lambda r = Rmax 0 lmax.
Proof. exact reaches. Qed.
Print Assumptions C44_reaches_limit.
Theorem C44_steps : forall rd a Ls EI rs Mp My q msz, made a Ls EI rs Mp My q msz -> capacities a ->
  forall LM lmax ms r, nl_analyze rd a LM lmax 1 ms = Ok r ->
  (length (nr_lam_hist r) <= ms)%nat /\ (nr_collapsed r = false -> nr_lambda r < lmax -> length (nr_lam_hist r) = ms).
Proof. exact steps_made. Qed.
Print Assumptions C44_steps.
Theorem C44_ratios : forall rd a Ls EI rs Mp My q msz, made a Ls EI rs Mp My q msz -> capacities a ->
  forall LM lmax ms k r, q <= 1 -> nl_analyze rd a LM lmax k ms = Ok r -> forall e i, (e < nb_elems a)%nat -> (i < 2)%nat -> q <= nr_R r e i <= 1.
Proof. exact ratios. Qed.
Print Assumptions C44_ratios.
(** A run that records every step shows its whole course: rising factors, the stiffness left
    by the last moments, an event for each first passage of yield and of capacity. *)
Theorem C44_course : forall rd a Ls EI rs Mp My q msz, made a Ls EI rs Mp My q msz -> capacities a ->
  forall LM lmax ms r, nl_analyze rd a LM lmax 1 ms = Ok r ->
  exists h, updates r h /\ stiffness_after a h (nr_R r) /\ events_of a h (nr_events r) /\ rising_to (map fst h) (nr_lambda r) /\
    ((h = [] /\ nr_lambda r = 0 /\ nr_moments r = fun _ => 0) \/ exists pre, h = pre ++ [(nr_lambda r, nr_moments r)]).
Proof. exact course. Qed.
Print Assumptions C44_course.
(** What is recorded does not influence the outcome. *)
Theorem C44_recording : forall rd a Ls EI rs Mp My q msz, made a Ls EI rs Mp My q msz -> capacities a ->
  forall LM lmax ms r1, nl_analyze rd a LM lmax 1 ms = Ok r1 ->
  forall k, exists r, nl_analyze rd a LM lmax k ms = Ok r /\ same_outcome r1 r /\ nr_lam_hist r = every k (nr_lam_hist r1) /\ nr_mom_hist r = every k (nr_mom_hist r1).
Proof. exact recording. Qed.
Print Assumptions C44_recording.
Theorem C44_events : forall rd a Ls EI rs Mp My q msz, made a Ls EI rs Mp My q msz -> capacities a ->
  forall LM lmax ms k r, nl_analyze rd a LM lmax k ms = Ok r ->
  once_each (nr_events r) /\ chronological (nr_events r) /\
  (forall ev, In ev (nr_events r) -> (ev_node ev < nb_nodes a)%nat /\ ev_x ev = coord a (ev_node ev) /\ 0 < ev_lam ev <= nr_lambda r) /\
  ((forall j, (j < nb_nodes a)%nat -> nb_gy a j <= 1) -> yield_first (nr_events r)).
Proof. exact events_good. Qed.
Print Assumptions C44_events.
(** A passage always completes, whether or not the beam collapses. *)
Theorem C44_moving : forall rd a Ls EI rs Mp My q msz, made a Ls EI rs Mp My q msz -> capacities a -> (forall j, (j < nb_nodes a)%nat -> 0 <= nb_gy a j) ->
  forall m aw cs vL st n_sub k, carries m aw cs vL -> 0 < st -> 0 <= nb_total a + vL -> n_sub <> 0%nat ->
  exists r, nl_moving rd a m st n_sub k = Ok r /\
  (q <= 1 -> forall e i, (e < nb_elems a)%nat -> (i < 2)%nat -> q <= nr_R r e i <= 1) /\
  once_each (nr_events r) /\ chronological (nr_events r) /\
  (forall ev, In ev (nr_events r) -> (ev_node ev < nb_nodes a)%nat /\ ev_x ev = coord a (ev_node ev) /\ (exists i, ev_lam ev = INR i * st) /\ ev_lam ev <= nr_lambda r < nb_total a + vL + st / 2) /\
  ((forall j, (j < nb_nodes a)%nat -> nb_gy a j <= 1) -> yield_first (nr_events r)) /\
  (nr_collapsed r = false -> nb_total a + vL - st / 2 <= nr_lambda r) /\
  (k = 1%nat -> nr_collapsed r = false -> (forall i, (i < length (nr_lam_hist r))%nat -> nth i (nr_lam_hist r) 0 = INR i * st) /\ last (nr_lam_hist r) 0 = nr_lambda r /\ length (nr_mom_hist r) = length (nr_lam_hist r)).
Proof. exact moving_good. Qed.
Print Assumptions C44_moving.
Example C44_nonvacuous : forall rd, exists a, made a [4; 1] (EIOne (RConst 1)) ex_rs (NList [10; 1000]) None 0 10 /\ capacities a /\ (forall j, (j < nb_nodes a)%nat -> 0 < nb_gy a j < 1) /\
  (exists r, nl_analyze rd a ex_load (1/10) 1 1 = Ok r /\ nr_collapsed r = false /\ nr_lambda r = 1/10 /\ hinge_nodes (nr_events r) = [] /\ nr_moments r 2%nat = -2) /\
  0 <= nb_total a + 0 /\ carries (MAxle 8) [8] [0] 0.
Proof.
  intros rd. destruct (ex_made 10) as (a & H). exists a. assert (P : 0 < 10) by lra. split; [exact H|]. split; [apply (ex_caps 10 a P H)|]. split; [intros j Hj; rewrite (ex_gy 10 a P H j Hj); lra|]. split; [apply (ex_elastic 10 a P H); lra|]. split; [rewrite (ex_total _ _ _ _ _ H); lra|constructor].
Qed.
Example C44_hinges_nonvacuous : exists a, made a [4; 1] (EIOne (RConst 1)) ex_rs (NList [1/2; 1000]) None 0 10 /\ capacities a /\
  forall rd, exists r, nl_analyze rd a ex_load (1/10) 1 1 = Ok r /\ nr_moments r 1%nat = -1 /\ nr_lambda r = 1/10 /\ apart a (hinge_nodes (nr_events r)) /\ (2 <= length (hinge_nodes (nr_events r)))%nat /\ In 1%nat (hinge_nodes (nr_events r)).
Proof.
  destruct (ex_made (1/2)) as (a & H). exists a. assert (P : 0 < 1/2) by lra. split; [exact H|]. split; [apply (ex_caps _ a P H)|]. intros rd. apply (ex_hinged _ a P H rd 1). reflexivity.
Qed.

(** * C58: equilibrium *)
Theorem C58_static : forall rd a Ls EI rs Mp My q msz, made a Ls EI rs Mp My q msz -> capacities a ->
  forall LM lmax ms k r F, force_vector a LM = Ok F -> nl_analyze rd a LM lmax k ms = Ok r ->
  (exists f, balanced a (fun i => nr_lambda r * F i) (nr_moments r) f) /\ held a (nr_u r) /\
  forall t, In t (combine (nr_lam_hist r) (nr_mom_hist r)) -> exists f, balanced a (fun i => fst t * F i) (snd t) f.
Proof. exact in_equilibrium. Qed.
Print Assumptions C58_static.
Theorem C58_moving : forall rd a Ls EI rs Mp My q msz, made a Ls EI rs Mp My q msz -> capacities a -> (forall j, (j < nb_nodes a)%nat -> 0 <= nb_gy a j) ->
  forall m aw cs vL st n_sub k, carries m aw cs vL -> 0 < st -> 0 <= nb_total a + vL -> n_sub <> 0%nat ->
  forall r, nl_moving rd a m st n_sub k = Ok r ->
  (forall i, (i < length (nr_lam_hist r))%nat -> exists f, balanced a (vehicle_forces a aw cs (nth i (nr_lam_hist r) 0)) (nth i (nr_mom_hist r) (fun _ => 0)) f) /\
  (nr_collapsed r = false -> exists f, balanced a (vehicle_forces a aw cs (nr_lambda r)) (nr_moments r) f).
Proof. exact moving_equilibrium. Qed.
Print Assumptions C58_moving.
(** What balance means: the load's work on any motion of straight elements is done by the
    nodal moments on the hinge rotations. *)
Theorem C58_virtual_work : forall a, meshed a -> forall F M f u, balanced a F M f -> held a u ->
  (forall e, (1 <= e < nb_elems a)%nat -> u (2 * e + 1)%nat = slope a u e) ->
  work a F u = rsum (nb_nodes a) (fun j => M j * hinge_angle a u j).
Proof. exact balanced_hinges. Qed.
Print Assumptions C58_virtual_work.
(** Upper bound of plastic theory: no balanced state with moments up to [mu] times the
    capacities carries more than any mechanism allows. *)
Theorem C58_upper_bound : forall a, meshed a -> forall F M f u mu, balanced a F M f -> held a u ->
  (forall e, (1 <= e < nb_elems a)%nat -> u (2 * e + 1)%nat = slope a u e) ->
  (forall j, (j < nb_nodes a)%nat -> Rabs (M j) <= mu * nth j (nb_Mp a) 0) ->
  work a F u <= mu * rsum (nb_nodes a) (fun j => nth j (nb_Mp a) 0 * Rabs (hinge_angle a u j)).
Proof. exact balanced_bound. Qed.
Print Assumptions C58_upper_bound.
Example C58_nonvacuous : exists a r F f, made a [4; 1] (EIOne (RConst 1)) ex_rs (NList [10; 1000]) None 0 10 /\ capacities a /\ meshed a /\ force_vector a ex_load = Ok F /\
  nl_analyze exact_rank a ex_load (1/10) 1 1 = Ok r /\ balanced a (fun i => nr_lambda r * F i) (nr_moments r) f /\ nr_moments r 2%nat = -2.
Proof.
  destruct (ex_made 10) as (a & H). assert (P : 0 < 10) by lra. destruct (ex_elastic 10 a P H exact_rank 1) as (r & E & _ & _ & _ & M2); [lra|]. destruct (ex_force _ _ H) as (F & EF & _). destruct (in_equilibrium _ _ _ _ _ _ _ _ _ H (ex_caps 10 a P H) _ _ _ _ _ _ EF E) as ((f & B) & _). exists a, r, F, f. split; [exact H|]. split; [apply (ex_caps 10 a P H)|]. split; [apply (is_meshed _ _ _ _ _ _ _ _ H)|]. repeat apply conj; assumption.
Qed.

(** * C59: collapse *)
(** A collapse is reported only when the stiffness left, or hinges at the hinge nodes, allow a
    motion. *)
Theorem C59_collapse_shown : forall rd a Ls EI rs Mp My q msz, made a Ls EI rs Mp My q msz -> capacities a ->
  forall LM lmax ms, (forall i x, (i < length Ls)%nat -> rigidity EI i x -> 0 < x) ->
  forall k r, rank_exact rd -> 0 <= q <= 1 -> nl_analyze rd a LM lmax k ms = Ok r -> nr_collapsed r = true ->
  exists u, (exists i, (i < nb_dof a)%nat /\ u i <> 0) /\ (loose_motion a (nr_R r) u \/ hinged_motion a (hinge_nodes (nr_events r)) u).
Proof. exact collapse_shown. Qed.
Print Assumptions C59_collapse_shown.
(** An analysis that ends without collapse has no such motion (two or more hinges, apart). *)
Theorem C59_collapse_found : forall rd a Ls EI rs Mp My q msz, made a Ls EI rs Mp My q msz -> capacities a ->
  forall LM lmax ms, (forall i x, (i < length Ls)%nat -> rigidity EI i x -> 0 < x) ->
  forall k r, rank_exact rd -> nl_analyze rd a LM lmax k ms = Ok r -> nr_collapsed r = false ->
  apart a (hinge_nodes (nr_events r)) -> (2 <= length (hinge_nodes (nr_events r)))%nat ->
  forall u, hinged_motion a (hinge_nodes (nr_events r)) u -> forall i, (i < nb_dof a)%nat -> u i = 0.
Proof. exact survivors. Qed.
Print Assumptions C59_collapse_found.
(** Two hinges apart, one of them at a node free to turn, are a collapse to the code... *)
Theorem C59_two_hinges : forall rd a Ls EI rs Mp My q msz, made a Ls EI rs Mp My q msz -> capacities a ->
  forall LM lmax ms, (forall i x, (i < length Ls)%nat -> rigidity EI i x -> 0 < x) ->
  forall k r j, rank_exact rd -> nl_analyze rd a LM lmax k ms = Ok r -> apart a (hinge_nodes (nr_events r)) -> (2 <= length (hinge_nodes (nr_events r)))%nat ->
  In j (hinge_nodes (nr_events r)) -> ~ In (2 * j + 1)%nat (nb_bc a) -> nr_collapsed r = true.
Proof. exact premature. Qed.
Print Assumptions C59_two_hinges.
(** ...although the beam may not be able to move. *)
Theorem C59_collapse_refuted : ~ (forall rd a Ls EI rs Mp My q msz LM lmax k ms r, rank_exact rd -> made a Ls EI rs Mp My q msz -> capacities a ->
  (forall i x, (i < length Ls)%nat -> rigidity EI i x -> 0 < x) -> nl_analyze rd a LM lmax k ms = Ok r -> nr_collapsed r = true ->
  exists u, hinged_motion a (hinge_nodes (nr_events r)) u /\ sways a u).
Proof. exact collapse_false. Qed.
Print Assumptions C59_collapse_refuted.
Example C59_nonvacuous : rank_exact exact_rank /\ exists a r, made a [4; 1] (EIOne (RConst 1)) ex_rs (NList [1/2; 1000]) None 0 10 /\ capacities a /\ (forall i x, (i < length [4; 1])%nat -> rigidity (EIOne (RConst 1)) i x -> 0 < x) /\
  nl_analyze exact_rank a ex_load (1/10) 1 1 = Ok r /\ nr_collapsed r = true /\ apart a (hinge_nodes (nr_events r)) /\ (2 <= length (hinge_nodes (nr_events r)))%nat /\ In 1%nat (hinge_nodes (nr_events r)) /\ ~ In (2 * 1 + 1)%nat (nb_bc a).
Proof.
  split; [exact exact_rank_ok|]. destruct (ex_made (1/2)) as (a & H). assert (P : 0 < 1/2) by lra. destruct (ex_collapses _ a P H exact_rank 1 exact_rank_ok eq_refl) as (r & E & C & Ap & L & I1 & N & _). exists a, r. split; [exact H|]. split; [apply (ex_caps _ a P H)|]. split; [exact ex_EIpos|]. repeat apply conj; assumption.
Qed.

Example C59_found_nonvacuous : exists a r, made a [1; 3] (EIOne (RConst 1)) ex2_rs (NList [3; 1]) None 0 10 /\ capacities a /\ (forall i x, (i < length [1; 3])%nat -> rigidity (EIOne (RConst 1)) i x -> 0 < x) /\
  nl_analyze exact_rank a ex2_load (1/10) 1 1 = Ok r /\ nr_collapsed r = false /\ apart a (hinge_nodes (nr_events r)) /\ (2 <= length (hinge_nodes (nr_events r)))%nat.
Proof. exact (ex2_stand exact_rank exact_rank_ok). Qed.

(** * C60: moments at hinges *)
(** With q = 0 a moment that has reached the capacity keeps its value from then on. *)
Theorem C60_hinge_keeps_moment : forall rd a Ls EI rs Mp My q msz, made a Ls EI rs Mp My q msz -> capacities a ->
  forall LM lmax ms r, nl_analyze rd a LM lmax 1 ms = Ok r -> q = 0 -> (forall j, (j < nb_nodes a)%nat -> nb_gy a j < 1) ->
  forall i j, (i < length (nr_mom_hist r))%nat -> (j < nb_nodes a)%nat -> 1 <= ratio a (nth i (nr_mom_hist r) (fun _ => 0)) j ->
  nr_moments r j = nth i (nr_mom_hist r) (fun _ => 0) j /\
  forall i', (i < i' < length (nr_mom_hist r))%nat -> nth i' (nr_mom_hist r) (fun _ => 0) j = nth i (nr_mom_hist r) (fun _ => 0) j.
Proof. exact keeps_moment. Qed.
Print Assumptions C60_hinge_keeps_moment.
(** That value may exceed the capacity. *)
Theorem C60_capacity_refuted : ~ (forall rd a Ls EI rs Mp My q msz LM lmax k ms r, rank_exact rd -> made a Ls EI rs Mp My q msz -> capacities a ->
  (forall i x, (i < length Ls)%nat -> rigidity EI i x -> 0 < x) -> nl_analyze rd a LM lmax k ms = Ok r -> forall j, (j < nb_nodes a)%nat -> Rabs (nr_moments r j) <= nth j (nb_Mp a) 0).
Proof. exact overshoot_false. Qed.
Print Assumptions C60_capacity_refuted.
Example C60_nonvacuous : forall rd, exists a r, made a [4; 1] (EIOne (RConst 1)) ex_rs (NList [3/4; 1000]) None 0 10 /\ capacities a /\ (forall j, (j < nb_nodes a)%nat -> nb_gy a j < 1) /\
  nl_analyze rd a ex_load (1/10) 1 1 = Ok r /\ length (nr_mom_hist r) = 1%nat /\ (1 < nb_nodes a)%nat /\ 1 <= ratio a (nth 0 (nr_mom_hist r) (fun _ => 0)) 1.
Proof. exact ex_recorded. Qed.
