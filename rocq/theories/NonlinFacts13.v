(** Two more worked runs: a single recorded hinge, and two hinges without collapse. *)
From Coq Require Import ZArith Sorted.
From Coquelicot Require Import Coquelicot.
From Verif Require Import Base BaseFacts Linalg LinalgFacts SectionModel LoadModel VehicleModel BridgeModel BridgeFacts EnvelopeModel FoundationModel ElementSpec AnalysisSpec FoundSpec FoundFacts FoundFacts2 NonlinModel NonlinSpec NonlinFacts NonlinFacts2 NonlinFacts3 NonlinFacts4 NonlinFacts5 NonlinFacts6 NonlinFacts7 NonlinFacts8 NonlinFacts9 NonlinFacts10 NonlinFacts11.
Open Scope R_scope.

Lemma few_hinges rd a hs : NoDup hs -> (length hs <= 1)%nat -> is_mechanism rd a hs = false.
Proof.
  intros _ L. unfold is_mechanism. destruct hs as [|x [|y l]]; [reflexivity| |cbn in L; lia]. cbn. reflexivity.
Qed.
Lemma ex_recorded rd : exists a r, made a [4; 1] (EIOne (RConst 1)) ex_rs (NList [3/4; 1000]) None 0 10 /\ capacities a /\ (forall j, (j < nb_nodes a)%nat -> nb_gy a j < 1) /\
  nl_analyze rd a ex_load (1/10) 1 1 = Ok r /\ length (nr_mom_hist r) = 1%nat /\ (1 < nb_nodes a)%nat /\ 1 <= ratio a (nth 0 (nr_mom_hist r) (fun _ => 0)) 1.
Proof.
  destruct (ex_made (3/4)) as (a & H). exists a. assert (Hm : 0 < 3/4) by lra. assert (Ca := ex_caps _ a Hm H). destruct (ex_force _ a H) as (F & EF & F3). destruct (ex_step _ a H rd F 1 F3) as (u & _ & Q). cbv zeta in Q. destruct Q as (M0 & M1 & M2 & Q). set (M := fun j => 0 + extract_moments a u (fun _ _ => 1) j) in *. destruct (ex_ratios _ a H M M0 M1 M2) as (R0 & R1 & R2).
  assert (T := tracks_step a [] plast0 M (1/10) Ca (tracks_nil a)). set (p := fst (update_R a M plast0 (1/10))) in *. assert (N3 := ex_nodes _ _ _ _ _ H).
  assert (Hi : forall x, In x (pl_hinged p) -> x = 1%nat). { intros x Ix. apply mem_in in Ix. assert (Hx := tr_nodes _ _ _ T x Ix). apply (tr_hinge _ _ _ T x Hx) in Ix. destruct Ix as (t & [<-|[]] & G). cbn [snd] in G. rewrite N3 in Hx. destruct x as [|[|[|x]]]; [exfalso; rewrite R0 in G; lra|reflexivity|exfalso; rewrite R2 in G; lra|lia]. }
  assert (Nd : NoDup (pl_hinged p)). { rewrite (tr_hn _ _ _ T). assert (O := ev_once a _ _ (tr_events _ _ _ T)). unfold once_each in O. unfold hinge_nodes. clear - O. induction (pl_events p) as [|e l IH]; [constructor|]. cbn [map] in O. inversion O as [|x l' O1 O2]. subst. cbn [filter]. destruct (ev_kind e) eqn:Ek; [apply IH; exact O2|]. cbn [map]. constructor; [|apply IH; exact O2]. intros J. apply O1. apply in_map_iff in J. destruct J as (e' & En & J). apply filter_In in J. destruct J as [J1 J2]. apply in_map_iff. exists e'. split; [|exact J1]. rewrite En. destruct (ev_kind e'); [discriminate|reflexivity]. }
  assert (L1 : (length (pl_hinged p) <= 1)%nat) by (change 1%nat with (length [1%nat]); apply (NoDup_incl_length Nd); intros x Ix; left; symmetry; apply Hi; exact Ix). rewrite (few_hinges rd a _ Nd L1), Bool.andb_false_r in Q.
  eexists. split; [exact H|]. split; [exact Ca|]. split; [intros j Hj; rewrite (ex_gy _ a Hm H j Hj); lra|]. split; [unfold nl_analyze; rewrite EF; cbn [rbind]; rewrite Q; reflexivity|]. cbn. split; [reflexivity|]. split; [lia|]. fold M. rewrite R1. lra.
Qed.

(** A beam fixed at both ends with a heavy load at its quarter point. *)
Definition ex2_rs : list R := [-1; -1; 0; 0; -1; -1].
Definition ex2_load : list row := [Row 1 2 [640/9; 1]].
Lemma ex2_mesh : mesh_from 0 0 [1; 3] 10 = [(1, 1, 0%nat); (3, 4, 1%nat)].
Proof.
  cbn [mesh_from]. cbv zeta. rewrite !ne_one by lra. cbn [seq map app]. change (INR 1) with 1. change (INR (0 + 1)) with 1. replace (3 / 1) with 3 by field. replace (1 / 1) with 1 by field. repeat (f_equal; try ring).
Qed.
Section Two.
Variable a : nba.
Hypothesis H : made a [1; 3] (EIOne (RConst 1)) ex2_rs (NList [3; 1]) None 0 10.
Let Me := is_meshed _ _ _ _ _ _ _ _ H.
Lemma ex2_coords : nb_coords a = [0; 1; 4].
Proof. destruct (parts _ _ _ _ _ _ _ _ H) as (ei & _ & _ & _ & E & _). rewrite E, ex2_mesh. reflexivity. Qed.
Lemma ex2_eL : nb_eL a = [1; 3].
Proof. destruct (parts _ _ _ _ _ _ _ _ H) as (ei & _ & _ & _ & _ & E & _). rewrite E, ex2_mesh. reflexivity. Qed.
Lemma ex2_L : nb_L a = [1; 3].
Proof. destruct (parts _ _ _ _ _ _ _ _ H) as (ei & _ & E & _). exact E. Qed.
Lemma ex2_EI : nb_EI a = [1; 1].
Proof. destruct (parts _ _ _ _ _ _ _ _ H) as (ei & Ee & _ & _ & _ & _ & _ & _ & E & _). inversion Ee as [X]. subst ei. rewrite ex2_mesh in E. inversion E as [X]. reflexivity. Qed.
Lemma ex2_Mp : nb_Mp a = [3; 3; 1].
Proof. destruct (parts _ _ _ _ _ _ _ _ H) as (ei & _ & _ & _ & _ & _ & _ & _ & _ & E & _). rewrite ex2_mesh in E. inversion E as [X]. reflexivity. Qed.
Lemma ex2_nodes : nb_nodes a = 3%nat. Proof. unfold nb_nodes. rewrite ex2_coords. reflexivity. Qed.
Lemma ex2_elems : nb_elems a = 2%nat. Proof. unfold nb_elems. rewrite ex2_eL. reflexivity. Qed.
Lemma ex2_dof : nb_dof a = 6%nat. Proof. unfold nb_dof. rewrite ex2_nodes. reflexivity. Qed.
Lemma ex2_caps : capacities a.
Proof. intros j Hj. rewrite ex2_nodes in Hj. rewrite ex2_Mp. destruct j as [|[|[|j]]]; cbn; lra || lia. Qed.
Lemma ex2_start i : (i <= 2)%nat -> start [1; 3] i = nth i [0; 1; 4] 0.
Proof. intros Hi. destruct i as [|[|[|i]]]; [| | |lia]; unfold start; cbn [rsum nth]; ring. Qed.
Lemma ex2_coord j : coord a j = nth j [0; 1; 4] 0.
Proof. unfold coord. rewrite ex2_coords. reflexivity. Qed.
Lemma ex2_bc i : In i (nb_bc a) <-> (i < 6)%nat /\ i <> 2%nat /\ i <> 3%nat.
Proof.
  rewrite (bc_iff _ _ _ _ _ _ _ _ H i), ex2_nodes. cbn [length]. split.
  - intros (s & d & j & Hs & Hd & Hj & E & En & ->). rewrite (ex2_coord j), (ex2_start s Hs) in E. assert (js : j = s). { destruct j as [|[|[|j]]]; [| | |lia]; (destruct s as [|[|[|s]]]; [| | |lia]); try reflexivity; cbn in E; lra. } subst j. split; [lia|]. split; intros X; [assert (s = 1%nat /\ d = 0%nat) as [-> ->] by lia|assert (s = 1%nat /\ d = 1%nat) as [-> ->] by lia]; cbn in En; injection En as En; lra.
  - intros (Hi & Ni). exists (i / 2)%nat, (i mod 2)%nat, (i / 2)%nat. assert (Dm := Nat.div_mod i 2 ltac:(lia)). assert (Mb := Nat.mod_upper_bound i 2 ltac:(lia)). assert (Hh : (i / 2 <= 2)%nat) by lia. split; [exact Hh|]. split; [exact Mb|]. split; [lia|]. split; [rewrite ex2_coord, ex2_start by exact Hh; reflexivity|]. split; [|exact Dm]. rewrite <- Dm. destruct i as [|[|[|[|[|[|i]]]]]]; try reflexivity; lia.
Qed.
Lemma ex2_force : exists F, force_vector a ex2_load = Ok F /\ F 2%nat = - (640/9) /\ F 3%nat = 0.
Proof.
  assert (Tt : nb_total a = 4) by (unfold nb_total; rewrite ex2_L; unfold lsum; cbn; ring). assert (X : 0 <= 1 <= nb_total a) by (rewrite Tt; lra). destruct (point_work a Me (fun _ => 0) (640/9) 1 X) as (x' & Hx & Q). exists (add_point a (fun _ => 0) (640/9) 1). split.
  { unfold force_vector, ex2_load. cbn [foldM]. unfold add_row. cbn [get nth_error rbind Z.eqb Pos.eqb]. unfold nb_starts. rewrite ex2_L. cbn [cumsum]. unfold pyget. cbn. replace (0 + 1) with 1 by ring. reflexivity. }
  assert (Ex : x' = 1). { destruct Hx as [E|(j & Hj & E & N)]; [exact E|]. rewrite ex2_nodes in Hj. rewrite E, ex2_coord in N |- *. assert (T : 1e-10 < 1/4) by lra. destruct j as [|[|[|j]]]; [| | |lia]; cbn [nth] in N |- *; try reflexivity; exfalso; revert N; unfold Rabs; destruct (Rcase_abs _); lra. }
  subst x'. assert (E0 : element_h a 0 = 1) by (unfold element_h; rewrite ex2_eL; reflexivity). assert (Wk : forall u : vec, work a (add_point a (fun _ => 0) (640/9) 1) u = - (640/9) * u 2%nat).
  { intros u. rewrite (Q u (u 2%nat)). - assert (Z0 : work a (fun _ => 0) u = 0) by (unfold work; apply rsum_0; intros; ring). rewrite Z0. ring. - exists 0%nat, (herm (element_h a 0) (ends u 0)). rewrite ex2_elems, !ex2_coord, E0. cbn [nth Nat.add]. split; [lia|]. split; [lra|]. split; [apply herm_cubic; lra|]. unfold herm, cub, coef2, coef3, ends. cbn. field. }
  set (F := add_point a (fun _ => 0) (640/9) 1) in *. clearbody F. unfold work in Wk. rewrite ex2_dof in Wk. assert (W2 := Wk (fun i => if Nat.eqb i 2 then 1 else 0)). assert (W3 := Wk (fun i => if Nat.eqb i 3 then 1 else 0)). cbn in W2, W3. split; lra.
Qed.
Lemma ex2_rows u : (forall i, (i < 6)%nat -> i <> 2%nat -> i <> 3%nat -> u i = 0) ->
  mulmv 6 (nb_assemble a (fun _ _ => 1)) u 2%nat = 112/9 * u 2%nat - 16/3 * u 3%nat /\ mulmv 6 (nb_assemble a (fun _ _ => 1)) u 3%nat = - (16/3) * u 2%nat + 16/3 * u 3%nat.
Proof.
  intros Z. unfold nb_assemble. rewrite ex2_elems. change 6%nat with (2 * (2 + 1))%nat. rewrite !chain_nodal by lia. change 2%nat with (2 * 1 + 0)%nat at 2. change 3%nat with (2 * 1 + 1)%nat at 2. split.
  - change (nodal_sum 2 (fun m => end_forces (nb_k a (fun _ _ => 1) m) (ends u m)) (2 * 1 + 0) = 112/9 * u 2%nat - 16/3 * u 3%nat). rewrite nodal_inside by lia. unfold end_forces, nb_k. destruct (Rleb_spec 1 1) as [_|N]; [|lra]. unfold nb_ke, nb_k2. rewrite ex2_EI, ex2_eL. cbn [nth Nat.sub Nat.add]. unfold mulmv, ends, k_FF, k_FP, mat4, vec4. cbn. rewrite (Z 0%nat), (Z 1%nat), (Z 4%nat), (Z 5%nat) by lia. field.
  - change (nodal_sum 2 (fun m => end_forces (nb_k a (fun _ _ => 1) m) (ends u m)) (2 * 1 + 1) = - (16/3) * u 2%nat + 16/3 * u 3%nat). rewrite nodal_inside by lia. unfold end_forces, nb_k. destruct (Rleb_spec 1 1) as [_|N]; [|lra]. unfold nb_ke, nb_k2. rewrite ex2_EI, ex2_eL. cbn [nth Nat.sub Nat.add]. unfold mulmv, ends, k_FF, k_FP, mat4, vec4. cbn. rewrite (Z 0%nat), (Z 1%nat), (Z 4%nat), (Z 5%nat) by lia. field.
Qed.
Lemma ex2_free i : ((i = 2 \/ i = 3) -> ~ In i (nb_bc a))%nat.
Proof. intros [-> | ->]; rewrite ex2_bc; lia. Qed.
Lemma ex2_solve b : exists u, solve 6 (bc_matrix (nb_bc a) (nb_assemble a (fun _ _ => 1))) b = Some u.
Proof.
  apply solve_some_iff. intros y Q. destruct (bc_kernel _ _ _ _ Q) as (Z & R). assert (Z' : forall i, (i < 6)%nat -> i <> 2%nat -> i <> 3%nat -> y i = 0) by (intros i Hi N2 N3; apply Z; [exact Hi|]; apply ex2_bc; repeat split; assumption). destruct (ex2_rows y Z') as (E2 & E3). assert (R2 := R 2%nat ltac:(lia) (ex2_free _ (or_introl eq_refl))). assert (R3 := R 3%nat ltac:(lia) (ex2_free _ (or_intror eq_refl))). rewrite E2 in R2. rewrite E3 in R3. intros i Hi. destruct (Nat.eq_dec i 2) as [->|N2]; [lra|]. destruct (Nat.eq_dec i 3) as [->|N3]; [lra|]. apply Z'; assumption.
Qed.
Lemma ex2_run rd k : (forall hs, (forall x, In x hs <-> x = 0%nat \/ x = 2%nat) -> NoDup hs -> is_mechanism rd a hs = false) ->
  exists r, nl_analyze rd a ex2_load (1/10) k 1 = Ok r /\ nr_collapsed r = false /\ nr_u r 2%nat = -1 /\ forall x, In x (hinge_nodes (nr_events r)) <-> x = 0%nat \/ x = 2%nat.
Proof.
  intros Nm. destruct ex2_force as (F & EF & F2 & F3). assert (Rm : Rmin_all a (fun _ _ => 1) = 1). { unfold Rmin_all. rewrite ex2_elems. cbn [seq map concat app]. unfold row_min. cbn [fold_left]. assert (E1 : Rmin 1 1 = 1) by (apply Rmin_left; lra). rewrite !E1. reflexivity. }
  assert (In1 : increment (Rmin_all a (fun _ _ => 1)) (1/10) 0 = 1/10). { rewrite Rm. unfold increment. destruct (Rltb_spec (1/2) 1) as [_|N]; [|lra]. replace (1/10 - 0) with (1/10) by ring. apply Rmin_left. lra. }
  assert (Lm : 0 + increment (Rmin_all a (fun _ _ => 1)) (1/10) 0 = 1/10) by (rewrite In1; ring).
  destruct (ex2_solve (bc_vector (nb_bc a) (fun i => increment (Rmin_all a (fun _ _ => 1)) (1/10) 0 * F i))) as (u & Eu). destruct (bc_solved _ _ _ _ _ Eu) as (Z & R). assert (Z' : forall i, (i < 6)%nat -> i <> 2%nat -> i <> 3%nat -> u i = 0) by (intros i Hi N2 N3; apply Z; [exact Hi|]; apply ex2_bc; repeat split; assumption). destruct (ex2_rows u Z') as (E2 & E3). assert (R2 := R 2%nat ltac:(lia) (ex2_free _ (or_introl eq_refl))). assert (R3 := R 3%nat ltac:(lia) (ex2_free _ (or_intror eq_refl))). rewrite E2, In1, F2 in R2. rewrite E3, In1, F3 in R3. assert (U2 : u 2%nat = -1) by lra. assert (U3 : u 3%nat = -1) by lra. clear R2 R3 R.
  set (M := fun j => 0 + extract_moments a u (fun _ _ => 1) j). assert (Ms : M 0%nat = 4 /\ M 1%nat = 2 /\ M 2%nat = - (4/3)).
  { unfold M, extract_moments, moments_of, nb_k. destruct (Rleb_spec 1 1) as [_|N]; [|lra]. unfold nb_ke, nb_k2. rewrite ex2_EI, ex2_eL. unfold mulmv, k_FF, k_FP, mat4, vec4. cbn. rewrite (Z' 0%nat), (Z' 1%nat), (Z' 4%nat), (Z' 5%nat), U2, U3 by lia. repeat split; field. }
  destruct Ms as (M0 & M1 & M2). assert (T := tracks_step a [] plast0 M (1/10) ex2_caps (tracks_nil a)). set (p := fst (update_R a M plast0 (1/10))) in *.
  assert (Hi : forall x, In x (pl_hinged p) <-> x = 0%nat \/ x = 2%nat).
  { assert (Rt : ratio a M 0 = 4/3 /\ ratio a M 1 = 2/3 /\ ratio a M 2 = 4/3) by (unfold ratio; rewrite ex2_Mp, M0, M1, M2; cbn [nth]; rewrite Rabs_Ropp, !Rabs_pos_eq by lra; repeat split; field). destruct Rt as (R0 & R1 & R4).
    intros x. rewrite <- mem_in. split.
    - intros Ix. assert (Hx := tr_nodes _ _ _ T x Ix). apply (tr_hinge _ _ _ T x Hx) in Ix. destruct Ix as (t & [<-|[]] & G). cbn [snd] in G. rewrite ex2_nodes in Hx. destruct x as [|[|[|x]]]; [left; reflexivity|exfalso; rewrite R1 in G; lra|right; reflexivity|lia].
    - intros [-> | ->]; apply (tr_hinge _ _ _ T); try (rewrite ex2_nodes; lia); exists (1/10, M); (split; [left; reflexivity|]); cbn [snd]; lra. }
  assert (Nd : NoDup (pl_hinged p)). { rewrite (tr_hn _ _ _ T). assert (O := ev_once a _ _ (tr_events _ _ _ T)). unfold once_each in O. unfold hinge_nodes. clear - O. induction (pl_events p) as [|e l IH]; [constructor|]. cbn [map] in O. inversion O as [|x l' O1 O2]. subst. cbn [filter]. destruct (ev_kind e) eqn:Ek; [apply IH; exact O2|]. cbn [map]. constructor; [|apply IH; exact O2]. intros J. apply O1. apply in_map_iff in J. destruct J as (e' & En & J). apply filter_In in J. destruct J as [J1 J2]. apply in_map_iff. exists e'. split; [|exact J1]. rewrite En. destruct (ev_kind e'); [discriminate|reflexivity]. }
  assert (Nm' := Nm _ Hi Nd). assert (Hn := tr_hn _ _ _ T). unfold nl_analyze. rewrite EF. cbn [rbind]. cbn [increments]. change (ns_lam nlstate0) with 0. destruct (Rltb_spec 0 (1/10)) as [_|N]; [|lra]. unfold increment_step. cbv zeta. change (ns_lam nlstate0) with 0. change (ns_p nlstate0) with plast0. change (pl_R plast0) with (fun _ _ : nat => 1). change (ns_step nlstate0) with 0%nat. change (ns_M nlstate0) with (fun _ : nat => 0). change (ns_u nlstate0) with (fun _ : nat => 0). change (ns_lh nlstate0) with (@nil R). change (ns_mh nlstate0) with (@nil vec). rewrite ex2_dof, Eu, Lm. fold M. fold p. rewrite Nm', Bool.andb_false_r.
  eexists. split; [reflexivity|]. destruct (Nat.ltb 0 k && Nat.eqb (1 mod k) 0)%bool; cbn [finish nr_collapsed nr_events ns_p nr_u ns_u]; (split; [reflexivity|]); (split; [lra|]); rewrite <- Hn; exact Hi.
Qed.
Lemma ex2_apart hs : (forall x, In x hs <-> x = 0%nat \/ x = 2%nat) -> NoDup hs -> apart a hs /\ (2 <= length hs)%nat.
Proof.
  intros Hi Nd. split.
  - exists 1. rewrite ex2_elems. assert (E0 : element_h a 0 = 1) by (unfold element_h; rewrite ex2_eL; reflexivity). assert (E1 : element_h a 1 = 3) by (unfold element_h; rewrite ex2_eL; reflexivity). split; [exists 0%nat; split; [lia|symmetry; exact E0]|]. split; [intros e He; destruct e as [|[|e]]; [| |lia]; lra|]. intros i j Ii Ij Nij. apply Hi in Ii. apply Hi in Ij. destruct Ii as [-> | ->], Ij as [-> | ->]; try congruence; rewrite !ex2_coord; cbn [nth]; unfold Rabs; destruct (Rcase_abs _); lra.
  - assert (N2 : NoDup [0%nat; 2%nat]) by (repeat constructor; cbn; intuition lia). apply (NoDup_incl_length N2). intros x [<-|[<-|[]]]; apply Hi; auto.
Qed.
Lemma ex2_EIpos i x : (i < length [1; 3])%nat -> rigidity (EIOne (RConst 1)) i x -> 0 < x.
Proof. intros _ E. cbn in E. injection E as <-. lra. Qed.
Lemma ex2_stands rd hs : rank_exact rd -> (forall x, In x hs <-> x = 0%nat \/ x = 2%nat) -> NoDup hs -> is_mechanism rd a hs = false.
Proof.
  intros Rx Hi Nd. destruct (ex2_apart hs Hi Nd) as (Ap & L2). destruct (is_mechanism rd a hs) eqn:E; [exfalso|reflexivity].
  apply (mech_apart rd Rx a Me (made_bc _ _ _ _ _ _ _ _ H) (made_EI _ _ _ _ _ _ _ _ H ex2_EIpos) hs Nd) in E; [|intros x Ix; apply Hi in Ix; rewrite ex2_nodes; lia|exact Ap|exact L2]. destruct E as (u & [Hu Ms] & i & Hi6 & Nz). assert (Z' : forall i, (i < 6)%nat -> i <> 2%nat -> i <> 3%nat -> u i = 0) by (intros j Hj N2 N3; apply Hu, ex2_bc; repeat split; assumption).
  assert (N1 : ~ In 1%nat hs) by (rewrite Hi; lia). rewrite ex2_elems in Ms. destruct (Ms 0%nat ltac:(lia)) as (_ & S0). destruct (Ms 1%nat ltac:(lia)) as (S1 & _). specialize (S0 N1). specialize (S1 N1). unfold slope, element_h in S0, S1. rewrite ex2_eL in S0, S1. cbn in S0, S1. rewrite (Z' 0%nat) in S0 by lia. rewrite (Z' 4%nat) in S1 by lia. assert (u 2%nat = 0) by lra. assert (u 3%nat = 0) by lra. apply Nz. rewrite ex2_dof in Hi6. destruct (Nat.eq_dec i 2) as [->|N2]; [assumption|]. destruct (Nat.eq_dec i 3) as [->|N3]; [assumption|]. apply Z'; assumption.
Qed.
End Two.
Lemma ex2_stand rd : rank_exact rd -> exists a r, made a [1; 3] (EIOne (RConst 1)) ex2_rs (NList [3; 1]) None 0 10 /\ capacities a /\ (forall i x, (i < length [1; 3])%nat -> rigidity (EIOne (RConst 1)) i x -> 0 < x) /\
  nl_analyze rd a ex2_load (1/10) 1 1 = Ok r /\ nr_collapsed r = false /\ apart a (hinge_nodes (nr_events r)) /\ (2 <= length (hinge_nodes (nr_events r)))%nat.
Proof.
  intros Rx. destruct (init_ok [1; 3] (EIOne (RConst 1)) (NScalar 1) ex2_rs (NList [3; 1]) None 0 10) as (a & H); try (cbn; lia || exact I || reflexivity); [discriminate|repeat constructor; lra|]. destruct (ex2_run a H rd 1 (fun hs => ex2_stands a H rd hs Rx)) as (r & E & C & _ & Hi). exists a, r. split; [exact H|]. split; [apply (ex2_caps a H)|]. split; [exact ex2_EIpos|]. split; [exact E|]. split; [exact C|]. assert (Og := proj1 (events_good rd a _ _ _ _ _ _ _ H (ex2_caps a H) _ _ _ _ _ E)). apply (ex2_apart a H); [exact Hi|].
  unfold once_each in Og. unfold hinge_nodes. clear - Og. induction (nr_events r) as [|e l IH]; [constructor|]. cbn [map] in Og. inversion Og as [|x l' O1 O2]. subst. cbn [filter]. destruct (ev_kind e) eqn:Ek; [apply IH; exact O2|]. cbn [map]. constructor; [|apply IH; exact O2]. intros J. apply O1. apply in_map_iff in J. destruct J as (e' & En & J). apply filter_In in J. destruct J as [J1 J2]. apply in_map_iff. exists e'. split; [|exact J1]. rewrite En. destruct (ev_kind e'); [discriminate|reflexivity].
Qed.
