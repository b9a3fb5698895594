(** Moving loads, and a worked beam. *)
From Coq Require Import ZArith Sorted.
From Coquelicot Require Import Coquelicot.
From Verif Require Import Base BaseFacts Linalg LinalgFacts SectionModel LoadModel VehicleModel BridgeModel BridgeFacts EnvelopeModel FoundationModel ElementSpec AnalysisSpec FoundSpec FoundFacts FoundFacts2 NonlinModel NonlinSpec NonlinFacts NonlinFacts2 NonlinFacts3 NonlinFacts4 NonlinFacts5 NonlinFacts6 NonlinFacts7 NonlinFacts8 NonlinFacts9.
Open Scope R_scope.

(** * Positions of the front *)
Lemma front_length xe st : 0 < st -> 0 <= xe -> let n := length (front_positions xe st) in (INR n - 1) * st < xe + st / 2 <= INR n * st.
Proof.
  intros Hs Hx. cbv zeta. unfold front_positions. rewrite map_length, seq_length. set (y := (xe + st / 2) / st). assert (Ey : xe + st / 2 = y * st) by (unfold y; field; lra). assert (Py : 0 < y) by (apply Rmult_lt_0_compat; [lra|apply Rinv_0_lt_compat; exact Hs]). clearbody y. unfold Zceil. destruct (base_Int_part (- y)) as (B1 & B2). assert (Zp : (Int_part (- y) < 0)%Z) by (apply lt_IZR; lra). rewrite INR_IZR_INZ, Z2Nat.id, opp_IZR by lia. set (z := IZR (Int_part (- y))) in *. clearbody z. rewrite Ey. split.
  - apply Rmult_lt_compat_r; lra.
  - apply Rmult_le_compat_r; lra.
Qed.
Lemma front_nth xe st i : (i < length (front_positions xe st))%nat -> nth i (front_positions xe st) 0 = INR i * st.
Proof.
  unfold front_positions. rewrite map_length, seq_length. intros Hi. rewrite (nth_indep _ 0 (INR 0 * st)) by (rewrite map_length, seq_length; exact Hi). rewrite (map_nth (fun i => INR i * st)), seq_nth by exact Hi. reflexivity.
Qed.
Lemma front_in xe st x : 0 < st -> 0 <= xe -> In x (front_positions xe st) -> exists i, x = INR i * st /\ x < xe + st / 2.
Proof.
  intros Hs Hx I. apply (In_nth _ _ 0) in I. destruct I as (i & Hi & <-). exists i. rewrite front_nth by exact Hi. split; [reflexivity|]. destruct (front_length xe st Hs Hx) as (A & _). assert (B : INR i <= INR (length (front_positions xe st)) - 1). { replace (INR (length (front_positions xe st)) - 1) with (INR (length (front_positions xe st) - 1)) by (rewrite minus_INR by lia; cbn [INR]; ring). apply le_INR. lia. } assert (INR i * st <= (INR (length (front_positions xe st)) - 1) * st) by (apply Rmult_le_compat_r; lra). lra.
Qed.
Lemma front_last xe st : 0 < st -> 0 <= xe -> xe - st / 2 <= last (front_positions xe st) 0 < xe + st / 2 /\ exists i, last (front_positions xe st) 0 = INR i * st.
Proof.
  intros Hs Hx. destruct (front_length xe st Hs Hx) as (A & B). set (l := front_positions xe st) in *. assert (Hl : (0 < length l)%nat). { destruct (length l) eqn:E; [cbn [INR] in B; lra|lia]. } assert (E : last l 0 = nth (length l - 1) l 0). { clear - Hl. induction l as [|a l IH]; [cbn in Hl; lia|]. destruct l as [|b l]; [reflexivity|]. change (last (a :: b :: l) 0) with (last (b :: l) 0). rewrite IH by (cbn; lia). replace (length (a :: b :: l) - 1)%nat with (S (length (b :: l) - 1)) by (cbn; lia). reflexivity. }
  rewrite E. unfold l. rewrite front_nth by (fold l; lia). fold l. rewrite minus_INR by lia. cbn [INR]. split; [split; [lra|exact A]|]. exists (length l - 1)%nat. rewrite minus_INR by lia. cbn [INR]. ring.
Qed.

Section Moving.
Variable rd : nat -> mat -> bool.
Variables (a : nba) (Ls : list R) (EI : eiargs) (rs : list R) (Mp : narg) (My : option narg) (q msz : R).
Hypothesis H : made a Ls EI rs Mp My q msz.
Hypothesis Ca : capacities a.
Hypothesis Gp : forall j, (j < nb_nodes a)%nat -> 0 <= nb_gy a j.
Let Me := is_meshed _ _ _ _ _ _ _ _ H.
Let Bc := made_bc _ _ _ _ _ _ _ _ H.
Variables (m : moving) (aw cs : list R) (vL st : R) (n_sub k : nat).
Hypothesis Ax : carries m aw cs vL.
Hypothesis Hs : 0 < st.
Hypothesis Hv : 0 <= nb_total a + vL.
Hypothesis Hn : n_sub <> 0%nat.
Lemma passage : exists r h, nl_moving rd a m st n_sub k = Ok r /\ drove a aw cs (front_positions (nb_total a + vL) st) (last (front_positions (nb_total a + vL) st) 0) r h /\
    (k = 1%nat -> nr_collapsed r = false -> nr_lam_hist r = front_positions (nb_total a + vL) st).
Proof. apply (moving_drives a Me Bc Ca Gp); try assumption; inversion Ax; subst; [reflexivity|reflexivity|discriminate|discriminate]. Qed.
Lemma moving_good : exists r, nl_moving rd a m st n_sub k = Ok r /\
  (q <= 1 -> forall e i, (e < nb_elems a)%nat -> (i < 2)%nat -> q <= nr_R r e i <= 1) /\
  once_each (nr_events r) /\ chronological (nr_events r) /\
  (forall ev, In ev (nr_events r) -> (ev_node ev < nb_nodes a)%nat /\ ev_x ev = coord a (ev_node ev) /\ (exists i, ev_lam ev = INR i * st) /\ ev_lam ev <= nr_lambda r < nb_total a + vL + st / 2) /\
  ((forall j, (j < nb_nodes a)%nat -> nb_gy a j <= 1) -> yield_first (nr_events r)) /\
  (nr_collapsed r = false -> nb_total a + vL - st / 2 <= nr_lambda r) /\
  (k = 1%nat -> nr_collapsed r = false -> (forall i, (i < length (nr_lam_hist r))%nat -> nth i (nr_lam_hist r) 0 = INR i * st) /\ last (nr_lam_hist r) 0 = nr_lambda r /\ length (nr_mom_hist r) = length (nr_lam_hist r)).
Proof.
  destruct passage as (r & h & E & D & K). exists r. split; [exact E|]. assert (De := dr_ev _ _ _ _ _ _ _ D). destruct (front_last _ _ Hs Hv) as ((L1 & L2) & _). split.
  { intros Hq e i He Hi. assert (Eq := q_is _ _ _ _ _ _ _ _ H). rewrite <- Eq in *. apply (stiffness_bounds a h); [apply (dr_R _ _ _ _ _ _ _ D)|exact Hq|exact Ca|apply (me_nodes a Me)|exact He|exact Hi]. }
  split; [apply (ev_once a h); exact De|]. split; [apply (ev_chrono a h); [exact De|apply (dr_sorted _ _ _ _ _ _ _ D)]|]. split.
  { intros ev Iv. destruct (ev_due a h _ ev De Iv) as (pre & t & post & Eh & (D1 & D2 & D3 & _)). split; [exact D1|]. split; [exact D3|]. rewrite D2. assert (It : In t h) by (rewrite Eh; apply in_or_app; right; left; reflexivity). destruct (dr_in _ _ _ _ _ _ _ D t It) as (P1 & P2). destruct (front_in _ _ _ Hs Hv P1) as (i & E1 & _). destruct (front_in _ _ _ Hs Hv (dr_lam _ _ _ _ _ _ _ D)) as (_ & _ & E2). split; [exists i; exact E1|lra]. }
  split; [intros Gy; apply (ev_yield a h); assumption|]. split; [intros C; destruct (dr_end _ _ _ _ _ _ _ D C) as (-> & _); exact L1|]. intros Ek C. rewrite (K Ek C). split; [intros i Hi; apply front_nth; exact Hi|]. split; [destruct (dr_end _ _ _ _ _ _ _ D C) as (-> & _); reflexivity|]. rewrite <- (dr_len _ _ _ _ _ _ _ D), (K Ek C). reflexivity.
Qed.
Lemma moving_equilibrium r : nl_moving rd a m st n_sub k = Ok r ->
  (forall i, (i < length (nr_lam_hist r))%nat -> exists f, balanced a (vehicle_forces a aw cs (nth i (nr_lam_hist r) 0)) (nth i (nr_mom_hist r) (fun _ => 0)) f) /\
  (nr_collapsed r = false -> exists f, balanced a (vehicle_forces a aw cs (nr_lambda r)) (nr_moments r) f).
Proof.
  intros E'. destruct passage as (r0 & h & E & D & K). rewrite E in E'. inversion E' as [X]. clear E'. subst r0. split.
  - intros i Hi. assert (Ll := dr_len _ _ _ _ _ _ _ D). assert (Ei := combine_nth (nr_lam_hist r) (nr_mom_hist r) i 0 (fun _ => 0) Ll). assert (I : In (nth i (nr_lam_hist r) 0, nth i (nr_mom_hist r) (fun _ => 0)) (combine (nr_lam_hist r) (nr_mom_hist r))) by (refine (eq_ind _ (fun z => In z _) _ _ Ei); apply nth_In; rewrite combine_length; lia). destruct (dr_rec _ _ _ _ _ _ _ D _ I) as (f & B). exists f. exact B.
  - intros C. destruct (dr_end _ _ _ _ _ _ _ D C) as (-> & B). exact B.
Qed.
End Moving.

(** * A two-span beam: fixed ends, the middle support free to turn. *)
Definition ex_rs : list R := [-1; -1; -1; 0; -1; -1].
Definition ex_load : list row := [Row 2 2 [400; 1/2]].
Definition exact_rank (n : nat) (A : mat) : bool := match solve n A (fun _ => 0) with None => true | Some _ => false end.
Lemma exact_rank_ok : rank_exact exact_rank.
Proof.
  intros n A. unfold exact_rank. destruct (solve n A (fun _ => 0)) as [u|] eqn:E.
  - split; [discriminate|]. intros (y & (i & Hi & Ny) & Q). exfalso. apply Ny. apply (proj1 (solve_some_iff n A (fun _ => 0))); [exists u; exact E| |exact Hi]. exact Q.
  - split; [intros _|reflexivity]. apply solve_none in E. exact E.
Qed.
Lemma ne_one L : 0 < L <= 4 -> mesh_ne L 10 = 1%nat.
Proof. intros HL. unfold mesh_ne. rewrite (py_round_unique (L / 10) 0); [reflexivity|]. replace (L / 10 - 0) with (L / 10) by ring. rewrite Rabs_pos_eq; lra. Qed.
Lemma ex_mesh : mesh_from 0 0 [4; 1] 10 = [(4, 4, 0%nat); (1, 5, 1%nat)].
Proof.
  cbn [mesh_from]. cbv zeta. rewrite !ne_one by lra. cbn [seq map app]. change (INR 1) with 1. change (INR (0 + 1)) with 1. replace (4 / 1) with 4 by field. replace (1 / 1) with 1 by field. repeat (f_equal; try ring).
Qed.
Section Ex.
Variables (a : nba) (EI : eiargs) (Mp : narg) (My : option narg) (q : R).
Hypothesis H : made a [4; 1] EI ex_rs Mp My q 10.
Lemma ex_coords : nb_coords a = [0; 4; 5].
Proof. destruct (parts _ _ _ _ _ _ _ _ H) as (ei & _ & _ & _ & E & _). rewrite E, ex_mesh. reflexivity. Qed.
Lemma ex_eL : nb_eL a = [4; 1].
Proof. destruct (parts _ _ _ _ _ _ _ _ H) as (ei & _ & _ & _ & _ & E & _). rewrite E, ex_mesh. reflexivity. Qed.
Lemma ex_L : nb_L a = [4; 1].
Proof. destruct (parts _ _ _ _ _ _ _ _ H) as (ei & _ & E & _). exact E. Qed.
Lemma ex_nodes : nb_nodes a = 3%nat. Proof. unfold nb_nodes. rewrite ex_coords. reflexivity. Qed.
Lemma ex_elems : nb_elems a = 2%nat. Proof. unfold nb_elems. rewrite ex_eL. reflexivity. Qed.
Lemma ex_dof : nb_dof a = 6%nat. Proof. unfold nb_dof. rewrite ex_nodes. reflexivity. Qed.
Lemma ex_total : nb_total a = 5. Proof. unfold nb_total. rewrite ex_L. unfold lsum. cbn. ring. Qed.
Lemma ex_start i : (i <= 2)%nat -> start [4; 1] i = nth i [0; 4; 5] 0.
Proof. intros Hi. destruct i as [|[|[|i]]]; [| | |lia]; unfold start; cbn [rsum nth]; ring. Qed.
Lemma ex_coord j : (j < 3)%nat -> coord a j = nth j [0; 4; 5] 0.
Proof. intros _. unfold coord. rewrite ex_coords. reflexivity. Qed.
Lemma ex_bc i : In i (nb_bc a) <-> (i < 6)%nat /\ i <> 3%nat.
Proof.
  rewrite (bc_iff _ _ _ _ _ _ _ _ H i), ex_nodes. cbn [length]. split.
  - intros (s & d & j & Hs & Hd & Hj & E & En & ->). rewrite (ex_coord j Hj), (ex_start s Hs) in E. assert (js : j = s). { destruct j as [|[|[|j]]]; [| | |lia]; (destruct s as [|[|[|s]]]; [| | |lia]); try reflexivity; cbn in E; lra. } subst j. split; [lia|]. intros X. assert (s = 1%nat /\ d = 1%nat) as [-> ->] by lia. cbn in En. injection En as En. lra.
  - intros (Hi & Ni). exists (i / 2)%nat, (i mod 2)%nat, (i / 2)%nat. assert (Dm := Nat.div_mod i 2 ltac:(lia)). assert (Mb := Nat.mod_upper_bound i 2 ltac:(lia)). assert (Hh : (i / 2 <= 2)%nat) by lia. split; [exact Hh|]. split; [exact Mb|]. split; [lia|]. split; [rewrite ex_coord by lia; rewrite ex_start by exact Hh; reflexivity|]. split; [|exact Dm]. rewrite <- Dm. destruct i as [|[|[|[|[|[|i]]]]]]; try reflexivity; lia.
Qed.
Lemma ex_still u : held a u -> ~ sways a u.
Proof. intros Hu (j & Hj & N). apply N, Hu. apply ex_bc. rewrite ex_nodes in Hj. lia. Qed.
End Ex.

Section Run.
Variables (m : R) (a : nba).
Hypothesis Hm : 0 < m.
Hypothesis H : made a [4; 1] (EIOne (RConst 1)) ex_rs (NList [m; 1000]) None 0 10.
Let Me := is_meshed _ _ _ _ _ _ _ _ H.
Let Bc := made_bc _ _ _ _ _ _ _ _ H.
Lemma ex_EI : nb_EI a = [1; 1].
Proof. destruct (parts _ _ _ _ _ _ _ _ H) as (ei & Ee & _ & _ & _ & _ & _ & _ & E & _). inversion Ee as [X]. subst ei. rewrite ex_mesh in E. inversion E as [X]. reflexivity. Qed.
Lemma ex_Mp : nb_Mp a = [m; m; 1000].
Proof. destruct (parts _ _ _ _ _ _ _ _ H) as (ei & _ & _ & _ & _ & _ & _ & _ & _ & E & _). rewrite ex_mesh in E. inversion E as [X]. reflexivity. Qed.
Lemma ex_My : nb_My a = [m / (115/100); m / (115/100); 1000 / (115/100)].
Proof. destruct (parts _ _ _ _ _ _ _ _ H) as (ei & _ & _ & _ & _ & _ & _ & _ & _ & _ & E). rewrite ex_mesh in E. inversion E as [X]. reflexivity. Qed.
Lemma ex_caps : capacities a.
Proof. intros j Hj. rewrite (ex_nodes _ _ _ _ _ H) in Hj. rewrite ex_Mp. destruct j as [|[|[|j]]]; cbn; lra || lia. Qed.
Lemma ex_gy j : (j < nb_nodes a)%nat -> nb_gy a j = 100/115.
Proof. intros Hj. rewrite (ex_nodes _ _ _ _ _ H) in Hj. unfold nb_gy. rewrite ex_Mp, ex_My. destruct j as [|[|[|j]]]; [| | |lia]; cbn [nth]; field; lra. Qed.
Lemma ex_EIpos i x : (i < length [4; 1])%nat -> rigidity (EIOne (RConst 1)) i x -> 0 < x.
Proof. intros _ E. cbn in E. injection E as <-. lra. Qed.
Lemma ex_force : exists F, force_vector a ex_load = Ok F /\ F 3%nat = -50.
Proof.
  assert (X : 0 <= 9/2 <= nb_total a) by (rewrite (ex_total _ _ _ _ _ H); lra). destruct (point_work a Me (fun _ => 0) 400 (9/2) X) as (x' & Hx & Q). exists (add_point a (fun _ => 0) 400 (9/2)). split.
  { unfold force_vector, ex_load. cbn [foldM]. unfold add_row. cbn [get nth_error rbind Z.eqb Pos.eqb]. unfold nb_starts. rewrite (ex_L _ _ _ _ _ H). cbn [cumsum]. unfold pyget. cbn [rbind get nth_error]. cbn. change (Pos.to_nat 1) with 1%nat. cbn [nth_error rbind]. replace (0 + 4 + 1 / 2) with (9 / 2) by field. reflexivity. }
  assert (Ex : x' = 9/2). { destruct Hx as [E|(j & Hj & E & N)]; [exact E|exfalso]. rewrite (ex_nodes _ _ _ _ _ H) in Hj. rewrite E, (ex_coord _ _ _ _ _ H j Hj) in N. clear - N Hj. assert (T : 1e-10 < 1/4) by lra. destruct j as [|[|[|j]]]; [| | |lia]; cbn [nth] in N; revert N; unfold Rabs; destruct (Rcase_abs _); lra. }
  subst x'. set (u := fun i : nat => if Nat.eqb i 3 then 1 else 0). assert (D : deflects a u (9/2) (1/8)).
  { exists 1%nat, (herm (element_h a 1) (ends u 1)). assert (Eh : element_h a 1 = 1) by (unfold element_h; rewrite (ex_eL _ _ _ _ _ H); reflexivity). rewrite (ex_elems _ _ _ _ _ H), !(ex_coord _ _ _ _ _ H) by lia. rewrite Eh. cbn [nth Nat.add]. split; [lia|]. split; [lra|]. split; [apply herm_cubic; lra|]. unfold herm, cub, coef2, coef3, ends, u. cbn. field. }
  assert (W := Q u (1/8) D). set (F := add_point a (fun _ => 0) 400 (9/2)) in *. clearbody F. unfold work in W. rewrite (ex_dof _ _ _ _ _ H) in W. unfold u in W. cbn in W. lra.
Qed.
(** The row of the free rotation. *)
Lemma ex_row u : (forall i, (i < 6)%nat -> i <> 3%nat -> u i = 0) -> mulmv 6 (nb_assemble a (fun _ _ => 1)) u 3%nat = 5 * u 3%nat.
Proof.
  intros Z. unfold nb_assemble. rewrite (ex_elems _ _ _ _ _ H). change 6%nat with (2 * (2 + 1))%nat. rewrite chain_nodal by lia. change 3%nat with (2 * 1 + 1)%nat. rewrite nodal_inside by lia. unfold end_forces, nb_k. destruct (Rleb_spec 1 1) as [_|N]; [|lra]. unfold nb_ke, nb_k2. rewrite ex_EI, (ex_eL _ _ _ _ _ H). cbn [nth Nat.sub Nat.add]. unfold mulmv, ends, k_FF, k_FP, mat4, vec4. cbn. rewrite (Z 0%nat), (Z 1%nat), (Z 2%nat), (Z 4%nat), (Z 5%nat) by lia. field.
Qed.
Lemma ex_solve b : exists u, solve 6 (bc_matrix (nb_bc a) (nb_assemble a (fun _ _ => 1))) b = Some u.
Proof.
  apply solve_some_iff. intros y Q. destruct (bc_kernel _ _ _ _ Q) as (Z & R). assert (Z' : forall i, (i < 6)%nat -> i <> 3%nat -> y i = 0) by (intros i Hi Ni; apply Z; [exact Hi|]; apply (ex_bc _ _ _ _ _ H); split; assumption). assert (R3 := R 3%nat ltac:(lia)). rewrite (ex_row y Z') in R3. intros i Hi. destruct (Nat.eq_dec i 3) as [->|Ni]; [|apply Z'; assumption]. assert (5 * y 3%nat = 0); [|lra]. apply R3. rewrite (ex_bc _ _ _ _ _ H). intros [_ X]. apply X. reflexivity.
Qed.
Lemma ex_step rd F k : F 3%nat = -50 -> exists u,
  solve (nb_dof a) (bc_matrix (nb_bc a) (nb_assemble a (fun _ _ => 1))) (bc_vector (nb_bc a) (fun i => increment (Rmin_all a (fun _ _ => 1)) (1/10) 0 * F i)) = Some u /\
  let M := fun j => 0 + extract_moments a u (fun _ _ => 1) j in
  M 0%nat = -1/2 /\ M 1%nat = -1 /\ M 2%nat = -2 /\
  let up := update_R a M plast0 (1/10) in
  increments rd a F (1/10) k 1 nlstate0 =
    let s1 := {| ns_lam := 1/10; ns_step := 1; ns_p := fst up; ns_M := M; ns_u := fun i => 0 + u i; ns_lh := []; ns_mh := [] |} in
    if (snd up && is_mechanism rd a (pl_hinged (fst up)))%bool then finish s1 (1/10) true
    else finish (if (Nat.ltb 0 k && Nat.eqb (1 mod k) 0)%bool then {| ns_lam := 1/10; ns_step := 1; ns_p := fst up; ns_M := M; ns_u := ns_u s1; ns_lh := [1/10]; ns_mh := [M] |} else s1) (1/10) false.
Proof.
  intros HF. assert (Rm : Rmin_all a (fun _ _ => 1) = 1). { unfold Rmin_all. rewrite (ex_elems _ _ _ _ _ H). cbn [seq map concat app]. unfold row_min. cbn [fold_left]. assert (E1 : Rmin 1 1 = 1) by (apply Rmin_left; lra). rewrite !E1. reflexivity. }
  assert (In1 : increment (Rmin_all a (fun _ _ => 1)) (1/10) 0 = 1/10). { rewrite Rm. unfold increment. destruct (Rltb_spec (1/2) 1) as [_|N]; [|lra]. replace (1/10 - 0) with (1/10) by ring. apply Rmin_left. lra. }
  assert (Lm : 0 + increment (Rmin_all a (fun _ _ => 1)) (1/10) 0 = 1/10) by (rewrite In1; ring).
  destruct (ex_solve (bc_vector (nb_bc a) (fun i => increment (Rmin_all a (fun _ _ => 1)) (1/10) 0 * F i))) as (u & Eu). exists u. rewrite (ex_dof _ _ _ _ _ H). split; [exact Eu|]. assert (U3 : (forall i, (i < 6)%nat -> i <> 3%nat -> u i = 0) /\ u 3%nat = -1).
  { destruct (bc_solved _ _ _ _ _ Eu) as (Z & R). assert (Z' : forall i, (i < 6)%nat -> i <> 3%nat -> u i = 0) by (intros i Hi Ni; apply Z; [exact Hi|]; apply (ex_bc _ _ _ _ _ H); split; assumption). split; [exact Z'|]. assert (R3 := R 3%nat ltac:(lia)). rewrite (ex_row u Z'), In1, HF in R3. assert (5 * u 3%nat = 1/10 * -50); [|lra]. apply R3. rewrite (ex_bc _ _ _ _ _ H). intros [_ X]. apply X. reflexivity. }
  destruct U3 as (Z & U3). cbv zeta. assert (Ms : 0 + extract_moments a u (fun _ _ => 1) 0%nat = -1/2 /\ 0 + extract_moments a u (fun _ _ => 1) 1%nat = -1 /\ 0 + extract_moments a u (fun _ _ => 1) 2%nat = -2).
  { unfold extract_moments, moments_of, nb_k. destruct (Rleb_spec 1 1) as [_|N]; [|lra]. unfold nb_ke, nb_k2. rewrite ex_EI, (ex_eL _ _ _ _ _ H). unfold mulmv, k_FF, k_FP, mat4, vec4. cbn. rewrite (Z 0%nat), (Z 1%nat), (Z 2%nat), (Z 4%nat), (Z 5%nat), U3 by lia. repeat split; field. }
  destruct Ms as (M0 & M1 & M2). split; [exact M0|]. split; [exact M1|]. split; [exact M2|]. cbn [increments]. change (ns_lam nlstate0) with 0. destruct (Rltb_spec 0 (1/10)) as [_|N]; [|lra]. unfold increment_step. cbv zeta. change (ns_lam nlstate0) with 0. change (ns_p nlstate0) with plast0. change (pl_R plast0) with (fun _ _ : nat => 1). change (ns_step nlstate0) with 0%nat. change (ns_M nlstate0) with (fun _ : nat => 0). change (ns_u nlstate0) with (fun _ : nat => 0). change (ns_lh nlstate0) with (@nil R). change (ns_mh nlstate0) with (@nil vec). rewrite (ex_dof _ _ _ _ _ H), Eu, Lm.
  destruct (snd (update_R a (fun j => 0 + extract_moments a u (fun _ _ => 1) j) plast0 (1 / 10)) && is_mechanism rd a (pl_hinged (fst (update_R a (fun j => 0 + extract_moments a u (fun _ _ => 1) j) plast0 (1 / 10)))))%bool; [reflexivity|]. destruct (Nat.ltb 0 k && Nat.eqb (1 mod k) 0)%bool; reflexivity.
Qed.
End Run.
