(** Equilibrium of one increment; mechanisms. *)
From Coq Require Import ZArith.
From Verif Require Import Base BaseFacts Linalg LinalgFacts LoadModel FoundationModel ElementSpec AnalysisSpec AnalysisFacts AnalysisFacts2 FoundSpec FoundFacts FoundFacts2 FoundFacts3 NonlinModel NonlinSpec NonlinFacts3.
Open Scope R_scope.

Lemma bc_matrix_spec bc : forall K i j, bc_matrix bc K i j = if mem i bc then (if Nat.eqb i j then 1 else 0) else if mem j bc then 0 else K i j.
Proof.
  induction bc as [|d bc IH]; intros K i j; [reflexivity|]. unfold bc_matrix in *. cbn [fold_left]. rewrite IH. change (mem i (d :: bc)) with (Nat.eqb i d || mem i bc)%bool. change (mem j (d :: bc)) with (Nat.eqb j d || mem j bc)%bool.
  destruct (mem i bc) eqn:Ei; [rewrite Bool.orb_true_r; reflexivity|]. rewrite Bool.orb_false_r. destruct (mem j bc) eqn:Ej.
  - rewrite Bool.orb_true_r. destruct (Nat.eqb_spec i d) as [->|N]; [|reflexivity]. destruct (Nat.eqb_spec d j) as [->|]; [congruence|reflexivity].
  - rewrite Bool.orb_false_r. destruct (Nat.eqb_spec i d) as [->|N]; [rewrite (Nat.eqb_sym d j); reflexivity|reflexivity].
Qed.
Lemma bc_vector_spec bc : forall F i, bc_vector bc F i = if mem i bc then 0 else F i.
Proof.
  induction bc as [|d bc IH]; intros F i; [reflexivity|]. unfold bc_vector in *. cbn [fold_left]. rewrite IH. change (mem i (d :: bc)) with (Nat.eqb i d || mem i bc)%bool. destruct (mem i bc); [rewrite Bool.orb_true_r; reflexivity|]. rewrite Bool.orb_false_r. unfold vupd. reflexivity.
Qed.
Lemma bc_row_fixed n bc K u i : (i < n)%nat -> In i bc -> mulmv n (bc_matrix bc K) u i = u i.
Proof.
  intros Hi I. unfold mulmv. rewrite (rsum_single _ i); [|exact Hi|].
  - rewrite bc_matrix_spec. apply mem_in in I. rewrite I, Nat.eqb_refl. ring.
  - intros j _ N. rewrite bc_matrix_spec. apply mem_in in I. rewrite I. destruct (Nat.eqb_spec i j); [congruence|ring].
Qed.
Lemma bc_row_free n bc K u i : ~ In i bc -> (forall j, (j < n)%nat -> In j bc -> u j = 0) -> mulmv n (bc_matrix bc K) u i = mulmv n K u i.
Proof.
  intros I Hu. unfold mulmv. apply rsum_ext. intros j Hj. rewrite bc_matrix_spec. destruct (mem i bc) eqn:E; [apply mem_in in E; contradiction|]. destruct (mem j bc) eqn:Ej; [|reflexivity]. apply mem_in in Ej. rewrite (Hu j Hj Ej). ring.
Qed.
Lemma bc_solved n bc K F u : solve n (bc_matrix bc K) (bc_vector bc F) = Some u ->
  (forall j, (j < n)%nat -> In j bc -> u j = 0) /\ forall i, (i < n)%nat -> ~ In i bc -> mulmv n K u i = F i.
Proof.
  intros E. assert (Q := solve_sound _ _ _ _ E). assert (Z : forall j, (j < n)%nat -> In j bc -> u j = 0). { intros j Hj I. specialize (Q j Hj). rewrite bc_row_fixed in Q by assumption. rewrite Q, bc_vector_spec. apply mem_in in I. rewrite I. reflexivity. }
  split; [exact Z|]. intros i Hi I. specialize (Q i Hi). rewrite bc_row_free in Q by assumption. rewrite Q, bc_vector_spec. destruct (mem i bc) eqn:E'; [apply mem_in in E'; contradiction|reflexivity].
Qed.
Lemma bc_kernel n bc K u : (forall i, (i < n)%nat -> mulmv n (bc_matrix bc K) u i = 0) ->
  (forall j, (j < n)%nat -> In j bc -> u j = 0) /\ forall i, (i < n)%nat -> ~ In i bc -> mulmv n K u i = 0.
Proof.
  intros Q. assert (Z : forall j, (j < n)%nat -> In j bc -> u j = 0). { intros j Hj I. specialize (Q j Hj). rewrite bc_row_fixed in Q by assumption. exact Q. }
  split; [exact Z|]. intros i Hi I. specialize (Q i Hi). rewrite bc_row_free in Q by assumption. exact Q.
Qed.

Section Mesh.
Variable a : nba.
Hypothesis Me : meshed a.
Hypothesis Bc : forall i, In i (nb_bc a) -> (i < nb_dof a)%nat.
Lemma dof4 : nb_dof a = (2 * (nb_elems a + 1))%nat. Proof. unfold nb_dof. rewrite (me_nodes a Me). lia. Qed.

(** The matrices the code uses for an element. *)
Definition self_balanced (k : nat -> mat) : Prop := forall e d, (e < nb_elems a)%nat ->
  end_forces (k e) d 0%nat + end_forces (k e) d 2%nat = 0 /\ end_forces (k e) d 1%nat + end_forces (k e) d 3%nat + end_forces (k e) d 2%nat * element_h a e = 0.
Lemma elastic_balanced : self_balanced (nb_ke a).
Proof.
  intros e d He. assert (P := me_positive a Me e He). unfold element_h in P. unfold end_forces, mulmv, nb_ke, k_FF, element_h. cbn [rsum]. cbv [mat4 vec4]. split; field; lra.
Qed.
Lemma k_balanced Re : self_balanced (nb_k a Re).
Proof.
  intros e d He. assert (P := me_positive a Me e He). unfold element_h in P. unfold end_forces, mulmv, nb_k, nb_ke, nb_k1, nb_k2, k_FF, k_PF, k_FP, element_h. destruct (Rleb (Re e 1%nat) (Re e 0%nat)); cbn [rsum]; cbv [mat4 vec4]; split; field; lra.
Qed.
Lemma increment_balanced k F u : self_balanced k -> solve (nb_dof a) (bc_matrix (nb_bc a) (assemble_chain k (nb_elems a))) (bc_vector (nb_bc a) F) = Some u ->
  balanced a F (moments_of k u) (fun e => end_forces (k e) (ends u e)) /\ held a u.
Proof.
  intros Sb E. apply bc_solved in E. destruct E as (Z & Q). split.
  - constructor.
    + intros e He. apply (Sb e _ He).
    + intros e He. apply (Sb e _ He).
    + intros i Hi I. rewrite dof4 in Hi, Q. rewrite <- (Q i Hi I). symmetry. apply chain_nodal. exact Hi.
    + reflexivity.
    + intros e He. reflexivity.
  - intros i I. apply Z; [apply Bc; exact I|exact I].
Qed.
Lemma balanced_add F1 M1 f1 F2 M2 f2 : balanced a F1 M1 f1 -> balanced a F2 M2 f2 -> balanced a (fun i => F1 i + F2 i) (fun j => M1 j + M2 j) (fun e q => f1 e q + f2 e q).
Proof.
  intros B1 B2. constructor.
  - intros e He. assert (Q1 := ba_force _ _ _ _ B1 e He). assert (Q2 := ba_force _ _ _ _ B2 e He). lra.
  - intros e He. assert (Q1 := ba_moment _ _ _ _ B1 e He). assert (Q2 := ba_moment _ _ _ _ B2 e He). lra.
  - intros i Hi I. rewrite nodal_plus, (ba_node _ _ _ _ B1 i Hi I), (ba_node _ _ _ _ B2 i Hi I). reflexivity.
  - rewrite (ba_left _ _ _ _ B1), (ba_left _ _ _ _ B2). reflexivity.
  - intros e He. rewrite (ba_others _ _ _ _ B1 e He), (ba_others _ _ _ _ B2 e He). reflexivity.
Qed.
Lemma balanced_zero : balanced a (fun _ => 0) (fun _ => 0) (fun _ _ => 0).
Proof. constructor; intros; try reflexivity; try ring. unfold nodal_sum. destruct (Nat.ltb i (2 * nb_elems a)), (Nat.leb 2 i); ring. Qed.
Lemma balanced_ext F F' M f : (forall i, F i = F' i) -> balanced a F M f -> balanced a F' M f.
Proof. intros E B. constructor; try apply B. intros i Hi I. rewrite <- E. apply (ba_node _ _ _ _ B i Hi I). Qed.

(** Work of a balanced state on a motion. *)
Lemma balanced_work F M f u : balanced a F M f -> held a u -> work a F u = rsum (nb_elems a) (fun e => f e 1%nat * (u (2 * e + 1)%nat - slope a u e) + f e 3%nat * (u (2 * (e + 1) + 1)%nat - slope a u e)).
Proof.
  intros B Hu. unfold work. rewrite dof4. rewrite (rsum_ext _ _ (fun i => nodal_sum (nb_elems a) f i * u i)).
  - rewrite virtual_work. apply rsum_ext. intros e He. cbn [rsum]. assert (Q1 := ba_force _ _ _ _ B e He). assert (Q2 := ba_moment _ _ _ _ B e He). assert (P := me_positive a Me e He). unfold slope. set (h := element_h a e) in *. replace (2 * e + 0)%nat with (2 * e)%nat by lia. replace (2 * e + 2)%nat with (2 * (e + 1))%nat by lia. replace (2 * e + 3)%nat with (2 * (e + 1) + 1)%nat by lia.
    assert (E0 : f e 0%nat = - f e 2%nat) by lra. assert (E1 : f e 1%nat = - f e 3%nat - f e 2%nat * h) by lra. rewrite E0, E1. field. lra.
  - intros i Hi. destruct (in_dec Nat.eq_dec i (nb_bc a)) as [I|I]; [rewrite (Hu i I); ring|]. rewrite (ba_node _ _ _ _ B i); [reflexivity|rewrite dof4; exact Hi|exact I].
Qed.
Lemma balanced_hinges F M f u : balanced a F M f -> held a u -> (forall e, (1 <= e < nb_elems a)%nat -> u (2 * e + 1)%nat = slope a u e) ->
  work a F u = rsum (nb_nodes a) (fun j => M j * hinge_angle a u j).
Proof.
  intros B Hu Hs. rewrite (balanced_work F M f u B Hu), (me_nodes a Me), rsum_S_first. assert (Sm := me_some a Me). rewrite (rsum_ext _ (fun e => f e 1%nat * (u (2 * e + 1)%nat - slope a u e) + f e 3%nat * (u (2 * (e + 1) + 1)%nat - slope a u e)) (fun e => f e 1%nat * (u (2 * e + 1)%nat - slope a u e) + M (S e) * hinge_angle a u (S e))).
  - rewrite rsum_plus. f_equal. destruct (nb_elems a) as [|n]; [lia|]. rewrite rsum_S_first, rsum_0; [|intros e He; rewrite (Hs (S e)) by lia; ring]. rewrite (ba_left _ _ _ _ B). unfold hinge_angle. cbn [Nat.mul Nat.add]. ring.
  - intros e He. rewrite (ba_others _ _ _ _ B e He). unfold hinge_angle. reflexivity.
Qed.
Lemma balanced_bound F M f u mu : balanced a F M f -> held a u -> (forall e, (1 <= e < nb_elems a)%nat -> u (2 * e + 1)%nat = slope a u e) ->
  (forall j, (j < nb_nodes a)%nat -> Rabs (M j) <= mu * nth j (nb_Mp a) 0) ->
  work a F u <= mu * rsum (nb_nodes a) (fun j => nth j (nb_Mp a) 0 * Rabs (hinge_angle a u j)).
Proof.
  intros B Hu Hs Hm. rewrite (balanced_hinges F M f u B Hu Hs), <- rsum_scal. apply rsum_le. intros j Hj. specialize (Hm j Hj). rewrite <- Rmult_assoc. apply (Rle_trans _ (Rabs (M j * hinge_angle a u j))); [apply Rle_abs|]. rewrite Rabs_mult. apply Rmult_le_compat_r; [apply Rabs_pos|exact Hm].
Qed.

(** An end without stiffness carries no further moment. *)
Lemma released_moment Re u j : (j < nb_nodes a)%nat -> (forall e i, (e < nb_elems a)%nat -> (i < 2)%nat -> 0 <= Re e i) -> owned Re j = 0 -> extract_moments a u Re j = 0.
Proof.
  intros Hj P O. rewrite (me_nodes a Me) in Hj. assert (Sm := me_some a Me). unfold extract_moments, moments_of. destruct j as [|e]; cbn [owned] in O.
  - assert (P1 := P 0%nat 1%nat ltac:(lia) ltac:(lia)). unfold mulmv, nb_k. destruct (Rleb_spec (Re 0%nat 1%nat) (Re 0%nat 0%nat)) as [L|L].
    + assert (Z : Re 0%nat 1%nat = 0) by lra. rewrite Z, O. cbn [rsum]. ring.
    + rewrite O. unfold nb_k1, k_PF. cbn [rsum]. cbv [mat4 vec4]. ring.
  - assert (P0 := P e 0%nat ltac:(lia) ltac:(lia)). unfold mulmv, nb_k. destruct (Rleb_spec (Re e 1%nat) (Re e 0%nat)) as [L|L]; [|lra]. rewrite O. unfold nb_k2, k_FP. cbn [rsum]. cbv [mat4 vec4]. ring.
Qed.

(** * Singular matrices *)
Hypothesis EIpos : forall e, (e < nb_elems a)%nat -> 0 < nth e (nb_EI a) 0.
Lemma form_ke e d : (e < nb_elems a)%nat -> let h := element_h a e in let s := (d 2%nat - d 0%nat) / h in
  form (nb_ke a e) d d = nth e (nb_EI a) 0 / h * (((d 1%nat - s) + (d 3%nat - s)) ^ 2 * 3 + (d 1%nat - d 3%nat) ^ 2).
Proof.
  intros He. assert (P := me_positive a Me e He). cbv zeta. unfold element_h in *. unfold form, end_forces, mulmv, nb_ke, k_FF. cbn [rsum]. cbv [mat4 vec4]. field. lra.
Qed.
Lemma form_k1 e d : (e < nb_elems a)%nat -> let h := element_h a e in let s := (d 2%nat - d 0%nat) / h in
  form (nb_k1 a e) d d = 3 * (nth e (nb_EI a) 0 / h) * (d 3%nat - s) ^ 2.
Proof.
  intros He. assert (P := me_positive a Me e He). cbv zeta. unfold element_h in *. unfold form, end_forces, mulmv, nb_k1, k_PF. cbn [rsum]. cbv [mat4 vec4]. field. lra.
Qed.
Lemma form_k2 e d : (e < nb_elems a)%nat -> let h := element_h a e in let s := (d 2%nat - d 0%nat) / h in
  form (nb_k2 a e) d d = 3 * (nth e (nb_EI a) 0 / h) * (d 1%nat - s) ^ 2.
Proof.
  intros He. assert (P := me_positive a Me e He). cbv zeta. unfold element_h in *. unfold form, end_forces, mulmv, nb_k2, k_FP. cbn [rsum]. cbv [mat4 vec4]. field. lra.
Qed.
Lemma form_lin c1 k1 c2 k2 d : form (fun i j => c1 * k1 i j + c2 * k2 i j) d d = c1 * form k1 d d + c2 * form k2 d d.
Proof. unfold form, end_forces, mulmv. cbn [rsum]. ring. Qed.
Lemma form_k_pos Re e d : (e < nb_elems a)%nat -> 0 <= Re e 0%nat -> 0 <= Re e 1%nat ->
  0 <= form (nb_k a Re e) d d /\
  (form (nb_k a Re e) d d = 0 <-> (Re e 0%nat <> 0 -> d 1%nat = (d 2%nat - d 0%nat) / element_h a e) /\ (Re e 1%nat <> 0 -> d 3%nat = (d 2%nat - d 0%nat) / element_h a e)).
Proof.
  intros He P0 P1. assert (Hp := me_positive a Me e He). assert (Ep := EIpos e He). assert (F0 := form_ke e d He). assert (F1 := form_k1 e d He). assert (F2 := form_k2 e d He). cbv zeta in *. set (h := element_h a e) in *. set (s := (d 2%nat - d 0%nat) / h) in *. set (c := nth e (nb_EI a) 0 / h) in *. assert (Cp : 0 < c) by (apply Rmult_lt_0_compat; [exact Ep|apply Rinv_0_lt_compat; exact Hp]). clearbody c s.
  set (x := d 1%nat) in *. set (y := d 3%nat) in *. clearbody x y. assert (A0 : 0 <= ((x - s) + (y - s)) ^ 2) by apply pow2_ge_0. assert (A1 : 0 <= (x - y) ^ 2) by apply pow2_ge_0. assert (A2 : 0 <= (x - s) ^ 2) by apply pow2_ge_0. assert (A3 : 0 <= (y - s) ^ 2) by apply pow2_ge_0.
  assert (Sq : forall z, z ^ 2 = 0 -> z = 0) by (intros z Z; apply Rsqr_0_uniq; unfold Rsqr; lra).
  assert (Ke0 : 0 <= form (nb_ke a e) d d) by (rewrite F0; apply Rmult_le_pos; lra). assert (K10 : 0 <= form (nb_k1 a e) d d) by (rewrite F1; apply Rmult_le_pos; lra). assert (K20 : 0 <= form (nb_k2 a e) d d) by (rewrite F2; apply Rmult_le_pos; lra).
  assert (Ze : form (nb_ke a e) d d = 0 <-> x = s /\ y = s). { rewrite F0. split; [|intros [-> ->]; ring]. intros E. apply Rmult_integral in E. destruct E as [E|E]; [lra|]. assert (E1 : (x - s + (y - s)) ^ 2 = 0) by lra. assert (E2 : (x - y) ^ 2 = 0) by lra. apply Sq in E1. apply Sq in E2. split; lra. }
  assert (Z1 : form (nb_k1 a e) d d = 0 <-> y = s). { rewrite F1. split; [|intros ->; ring]. intros E. apply Rmult_integral in E. destruct E as [E|E]; [lra|]. apply Sq in E. lra. }
  assert (Z2 : form (nb_k2 a e) d d = 0 <-> x = s). { rewrite F2. split; [|intros ->; ring]. intros E. apply Rmult_integral in E. destruct E as [E|E]; [lra|]. apply Sq in E. lra. }
  unfold nb_k. destruct (Rleb_spec (Re e 1%nat) (Re e 0%nat)) as [L|L]; rewrite form_lin; set (r0 := Re e 0%nat) in *; set (r1 := Re e 1%nat) in *; clearbody r0 r1; set (fe := form (nb_ke a e) d d) in *; set (f1 := form (nb_k1 a e) d d) in *; set (f2 := form (nb_k2 a e) d d) in *; clearbody fe f1 f2.
  - assert (B1 : 0 <= r1 * fe) by (apply Rmult_le_pos; lra). assert (B2 : 0 <= (r0 - r1) * f2) by (apply Rmult_le_pos; lra). split; [lra|]. split.
    + intros E. assert (E1 : r1 * fe = 0) by lra. assert (E2 : (r0 - r1) * f2 = 0) by lra. apply Rmult_integral in E1. apply Rmult_integral in E2. split; intros N.
      * destruct E1 as [E1|E1]; [|apply Ze in E1; apply E1]. destruct E2 as [E2|E2]; [lra|]. apply Z2. exact E2.
      * destruct E1 as [E1|E1]; [contradiction|]. apply Ze in E1. apply E1.
    + intros [N0 N1]. destruct (Req_dec r1 0) as [Z|Z]; [rewrite Z; destruct (Req_dec r0 0) as [Z'|Z']; [rewrite Z'; ring|]; apply N0, Z2 in Z'; rewrite Z'; ring|]. assert (r0 <> 0) by lra. assert (Q : fe = 0) by (apply Ze; split; auto). assert (Q2 : f2 = 0) by (apply Z2; auto). rewrite Q, Q2. ring.
  - assert (B1 : 0 <= r0 * fe) by (apply Rmult_le_pos; lra). assert (B2 : 0 <= (r1 - r0) * f1) by (apply Rmult_le_pos; lra). split; [lra|]. split.
    + intros E. assert (E1 : r0 * fe = 0) by lra. assert (E2 : (r1 - r0) * f1 = 0) by lra. apply Rmult_integral in E1. apply Rmult_integral in E2. split; intros N.
      * destruct E1 as [E1|E1]; [contradiction|]. apply Ze in E1. apply E1.
      * destruct E2 as [E2|E2]; [lra|]. apply Z1. exact E2.
    + intros [N0 N1]. assert (Q1 : f1 = 0) by (apply Z1, N1; lra). destruct (Req_dec r0 0) as [Z|Z]; [rewrite Z, Q1; ring|]. assert (Q : fe = 0) by (apply Ze; split; [auto|apply N1; lra]). rewrite Q, Q1. ring.
Qed.
Definition nonneg_ends (Re : mat) : Prop := forall e i, (e < nb_elems a)%nat -> (i < 2)%nat -> 0 <= Re e i.
Lemma ends_slope u e : (ends u e 2%nat - ends u e 0%nat) / element_h a e = slope a u e.
Proof. unfold ends, slope. replace (2 * e + 0)%nat with (2 * e)%nat by lia. replace (2 * e + 2)%nat with (2 * (e + 1))%nat by lia. reflexivity. Qed.
Lemma kernel_motion Re u : nonneg_ends Re -> (forall i, (i < nb_dof a)%nat -> mulmv (nb_dof a) (bc_matrix (nb_bc a) (nb_assemble a Re)) u i = 0) -> loose_motion a Re u.
Proof.
  intros P Q. apply bc_kernel in Q. destruct Q as (Z & Q). rewrite dof4 in Q. assert (Hu : held a u) by (intros i I; apply Z; [apply Bc; exact I|exact I]). split; [exact Hu|].
  assert (W : rsum (nb_elems a) (fun m => form (nb_k a Re m) (ends u m) (ends u m)) = 0).
  { rewrite <- chain_work. apply rsum_0. intros i Hi. destruct (in_dec Nat.eq_dec i (nb_bc a)) as [I|I]; [rewrite (Hu i I); ring|]. change (assemble_chain (nb_k a Re) (nb_elems a)) with (nb_assemble a Re). rewrite (Q i Hi I). ring. }
  intros e He. assert (Fe := rsum_nonneg_0 _ _ (fun m Hm => proj1 (form_k_pos Re m (ends u m) Hm (P m 0%nat Hm ltac:(lia)) (P m 1%nat Hm ltac:(lia)))) W e He). apply (form_k_pos Re e (ends u e) He) in Fe; [|apply P; lia|apply P; lia]. rewrite ends_slope in Fe. destruct Fe as [A B]. split; intros N; [rewrite <- (A N)|rewrite <- (B N)]; unfold ends; f_equal; lia.
Qed.
Lemma motion_kernel Re u : nonneg_ends Re -> loose_motion a Re u -> forall i, (i < nb_dof a)%nat -> mulmv (nb_dof a) (bc_matrix (nb_bc a) (nb_assemble a Re)) u i = 0.
Proof.
  intros P (Hu & Ms) i Hi. destruct (in_dec Nat.eq_dec i (nb_bc a)) as [I|I]; [rewrite bc_row_fixed by assumption; apply Hu; exact I|]. rewrite bc_row_free; [|exact I|intros j _ J; apply Hu; exact J].
  rewrite dof4 in *. unfold nb_assemble. rewrite chain_nodal by exact Hi.
  assert (Z : forall e q, (e < nb_elems a)%nat -> (q < 4)%nat -> end_forces (nb_k a Re e) (ends u e) q = 0).
  { intros e q He Hq. destruct (Ms e He) as [A B]. assert (Hp := me_positive a Me e He). assert (E0 : Re e 0%nat <> 0 -> ends u e 1%nat = (ends u e 2%nat - ends u e 0%nat) / element_h a e) by (intros N; rewrite ends_slope, <- (A N); unfold ends; f_equal; lia). assert (E1 : Re e 1%nat <> 0 -> ends u e 3%nat = (ends u e 2%nat - ends u e 0%nat) / element_h a e) by (intros N; rewrite ends_slope, <- (B N); unfold ends; f_equal; lia).
    clear A B Ms. set (d := ends u e) in *. assert (P0 := P e 0%nat He ltac:(lia)). assert (P1 := P e 1%nat He ltac:(lia)). unfold end_forces, mulmv, nb_k. unfold element_h in *. set (h := nth e (nb_eL a) 0) in *. destruct (Rleb_spec (Re e 1%nat) (Re e 0%nat)) as [L|L].
    - destruct (Req_dec (Re e 1%nat) 0) as [Z|Z].
      + rewrite Z. destruct (Req_dec (Re e 0%nat) 0) as [Z'|Z']; [rewrite Z'; cbn [rsum]; ring|]. unfold nb_k2, k_FP. fold h. destruct q as [|[|[|[|q]]]]; [| | | |lia]; cbn [rsum]; cbv [mat4 vec4]; rewrite (E0 Z'); field; lra.
      + rewrite (Rplus_comm) || idtac. unfold nb_ke, nb_k2, k_FF, k_FP. fold h. destruct q as [|[|[|[|q]]]]; [| | | |lia]; cbn [rsum]; cbv [mat4 vec4]; rewrite (E1 Z), E0 by lra; field; lra.
    - destruct (Req_dec (Re e 0%nat) 0) as [Z|Z].
      + rewrite Z. unfold nb_k1, k_PF. fold h. destruct q as [|[|[|[|q]]]]; [| | | |lia]; cbn [rsum]; cbv [mat4 vec4]; rewrite E1 by lra; field; lra.
      + unfold nb_ke, nb_k1, k_FF, k_PF. fold h. destruct q as [|[|[|[|q]]]]; [| | | |lia]; cbn [rsum]; cbv [mat4 vec4]; rewrite (E0 Z), E1 by lra; field; lra. }
  unfold nodal_sum. assert (Sm := me_some a Me). assert (Hm := Nat.mod_upper_bound i 2 ltac:(lia)). assert (Dm := Nat.div_mod i 2 ltac:(lia)).
  destruct (Nat.ltb_spec i (2 * nb_elems a)); destruct (Nat.leb_spec 2 i); rewrite ?Z by lia; ring.
Qed.
Lemma singular_motion Re b : nonneg_ends Re -> (solve (nb_dof a) (bc_matrix (nb_bc a) (nb_assemble a Re)) b = None <-> exists u, loose_motion a Re u /\ exists i, (i < nb_dof a)%nat /\ u i <> 0).
Proof.
  intros P. split.
  - intros E. apply solve_none in E. destruct E as (u & N & K). exists u. split; [apply kernel_motion; assumption|exact N].
  - intros (u & L & i & Hi & N). destruct (solve (nb_dof a) (bc_matrix (nb_bc a) (nb_assemble a Re)) b) as [x|] eqn:E; [|reflexivity]. exfalso. apply N. assert (Q := proj1 (solve_some_iff _ _ b) (ex_intro _ x E)). apply (Q u); [apply motion_kernel; assumption|exact Hi].
Qed.
End Mesh.
