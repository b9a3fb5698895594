(** Facts about members on an elastic foundation: cutting of the loads, equilibrium. *)
From Coquelicot Require Import Coquelicot.
From Coq Require Import Lia Permutation.
From Verif Require Import Base BaseFacts Linalg SectionModel FlexModel LoadModel LoadSpec LoadFacts ClampFacts FoundationModel ElementModel ElementSpec
  AnalysisSpec FoundSpec FoundFacts FoundFacts2 FoundFacts3 FoundFacts4 ResultsModel ResultsSpec BedSpec.
Open Scope R_scope.

(** ** Cutting the loads *)
Section Cut.
Variable f : felem.
Hypothesis Hn : (1 <= fe_n f)%nat.
Hypothesis HL : 0 < fe_L f.
Hypothesis Hmax : (fe_n f <= 400)%nat.
Let h := fe_h f.
Let n := fe_n f.

Lemma hp : 0 < h. Proof. exact (h_pos f Hn HL). Qed.
Lemma nh : INR n * h = fe_L f. Proof. exact (nh_L f Hn). Qed.

Lemma sub_cut ld : meshed_load n h ld -> exists g, (forall e, (e < n)%nat -> sub_load f ld e = Ok (g e)) /\
  cut_into n h (action_of (fe_L f) ld) (fun e => actions h (g e)).
Proof.
  intros Hm. assert (Hh := hp). assert (NH := nh). destruct ld as [w|P a|w a c|? ? ? ?|? ?|? ?|? ?]; cbn in Hm; try contradiction.
  - exists (fun _ => [LUDL w]). split; [reflexivity|]. repeat split.
    + intros e x He Hx. cbn. ring.
    + cbn. clear. induction (seq 0 n) as [|e l IH]; [constructor|]. exact IH.
  - rewrite NH in Hm. destruct (point_place f Hn HL a Hm) as (i & Ei & Hi & Ez & Hp).
    exists (fun e => if Nat.eqb i e then [LPL P (a - INR i * h)] else []). split.
    + intros e He. unfold sub_load. cbv zeta. rewrite Ei. cbn [rbind]. rewrite Ez. destruct (Nat.eqb i e); reflexivity.
    + repeat split.
      * intros e x He Hx. destruct (Nat.eqb i e); cbn; ring.
      * cbn [action_of forces].
        assert (Sq : forall N, (i < N)%nat -> seq 0 N = seq 0 i ++ i :: seq (i + 1) (N - i - 1)).
        { intros N HN. assert (Q : N = (i + (1 + (N - i - 1)))%nat) by lia. rewrite Q at 1. rewrite !seq_app. reflexivity. }
        rewrite (Sq n Hi), flat_map_app. cbn [flat_map].
        assert (Z : forall l, ~ In i l -> flat_map (fun e => map (fun pa : R * R => (fst pa, INR e * h + snd pa))
             (forces (actions h (if Nat.eqb i e then [LPL P (a - INR i * h)] else [])))) l = []).
        { induction l as [|e l IH]; intros Hl; [reflexivity|]. cbn [flat_map]. rewrite IH by (intros X; apply Hl; right; exact X).
          destruct (Nat.eqb_spec i e) as [->|_]; [exfalso; apply Hl; left; reflexivity|reflexivity]. }
        rewrite !Z by (rewrite in_seq; lia). rewrite Nat.eqb_refl. cbn. replace (INR i * h + (a - INR i * h)) with a by ring. apply Permutation_refl.
      * intros e He. destruct (Nat.eqb i e); reflexivity.
  - destruct Hm as (Hc & Ca & Cb). rewrite NH in Hc.
    set (lo := fun e => Rmax a (INR e * h)). set (hi := fun e => Rmin (a + c) ((INR e + 1) * h)).
    set (g := fun e => if Rltb (1e-12 * fe_L f) (hi e - lo e) then
        if (isclose 1e-5 1e-8 (lo e) (INR e * h) && isclose 1e-5 1e-8 (hi e) ((INR e + 1) * h))%bool then [LUDL w]
        else [LPUDL w (lo e - INR e * h) (hi e - lo e)] else []).
    exists g. split.
    { intros e He. unfold sub_load, g, lo, hi. fold h. cbv zeta. destruct (Rltb _ _); [|reflexivity]. destruct (_ && _)%bool; reflexivity. }
    assert (I0 : forall j, 0 <= INR j) by (intros j; apply pos_INR).
    repeat split.
    + intros e x He Hx. unfold g.
      assert (E1 : 0 <= INR e) by apply I0.
      assert (Node : forall y j, y = INR j * h -> y <= INR e * h \/ (INR e + 1) * h <= y).
      { intros y j ->. destruct (Nat.le_gt_cases j e) as [Q|Q]; [left|right].
        - apply Rmult_le_compat_r; [lra|apply le_INR; exact Q].
        - apply Rmult_le_compat_r; [lra|]. rewrite <- S_INR. apply le_INR. lia. }
      assert (Se : INR (e + 1) * h = (INR e + 1) * h) by (rewrite plus_INR; reflexivity).
      cbn [action_of intensity].
      assert (NB : forall y, clear_of_nodes n h y -> INR e * h < y < (INR e + 1) * h ->
        (1e-8 + 1e-5 * Rabs (INR e * h) < Rabs (y - INR e * h) /\ 1e-12 * fe_L f < Rabs (y - INR e * h)) /\
        (1e-8 + 1e-5 * Rabs ((INR e + 1) * h) < Rabs (y - (INR e + 1) * h) /\ 1e-12 * fe_L f < Rabs (y - (INR e + 1) * h))).
      { intros y [(j & Hj & Ej)|Far] Hy; [exfalso; destruct (Node y j Ej); lra|].
        destruct (Far e ltac:(lia)) as [F1 F2], (Far (e + 1)%nat ltac:(lia)) as [F3 F4]. rewrite NH in F2, F4. rewrite Se in F3, F4.
        rewrite !Rabs_pos_eq with (x := INR e * h), !Rabs_pos_eq with (x := (INR e + 1) * h) by nra. tauto. }
      assert (Hbig : 1e-12 * fe_L f < h).
      { rewrite <- NH. assert (INR n <= 400) by (replace 400 with (INR (Z.to_nat 400)) by (rewrite INR_IZR_INZ; reflexivity); apply le_INR; exact Hmax). nra. }
      unfold lo, hi.
      destruct (Rlt_dec (INR e * h) a) as [A1|A1]; [rewrite (Rmax_left a) by lra|rewrite (Rmax_right a) by lra];
      (destruct (Rlt_dec (a + c) ((INR e + 1) * h)) as [B1|B1]; [rewrite (Rmin_left (a + c)) by lra|rewrite (Rmin_right (a + c)) by lra]).
      * (* both edges, or beyond *) 
        destruct (Rlt_dec a ((INR e + 1) * h)) as [A2|A2]; [|lra].
        destruct (Rltb_spec (1e-12 * fe_L f) (a + c - a)) as [_|Q]; [|lra].
        assert (K := NB a Ca ltac:(lra)). unfold isclose. destruct (Rleb_spec (Rabs (a - INR e * h)) (1e-8 + 1e-5 * Rabs (INR e * h))) as [Q|_]; [lra|]. cbn [andb].
        cbn [actions fold_right action_plus action_of intensity no_action].
        destruct (Rlt_dec x (a - INR e * h)), (Rlt_dec (INR e * h + x) a); try lra. destruct (Rlt_dec (a - INR e * h + (a + c - a)) x), (Rlt_dec (a + c) (INR e * h + x)); lra.
      * destruct (Rlt_dec a ((INR e + 1) * h)) as [A2|A2].
        -- assert (K := NB a Ca ltac:(lra)). unfold isclose. destruct (Rltb_spec (1e-12 * fe_L f) ((INR e + 1) * h - a)) as [_|Q].
           ++ destruct (Rleb_spec (Rabs (a - INR e * h)) (1e-8 + 1e-5 * Rabs (INR e * h))) as [Q|_]; [lra|]. cbn [andb].
              cbn [actions fold_right action_plus action_of intensity no_action].
              destruct (Rlt_dec x (a - INR e * h)), (Rlt_dec (INR e * h + x) a); try lra. destruct (Rlt_dec (a - INR e * h + ((INR e + 1) * h - a)) x), (Rlt_dec (a + c) (INR e * h + x)); lra.
           ++ destruct K as (_ & _ & K). rewrite Rabs_left in K by lra. lra.
        -- destruct (Rltb_spec (1e-12 * fe_L f) ((INR e + 1) * h - a)) as [Q|_]; [exfalso; nra|]. cbn. destruct (Rlt_dec (INR e * h + x) a); lra.
      * destruct (Rlt_dec (INR e * h) (a + c)) as [A2|A2].
        -- assert (K := NB (a + c) Cb ltac:(lra)). unfold isclose. destruct (Rltb_spec (1e-12 * fe_L f) (a + c - INR e * h)) as [_|Q].
           ++ destruct (Rleb_spec (Rabs (a + c - (INR e + 1) * h)) (1e-8 + 1e-5 * Rabs ((INR e + 1) * h))) as [Q|_]; [lra|]. rewrite Bool.andb_false_r.
              cbn [actions fold_right action_plus action_of intensity no_action].
              destruct (Rlt_dec x (INR e * h - INR e * h)), (Rlt_dec (INR e * h + x) a); try lra. destruct (Rlt_dec (INR e * h - INR e * h + (a + c - INR e * h)) x), (Rlt_dec (a + c) (INR e * h + x)); lra.
           ++ destruct K as ((_ & K) & _). rewrite Rabs_right in K by lra. lra.
        -- destruct (Rltb_spec (1e-12 * fe_L f) (a + c - INR e * h)) as [Q|_]; [exfalso; nra|]. cbn. destruct (Rlt_dec (INR e * h + x) a); [lra|]. destruct (Rlt_dec (a + c) (INR e * h + x)); lra.
      * destruct (Rltb_spec (1e-12 * fe_L f) ((INR e + 1) * h - INR e * h)) as [_|Q]; [|lra].
        destruct (_ && _)%bool; cbn [actions fold_right action_plus action_of intensity no_action];
          (destruct (Rlt_dec (INR e * h + x) a); [lra|]); (destruct (Rlt_dec (a + c) (INR e * h + x)); [lra|]); [lra|].
        destruct (Rlt_dec x (INR e * h - INR e * h)); [lra|]. destruct (Rlt_dec (INR e * h - INR e * h + ((INR e + 1) * h - INR e * h)) x); lra.
    + cbn [action_of forces].
      assert (Z : forall e, forces (actions h (g e)) = []) by (intros e; unfold g; destruct (Rltb _ _); [destruct (_ && _)%bool|]; reflexivity).
      induction (seq 0 n) as [|e l IH]; [constructor|]. cbn [flat_map]. rewrite Z. exact IH.
    + intros e He. unfold g. destruct (Rltb _ _); [destruct (_ && _)%bool|]; reflexivity.
Qed.

Lemma perm_flat {A} (F G H : nat -> list A) l : (forall e, F e = G e ++ H e) -> Permutation (flat_map F l) (flat_map G l ++ flat_map H l).
Proof.
  intros E. induction l as [|e l IH]; [constructor|]. cbn [flat_map]. rewrite E, <- !app_assoc. apply Permutation_app_head.
  etransitivity; [apply Permutation_app_head, IH|]. rewrite !app_assoc. apply Permutation_app_tail, Permutation_app_comm.
Qed.
Lemma actions_app L l k : forces (actions L (l ++ k)) = forces (actions L l) ++ forces (actions L k) /\
  moments (actions L (l ++ k)) = moments (actions L l) ++ moments (actions L k) /\
  forall x, intensity (actions L (l ++ k)) x = intensity (actions L l) x + intensity (actions L k) x.
Proof.
  induction l as [|ld l IH].
  - split; [reflexivity|]. split; [reflexivity|]. intros x. change (intensity (actions L []) x) with 0. rewrite Rplus_0_l. reflexivity.
  - destruct IH as (A & B & C). change (actions L ((ld :: l) ++ k)) with (action_plus (action_of L ld) (actions L (l ++ k))).
    change (actions L (ld :: l)) with (action_plus (action_of L ld) (actions L l)). unfold action_plus. cbn [forces moments intensity].
    rewrite A, B, !app_assoc. split; [reflexivity|]. split; [reflexivity|]. intros x. rewrite C. ring.
Qed.
Lemma loads_cut_into lds : Forall (meshed_load n h) lds -> exists g, (forall e, (e < n)%nat -> sub_loads f lds e = Ok (g e)) /\
  cut_into n h (actions (fe_L f) lds) (fun e => actions h (g e)).
Proof.
  induction 1 as [|ld lds Hd _ IH].
  - exists (fun _ => []). split; [reflexivity|]. repeat split. cbn. induction (seq 0 n); [constructor|assumption].
  - destruct (sub_cut ld Hd) as (g1 & E1 & (I1 & P1 & M1 & N1)), IH as (g2 & E2 & (I2 & P2 & M2 & N2)).
    exists (fun e => g1 e ++ g2 e). split.
    + intros e He. unfold sub_loads in *. cbn [mapM]. rewrite (E1 e He). cbn [rbind]. specialize (E2 e He).
      destruct (mapM _ lds) as [ls|]; [|discriminate]. cbn [rbind] in *. inversion E2 as [X]. cbn [concat]. rewrite X. reflexivity.
    + repeat split.
      * intros e x He Hx. destruct (actions_app h (g1 e) (g2 e)) as (_ & _ & Q). rewrite Q, I1, I2 by assumption. reflexivity.
      * change (forces (actions (fe_L f) (ld :: lds))) with (forces (action_of (fe_L f) ld) ++ forces (actions (fe_L f) lds)).
        etransitivity; [apply Permutation_app; [exact P1|exact P2]|]. apply Permutation_sym, perm_flat. intros e.
        destruct (actions_app h (g1 e) (g2 e)) as (Q & _). rewrite Q, map_app. reflexivity.
      * change (moments (actions (fe_L f) (ld :: lds))) with (moments (action_of (fe_L f) ld) ++ moments (actions (fe_L f) lds)). rewrite M1, M2. reflexivity.
      * intros e He. destruct (actions_app h (g1 e) (g2 e)) as (_ & Q & _). rewrite Q, N1, N2 by exact He. reflexivity.
Qed.
End Cut.
