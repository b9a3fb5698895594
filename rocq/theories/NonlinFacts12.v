(** Loads and arguments, as they are given. *)
From Coq Require Import ZArith Sorted.
From Coquelicot Require Import Coquelicot.
From Verif Require Import Base BaseFacts Linalg LinalgFacts SectionModel LoadModel VehicleModel BridgeModel BridgeFacts EnvelopeModel FoundationModel ElementSpec AnalysisSpec FoundSpec NonlinModel NonlinSpec NonlinFacts NonlinFacts2 NonlinFacts3 NonlinFacts4 NonlinFacts5 NonlinFacts7 NonlinFacts8 NonlinFacts9 NonlinFacts10 NonlinFacts11.
Open Scope R_scope.

Lemma per_long v n : per_span v n -> long_enough v n.
Proof.
  intros P. destruct v as [r|l]; [exact I|]. cbn. destruct (Nat.le_gt_cases n (length l)) as [L|L]; [exact L|exfalso]. destruct (P (length l) L) as (x & E). cbn in E. assert (N := proj2 (nth_error_None l (length l)) (le_n _)). congruence.
Qed.
Lemma constants_ok EI n : constants EI n -> exists ei, ei_numbers EI = Ok ei /\ long_enough ei n.
Proof.
  destruct EI as [e|l]; cbn [constants ei_numbers].
  - intros (x & ->). exists (NScalar x). split; [reflexivity|exact I].
  - intros (L & A). assert (G : exists rs, mapM (fun e => match e with RConst r => Ok r | RSect _ => Err TypeError end) l = Ok rs /\ length rs = length l). { clear L. induction l as [|e l IH]; [exists []; split; reflexivity|]. destruct (A e (or_introl eq_refl)) as (x & ->). destruct IH as (rs & E & El); [intros e' I'; apply A; right; exact I'|]. exists (x :: rs). cbn [mapM rbind]. rewrite E. cbn [rbind length]. rewrite El. split; reflexivity. }
    destruct G as (rs & E & El). exists (NList rs). rewrite E. split; [reflexivity|]. cbn. lia.
Qed.
Lemma accepted Ls EI rs Mp My q msz : Ls <> [] -> (forall L, In L Ls -> 0 < L) -> constants EI (length Ls) -> per_span Mp (length Ls) -> (forall m, My = Some m -> per_span m (length Ls)) -> (2 * (length Ls + 1) <= length rs)%nat ->
  exists a, nba_init Ls EI rs Mp My q msz = Ok a.
Proof.
  intros N P C M Y L. destruct (constants_ok _ _ C) as (ei & E & Le). destruct (init_ok Ls EI ei rs Mp My q msz N) as (a & Ma & _); try assumption; [apply Forall_forall; exact P|apply per_long; exact M|destruct My as [m|]; [apply per_long, Y; reflexivity|exact I]|]. exists a. exact Ma.
Qed.
Lemma sections_refused Ls EI rs Mp My q msz : has_section EI -> nba_init Ls EI rs Mp My q msz = Err TypeError.
Proof.
  intros S. unfold nba_init. cbv zeta. assert (E : ei_numbers EI = Err TypeError); [|rewrite E; reflexivity]. destruct EI as [e|l]; cbn [has_section ei_numbers] in *; [destruct S as (s & ->); reflexivity|]. destruct S as (s & I). assert (G : mapM (fun e => match e with RConst r => Ok r | RSect _ => Err TypeError end) l = Err TypeError); [|rewrite G; reflexivity]. induction l as [|e l IH]; [destruct I|]. cbn [mapM]. destruct e as [r|s']; [|reflexivity]. cbn [rbind]. destruct I as [I|I]; [discriminate|]. rewrite (IH I). reflexivity.
Qed.

Section Made.
Variables (a : nba) (Ls : list R) (EI : eiargs) (rs : list R) (Mp : narg) (My : option narg) (q msz : R).
Hypothesis H : made a Ls EI rs Mp My q msz.
Let Me := is_meshed _ _ _ _ _ _ _ _ H.
Lemma caps j i : (j < nb_nodes a)%nat -> (i < length Ls)%nat -> ((j = 0%nat /\ i = 0%nat) \/ start Ls i < coord a j <= start Ls (i + 1)) -> for_span Mp i (nth j (nb_Mp a) 0) /\ yields_at Mp My i (nth j (nb_My a) 0).
Proof. exact (node_caps _ _ _ _ _ _ _ _ H j i). Qed.
Lemma mesh_covers : meshed a /\ nb_L a = Ls /\ (forall i, (i <= length Ls)%nat -> exists j, (j < nb_nodes a)%nat /\ coord a j = start Ls i) /\
  (forall e, (e < nb_elems a)%nat -> exists i n, (i < length Ls)%nat /\ lies_in a e i /\ (1 <= n)%nat /\ element_h a e = nth i Ls 0 / INR n /\ ((n = 1%nat /\ nth i Ls 0 / msz <= 1 / 2) \/ Rabs (nth i Ls 0 / msz - INR n) <= 1 / 2)).
Proof.
  split; [exact Me|]. split; [apply (L_is _ _ _ _ _ _ _ _ H)|]. split.
  - intros i Hi. exact (support_node _ _ _ _ _ _ _ _ H i Hi).
  - intros e He. destruct (span_of_element _ _ _ _ _ _ _ _ H e He) as (i & Hi & Li & _ & Eh). exists i, (mesh_ne (nth i Ls 0) msz). split; [exact Hi|]. split; [exact Li|]. split; [apply ne_pos|]. split; [exact Eh|]. unfold mesh_ne. set (x := nth i Ls 0 / msz). assert (N := py_round_near x). set (z := py_round x) in *. clearbody z x. destruct (Z_le_gt_dec 1 z) as [Lz|Lz].
    + right. rewrite Z.max_r by exact Lz. rewrite INR_IZR_INZ, Z2Nat.id by lia. exact N.
    + left. rewrite Z.max_l by lia. split; [reflexivity|]. assert (Z0 : IZR z <= 0) by (apply IZR_le; lia). revert N. unfold Rabs. destruct (Rcase_abs _); lra.
Qed.
Lemma one_udl s w rest : (1 <= s <= Z.of_nat (length Ls))%Z -> no_slivers a -> exists F, force_vector a [Row s 1 (w :: rest)] = Ok F /\
  forall u (Is : nat -> R), (forall e, (e < nb_elems a)%nat -> is_RInt (fun x => w * chord_at a u e x) 0 (element_h a e) (Is e)) ->
  work a F u = - rsum (nb_elems a) (fun e => share a (Z.to_nat (s - 1)) e (Is e)).
Proof.
  intros Hs Fi. exists (add_udl a (fun _ => 0) w (start Ls (Z.to_nat (s - 1))) (start Ls (Z.to_nat (s - 1) + 1))). split.
  - unfold force_vector. cbn [foldM]. unfold add_row. cbn [get nth_error rbind]. change (Z.eqb 1 1) with true. cbv iota. rewrite !(starts_get _ _ _ _ _ _ _ _ H) by lia. cbn [rbind]. replace (Z.to_nat (s - 1 + 1)) with (Z.to_nat (s - 1) + 1)%nat by lia. reflexivity.
  - intros u Is HI. rewrite (udl_work _ _ _ _ _ _ _ _ H (fun _ => 0) w (Z.to_nat (s - 1)) u Is Fi) by (lia || exact HI). assert (Z0 : work a (fun _ => 0) u = 0) by (unfold work; apply rsum_0; intros; ring). rewrite Z0. ring.
Qed.
Lemma one_point s P p rest : (1 <= s <= Z.of_nat (length Ls))%Z -> let x := start Ls (Z.to_nat (s - 1)) + p in 0 <= x <= nb_total a -> exists F, force_vector a [Row s 2 (P :: p :: rest)] = Ok F /\
  exists x', (x' = x \/ exists j, (j < nb_nodes a)%nat /\ x' = coord a j /\ Rabs (x' - x) < 1e-10) /\
  forall u y, deflects a u x' y -> work a F u = - (P * y).
Proof.
  intros Hs x Hx. exists (add_point a (fun _ => 0) P x). split.
  - unfold force_vector. cbn [foldM]. unfold add_row. cbn [get nth_error rbind]. change (Z.eqb 2 1) with false. change (Z.eqb 2 2) with true. cbv iota. rewrite (starts_get _ _ _ _ _ _ _ _ H) by lia. reflexivity.
  - destruct (point_work a Me (fun _ => 0) P x Hx) as (x' & Hx' & Q). exists x'. split; [exact Hx'|]. intros u y D. rewrite (Q u y D). assert (Z0 : work a (fun _ => 0) u = 0) by (unfold work; apply rsum_0; intros; ring). rewrite Z0. ring.
Qed.
Lemma others_ignored l1 l2 s t v rest : t <> 1%Z -> t <> 2%Z -> force_vector a (l1 ++ Row s t (v :: rest) :: l2) = force_vector a (l1 ++ l2).
Proof.
  intros N1 N2. unfold force_vector. rewrite !foldM_app. destruct (foldM (add_row a) l1 (fun _ => 0)) as [F|x]; [|reflexivity]. cbn [rbind foldM]. rewrite row_skipped by assumption. reflexivity.
Qed.
Lemma axles_at aw cs pos : exists xs, Forall2 (fun wc x' => 0 <= pos - snd wc <= nb_total a -> x' = pos - snd wc \/ exists j, (j < nb_nodes a)%nat /\ x' = coord a j /\ Rabs (x' - (pos - snd wc)) < 1e-10) (combine aw cs) xs /\
  forall u ys, Forall2 (fun x y => 0 <= x <= nb_total a -> deflects a u x y) xs ys ->
    work a (vehicle_forces a aw cs pos) u = - lsum (map (fun t => if Rle_dec 0 (pos - snd (fst t)) then if Rle_dec (pos - snd (fst t)) (nb_total a) then fst (fst t) * snd t else 0 else 0) (combine (combine aw cs) ys)).
Proof. exact (axles_work a aw cs pos Me). Qed.
End Made.
