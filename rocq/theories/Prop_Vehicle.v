(** Property theorems: vehicles and trains (C34), vehicle library (C48). *)
From Coq Require Import Lia ZArith.
From Verif Require Import Base VehicleModel VehicleSpec VehicleFacts.
Open Scope R_scope.

(** C34: a vehicle needs one axle more than spacings; its axle offsets are the partial sums
    of the spacings. *)
Theorem C34_axle_offsets : forall axs axw,
  (length axw = S (length axs) -> exists v, vehicle_init axs axw = Ok v /\ v_axs v = axs /\ v_axw v = axw /\ v_L v = lsum axs /\ v_W v = lsum axw /\
     length (v_coords v) = length axw /\ forall i, (i < length axw)%nat -> nth i (v_coords v) 0 = lsum (firstn i axs)) /\
  (length axw <> S (length axs) -> vehicle_init axs axw = Err ValueError).
Proof. exact vehicle_spec. Qed.
Print Assumptions C34_axle_offsets.
Example truck_made : vehicle_init [4; 6] [35; 145; 140] = Ok truck.
Proof. reflexivity. Qed.

(** The reversed copy has the mirrored offsets and weights, and reversing it again gives the
    original; reversing in place gives the same axles as the copy. *)
Theorem C34_reversed : forall axs axw v, vehicle_init axs axw = Ok v -> exists r, reversed v = Ok r /\ v_L r = v_L v /\ v_W r = v_W v /\
  length (v_coords r) = length (v_coords v) /\ v_axw r = rev (v_axw v) /\ v_axs r = rev (v_axs v) /\
  (forall i, (i < length axw)%nat -> nth i (v_coords r) 0 = v_L v - nth (length axw - 1 - i) (v_coords v) 0) /\
  reversed r = Ok v /\ axles (reverse_in_place v) = rev (axles r).
Proof. exact reversed_spec. Qed.
Print Assumptions C34_reversed.
Theorem C34_reversed_in_place_twice : forall v, reverse_in_place (reverse_in_place v) = v.
Proof. exact in_place_twice. Qed.
Print Assumptions C34_reversed_in_place_twice.
(** A vehicle reversed in place keeps its spacings and weights, so that a copy or a train
    made of it has the original axles. *)
Theorem C34_reversed_in_place_refuted : exists v t, vehicle_init (v_axs v) (v_axw v) = Ok v /\
  make_train [Some (reverse_in_place v)] [] = Ok t /\ axles t = axles v /\ axles t <> axles (reverse_in_place v) /\ axles t <> rev (axles (reverse_in_place v)).
Proof. exact truck_reversed. Qed.
Print Assumptions C34_reversed_in_place_refuted.

(** The axles of a train are those of its vehicles, one after another with the given gaps;
    a vehicle of several may have no zero spacing. *)
Theorem C34_train : forall vs gaps, Forall fresh vs -> length vs = S (length gaps) ->
  (gaps = [] \/ Forall (fun v => Forall (fun s => s <> 0) (v_axs v)) vs) ->
  exists t, make_train (map Some vs) gaps = Ok t /\ axles t = convoy 0 vs gaps /\ v_L t = lsum (map v_L vs) + lsum gaps /\ v_W t = lsum (map v_W vs) /\ fresh t.
Proof. exact train_spec. Qed.
Print Assumptions C34_train.
Example C34_train_nonvacuous : exists t, make_train [Some truck; Some truck; Some truck] [12; 0] = Ok t /\ v_L t = 42 /\
  nth 5 (axles t) (0, 0) = (32, 140) /\ nth 6 (axles t) (0, 0) = (32, 35).
Proof.
  destruct (C34_train [truck; truck; truck] [12; 0]) as (t & E & A & L & _).
  - repeat constructor.
  - reflexivity.
  - right. repeat constructor; cbn; lra.
  - exists t. split; [exact E|]. rewrite A, L. unfold lsum. cbn. repeat split; try (unfold shift_by; cbn; f_equal); lra.
Qed.
(** Other numbers of gaps, entries that are not vehicles, and zero spacings are refused. *)
Theorem C34_train_rejects : forall vs gaps, length vs <> S (length gaps) \/ In None vs \/ (gaps <> [] /\ exists v, In (Some v) vs /\ In 0 (v_axs v)) ->
  make_train vs gaps = Err ValueError.
Proof. exact train_rejects. Qed.
Print Assumptions C34_train_rejects.
(** In particular the documented single gap for all vehicles is refused. *)
Theorem C34_single_gap_refuted : exists vs gap, Forall fresh vs /\ (length vs > 1)%nat /\ make_train (map Some vs) [gap] = Err ValueError.
Proof. exists [truck; truck; truck], 12. split; [repeat constructor|]. split; [cbn; lia|]. apply train_rejects. left. discriminate. Qed.
Print Assumptions C34_single_gap_refuted.

(** C48: the library vehicles, axle by axle, with their gross weights. *)
Theorem C48_fixed_vehicles :
  is_vehicle get_a160 [(0, 160)] 160 /\ is_vehicle get_w80 [(0, 80)] 80 /\ is_vehicle get_hl93_tandem [(0, 110); (12/10, 110)] 220 /\
  is_vehicle get_cl625 [(0, 50); (36/10, 125); (48/10, 125); (114/10, 175); (18, 150)] 625 /\
  is_vehicle get_jtg_vehicle [(0, 30); (3, 120); (44/10, 120); (114/10, 140); (128/10, 140)] 550 /\
  is_vehicle get_validation_truck [(0, 5); (4, 4); (8, 3)] 12.
Proof. exact fixed_spec. Qed.
Print Assumptions C48_fixed_vehicles.
Theorem C48_m1600 : forall s, (625/100 <= s -> is_vehicle (get_m1600 s) (axles_1600 s 120) 1440) /\ (s < 625/100 -> get_m1600 s = Err ValueError).
Proof. exact m1600_spec. Qed.
Print Assumptions C48_m1600.
Theorem C48_s1600 : forall s, (625/100 <= s -> is_vehicle (get_s1600 s) (axles_1600 s 80) 960) /\ (s < 625/100 -> get_s1600 s = Err ValueError).
Proof. exact s1600_spec. Qed.
Print Assumptions C48_s1600.
Theorem C48_la_rail : forall count s w,
  ((1 <= count)%Z -> 12 <= s <= 20 -> 0 < w ->
   is_vehicle (get_la_rail count s w) (rail_axles (Z.to_nat count) s w) (w * (12/10 + 4 * IZR count))) /\
  ((count < 1)%Z \/ s < 12 \/ 20 < s -> get_la_rail count s w = Err ValueError).
Proof. exact la_rail_spec. Qed.
Print Assumptions C48_la_rail.
Theorem C48_300la : forall count s, (1 <= count)%Z -> 12 <= s <= 20 ->
  is_vehicle (get_300la count s) (rail_axles (Z.to_nat count) s 300) (300 * (12/10 + 4 * IZR count)).
Proof. exact (fun count s H1 H2 => proj1 (la_rail_spec count s 300) H1 H2 (IZR_lt 0 300 eq_refl)). Qed.
Print Assumptions C48_300la.
Theorem C48_t44 : forall s, (3 <= s <= 8 -> is_vehicle (get_t44 s) [(0, 48); (37/10, 96); (49/10, 96); (49/10 + s, 96); (61/10 + s, 96)] 432) /\
  (~ 3 <= s <= 8 -> get_t44 s = Err ValueError).
Proof. exact t44_spec. Qed.
Print Assumptions C48_t44.
Theorem C48_ms18 : forall s, (427/100 <= s <= 914/100 -> is_vehicle (get_ms18 s) [(0, 356/10); (427/100, 1423/10); (427/100 + s, 1423/10)] (3202/10)) /\
  (~ 427/100 <= s <= 914/100 -> get_ms18 s = Err ValueError).
Proof. exact ms18_spec. Qed.
Print Assumptions C48_ms18.
Theorem C48_hl93_truck : forall s, (43/10 <= s <= 9 -> is_vehicle (get_hl93_truck s) [(0, 35); (43/10, 145); (43/10 + s, 145)] 325) /\
  (~ 43/10 <= s <= 9 -> get_hl93_truck s = Err ValueError).
Proof. exact hl93_spec. Qed.
Print Assumptions C48_hl93_truck.
Theorem C48_cooper : forall E, 0 < E -> is_vehicle (get_cooper E) (cooper_axles E (44482216/10000000) (3048/10000)) (2 * 71 * (E / 10) * (44482216/10000000)).
Proof. exact cooper_spec. Qed.
Print Assumptions C48_cooper.
Theorem C48_eurocode : forall alpha, 0 < alpha ->
  is_vehicle (get_lm1 alpha) [(0, 300 * alpha); (12/10, 300 * alpha)] (600 * alpha) /\
  is_vehicle (get_lm71 alpha) (map (fun x => (x, 250 * alpha)) [0; 16/10; 32/10; 48/10]) (1000 * alpha).
Proof. exact scaled_spec. Qed.
Print Assumptions C48_eurocode.
Theorem C48_hb : forall units inner, 0 < units -> 0 < inner ->
  is_vehicle (get_hb units inner) (map (fun x => (x, 10 * units)) [0; 18/10; 18/10 + inner; 36/10 + inner]) (40 * units).
Proof. exact hb_spec. Qed.
Print Assumptions C48_hb.
(** The assessment trucks: the documentation gives them 68.5 t and 45 t; they weigh 68 t and 53 t. *)
Theorem C48_abag_bdouble : forall i, (0 <= i <= 2)%Z ->
  let a := 55/10 + IZR i / 2 in
  is_vehicle (get_abag_bdouble i) (map (fun p => (fst p, snd p * (981/100))) [(0, 6); (3, 85/10); (42/10, 85/10); (42/10 + a, 75/10); (54/10 + a, 75/10); (66/10 + a, 75/10); (186/10, 75/10); (198/10, 75/10); (21, 75/10)]) (68 * (981/100)).
Proof. exact bdouble_spec. Qed.
Print Assumptions C48_abag_bdouble.
Theorem C48_abag_semitrailer : forall i, (0 <= i <= 3)%Z ->
  let a := 44/10 + 2 * IZR i in
  is_vehicle (get_abag_semitrailer i) (map (fun p => (fst p, snd p * (981/100))) [(0, 6); (3, 85/10); (42/10, 85/10); (42/10 + a, 1125/100); (54/10 + a, 1125/100); (66/10 + a, 75/10)]) (53 * (981/100)).
Proof. exact semitrailer_spec. Qed.
Print Assumptions C48_abag_semitrailer.
Theorem C48_abag_weight_refuted : exists v w, get_abag_bdouble 0 = Ok v /\ get_abag_semitrailer 0 = Ok w /\ v_W v <> (685/10) * (981/100) /\ v_W w <> 45 * (981/100).
Proof.
  destruct (bdouble_spec 0 ltac:(lia)) as (v & Ev & _ & _ & Wv). destruct (semitrailer_spec 0 ltac:(lia)) as (w & Ew & _ & _ & Ww).
  exists v, w. rewrite Wv, Ww. repeat split; try assumption; lra.
Qed.
Print Assumptions C48_abag_weight_refuted.
Theorem C48_permit : is_vehicle get_example_permit (combine [0; 1793/1000; 43/10; 567/100; 11073/1000; 12305/1000; 13537/1000; 1984/100; 21072/1000; 22304/1000]
  (map (fun t => t * (981/100)) [55/10; 55/10; 85/10; 85/10; 75/10; 75/10; 75/10; 75/10; 75/10; 75/10])) (73 * (981/100)).
Proof. exact permit_spec. Qed.
Print Assumptions C48_permit.
(** Indices of the variable spacing: 0 to 2 and 0 to 3, and the negative ones Python allows. *)
Theorem C48_abag_index : forall i, ((exists v, get_abag_bdouble i = Ok v) <-> (-3 <= i < 3)%Z) /\ ((exists v, get_abag_semitrailer i = Ok v) <-> (-4 <= i < 4)%Z).
Proof. exact abag_index. Qed.
Print Assumptions C48_abag_index.
