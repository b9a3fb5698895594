(** Model of src/pycba/vehicle.py: vehicles, trains and the vehicle library. *)
From Coq Require Import ZArith.
From Verif Require Import Base.
Open Scope R_scope.

(** vehicle.py:15-53; the number of axles is the length of [v_axw]. *)
Record vehicle := { v_axs : list R; v_axw : list R; v_L : R; v_W : R; v_coords : list R }.
(** vehicle.py:51-53: each axle coordinate is the previous one plus the spacing. *)
Fixpoint cumul (x : R) (axs : list R) : list R :=
  x :: match axs with [] => [] | s :: t => cumul (x + s) t end.
(** Python's [sum]. *)
Definition pysum (l : list R) : R := fold_left Rplus l 0.
Definition vehicle_init (axs axw : list R) : result vehicle :=
  if negb (Nat.eqb (length axs + 1) (length axw)) then Err ValueError
  else Ok {| v_axs := axs; v_axw := axw; v_L := pysum axs; v_W := pysum axw; v_coords := cumul 0 axs |}.

(** vehicle.py:55-76, [in_place=True]. *)
Definition reverse_in_place (v : vehicle) : vehicle :=
  {| v_axs := v_axs v; v_axw := v_axw v; v_L := v_L v; v_W := v_W v; v_coords := map (fun c => v_L v - c) (v_coords v) |}.
(** vehicle.py:76, [in_place=False]. *)
Definition reversed (v : vehicle) : result vehicle := vehicle_init (rev (v_axs v)) (rev (v_axw v)).

(** numpy's assignment to the selected entries (those equal to zero): one value is used for
    all of them, otherwise there must be one for each. *)
Fixpoint fill_seq (xs vals : list R) : list R :=
  match xs with
  | [] => []
  | x :: t => if Reqb x 0 then match vals with [] => x :: t | g :: gs => g :: fill_seq t gs end else x :: fill_seq t vals
  end.
Definition fill_zeros (xs vals : list R) : result (list R) :=
  match vals with
  | [g] => Ok (map (fun x => if Reqb x 0 then g else x) xs)
  | _ => if Nat.eqb (length (filter (fun x => Reqb x 0) xs)) (length vals) then Ok (fill_seq xs vals) else Err ValueError
  end.
(** vehicle.py:165-213 [make_train]; [None] is an entry that is not a Vehicle. *)
Fixpoint all_some {A} (l : list (option A)) : option (list A) :=
  match l with
  | [] => Some []
  | Some a :: t => match all_some t with Some r => Some (a :: r) | None => None end
  | None :: _ => None
  end.
Definition make_train (vehicles : list (option vehicle)) (spacings : list R) : result vehicle :=
  if negb (Z.eqb (Z.of_nat (length vehicles) - 1) (Z.of_nat (length spacings))) then Err ValueError
  else match all_some vehicles with
  | None => Err ValueError
  | Some vs =>
      let axles := flat_map v_axw vs in
      let spaces := flat_map (fun v => 0 :: v_axs v) vs in
      do filled <- fill_zeros spaces (0 :: spacings);
      vehicle_init (tl filled) axles
  end.

(** * Library: vehicle.py:216-709 *)
(** Python list indexing, negative indices from the end. *)
Definition pyget {A} (l : list A) (i : Z) : result A :=
  let n := Z.of_nat (length l) in
  let j := if Z.ltb i 0 then (i + n)%Z else i in
  if Z.ltb j 0 then Err IndexError
  else match nth_error l (Z.to_nat j) with Some a => Ok a | None => Err IndexError end.

(** vehicle.py:257-279, 291-311. *)
Definition abag_bdouble_aw : list R := map (fun t => t * (981/100)) [6; 17/2; 17/2; 225/10/3; 225/10/3; 225/10/3; 225/10/3; 225/10/3; 225/10/3].
Definition abag_bdouble_as : list (list R) :=
  [[3; 12/10; 55/10; 12/10; 12/10; 65/10; 12/10; 12/10]; [3; 12/10; 6; 12/10; 12/10; 6; 12/10; 12/10]; [3; 12/10; 65/10; 12/10; 12/10; 55/10; 12/10; 12/10]].
Definition get_abag_bdouble (i : Z) : result vehicle := do axs <- pyget abag_bdouble_as i; vehicle_init axs abag_bdouble_aw.
(** vehicle.py:280-289, 312-332. *)
Definition abag_semitrailer_aw : list R := map (fun t => t * (981/100)) [6; 17/2; 17/2; 225/10/2; 225/10/2; 225/10/3].
Definition abag_semitrailer_as : list (list R) :=
  [[3; 12/10; 44/10; 12/10; 12/10]; [3; 12/10; 64/10; 12/10; 12/10]; [3; 12/10; 84/10; 12/10; 12/10]; [3; 12/10; 104/10; 12/10; 12/10]].
Definition get_abag_semitrailer (i : Z) : result vehicle := do axs <- pyget abag_semitrailer_as i; vehicle_init axs abag_semitrailer_aw.
(** vehicle.py:334-341. *)
Definition get_example_permit : result vehicle :=
  vehicle_init [1793/1000; 2507/1000; 1370/1000; 5403/1000; 1232/1000; 1232/1000; 6303/1000; 1232/1000; 1232/1000]
    (map (fun t => t * (981/100)) [55/10; 55/10; 85/10; 85/10; 75/10; 75/10; 75/10; 75/10; 75/10; 75/10]).
(** vehicle.py:343-380 and 382-419. *)
Definition axs_1600 (s : R) : list R := [125/100; 125/100; 375/100; 125/100; 125/100; s; 125/100; 125/100; 5; 125/100; 125/100].
Definition get_m1600 (s : R) : result vehicle := if Rltb s (625/100) then Err ValueError else vehicle_init (axs_1600 s) (map (fun o => 120 * o) (repeat 1 12)).
Definition get_s1600 (s : R) : result vehicle := if Rltb s (625/100) then Err ValueError else vehicle_init (axs_1600 s) (map (fun o => 80 * o) (repeat 1 12)).
(** vehicle.py:421-429. *)
Definition get_a160 : result vehicle := vehicle_init [] [160].
Definition get_w80 : result vehicle := vehicle_init [] [80].
(** vehicle.py:431-475; [range(2, count + 1)] has [count - 1] entries. *)
Definition ags : list R := [17/10; 11/10; 17/10].
Definition agw : list R := [300; 300; 300; 300].
Fixpoint rail_axs (spacing : R) (n : nat) (acc : list R) : list R :=
  match n with O => acc | S k => rail_axs spacing k (acc ++ (spacing - pysum ags) :: ags) end.
Fixpoint rail_axw (n : nat) (acc : list R) : list R :=
  match n with O => acc | S k => rail_axw k (acc ++ agw) end.
Definition get_la_rail (count : Z) (spacing weight : R) : result vehicle :=
  if (Rltb spacing 12 || Rltb 20 spacing)%bool then Err ValueError
  else if Z.ltb count 1 then Err ValueError
  else
    let k := Z.to_nat (count - 1) in
    vehicle_init (rail_axs spacing k ([2] ++ ags)) (map (fun w => weight / 300 * w) (rail_axw k ([360] ++ agw))).
(** vehicle.py:477-482. *)
Definition get_300la (count : Z) (spacing : R) : result vehicle := get_la_rail count spacing 300.
(** vehicle.py:484-506. *)
Definition get_t44 (s : R) : result vehicle :=
  if negb (Rleb 3 s && Rleb s 8) then Err ValueError else vehicle_init [37/10; 12/10; s; 12/10] [48; 96; 96; 96; 96].
(** vehicle.py:508-528. *)
Definition get_ms18 (s : R) : result vehicle :=
  if negb (Rleb (427/100) s && Rleb s (914/100)) then Err ValueError else vehicle_init [427/100; s] [356/10; 1423/10; 1423/10].
(** vehicle.py:536-557, 559-566. *)
Definition get_hl93_truck (s : R) : result vehicle :=
  if negb (Rleb (43/10) s && Rleb s 9) then Err ValueError else vehicle_init [43/10; s] [35; 145; 145].
Definition get_hl93_tandem : result vehicle := vehicle_init [12/10] [110; 110].
(** vehicle.py:568-596. *)
Definition KIP : R := 44482216/10000000.
Definition FT : R := 3048/10000.
Definition loco_w : list R := [5; 10; 10; 10; 10; 65/10; 65/10; 65/10; 65/10].
Definition loco_s : list R := [8; 5; 5; 5; 9; 5; 6; 5].
Definition get_cooper (E : R) : result vehicle :=
  vehicle_init (map (fun s => s * FT) (loco_s ++ [8] ++ loco_s)) (map (fun w => w * (E / 10) * KIP) (loco_w ++ loco_w)).
(** vehicle.py:603-633. *)
Definition get_lm1 (alpha : R) : result vehicle := vehicle_init [12/10] [300 * alpha; 300 * alpha].
Definition get_lm71 (alpha : R) : result vehicle := vehicle_init [16/10; 16/10; 16/10] (repeat (250 * alpha) 4).
(** vehicle.py:640-657. *)
Definition get_hb (units inner : R) : result vehicle := vehicle_init [18/10; inner; 18/10] (repeat (units * 10) 4).
(** vehicle.py:664-694, 699-705. *)
Definition get_cl625 : result vehicle := vehicle_init [36/10; 12/10; 66/10; 66/10] [50; 125; 125; 175; 150].
Definition get_jtg_vehicle : result vehicle := vehicle_init [3; 14/10; 7; 14/10] [30; 120; 120; 140; 140].
Definition get_validation_truck : result vehicle := vehicle_init [4; 4] [5; 4; 3].
