(** Vehicles as lists of axles: distance behind the first axle, and weight. *)
From Verif Require Import Base VehicleModel.
Open Scope R_scope.

Definition axles (v : vehicle) : list (R * R) := combine (v_coords v) (v_axw v).
Definition shift_by (d : R) (a : R * R) : R * R := (d + fst a, snd a).

(** A vehicle as constructed: not reversed in place. *)
Definition fresh (v : vehicle) : Prop := vehicle_init (v_axs v) (v_axw v) = Ok v.

(** One vehicle after another: each starts the given gap behind the last axle of the one
    before it. *)
Fixpoint convoy (start : R) (vs : list vehicle) (gaps : list R) : list (R * R) :=
  match vs with
  | [] => []
  | v :: rest => map (shift_by start) (axles v) ++ convoy (start + v_L v + hd 0 gaps) rest (tl gaps)
  end.

(** One more axle than spacings, positive spacings and weights. *)
Definition valid (v : vehicle) : Prop :=
  length (v_axw v) = S (length (v_axs v)) /\ Forall (Rlt 0) (v_axs v) /\ Forall (Rlt 0) (v_axw v).
(** A valid vehicle with the given axles and gross weight. *)
Definition is_vehicle (r : result vehicle) (axs : list (R * R)) (gross : R) : Prop :=
  exists v, r = Ok v /\ valid v /\ axles v = axs /\ v_W v = gross.

(** The axles of the LA rail load: a locomotive axle and groups of four. *)
Definition rail_group (weight start : R) : list (R * R) :=
  [(start, weight); (start + 17/10, weight); (start + 28/10, weight); (start + 45/10, weight)].
Definition rail_axles (groups : nat) (spacing weight : R) : list (R * R) :=
  (0, 12/10 * weight) :: flat_map (fun j => rail_group weight (2 + INR j * spacing)) (seq 0 groups).

(** The axles of one Cooper E10 locomotive, feet and kips. *)
Definition cooper_locomotive : list (R * R) :=
  [(0, 5); (8, 10); (13, 10); (18, 10); (23, 10); (32, 65/10); (37, 65/10); (43, 65/10); (48, 65/10)].
Definition cooper_axles (E kip ft : R) : list (R * R) :=
  map (fun a => (fst a * ft, snd a * (E / 10) * kip)) (cooper_locomotive ++ map (shift_by 56) cooper_locomotive).

(** The twelve axles of the M1600 and S1600 load models. *)
Definition axles_1600 (s w : R) : list (R * R) :=
  map (fun x => (x, w)) [0; 125/100; 25/10; 625/100; 75/10; 875/100; 875/100 + s; 10 + s; 1125/100 + s; 1625/100 + s; 175/10 + s; 1875/100 + s].
