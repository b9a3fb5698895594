(** Independent specification of the recovered member diagrams and of reading them. *)
From Coquelicot Require Import Coquelicot.
From Coq Require Import Sorting.
From Verif Require Import Base SectionModel LoadModel LoadSpec ElementModel.
Open Scope R_scope.

(** Several loads acting together. *)
Definition action_plus (A B : action) : action :=
  {| intensity := fun x => intensity A x + intensity B x;
     forces := forces A ++ forces B; moments := moments A ++ moments B |}.
Definition actions (L : R) (lds : list load) : action :=
  fold_right (fun ld A => action_plus (action_of L ld) A) no_action lds.

(** [V], [M] are the shear and moment of the member [0,L] under the action [A], the end
    moments [ma], [mb] (anticlockwise) and the left end shear [va]: every cut is in
    equilibrium and so is the whole member. *)
Record cut_equilibrium (L : R) (A : action) (va ma mb : R) (V M : R -> R) : Prop := {
  ce_shear : forall x, 0 <= x <= L -> away_from x (forces A) ->
    exists I, is_RInt (intensity A) 0 x I /\ V x = va - I - left_of x (fun _ => 1) (forces A);
  ce_moment : forall x, 0 <= x <= L -> away_from x (moments A) ->
    exists I, is_RInt (fun t => (x - t) * intensity A t) 0 x I /\
      M x = - ma + va * x - I - left_of x (fun a => x - a) (forces A)
            - left_of x (fun _ => 1) (moments A);
  ce_far_end : exists I, is_RInt (fun t => (L - t) * intensity A t) 0 L I /\
    mb = - ma + va * L - I - lsum (map (fun pa => fst pa * (L - snd pa)) (forces A))
         - lsum (map fst (moments A)) }.

(** A member's arrays: same number of stations; V and M sample the curves [V], [M] of the
    member coordinate (stations are at [x0] + member coordinate), and are closed to zero at
    the first and the last station. *)
Record member_curves (x0 : R) (r : mres) (V M : R -> R) : Prop := {
  mc_len : length (r_V r) = length (r_x r) /\ length (r_M r) = length (r_x r) /\
           length (r_R r) = length (r_x r) /\ length (r_D r) = length (r_x r);
  mc_at : forall i, (0 < i < length (r_x r) - 1)%nat ->
    nth i (r_V r) 0 = V (nth i (r_x r) 0 - x0) /\ nth i (r_M r) 0 = M (nth i (r_x r) 0 - x0);
  mc_ends : nth 0 (r_V r) 0 = 0 /\ nth 0 (r_M r) 0 = 0 /\
            nth (length (r_x r) - 1) (r_V r) 0 = 0 /\ nth (length (r_x r) - 1) (r_M r) 0 = 0 }.

(** Shear points further than 1e-9 of the length from both ends of the member. *)
Definition inside (L x : R) : bool :=
  if Rlt_dec (1e-9 * L) x then if Rlt_dec x (L - 1e-9 * L) then true else false else false.
Definition inside_points (L : R) (sp : list R) : nat := length (filter (inside L) sp).

(** Increasing order (repetitions allowed). *)
Definition increasing (l : list R) : Prop := StronglySorted Rle l.

(** The stations of one member: how many, their order and their ends. *)
Record station_grid (x0 x1 : R) (n : nat) (xs : list R) : Prop := {
  sg_count : length xs = n;
  sg_order : increasing xs;
  sg_first : nth 0 xs 0 = x0;
  sg_second : nth 1 xs 0 = x0;
  sg_before_last : nth (n - 2) xs 0 = x1;
  sg_last : nth (n - 1) xs 0 = x1 }.

(** Where the stations of a member are: evenly spaced, and just left and right of each shear
    point inside the member. *)
Definition station_at (L : R) (npts : nat) (sp : list R) (t : R) : Prop :=
  (exists k, (k <= npts)%nat /\ t = L * (INR k / INR npts)) \/
  (exists x, In x sp /\ 1e-9 * L < x < L - 1e-9 * L /\ (t = x - 1e-9 * L \/ t = x + 1e-9 * L)).

(** The first station with coordinate [x]. *)
Definition first_station (xs : list R) (x : R) (k : nat) : Prop :=
  (k < length xs)%nat /\ nth k xs 0 = x /\ forall j, (j < k)%nat -> nth j xs 0 <> x.

(** ** Recovered rotations and deflections *)
Definition rigid_value (e : rigid) (x v : R) : Prop :=
  match e with RConst c => v = c | RSect s => sect_eval s x = Ok v end.
(** Total curvature imposed on the span at [x]. *)
Definition imposed (lds : list load) (x : R) : R :=
  lsum (map (fun ld => match ld with LIC k _ => kappa_imp k x | _ => 0 end) lds).
(** Curvature and shear strain caused by the moment [M] and the shear [V] at [x]. *)
Definition curvature (m : member) (lds : list load) (x M k : R) : Prop :=
  exists ei, rigid_value (mb_EI m) x ei /\ k = M / ei + imposed lds x.
Definition shear_strain (m : member) (x V g : R) : Prop :=
  match mb_GAv m with
  | None => g = 0
  | Some ga => exists v, rigid_value ga x v /\ g = - V / v
  end.
(** Members recovered by matching both end displacements. *)
Definition end_matched (m : member) (lds : list load) (xs : list R) : Prop :=
  (exists s, mb_EI m = RSect s) \/ (exists g, mb_GAv m = Some g) \/ (exists x, In x xs /\ imposed lds x <> 0).

(** The tabulated rotations are the trapezoidal integrals of the curvatures belonging to the
    tabulated moments, the deflections those of rotation plus shear strain; the deflection
    starts at the node ([d0]), a member without left release starts with the node's rotation
    ([d1]), and an end-matched released member ends at the right node ([d2]). *)
Definition recovered (m : member) (lds : list load) (x0 d0 d1 d2 : R) (r : mres) : Prop :=
  exists curv gam : nat -> R,
    (forall k, (0 < k < length (r_x r) - 1)%nat ->
       curvature m lds (nth k (r_x r) 0 - x0) (nth k (r_M r) 0) (curv k) /\
       shear_strain m (nth k (r_x r) 0 - x0) (nth k (r_V r) 0) (gam k)) /\
    (forall k, (0 < k < length (r_x r) - 2)%nat ->
       let h := nth (k + 1) (r_x r) 0 - nth k (r_x r) 0 in
       nth (k + 1) (r_R r) 0 - nth k (r_R r) 0 = h * (curv k + curv (k + 1)%nat) / 2 /\
       nth (k + 1) (r_D r) 0 - nth k (r_D r) 0 =
         h * ((nth k (r_R r) 0 + gam k) + (nth (k + 1) (r_R r) 0 + gam (k + 1)%nat)) / 2) /\
    nth 1 (r_D r) 0 = d0 /\
    ((mb_type m <= 1)%nat -> nth 1 (r_R r) 0 = d1) /\
    ((1 < mb_type m)%nat -> end_matched m lds (map (fun x => x - x0) (r_x r)) -> nth (length (r_x r) - 2) (r_D r) 0 = d2).
