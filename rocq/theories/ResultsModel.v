(** Model of src/pycba/results.py [BeamResults] and of the member recovery of
    src/pycba/foundation.py. *)
From Verif Require Import Base Linalg SectionModel FlexModel LoadModel FoundationModel
  ElementModel UtilsModel BeamModel AnalysisModel.
Open Scope R_scope.

(** Element-wise operation on two arrays of the same length. *)
Definition map2 {A B C} (f : A -> B -> C) (l : list A) (k : list B) : list C :=
  map (fun p => f (fst p) (snd p)) (combine l k).

(** types.py:111-123 [MemberResults.__add__]; the check that the stations agree is not
    modelled: both operands are always evaluated on the same stations. *)
Definition mres_add (a b : mres) : mres :=
  {| r_x := r_x a; r_M := map2 Rplus (r_M a) (r_M b); r_V := map2 Rplus (r_V a) (r_V b);
     r_R := map2 Rplus (r_R a) (r_R b); r_D := map2 Rplus (r_D a) (r_D b) |}.

(** [l[1:-1]] and [l[1:-1] = v]. *)
Definition inner {A} (l : list A) : list A := removelast (tl l).
Definition set_inner (l v : list R) : list R :=
  match l with [] => [] | a :: _ => a :: v ++ [last l 0] end.

(** results.py:197-198: uniform stations. *)
Definition uniform (L : R) (npts : nat) : list R :=
  map (fun k => L / INR npts * INR k) (seq 0 (npts + 1)).

(** results.py:26-28: half-spacing of a shear-point pair. *)
Definition shear_offset (L : R) : R := 1e-9 * L.
(** results.py:209: the pairs of the shear points inside the member. *)
Definition shear_pairs (L : R) (sp : list R) : list R :=
  flat_map (fun xs => if Rltb (shear_offset L) xs && Rltb xs (L - shear_offset L)
                      then [xs - shear_offset L; xs + shear_offset L] else []) sp.
(** results.py:197-214: evaluation grid. *)
Definition grid_of (L : R) (npts : nat) (sp : list R) : list R :=
  match shear_pairs L sp with
  | [] => uniform L npts
  | ps => sort_R (uniform L npts ++ ps)
  end.
(** results.py:218-222: end stations duplicated. *)
Definition stations (L : R) (npts : nat) (sp : list R) : list R :=
  let xr := grid_of L npts sp in hd 0 xr :: xr ++ [last xr 0].

Definition nonzero (l : list R) : bool := existsb (fun v => negb (Reqb v 0)) l.
Definition is_sect (e : rigid) : bool := match e with RSect _ => true | _ => false end.

Section Gauss.
Variable gl : nat -> list (R * R).

(** results.py:150-294 [_member_values] of a member without foundation.  [f], [d]: end
    forces and displacements.  Trapezoidal integration uses the station abscissae also on
    the uniform grid (the code passes the spacing [dx], the same number). *)
Definition member_values (m : member) (lds : list load) (f d : vec) (npts : nat) (sp : list R)
    : result mres :=
  let L := mb_L m in
  let x := stations L npts sp in
  let xi := inner x in
  let res := fold_left (fun r ld => mres_add r (get_mbr_results ld x L)) lds
               (get_mbr_results (LMaMb (f 1%nat) (f 3%nat)) x L) in
  do cs <- mapM (fun ld => get_cnl gl ld L) lds;
  let Ma := fold_left (fun s c => s + c_Ma c) cs 0 in
  let Mb := fold_left (fun s c => s + c_Mb c) cs 0 in
  let kap := map (fun x => fold_left (fun s ld => match ld with LIC k _ => s + kappa_imp k x | _ => s end) lds 0) x in
  do ei <- rigid_at (mb_EI m) x;
  let curv := map2 Rplus (map2 Rdiv (r_M res) ei) kap in
  do gamma <- match mb_GAv m with
              | Some g => do gs <- rigid_at g xi; Ok (map2 (fun v g => - v / g) (inner (r_V res)) gs)
              | None => Ok (map (fun _ => 0) xi)
              end;
  let use_bc := is_sect (mb_EI m) || nonzero kap || match mb_GAv m with Some _ => true | None => false end in
  let prov := cumtrapz (inner curv) xi in
  let psi :=
    if Nat.ltb 1 (mb_type m) then
      if use_bc then
        let Dp := cumtrapz (map2 Rplus prov gamma) xi in
        map (fun p => p + (d 2%nat - d 0%nat - last Dp 0) / L) prov
      else
        let theta := (d 2%nat - d 0%nat) / L in
        let EI := match mb_EI m with RConst e => e | RSect _ => 0 (* excluded by use_bc *) end in
        let phi := (L / (3 * EI)) * (- (f 1%nat - 1/2 * f 3%nat) + (Ma - 1/2 * Mb)) in
        map (fun p => p + (theta - phi)) prov
    else map (fun p => p + d 1%nat) prov in
  let D := map (fun y => y + d 0%nat) (cumtrapz (map2 Rplus psi gamma) xi) in
  Ok {| r_x := r_x res; r_M := r_M res; r_V := r_V res;
        r_R := set_inner (r_R res) psi; r_D := set_inner (r_D res) D |}.

(** foundation.py:79-101 [_eb_member_values]. *)
Definition eb_values (L EI : R) (f d : vec) (lds : list load) (npts : nat) : mres :=
  let x := 0 :: uniform L npts ++ [L] in
  let res := fold_left (fun r ld => mres_add r (get_mbr_results ld x L)) lds
               (get_mbr_results (LMaMb (f 1%nat) (f 3%nat)) x L) in
  let curv := map (fun m => m / EI) (r_M res) in
  let psi := map (fun p => p + d 1%nat) (cumtrapz (inner curv) (inner x)) in
  let D := map (fun y => y + d 0%nat) (cumtrapz psi (inner x)) in
  {| r_x := x; r_M := r_M res; r_V := r_V res;
     r_R := set_inner (r_R res) psi; r_D := set_inner (r_D res) D |}.

(** Shift of the stations ([res.x + c]). *)
Definition shift_x (c : R) (r : mres) : mres :=
  {| r_x := map (fun x => x + c) (r_x r); r_M := r_M r; r_V := r_V r; r_R := r_R r; r_D := r_D r |}.

(** foundation.py:104-110 and results.py:80-114: concatenation. *)
Definition mres_concat (rs : list mres) : mres :=
  {| r_x := flat_map r_x rs; r_M := flat_map r_M rs; r_V := flat_map r_V rs;
     r_R := flat_map r_R rs; r_D := flat_map r_D rs |}.

(** Python's int(round(p / n)) for naturals: nearest, ties to even. *)
Definition round_div (p n : nat) : nat :=
  let q := (p / n)%nat in let r := (p mod n)%nat in
  if Nat.ltb (2 * r) n then q
  else if Nat.ltb n (2 * r) then S q
  else if Nat.even q then q else S q.

(** foundation.py:206-228 [recover]. *)
Definition fe_recover (f : felem) (dr : vec) (lds : list load) (npts : nat) : result mres :=
  do rs <- fe_refs gl f lds;
  do dm <- fe_dmesh gl f dr lds;
  do per <- mapM (fun e => sub_loads f lds e) (seq 0 (fe_n f));
  let ns := Nat.max 2 (round_div npts (fe_n f)) in
  Ok (mres_concat (map (fun e =>
        let de := fun q => dm (2 * e + q)%nat in
        let fe := fun p => mulmv 4 (k_ebeam (fe_EI f) (fe_h f)) de p + cnl_vec (nth e rs cnl_zero) p in
        shift_x (INR e * fe_h f) (eb_values (fe_h f) (fe_EI f) fe de (nth e per []) ns))
      (seq 0 (fe_n f)))).

(** results.py:150-194: dispatch on the foundation. *)
Definition member_results (m : member) (lds : list load) (f d : vec) (npts : nat) (sp : list R)
    : result mres :=
  match mb_kf m with
  | Some kf => do fe <- foundation_of m kf; fe_recover fe d lds npts
  | None => member_values m lds f d npts sp
  end.

(** results.py:116-148 [_member_analysis].  [ndof]: length of the displacement vector
    (a shorter slice cannot be multiplied by the member stiffness). *)
Definition member_analysis (b : beam) (d : vec) (ndof npts : nat) (sps : nat -> list R)
    : result (list mres) :=
  do ls <- parsed_loads b;
  do st <- foldM (fun (acc : list mres * R) i =>
      do m <- member_at b i;
      if Nat.ltb ndof (2 * i + 4) then Err ValueError
      else
        do f <- member_forces gl b d i;
        do r <- member_results m (loads_of ls i) f (fun q => d (2 * i + q)%nat) npts (sps i);
        Ok (fst acc ++ [shift_x (snd acc) r], snd acc + mb_L m))
    (seq 0 (b_nspans b)) ([], 0);
  Ok (fst st).

(** results.py:37-78: the results object. *)
Record bres := { br_mem : list mres; br_all : mres; br_D : vec; br_R : list R; br_Rs : list R }.

Definition beam_results (b : beam) (o : output) (ndof npts : nat) (sps : nat -> list R) : result bres :=
  do v <- member_analysis b (o_d o) ndof npts sps;
  Ok {| br_mem := v; br_all := mres_concat v; br_D := o_d o; br_R := o_R o; br_Rs := o_Rs o |}.

(** analysis.py:406-466 [analyze]: the whole call, [sps] the shear points of the object. *)
Definition analyze (ill : nat -> mat -> bool) (a : analysis) (sps : nat -> list R) (npts : option nat)
    (check : bool) : analysis * result bres :=
  match analyze_core gl ill a npts check with
  | (a', Ok o) => (a', beam_results (an_beam a') o (an_ndof a') (an_npts a') sps)
  | (a', Err e) => (a', Err e)
  end.
End Gauss.

(** results.py:314-323, 783-787: np.unique(x, return_index=True) with the values taken at
    the first occurrence: sorted pairs. *)
Fixpoint insert_new (p : R * R) (l : list (R * R)) : list (R * R) :=
  match l with
  | [] => [p]
  | q :: t => if Rltb (fst p) (fst q) then p :: l
              else if Req_EM_T (fst p) (fst q) then l
              else q :: insert_new p t
  end.
Definition unique_first (xs vs : list R) : list (R * R) :=
  fold_left (fun acc p => insert_new p acc) (combine xs vs) [].

(** np.interp: linear, constant outside. *)
Fixpoint interp_from (x x0 v0 : R) (t : list (R * R)) : R :=
  match t with
  | [] => v0
  | (x1, v1) :: r => if Rltb x x1 then v0 + (v1 - v0) / (x1 - x0) * (x - x0) else interp_from x x1 v1 r
  end.
Definition interp (x : R) (t : list (R * R)) : R :=
  match t with
  | [] => 0   (* unreachable: a beam has stations *)
  | (x0, v0) :: r => if Rltb x x0 then v0 else interp_from x x0 v0 r
  end.

(** results.py:296-323 [at] for one attribute, 789-822 [Envelopes.at]. *)
Definition read_at (x : R) (xs vs : list R) : R := interp x (unique_first xs vs).

(** results.py:325-343 [deflection_curve]. *)
Definition deflection_curve (r : bres) : list R * list R :=
  (flat_map (fun m => inner (r_x m)) (br_mem r), flat_map (fun m => inner (r_D m)) (br_mem r)).
