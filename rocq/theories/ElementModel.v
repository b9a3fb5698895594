(** Model of the member stiffness and member load vectors of src/pycba/beam.py. *)
From Verif Require Import Base Linalg SectionModel FlexModel LoadModel FoundationModel.

(** beam.py:920-954 [k_FF]. *)
Definition k_FF (EI L : R) : mat :=
  let kfv := 12 * EI / L^3 in let kmv := 6 * EI / L^2 in
  let kft := kmv in let kmt := 4 * EI / L in let kmth := 2 * EI / L in
  mat4 (vec4 kfv kft (- kfv) kft) (vec4 kmv kmt (- kmv) kmth)
       (vec4 (- kfv) (- kft) kfv (- kft)) (vec4 kft kmth (- kft) kmt).

(** beam.py:956-989 [k_FP]. *)
Definition k_FP (EI L : R) : mat :=
  let kfv := 3 * EI / L^3 in let kmv := 3 * EI / L^2 in
  let kft := kmv in let kmt := 3 * EI / L in
  mat4 (vec4 kfv kft (- kfv) 0) (vec4 kmv kmt (- kmv) 0)
       (vec4 (- kfv) (- kft) kfv 0) (vec4 0 0 0 0).

(** beam.py:991-1024 [k_PF]. *)
Definition k_PF (EI L : R) : mat :=
  let kfv := 3 * EI / L^3 in let kmv := 3 * EI / L^2 in
  let kft := kmv in let kmt := 3 * EI / L in
  mat4 (vec4 kfv 0 (- kfv) kft) (vec4 0 0 0 0)
       (vec4 (- kfv) 0 kfv (- kft)) (vec4 kft 0 (- kft) kmt).

(** beam.py:1026-1045 [k_PP]. *)
Definition k_PP (EI L : R) : mat := fun _ _ => 0.

(** beam.py:1217-1223, 1440-1445: k = T^T Kth T with
    T = [[1/L, 1, -1/L, 0], [1/L, 0, -1/L, 1]]. *)
Definition Tchord (L : R) (p : nat) : vec :=
  match p with
  | 0%nat => vec4 (1/L) 1 (-1/L) 0
  | _ => vec4 (1/L) 0 (-1/L) 1
  end.
Definition expand (K : m22) (L : R) : mat := fun i j =>
  (Tchord L 0 i * m00 K + Tchord L 1 i * m10 K) * Tchord L 0 j +
  (Tchord L 0 i * m01 K + Tchord L 1 i * m11 K) * Tchord L 1 j.

(** beam.py:1235-1265 [_condense] with one released DOF. *)
Definition condense1 (k : mat) (r : nat) : result mat :=
  if Req_EM_T (k r r) 0 then Err LinAlgError
  else Ok (fun i j => if Nat.eqb i r || Nat.eqb j r then 0
                      else k i j - k i r * (1 / k r r) * k r j).

(** beam.py:1235-1265 [_condense] with released = [1, 3]. *)
Definition condense13 (k : mat) : result mat :=
  do B <- inv22 {| m00 := k 1%nat 1%nat; m01 := k 1%nat 3%nat;
                   m10 := k 3%nat 1%nat; m11 := k 3%nat 3%nat |};
  Ok (fun i j =>
    if Nat.eqb i 1 || Nat.eqb i 3 || Nat.eqb j 1 || Nat.eqb j 3 then 0
    else k i j - ((k i 1%nat * m00 B + k i 3%nat * m10 B) * k 1%nat j
                  + (k i 1%nat * m01 B + k i 3%nat * m11 B) * k 3%nat j)).

(** beam.py:894, 1226, 1448: released = {1: [], 2: [3], 3: [1], 4: [1, 3]}[eType]. *)
Definition condense (k : mat) (eType : nat) : result mat :=
  match eType with
  | 1%nat => Ok k
  | 2%nat => condense1 k 3
  | 3%nat => condense1 k 1
  | 4%nat => condense13 k
  | _ => Err KeyError
  end.

(** beam.py:1270-1328 [k_FF_timo]. *)
Definition k_FF_timo (EI GAv L : R) : mat :=
  let phi := 12 * EI / (GAv * L^2) in
  let c := EI / (1 + phi) in
  let kfv := 12 * c / L^3 in let kft := 6 * c / L^2 in
  let kmt := (4 + phi) * c / L in let kmth := (2 - phi) * c / L in
  mat4 (vec4 kfv kft (- kfv) kft) (vec4 kft kmt (- kft) kmth)
       (vec4 (- kfv) (- kft) kfv (- kft)) (vec4 kft kmth (- kft) kmt).

(** A span of the beam (beam.py:192-243 add_span): length, rigidity, shear rigidity,
    foundation modulus, member type 1..4. *)
Record member := {
  mb_L : R; mb_EI : rigid; mb_GAv : option rigid; mb_kf : option R; mb_type : nat }.

(** beam.py:682-714 [_foundation]: restrictions, then the super-element.
    The cache is not modelled: its key (the span) determines all its inputs, which are
    never changed after construction. *)
Definition foundation_of (m : member) (kf : R) : result felem :=
  match mb_EI m, mb_GAv m with
  | RSect _, _ => Err NotImplementedError
  | RConst _, Some _ => Err NotImplementedError
  | RConst e, None =>
      if negb (Nat.eqb (mb_type m) 1) then Err NotImplementedError
      else Ok {| fe_L := mb_L m; fe_EI := e; fe_kf := kf;
                 fe_n := auto_subdivisions (mb_L m) e kf |}
  end.

Section Gauss.
Variable gl : nat -> list (R * R).

(** beam.py:1173-1233 [k_nonprismatic]. *)
Definition k_nonprismatic (EI : sect) (L : R) (eType : nat) : result mat :=
  do K <- k_theta gl EI L; condense (expand K L) eType.

(** beam.py:1404-1452 [k_timoshenko]. *)
Definition k_timoshenko (EI GAv : rigid) (L : R) (eType : nat) : result mat :=
  do F <- timo_flexibility gl EI GAv L;
  do K <- inv22 F;
  condense (expand K L) eType.

(** beam.py:869-918 [get_span_k]. *)
Definition span_k (m : member) : result mat :=
  match mb_kf m with
  | Some kf => do f <- foundation_of m kf; fe_k f
  | None =>
    match mb_GAv m, mb_EI m with
    | Some (RConst g), RConst e => condense (k_FF_timo e g (mb_L m)) (mb_type m)
    | Some g, e => k_timoshenko e g (mb_L m) (mb_type m)
    | None, RSect s => k_nonprismatic s (mb_L m) (mb_type m)
    | None, RConst e =>
        Ok (match mb_type m with
            | 2%nat => k_FP e (mb_L m)
            | 3%nat => k_PF e (mb_L m)
            | 4%nat => k_PP e (mb_L m)
            | _ => k_FF e (mb_L m)
            end)
    end
  end.

(** np.linspace(a, b, 2001) as a list. *)
Definition fine_grid (a b : R) : list R :=
  map (grid a b simpson_panels) (seq 0 (2 * simpson_panels + 1)).

(** beam.py:818-821, 1516-1519: curvature ordinates of a load on the fine grid. *)
Definition curvatures (ld : load) (EIs : list R) (xx : list R) (L : R) : list R :=
  let M := r_M (get_mbr_results ld xx L) in
  map (fun t => match t with (m, (e, x)) =>
         m / e + match ld with LIC k _ => kappa_imp k x | _ => 0 end end)
      (combine M (combine EIs xx)).

Definition rigid_at (e : rigid) (xx : list R) : result (list R) :=
  match e with
  | RConst c => Ok (map (fun _ => c) xx)
  | RSect s => mapM (sect_eval s) xx
  end.

(** Simpson's rule over a list of samples on the fine grid of [a,b]. *)
Definition simpson_list (a b : R) (ys : list R) : R :=
  simpson simpson_panels ((b - a) / INR (2 * simpson_panels)) (fun i => nth i ys 0).

Definition mulpt (f : R -> R) (xx ys : list R) : list R :=
  map (fun p => f (fst p) * snd p) (combine xx ys).

(** beam.py:812-827: primary end rotations on a variable-EI member. *)
Definition nonprism_theta0 (ld : load) (EI : sect) (L : R) : result (R * R) :=
  foldM (fun th ab =>
    let a := fst ab in let b := snd ab in
    if Rleb b a then Ok th
    else
      let xx := fine_grid a b in
      do es <- mapM (sect_eval EI) xx;
      let curv := curvatures ld es xx L in
      Ok (fst th + simpson_list a b (mulpt (fun x => 1 - x / L) xx curv),
          snd th + simpson_list a b (mulpt (fun x => - x / L) xx curv)))
    (pairs (edges (breakpoints EI) L)) (0, 0).

(** beam.py:829-867, 1586-1622: fixed-fixed forces from the simple-span reactions and the
    end moments, then the moment releases.  [kff] is the fixed-fixed stiffness used for
    the single releases. *)
Definition release_from (c : cnl) (Ma Mb L : R) (kff : result mat) (eType : nat) : result vec :=
  let Va_ss := c_Va c - (c_Ma c + c_Mb c) / L in
  let Vb_ss := c_Vb c + (c_Ma c + c_Mb c) / L in
  let ref := vec4 (Va_ss + (Ma + Mb) / L) Ma (Vb_ss - (Ma + Mb) / L) Mb in
  match eType with
  | 4%nat => Ok (vec4 (ref 0%nat + (Ma + Mb) / L) 0 (ref 2%nat - (Ma + Mb) / L) 0)
  | 2%nat | 3%nat =>
      let r := match eType with 2%nat => 3%nat | _ => 1%nat end in
      do k <- kff;
      if Req_EM_T (k r r) 0 then Err LinAlgError
      else Ok (fun i => ref i - k i r * (ref r / k r r))
  | _ => Ok ref
  end.

(** beam.py:754-867 [_ref_nonprismatic]. *)
Definition ref_nonprismatic (ld : load) (EI : sect) (L : R) (eType : nat) : result vec :=
  do th <- nonprism_theta0 ld EI L;
  do K <- k_theta gl EI L;
  do c <- get_cnl gl ld L;
  release_from c (m00 K * fst th + m01 K * snd th) (m10 K * fst th + m11 K * snd th) L
    (k_nonprismatic EI L 1) eType.

(** beam.py:1454-1528 [_timo_theta0]. *)
Definition timo_theta0 (ld : load) (EI GAv : rigid) (L : R) : result (R * R) :=
  let bps := (match EI with RSect s => breakpoints s | _ => [] end)
             ++ (match GAv with RSect s => breakpoints s | _ => [] end) in
  let es := match bps with [] => [0; L] | _ => edges bps L end in
  foldM (fun th ab =>
    let a := fst ab in let b := snd ab in
    if Rleb b a then Ok th
    else
      let xx := fine_grid a b in
      do eis <- rigid_at EI xx;
      let curv := curvatures ld eis xx L in
      do gs <- rigid_at GAv xx;
      let gamma := map (fun p => fst p / snd p) (combine (r_V (get_mbr_results ld xx L)) gs) in
      let shear := simpson_list a b (map (fun g => -1 / L * g) gamma) in
      Ok (fst th + (simpson_list a b (mulpt (fun x => 1 - x / L) xx curv) + shear),
          snd th + (simpson_list a b (mulpt (fun x => - x / L) xx curv) + shear)))
    (pairs es) (0, 0).

(** beam.py:1530-1622 [_ref_timoshenko]. *)
Definition ref_timoshenko (ld : load) (EI GAv : rigid) (L : R) (eType : nat) : result vec :=
  do c <- get_cnl gl ld L;
  do M <-
    match EI, GAv with
    | RConst e, RConst g =>
        let phi := 12 * e / (g * L^2) in
        let denom := 2 * (1 + phi) in
        Ok (((2 + phi) * c_Ma c - phi * c_Mb c) / denom,
            (- phi * c_Ma c + (2 + phi) * c_Mb c) / denom)
    | _, _ =>
        do th <- timo_theta0 ld EI GAv L;
        do F <- timo_flexibility gl EI GAv L;
        do K <- inv22 F;
        Ok (m00 K * fst th + m01 K * snd th, m10 K * fst th + m11 K * snd th)
    end;
  release_from c (fst M) (snd M) L (k_timoshenko EI GAv L 1) eType.

(** beam.py:734-751: contribution of one load to the span's released end forces. *)
Definition ref_one (m : member) (ld : load) : result vec :=
  match mb_GAv m, mb_EI m with
  | Some g, e => ref_timoshenko ld e g (mb_L m) (mb_type m)
  | None, RSect s => ref_nonprismatic ld s (mb_L m) (mb_type m)
  | None, RConst _ => do c <- load_get_ref gl ld (mb_L m) (mb_type m); Ok (cnl_vec c)
  end.

(** beam.py:716-752 [get_ref]: the loads of this span, in order. *)
Definition span_ref (m : member) (lds : list load) : result vec :=
  match mb_kf m with
  | Some kf => do f <- foundation_of m kf; fe_ref gl f lds
  | None => foldM (fun acc ld => do v <- ref_one m ld; Ok (fun i => acc i + v i)) lds (fun _ => 0)
  end.
End Gauss.
