(** Model of src/pycba/load.py and the record types of src/pycba/types.py. *)
From Verif Require Import Base SectionModel FlexModel.

(** types.py:72-76 [LoadCNL]. *)
Record cnl := { c_Va : R; c_Ma : R; c_Vb : R; c_Mb : R }.

Definition cnl_zero : cnl := {| c_Va := 0; c_Ma := 0; c_Vb := 0; c_Mb := 0 |}.
Definition cnl_add (p q : cnl) : cnl :=
  {| c_Va := c_Va p + c_Va q; c_Ma := c_Ma p + c_Ma q;
     c_Vb := c_Vb p + c_Vb q; c_Mb := c_Mb p + c_Mb q |}.
Definition cnl_scale (g : R) (p : cnl) : cnl :=
  {| c_Va := g * c_Va p; c_Ma := g * c_Ma p; c_Vb := g * c_Vb p; c_Mb := g * c_Mb p |}.

(** types.py:79-123 [MemberResults] (the arrays). *)
Record mres := { r_x : list R; r_M : list R; r_V : list R; r_R : list R; r_D : list R }.

(** load.py:59-68 [MB]: Macaulay bracket. *)
Definition MB (v : R) : R := Rmax v 0.

(** load.py:70-83 [H]: np.heaviside(v, value). *)
Definition H (v value : R) : R :=
  if Rlt_dec v 0 then 0 else if Rlt_dec 0 v then 1 else value.

(** The load classes of load.py, without their span index.
    [LIC kappa EI]: the member rigidity is [None] until the Beam supplies it. *)
Inductive load :=
| LUDL (w : R)                                  (* load.py:135-157 *)
| LPL (P a : R)                                 (* load.py:225-250 *)
| LPUDL (w a c : R)                             (* load.py:325-334 *)
| LTrap (w1 w2 a : R) (c : option R)            (* load.py:435-474 *)
| LMaMb (Ma Mb : R)                             (* load.py:673-681 *)
| LML (m a : R)                                 (* load.py:753-761 *)
| LIC (kappa : list R) (EI : option rigid).     (* load.py:852-912 *)

(** load.py:159-186 [LoadUDL.get_cnl]. *)
Definition udl_cnl (w L : R) : cnl :=
  {| c_Va := w * L / 2; c_Vb := w * L / 2; c_Ma := w * L^2 / 12; c_Mb := - w * L^2 / 12 |}.

(** load.py:252-282 [LoadPL.get_cnl]. *)
Definition pl_cnl (P a L : R) : cnl :=
  let b := Rmax (L - a) 0 in
  {| c_Va := P / L^3 * (b * L^2 - a^2 * b + a * b^2);
     c_Vb := P / L^3 * (a * L^2 + a^2 * b - a * b^2);
     c_Ma := P * a * b^2 / L^2;
     c_Mb := - P * a^2 * b / L^2 |}.

(** load.py:336-377 [LoadPUDL.get_cnl].  When [a > L] the code returns a plain list
    [[0.0]*4]; every caller then reads an attribute (.Va/.Ma/...) of it, which raises
    AttributeError.  The model raises at once. *)
Definition pudl_cnl (w a c L : R) : result cnl :=
  if Rltb L a then Err AttributeError
  else
    let d := L - (a + c) in
    let c := if Rltb d 0 then c + d else c in
    let s := a + c / 2 in
    let t := L - s in
    Ok {| c_Va := (w * c / L^3) * ((2 * s + L) * t^2 + (s - t) * c^2 / 4);
          c_Vb := w * c - (w * c / L^3) * ((2 * s + L) * t^2 + (s - t) * c^2 / 4);
          c_Ma := (w * c / L^2) * (s * t^2 + (s - 2 * t) * c^2 / 12);
          c_Mb := - (w * c / L^2) * (t * s^2 + (t - 2 * s) * c^2 / 12) |}.

(** load.py:476-496 [LoadTrapez._resolve]: (w1, w2, dw, a, c). *)
Definition trap_resolve (w1 w2 a : R) (co : option R) (L : R) : R * R * R * R * R :=
  let c := match co with Some c => c | None => L - a end in
  if Rleb L a || Rleb c 0 then (w1, w2, 0, a, 0)
  else if Rltb L (a + c) then
    let c' := L - a in
    let w2' := w1 + (w2 - w1) * c' / c in
    (w1, w2', w2' - w1, a, c')
  else (w1, w2, w2 - w1, a, c).

(** load.py:498-575 [LoadTrapez.get_cnl]. *)
Definition trap_cnl (w1 w2 a : R) (co : option R) (L : R) : cnl :=
  match trap_resolve w1 w2 a co L with
  | (w1, w2, dw, a, c) =>
    if Rleb c 0 then cnl_zero
    else
      let al := L - a in
      let I1 := c^4/4 + (a - 2*al)*c^3/3 + (al^2 - 2*a*al)*c^2/2 + a*al^2*c in
      let I2 := c^5/5 + (a - 2*al)*c^4/4 + (al^2 - 2*a*al)*c^3/3 + a*al^2*c^2/2 in
      let Ma := (w1/L^2)*I1 + (dw/(c*L^2))*I2 in
      let J1 := -(c^4)/4 + (al - 2*a)*c^3/3 + (2*a*al - a^2)*c^2/2 + a^2*al*c in
      let J2 := -(c^5)/5 + (al - 2*a)*c^4/4 + (2*a*al - a^2)*c^3/3 + a^2*al*c^2/2 in
      let Mb := -((w1/L^2)*J1 + (dw/(c*L^2))*J2) in
      let K1 := c^4/2 + (a - al)*c^3 - 3*a*al*c^2 + (3*a + al)*al^2*c in
      let K2 := 2*c^5/5 + 3*(a - al)*c^4/4 - 2*a*al*c^3 + (3*a + al)*al^2*c^2/2 in
      let Va := (w1/L^3)*K1 + (dw/(c*L^3))*K2 in
      {| c_Va := Va; c_Vb := (w1 + w2)*c/2 - Va; c_Ma := Ma; c_Mb := Mb |}
  end.

(** load.py:683-711 [LoadMaMb.get_cnl]. *)
Definition mamb_cnl (Ma Mb L : R) : cnl :=
  {| c_Va := (Ma + Mb) / L; c_Vb := - (Ma + Mb) / L; c_Ma := Ma; c_Mb := Mb |}.

(** load.py:763-792 [LoadML.get_cnl]. *)
Definition ml_cnl (m a L : R) : cnl :=
  let b := L - a in
  {| c_Va := 6 * m * a * b / L^3; c_Vb := - 6 * m * a * b / L^3;
     c_Ma := (m * b / L^2) * (2 * a - b); c_Mb := (m * a / L^2) * (2 * b - a) |}.

(** load.py:914-929 [LoadIC.kappa_imp]. *)
Definition kappa_imp (kappa : list R) (x : R) : R := polyval (rev kappa) x.

(** scipy.integrate.simpson on [2*n+1] equally spaced samples of spacing [h]; [f i] is
    the i-th sample.  (scipy's general formula reduces to this on a uniform grid.) *)
Definition simpson (n : nat) (h : R) (f : nat -> R) : R :=
  rsum n (fun i => h / 3 * (f (2*i)%nat + 4 * f (2*i+1)%nat + f (2*i+2)%nat)).

(** np.linspace(a, b, 2n+1)[i]. *)
Definition grid (a b : R) (n : nat) (i : nat) : R := a + INR i * ((b - a) / INR (2 * n)).

(** 2001 sample points: 1000 Simpson panels (load.py:972, beam.py:816, 1513). *)
Definition simpson_panels : nat := Z.to_nat 1000.

(** beam.py:809-811, load.py:962-964: np.unique(concatenate([bps,[0,L]])) filtered to
    [-1e-12, L+1e-12] with the first and last entries forced to 0 and L. *)
Fixpoint dedup_sorted (l : list R) : list R :=
  match l with
  | a :: ((b :: _) as t) => if Req_EM_T a b then dedup_sorted t else a :: dedup_sorted t
  | _ => l
  end.
Definition set_first (v : R) (l : list R) : list R :=
  match l with [] => [] | _ :: t => v :: t end.
Definition set_last (v : R) (l : list R) : list R :=
  match l with [] => [] | _ => removelast l ++ [v] end.
Definition edges (bps : list R) (L : R) : list R :=
  let u := dedup_sorted (sort_R (bps ++ [0; L])) in
  let u := filter (fun e => Rleb (-(1e-12)) e && Rleb e (L + 1e-12)) u in
  set_last L (set_first 0 u).

(** zip(edges[:-1], edges[1:]). *)
Fixpoint pairs (l : list R) : list (R * R) :=
  match l with
  | a :: ((b :: _) as t) => (a, b) :: pairs t
  | _ => []
  end.

Section Gauss.
Variable leggauss : nat -> list (R * R).

(** load.py:931-946 [_Ktheta]. *)
Definition ic_Ktheta (EI : rigid) (L : R) : result m22 :=
  match EI with
  | RSect s => k_theta leggauss s L
  | RConst e => Ok {| m00 := 2 * e / L * 2; m01 := 2 * e / L * 1;
                      m10 := 2 * e / L * 1; m11 := 2 * e / L * 2 |}
  end.

(** load.py:968-977: primary end rotations, Simpson per interval. *)
Definition ic_theta0 (kappa : list R) (es : list R) (L : R) : R * R :=
  fold_left (fun th ab =>
    if Rleb (snd ab) (fst ab) then th
    else
      let n := simpson_panels in
      let h := (snd ab - fst ab) / INR (2 * n) in
      let x := grid (fst ab) (snd ab) n in
      (fst th + simpson n h (fun i => (1 - x i / L) * kappa_imp kappa (x i)),
       snd th + simpson n h (fun i => (- x i / L) * kappa_imp kappa (x i))))
    (pairs es) (0, 0).

(** load.py:948-979 [_end_moments]. *)
Definition ic_end_moments (kappa : list R) (EI : rigid) (L : R) : result (R * R) :=
  let es := match EI with RSect s => edges (breakpoints s) L | RConst _ => [0; L] end in
  let th := ic_theta0 kappa es L in
  do K <- ic_Ktheta EI L;
  Ok (m00 K * fst th + m01 K * snd th, m10 K * fst th + m11 K * snd th).

(** load.py:981-1004 [LoadIC.get_cnl]. *)
Definition ic_cnl (kappa : list R) (EI : option rigid) (L : R) : result cnl :=
  match EI with
  | None => Err ValueError
  | Some e =>
      do M <- ic_end_moments kappa e L;
      let Ma := fst M in let Mb := snd M in
      Ok {| c_Va := (Ma + Mb) / L; c_Vb := - (Ma + Mb) / L; c_Ma := Ma; c_Mb := Mb |}
  end.

(** [get_cnl] dispatch over the load classes (the eType argument is unused by all). *)
Definition get_cnl (ld : load) (L : R) : result cnl :=
  match ld with
  | LUDL w => Ok (udl_cnl w L)
  | LPL P a => Ok (pl_cnl P a L)
  | LPUDL w a c => pudl_cnl w a c L
  | LTrap w1 w2 a c => Ok (trap_cnl w1 w2 a c L)
  | LMaMb Ma Mb => Ok (mamb_cnl Ma Mb L)
  | LML m a => Ok (ml_cnl m a L)
  | LIC k EI => ic_cnl k EI L
  end.
End Gauss.

(** load.py:104-132, the body of [Load.get_ref] after get_cnl. *)
Definition release (c : cnl) (L : R) (eType : nat) : cnl :=
  let fm := 6 / (4 * L) in
  match eType with
  | 2%nat => {| c_Va := c_Va c - fm * c_Mb c; c_Ma := c_Ma c - 1/2 * c_Mb c;
                c_Vb := c_Vb c - - fm * c_Mb c; c_Mb := c_Mb c - 1 * c_Mb c |}
  | 3%nat => {| c_Va := c_Va c - fm * c_Ma c; c_Ma := c_Ma c - 1 * c_Ma c;
                c_Vb := c_Vb c - - fm * c_Ma c; c_Mb := c_Mb c - 1/2 * c_Ma c |}
  | 4%nat => {| c_Va := c_Va c - - (c_Ma c + c_Mb c) / L; c_Ma := c_Ma c - 1 * c_Ma c;
                c_Vb := c_Vb c - (c_Ma c + c_Mb c) / L; c_Mb := c_Mb c - 1 * c_Mb c |}
  | _ => {| c_Va := c_Va c - 0; c_Ma := c_Ma c - 0; c_Vb := c_Vb c - 0; c_Mb := c_Mb c - 0 |}
  end.

(** load.py:85-132 [Load.get_ref]. *)
Definition load_get_ref (gl : nat -> list (R * R)) (ld : load) (L : R) (eType : nat) : result cnl :=
  do c <- get_cnl gl ld L; Ok (release c L eType).

(** ** Member results as functions of the abscissa (before the end ordinates of V and M
    are zeroed).  Each is the formula of the cited [get_mbr_results]. *)
Record diag := { f_V : R -> R; f_M : R -> R; f_R : R -> R; f_D : R -> R }.

(** load.py:209-215. *)
Definition udl_diag (w L : R) : diag :=
  let Va := w * L / 2 in
  let Ra := - w * L^3 / 24 in
  {| f_V := fun x => Va - w * x;
     f_M := fun x => Va * x - w / 2 * x^2;
     f_R := fun x => (Va / 2) * x^2 - (w / 6) * x^3 + Ra;
     f_D := fun x => (Va / 6) * x^3 - (w / 24) * x^4 + Ra * x |}.

(** load.py:305-315. *)
Definition pl_diag (P a L : R) : diag :=
  let b := Rmax (L - a) 0 in
  let Va := P * b / L in
  let Ra := P * b * (b^2 - L^2) / (6 * L) in
  {| f_V := fun x => Va - P * H (x - a) 0;
     f_M := fun x => Va * x - P * MB (x - a);
     f_R := fun x => (Va / 2) * x^2 - (P / 2) * MB (x - a)^2 + Ra;
     f_D := fun x => (Va / 6) * x^3 - (P / 6) * MB (x - a)^3 + Ra * x |}.

(** load.py:400-425 (no clipping here, unlike get_cnl). *)
Definition pudl_diag (w a c L : R) : diag :=
  let b := c + a in
  let Va := (L - b + c / 2) * c * w / L in
  let Ra := - ((Va / 6) * L^3 + (w / 24) * (L - b)^4 - (w / 24) * (L - a)^4) / L in
  {| f_V := fun x => Va - w * MB (x - a) + w * MB (x - b);
     f_M := fun x => Va * x - (w / 2) * MB (x - a)^2 + (w / 2) * MB (x - b)^2;
     f_R := fun x => (Va / 2) * x^2 - (w / 6) * MB (x - a)^3 + (w / 6) * MB (x - b)^3 + Ra;
     f_D := fun x => (Va / 6) * x^3 - (w / 24) * MB (x - a)^4 + (w / 24) * MB (x - b)^4 + Ra * x |}.

(** load.py:600-663. *)
Definition trap_diag (w1 w2 a : R) (co : option R) (L : R) : diag :=
  match trap_resolve w1 w2 a co L with
  | (w1, w2, dw, a, c) =>
    if Rleb c 0 then {| f_V := fun _ => 0; f_M := fun _ => 0; f_R := fun _ => 0; f_D := fun _ => 0 |}
    else
      let b := a + c in
      let al := L - a in
      let de := L - b in
      let Va := ((w1/2)*al^2 + (dw/(6*c))*al^3 - (w2/2)*de^2 - (dw/(6*c))*de^3) / L in
      let Ra := (-(Va/6)*L^3 + (w1/24)*al^4 + (dw/(120*c))*al^5
                 - (w2/24)*de^4 - (dw/(120*c))*de^5) / L in
      {| f_V := fun x => Va - w1*MB (x-a) - (dw/(2*c))*MB (x-a)^2
                         + w2*MB (x-b) + (dw/(2*c))*MB (x-b)^2;
         f_M := fun x => Va*x - (w1/2)*MB (x-a)^2 - (dw/(6*c))*MB (x-a)^3
                         + (w2/2)*MB (x-b)^2 + (dw/(6*c))*MB (x-b)^3;
         f_R := fun x => (Va/2)*x^2 - (w1/6)*MB (x-a)^3 - (dw/(24*c))*MB (x-a)^4
                         + (w2/6)*MB (x-b)^3 + (dw/(24*c))*MB (x-b)^4 + Ra;
         f_D := fun x => (Va/6)*x^3 - (w1/24)*MB (x-a)^4 - (dw/(120*c))*MB (x-a)^5
                         + (w2/24)*MB (x-b)^4 + (dw/(120*c))*MB (x-b)^5 + Ra*x |}
  end.

(** load.py:734-743. *)
Definition mamb_diag (Ma Mb L : R) : diag :=
  let Va := (Ma + Mb) / L in
  let Ra := Ma * L / 3 - Mb * L / 6 in
  {| f_V := fun _ => Va;
     f_M := fun x => Va * x - Ma;
     f_R := fun x => (Va / 2) * x^2 - Ma * x + Ra;
     f_D := fun x => (Va / 6) * x^3 - (Ma / 2) * x^2 + Ra * x |}.

(** load.py:815-842. *)
Definition ml_diag (m a L : R) : diag :=
  let b := L - a in
  let Va := m / L in
  let Ra := (m / 6) * (3 * b^2 / L - L) in
  let hv := if Req_EM_T a 0 then 1 else if Req_EM_T a L then 0 else 1/2 in
  {| f_V := fun _ => Va;
     f_M := fun x => Va * x - m * H (x - a) hv;
     f_R := fun x => (Va / 2) * x^2 - m * MB (x - a) + Ra;
     f_D := fun x => (Va / 6) * x^3 - (m / 2) * MB (x - a)^2 + Ra * x |}.

(** load.py:217-220 and its copies: V and M are zeroed at the first and last index. *)
Definition zero_ends (l : list R) : list R := set_last 0 (set_first 0 l).

Definition sample (d : diag) (xs : list R) : mres :=
  {| r_x := xs; r_V := zero_ends (map (f_V d) xs); r_M := zero_ends (map (f_M d) xs);
     r_R := map (f_R d) xs; r_D := map (f_D d) xs |}.

(** scipy.integrate.cumulative_trapezoid(y, x, initial=0). *)
Fixpoint cumtrapz_from (acc xp yp : R) (xs ys : list R) : list R :=
  match xs, ys with
  | x :: xt, y :: yt =>
      let acc' := acc + (x - xp) * (yp + y) / 2 in
      acc' :: cumtrapz_from acc' x y xt yt
  | _, _ => []
  end.
Definition cumtrapz (ys xs : list R) : list R :=
  match xs, ys with
  | x :: xt, y :: yt => 0 :: cumtrapz_from 0 x y xt yt
  | _, _ => []
  end.

(** load.py:1006-1058 [LoadIC.get_mbr_results]. *)
Definition ic_mres (kappa : list R) (xs : list R) (L : R) : mres :=
  let k := map (kappa_imp kappa) xs in
  let rot := cumtrapz k xs in
  let defl := cumtrapz rot xs in
  let theta0 := - last defl 0 / L in
  {| r_x := xs;
     r_V := zero_ends (map (fun _ => 0) xs); r_M := zero_ends (map (fun _ => 0) xs);
     r_R := map (fun r => r + theta0) rot;
     r_D := map (fun dx => fst dx + theta0 * snd dx) (combine defl xs) |}.

(** Closed-form diagrams of the load classes that have one (all but [LIC], which
    integrates numerically). *)
Definition diag_of (ld : load) (L : R) : option diag :=
  match ld with
  | LUDL w => Some (udl_diag w L)
  | LPL P a => Some (pl_diag P a L)
  | LPUDL w a c => Some (pudl_diag w a c L)
  | LTrap w1 w2 a c => Some (trap_diag w1 w2 a c L)
  | LMaMb Ma Mb => Some (mamb_diag Ma Mb L)
  | LML m a => Some (ml_diag m a L)
  | LIC _ _ => None
  end.

(** [get_mbr_results] dispatch. *)
Definition get_mbr_results (ld : load) (xs : list R) (L : R) : mres :=
  match ld with
  | LIC k _ => ic_mres k xs L
  | _ => match diag_of ld L with
         | Some d => sample d xs
         | None => {| r_x := xs; r_M := []; r_V := []; r_R := []; r_D := [] |} (* unreachable *)
         end
  end.

(** ** Load matrix (types.py:10-11).  A row is a Python list [[span, type, v1, v2, ...]].
    Simplification: the first two entries are integers (the code applies int(load[0]-1)
    to the first and compares the second with 1..6; fractional values are not modelled).
    A row shorter than two entries is [RowShort]; an entry that is not a list (tuple,
    array) is [RowNotList]. *)
Inductive row :=
| Row (span : Z) (ltype : Z) (args : list R)
| RowShort
| RowNotList.

(** load.py:1061-1119 [parse_LM]: 0-based span and load object; unknown types dropped. *)
Definition parse_row (r : row) : result (list (Z * load)) :=
  match r with
  | RowNotList => Err ValueError
  | RowShort => Err IndexError
  | Row s t args =>
      let sp := (s - 1)%Z in
      if Z.eqb t 1 then do w <- get args 0; Ok [(sp, LUDL w)]
      else if Z.eqb t 2 then do P <- get args 0; do a <- get args 1; Ok [(sp, LPL P a)]
      else if Z.eqb t 3 then
        do w <- get args 0; do a <- get args 1; do c <- get args 2; Ok [(sp, LPUDL w a c)]
      else if Z.eqb t 4 then do m <- get args 0; do a <- get args 1; Ok [(sp, LML m a)]
      else if Z.eqb t 5 then
        do w1 <- get args 0; do w2 <- get args 1;
        Ok [(sp, LTrap w1 w2 (nth 2 args 0) (nth_error args 3))]
      else if Z.eqb t 6 then Ok [(sp, LIC args None)]
      else Ok []
  end.

Definition is_list_row (r : row) : bool := match r with RowNotList => false | _ => true end.

(** load.py:1079-1080: the type check runs over the whole matrix first. *)
Definition parse_LM (LM : list row) : result (list (Z * load)) :=
  if negb (forallb is_list_row LM) then Err ValueError
  else do ls <- mapM parse_row LM; Ok (concat ls).

(** load.py:1122-1146 [add_LM]. *)
Definition add_LM (LM1 LM2 : list row) : list row := LM1 ++ LM2.

(** load.py:1149-1186 [factor_LM], one row. *)
Definition factor_row (g : R) (r : row) : result row :=
  match r with
  | RowNotList => Err TypeError   (* simplification: indexing a non-sequence; tuples are not modelled *)
  | RowShort => Err IndexError
  | Row s t args =>
      do v <- get args 0;
      let mag := g * v in
      if Z.eqb t 1 then Ok (Row s t [mag])
      else if Z.eqb t 2 || Z.eqb t 4 then do a <- get args 1; Ok (Row s t [mag; a])
      else if Z.eqb t 5 then
        do w2 <- get args 1; Ok (Row s t (mag :: g * w2 :: skipn 2 args))
      else if Z.eqb t 6 then Ok (Row s t (map (Rmult g) args))
      else do a <- get args 1; do c <- get args 2; Ok (Row s t [mag; a; c])
  end.

Definition factor_LM (LM : list row) (g : R) : result (list row) := mapM (factor_row g) LM.
