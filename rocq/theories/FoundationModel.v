(** Model of src/pycba/foundation.py: the condensed Winkler-foundation member. *)
From Verif Require Import Base Linalg SectionModel FlexModel LoadModel.

(** foundation.py:30-32 [characteristic_length]: (4 EI / kf)^(1/4). *)
Definition characteristic_length (EI kf : R) : R := sqrt (sqrt (4 * EI / kf)).

(** math.ceil. *)
Definition Zceil (x : R) : Z := (- Int_part (- x))%Z.

(** foundation.py:35-49 [auto_subdivisions] with the default arguments. *)
Definition auto_subdivisions (L EI kf : R) : nat :=
  let n := Zceil (8 * L / characteristic_length EI kf) in
  Z.to_nat (Z.min (Z.max n 8) 400).

(** foundation.py:52-63 [_k_ebeam]. *)
Definition k_ebeam (EI L : R) : mat :=
  let L2 := L * L in let L3 := L2 * L in
  mat4 (vec4 (EI * (12/L3)) (EI * (6/L2)) (EI * (-12/L3)) (EI * (6/L2)))
       (vec4 (EI * (6/L2)) (EI * (4/L)) (EI * (-6/L2)) (EI * (2/L)))
       (vec4 (EI * (-12/L3)) (EI * (-6/L2)) (EI * (12/L3)) (EI * (-6/L2)))
       (vec4 (EI * (6/L2)) (EI * (2/L)) (EI * (-6/L2)) (EI * (4/L))).

(** foundation.py:66-76 [_k_found]. *)
Definition k_found (kf L : R) : mat :=
  let L2 := L * L in let s := kf * L / 420 in
  mat4 (vec4 (s * 156) (s * (22*L)) (s * 54) (s * (-13*L)))
       (vec4 (s * (22*L)) (s * (4*L2)) (s * (13*L)) (s * (-3*L2)))
       (vec4 (s * 54) (s * (13*L)) (s * 156) (s * (-22*L)))
       (vec4 (s * (-13*L)) (s * (-3*L2)) (s * (-22*L)) (s * (4*L2))).

(** Chain assembly (foundation.py:143-147, and the same slices in analysis.py:672-676):
    add element matrix [ke e] at offset [2 e] for e = 0..n-1. *)
Fixpoint assemble_chain (ke : nat -> mat) (n : nat) : mat :=
  match n with
  | O => fun _ _ => 0
  | S e => fun i j =>
      assemble_chain ke e i j +
      (if (Nat.leb (2*e) i && Nat.ltb i (2*e+4) && Nat.leb (2*e) j && Nat.ltb j (2*e+4))%bool
       then ke e (i - 2*e)%nat (j - 2*e)%nat else 0)
  end.

(** Likewise for vectors (foundation.py:196, analysis.py:603-611). *)
Fixpoint assemble_vec (fe : nat -> vec) (n : nat) : vec :=
  match n with
  | O => fun _ => 0
  | S e => fun i =>
      assemble_vec fe e i +
      (if (Nat.leb (2*e) i && Nat.ltb i (2*e+4))%bool then fe e (i - 2*e)%nat else 0)
  end.

Record felem := { fe_L : R; fe_EI : R; fe_kf : R; fe_n : nat }.
Definition fe_h (f : felem) : R := fe_L f / INR (fe_n f).
Definition fe_ndof (f : felem) : nat := 2 * (fe_n f + 1).

(** foundation.py:143-147: mesh stiffness. *)
Definition fe_ke (f : felem) : mat :=
  fun i j => k_ebeam (fe_EI f) (fe_h f) i j + k_found (fe_kf f) (fe_h f) i j.
Definition fe_K (f : felem) : mat := assemble_chain (fun _ => fe_ke f) (fe_n f).

(** foundation.py:149-151: retained DOFs r = [0, 1, ndof-2, ndof-1]; condensed DOFs
    c = [2 .. ndof-3]. *)
Definition fe_r (f : felem) (i : nat) : nat :=
  match i with 0%nat => 0 | 1%nat => 1 | 2%nat => fe_ndof f - 2 | _ => fe_ndof f - 1 end%nat.
Definition fe_nc (f : felem) : nat := fe_ndof f - 4.
Definition fe_c (i : nat) : nat := (i + 2)%nat.

(** foundation.py:154: inverse of the condensed block (LinAlgError when singular). *)
Definition fe_Kcc_inv (f : felem) : result mat :=
  match inv (fe_nc f) (fun i j => fe_K f (fe_c i) (fe_c j)) with
  | Some B => Ok B
  | None => Err LinAlgError
  end.

(** foundation.py:152-156: condensed stiffness. *)
Definition fe_k (f : felem) : result mat :=
  do B <- fe_Kcc_inv f;
  Ok (fun i j => fe_K f (fe_r f i) (fe_r f j)
      - rsum (fe_nc f) (fun p => rsum (fe_nc f) (fun q =>
          fe_K f (fe_r f i) (fe_c q) * B q p) * fe_K f (fe_c p) (fe_r f j))).

(** foundation.py:164-166, 167-169: int() truncates; a Python index may be negative. *)
Definition trunc (x : R) : Z := if Rlt_dec x 0 then (- Int_part (- x))%Z else Int_part x.
Definition py_index (n : nat) (i : Z) : result nat :=
  if (0 <=? i)%Z then (if (i <? Z.of_nat n)%Z then Ok (Z.to_nat i) else Err IndexError)
  else if (0 <=? i + Z.of_nat n)%Z then Ok (Z.to_nat (i + Z.of_nat n)) else Err IndexError.

(** foundation.py:163-184, contribution of one load to sub-element [e]. *)
Definition sub_load (f : felem) (ld : load) (e : nat) : result (list load) :=
  let n := fe_n f in let h := fe_h f in let L := fe_L f in
  match ld with
  | LUDL w => Ok [LUDL w]
  | LPL P a =>
      let ez := Z.min (trunc (a / h)) (Z.of_nat n - 1) in
      do i <- py_index n ez;
      if Nat.eqb i e then Ok [LPL P (a - IZR ez * h)] else Ok []
  | LPUDL w a c =>
      let x0 := INR e * h in let x1 := (INR e + 1) * h in
      let lo := Rmax a x0 in let hi := Rmin (a + c) x1 in
      if Rltb (1e-12 * L) (hi - lo) then
        if isclose 1e-5 1e-8 lo x0 && isclose 1e-5 1e-8 hi x1 then Ok [LUDL w]
        else Ok [LPUDL w (lo - x0) (hi - lo)]
      else Ok []
  | _ => Err NotImplementedError
  end.

(** foundation.py:159-185 [_subelement_loads], loads of sub-element [e]. *)
Definition sub_loads (f : felem) (lds : list load) (e : nat) : result (list load) :=
  do ls <- mapM (fun ld => sub_load f ld e) lds; Ok (concat ls).

Definition cnl_vec (c : cnl) : vec := vec4 (c_Va c) (c_Ma c) (c_Vb c) (c_Mb c).

Section Gauss.
Variable gl : nat -> list (R * R).

(** Sum of the released end forces of a list of loads (foundation.py:193-195). *)
Definition sum_refs (lds : list load) (L : R) (et : nat) : result cnl :=
  foldM (fun acc ld => do c <- load_get_ref gl ld L et; Ok (cnl_add acc c)) lds cnl_zero.

(** foundation.py:187-198 [_rfull]: per-element vectors and the assembled vector. *)
Definition fe_refs (f : felem) (lds : list load) : result (list cnl) :=
  mapM (fun e => do sl <- sub_loads f lds e; sum_refs sl (fe_h f) 1) (seq 0 (fe_n f)).
Definition fe_rfull (f : felem) (lds : list load) : result vec :=
  do rs <- fe_refs f lds;
  Ok (assemble_vec (fun e => cnl_vec (nth e rs cnl_zero)) (fe_n f)).

(** foundation.py:200-203 [ref]. *)
Definition fe_ref (f : felem) (lds : list load) : result vec :=
  do Rf <- fe_rfull f lds;
  do B <- fe_Kcc_inv f;
  Ok (fun i => Rf (fe_r f i)
      - rsum (fe_nc f) (fun p => rsum (fe_nc f) (fun q =>
          fe_K f (fe_r f i) (fe_c q) * B q p) * Rf (fe_c p))).

(** foundation.py:211-217: recovered mesh displacements from the end displacements. *)
Definition fe_dmesh (f : felem) (dr : vec) (lds : list load) : result vec :=
  do Rf <- fe_rfull f lds;
  do B <- fe_Kcc_inv f;
  let rhs := fun p => - Rf (fe_c p) - rsum 4 (fun j => fe_K f (fe_c p) (fe_r f j) * dr j) in
  let dc := mulmv (fe_nc f) B rhs in
  Ok (fun g => if Nat.ltb g 2 then dr g
               else if Nat.ltb g (fe_ndof f - 2) then dc (g - 2)%nat
               else dr (g - (fe_ndof f - 4))%nat).
End Gauss.
