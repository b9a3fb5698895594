(** Model of the flexibility integration of src/pycba/beam.py:1050-1171. *)
From Verif Require Import Base SectionModel.

(** 2x2 matrix by entries (row major). *)
Record m22 := { m00 : R; m01 : R; m10 : R; m11 : R }.

(** numpy.linalg.inv on a 2x2 matrix (exact; LinAlgError when singular). *)
Definition inv22 (F : m22) : result m22 :=
  let det := m00 F * m11 F - m01 F * m10 F in
  if Req_EM_T det 0 then Err LinAlgError
  else Ok {| m00 := m11 F / det; m01 := - m01 F / det;
             m10 := - m10 F / det; m11 := m00 F / det |}.

Section Gauss.
(** numpy.polynomial.legendre.leggauss(n): list of (node, weight) pairs on [-1,1]. *)
Variable leggauss : nat -> list (R * R).

(** beam.py:1087-1093: nodes and weights of one piece mapped onto [x0,x1]. *)
Definition piece_nodes (p : piece) : list (R * R) :=
  let a := p_x0 p in let b := p_x1 p in
  let n := match p_degree p with O => 2%nat | d => Nat.max (2 * d + 8) 16 end in
  map (fun xw => (1/2 * (b - a) * (fst xw + 1) + a, 1/2 * (b - a) * snd xw)) (leggauss n).

(** beam.py:1050-1094 [_gauss_nodes]; np.concatenate([]) raises ValueError. *)
Definition gauss_nodes (s : sect) : result (list (R * R)) :=
  match s_pieces s with
  | [] => Err ValueError
  | ps => Ok (concat (map piece_nodes ps))
  end.

(** np.sum(w * g(x)) over nodes where g may fail to evaluate. *)
Definition qsum (g : R -> result R) (nodes : list (R * R)) : result R :=
  do vs <- mapM (fun xw => do v <- g (fst xw); Ok (snd xw * v)) nodes;
  Ok (lsum vs).

(** beam.py:1096-1149 [_flexibility]. *)
Definition flexibility (EI : sect) (L : R) : result m22 :=
  do nd <- gauss_nodes EI;
  do f00 <- qsum (fun x => do e <- sect_eval EI x; Ok ((1 - x / L) * (1 - x / L) / e)) nd;
  do f01 <- qsum (fun x => do e <- sect_eval EI x; Ok ((1 - x / L) * (- x / L) / e)) nd;
  do f11 <- qsum (fun x => do e <- sect_eval EI x; Ok ((- x / L) * (- x / L) / e)) nd;
  Ok {| m00 := f00; m01 := f01; m10 := f01; m11 := f11 |}.

(** beam.py:1151-1171 [k_theta]. *)
Definition k_theta (EI : sect) (L : R) : result m22 :=
  do F <- flexibility EI L; inv22 F.

(** beam.py:1330-1363 [_shear_flexibility]. *)
Definition shear_flexibility (GAv : rigid) (L : R) : result R :=
  do integral <-
    match GAv with
    | RSect s => do nd <- gauss_nodes s;
                 qsum (fun x => do g <- sect_eval s x; Ok (1 / g)) nd
    | RConst g => Ok (L / g)
    end;
  Ok (integral / (L * L)).

(** beam.py:1365-1402 [_timo_flexibility]. *)
Definition timo_flexibility (EI GAv : rigid) (L : R) : result m22 :=
  do F <- match EI with
          | RSect s => flexibility s L
          | RConst e => Ok {| m00 := L / (3 * e); m01 := - L / (6 * e);
                              m10 := - L / (6 * e); m11 := L / (3 * e) |}
          end;
  do sh <- shear_flexibility GAv L;
  Ok {| m00 := m00 F + sh; m01 := m01 F + sh; m10 := m10 F + sh; m11 := m11 F + sh |}.
End Gauss.
