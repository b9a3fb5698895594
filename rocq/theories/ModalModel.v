(** Model of src/pycba/modal.py: free vibration. *)
From Verif Require Import Base Linalg SectionModel FoundationModel BeamModel.
Open Scope R_scope.

(** modal.py:27-38 [_k_ebeam]: the same array as foundation.py:52-63, entry by entry. *)
Definition k_modal (EI L : R) : mat :=
  let L2 := L * L in let L3 := L2 * L in
  mat4 (vec4 (EI * (12/L3)) (EI * (6/L2)) (EI * (-12/L3)) (EI * (6/L2)))
       (vec4 (EI * (6/L2)) (EI * (4/L)) (EI * (-6/L2)) (EI * (2/L)))
       (vec4 (EI * (-12/L3)) (EI * (-6/L2)) (EI * (12/L3)) (EI * (-6/L2)))
       (vec4 (EI * (6/L2)) (EI * (2/L)) (EI * (-6/L2)) (EI * (4/L))).

(** modal.py:41-51 [_m_consistent]. *)
Definition m_consistent (m L : R) : mat :=
  let L2 := L * L in let s := m * L / 420 in
  mat4 (vec4 (s * 156) (s * (22*L)) (s * 54) (s * (-13*L)))
       (vec4 (s * (22*L)) (s * (4*L2)) (s * (13*L)) (s * (-3*L2)))
       (vec4 (s * 54) (s * (13*L)) (s * 156) (s * (-22*L)))
       (vec4 (s * (-13*L)) (s * (-3*L2)) (s * (-22*L)) (s * (4*L2))).

(** The mass argument (modal.py:203, 211): a number or one per span. *)
Inductive massarg := MScalar (m : R) | MList (l : list R).

(** modal.py:193-200 [_broadcast_mass]. *)
Definition broadcast_mass (mass : massarg) (n : nat) : result (list R) :=
  match mass with
  | MScalar m => Ok (repeat m n)
  | MList l => if Nat.eqb (length l) n then Ok l else Err ValueError
  end.

(** modal.py:223-233: the rigidity of span [i], or NotImplementedError. *)
Definition modal_span (b : beam) (i : nat) : result R :=
  do e <- get (b_EIs b) i;
  match e with
  | RSect _ => Err NotImplementedError
  | RConst EI =>
      do g <- get (b_GAv b) i;
      match g with
      | Some _ => Err NotImplementedError
      | None => do t <- get (b_types b) i; if Nat.eqb t 1 then Ok EI else Err NotImplementedError
      end
  end.

(** modal.py:242-254: sub-element [e] belongs to span [e / nseg]. *)
Definition seg_value (l : list R) (nseg e : nat) : R := nth (e / nseg) l 0.
Definition seg_h (Ls : list R) (nseg e : nat) : R := seg_value Ls nseg e / INR nseg.

(** modal.py:240, 251: node coordinates. *)
Fixpoint mesh_x (h : nat -> R) (k : nat) : R := match k with O => 0 | S k => mesh_x h k + h k end.

(** modal.py:257-267: the restraint of mesh DOF [g], if it is a DOF of a span node. *)
Definition node_restraint (Rs : list R) (nseg g : nat) : option R :=
  if Nat.eqb ((g / 2) mod nseg) 0 then nth_error Rs (2 * ((g / 2) / nseg) + g mod 2) else None.
Definition modal_fixed (Rs : list R) (nseg g : nat) : bool :=
  match node_restraint Rs nseg g with Some r => Reqb r (-1) | None => false end.
Definition modal_spring (Rs : list R) (nseg g : nat) : R :=
  match node_restraint Rs nseg g with Some r => if Reqb r (-1) then 0 else if Rltb 0 r then r else 0 | None => 0 end.

(** modal.py:238-239, 253-254, 267: the mesh matrices. *)
Definition modal_K (EIs Ls Rs : list R) (nseg n : nat) : mat := fun i j =>
  assemble_chain (fun e => k_modal (seg_value EIs nseg e) (seg_h Ls nseg e)) (n * nseg) i j
  + (if Nat.eqb i j then modal_spring Rs nseg i else 0).
Definition modal_M (ms Ls : list R) (nseg n : nat) : mat :=
  assemble_chain (fun e => m_consistent (seg_value ms nseg e) (seg_h Ls nseg e)) (n * nseg).

(** modal.py:269: the free DOFs. *)
Definition modal_free (Rs : list R) (nseg ndof : nat) : list nat := filter (fun g => negb (modal_fixed Rs nseg g)) (seq 0 ndof).
(** K[np.ix_(free, free)]. *)
Definition submatrix (A : mat) (idx : list nat) : mat := fun i j => A (nth i idx 0%nat) (nth j idx 0%nat).
(** modal.py:278-279: a column over the free DOFs placed into the full DOF set. *)
Fixpoint index_of (g : nat) (l : list nat) : option nat :=
  match l with [] => None | a :: t => if Nat.eqb a g then Some 0%nat else option_map S (index_of g t) end.
Definition place (idx : list nat) (v : vec) : vec := fun g => match index_of g idx with Some q => v q | None => 0 end.

(** modal.py:75-83: what is kept of a ModalResults (the frequencies in Hz and periods are
    functions of omega). *)
Record modal_results := { mo_omega : list R; mo_phi : list vec; mo_x : list R; mo_ndof : nat }.

Section Eigh.
(** scipy.linalg.eigh(A, B) on [n] x [n] arrays: eigenvalues and eigenvector columns, or
    LinAlgError; its contract appears as a hypothesis of the theorems. *)
Variable eigh : nat -> mat -> mat -> result (list R * list vec).

(** modal.py:203-280 [solve_modal].  [n_modes] and [nseg] are non-negative; a length divided
    by nseg = 0 raises ZeroDivisionError (line 245, Python floats). *)
Definition solve_modal (b : beam) (mass : massarg) (n_modes nseg : nat) : result modal_results :=
  let n := b_nspans b in
  do EIs <- mapM (modal_span b) (seq 0 n);
  do ms <- broadcast_mass mass n;
  let n_nodes := (n * nseg + 1)%nat in
  let ndof := (2 * n_nodes)%nat in
  do Ls <- mapM (get (b_lengths b)) (seq 0 n);
  if (Nat.eqb nseg 0 && Nat.ltb 0 n)%bool then Err ZeroDivisionError else
  do _ <- mapM (get (b_R b)) (seq 0 (2 * (n + 1)));
  let K := modal_K EIs Ls (b_R b) nseg n in
  let M := modal_M ms Ls nseg n in
  let free := modal_free (b_R b) nseg ndof in
  do r <- eigh (length free) (submatrix K free) (submatrix M free);
  let w2 := map (fun w => Rmax w 0) (fst r) in
  let omega := map sqrt w2 in
  let nm := Nat.min n_modes (length omega) in
  Ok {| mo_omega := firstn nm omega; mo_phi := map (place free) (firstn nm (snd r));
        mo_x := map (mesh_x (seg_h Ls nseg)) (seq 0 n_nodes); mo_ndof := ndof |}.
End Eigh.

(** numpy: index of the first largest entry, and the largest entry. *)
Fixpoint argmax_from (best : R) (ib i : nat) (l : list R) : nat :=
  match l with [] => ib | a :: t => if Rltb best a then argmax_from a i (S i) t else argmax_from best ib (S i) t end.
Definition argmax (l : list R) : nat := match l with [] => 0%nat | a :: t => argmax_from a 0 1 t end.

(** modal.py:85-97 [mode_shape]. *)
Definition mode_shape (r : modal_results) (mode : nat) : result (list R * list R) :=
  do phi <- get (mo_phi r) mode;
  let v := map (fun k => phi (2 * k)%nat) (seq 0 (mo_ndof r / 2)) in
  let vmax := fold_left Rmax (map Rabs v) 0 in
  let v1 := if Rltb 0 vmax then map (fun a => a / vmax) v else v in
  let v2 := if Rltb (nth (argmax (map Rabs v1)) v1 0) 0 then map (fun a => - a) v1 else v1 in
  Ok (mo_x r, v2).
