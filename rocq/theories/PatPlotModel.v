(** Model of src/pycba/load_cases.py: the bars drawn by [plot_load_patterns]. *)
From Coq Require Import ZArith String.
From Verif Require Import Base LoadModel LoadCasesModel.
Open Scope R_scope.
Local Notation length := List.length.

(** What the plot is given as one load case (load_cases.py:759-763, 774-787): a load matrix (no
    name, no spans) or an object with a name, loads and, possibly empty, [loaded_spans]. *)
Record pcase := { pc_name : option string; pc_loads : list row; pc_spans : list Z }.

(** load_cases.py:799-828: the bar of one row.  [np.diff] of the boundaries is the list of
    lengths, exactly in real arithmetic. *)
Definition row_bar (Ls : list R) (r : row) : result (list (R * R)) :=
  match r with
  | RowNotList => Err TypeError
  | RowShort => Ok []
  | Row s t args =>
      let i := (s - 1)%Z in
      if (Z.ltb i 0 || Z.leb (Z.of_nat (length Ls)) i)%bool then Ok []
      else
        let L := nth (Z.to_nat i) Ls 0 in
        let ac := if (Z.eqb t 1 || (Z.eqb t 5 && Nat.leb (length args) 2))%bool then Some (0, L)
                  else if (Z.eqb t 3 && Nat.leb 3 (length args))%bool then Some (nth 1 args 0, nth 2 args 0)
                  else if (Z.eqb t 5 && Nat.leb 4 (length args))%bool then Some (nth 2 args 0, nth 3 args 0)
                  else None in
        match ac with
        | None => Ok []
        | Some (a, c) =>
            let a := Rmax 0 (Rmin a L) in
            let c := Rmax 0 (Rmin c (L - a)) in
            Ok (if Rltb 0 c then [(nth (Z.to_nat i) (boundaries Ls) 0 + a, c)] else [])
        end
  end.

(** Python's sorted(set(...)) of integers. *)
Fixpoint insert_Z (z : Z) (l : list Z) : list Z :=
  match l with
  | [] => [z]
  | y :: t => if Z.ltb z y then z :: l else if Z.eqb z y then l else y :: insert_Z z t
  end.
Definition sorted_Z (l : list Z) : list Z := fold_right insert_Z [] l.
(** load_cases.py:774-787 [_load_case_loaded_spans].  A row with fewer than two entries is taken
    to be empty (a row of one entry, its span, is not modelled). *)
Definition loaded_spans (c : pcase) : list Z :=
  match pc_spans c with
  | _ :: _ => pc_spans c
  | [] => sorted_Z (flat_map (fun r => match r with Row s _ _ => [(s - 1)%Z] | _ => [] end) (pc_loads c))
  end.

(** load_cases.py:794-834 [_load_case_loaded_regions]: starts and lengths. *)
Definition loaded_regions (Ls : list R) (c : pcase) : result (list (R * R)) :=
  do rs <- mapM (row_bar Ls) (pc_loads c);
  match concat rs with
  | [] => Ok (map (fun i => (nth (Z.to_nat i) (boundaries Ls) 0, nth (Z.to_nat i) Ls 0))
                (filter (fun i => (Z.leb 0 i && Z.ltb i (Z.of_nat (length Ls)))%bool) (loaded_spans c)))
  | bars => Ok bars
  end.

(** load_cases.py:1281-1334 [plot_load_patterns]: per case its label (759-763), the bars of the
    spans and the bars of the load, from top to bottom. *)
Definition case_label (c : pcase) (j : nat) : string :=
  match pc_name c with Some s => s | None => ("LC " ++ dec (j + 1))%string end.
Definition pattern_rows (Ls : list R) (cs : list pcase) : result (list (string * list (R * R) * list (R * R))) :=
  mapM (fun p => do bars <- loaded_regions Ls (snd p);
                 Ok (case_label (snd p) (fst p), map (fun i => (nth i (boundaries Ls) 0, nth i Ls 0)) (seq 0 (length Ls)), bars))
    (combine (seq 0 (length cs)) cs).
