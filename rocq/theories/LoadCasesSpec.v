(** Independent specification of load-case choices, combinations and segment loads. *)
From Coq Require Import Permutation String.
From Verif Require Import Base SectionModel LoadModel LoadSpec UtilsModel BeamModel AnalysisModel AnalysisSpec
  ResultsModel ResultsSpec LoadCasesModel.
Open Scope R_scope.

(** ** Choices of load cases *)
(** Different cases out of [N]. *)
Definition cases_of (N : nat) (js : list nat) : Prop := NoDup js /\ forall j, In j js -> (j < N)%nat.
(** Summed effect of the cases [js] at station [k] of the response matrix [B]. *)
Definition effect (B : list (list R)) (js : list nat) (k : nat) : R :=
  lsum (map (fun j => nth k (nth j B []) 0) js).

(** What numpy promises of argsort: positions of the entries in increasing order. *)
Definition sorts (argsort : list R -> list nat) : Prop :=
  forall l, Permutation (argsort l) (seq 0 (List.length l)) /\ increasing (map (fun j => nth j l 0) (argsort l)).

(** Position mask of a set of cases. *)
Definition mask_of (ps : list Z) (js : list nat) : Z := fold_right Z.lor 0%Z (map (fun j => nth j ps 0%Z) js).
Definition default_masks (N : nat) : list Z := map (fun i => 2 ^ Z.of_nat i)%Z (seq 0 N).

(** [f] gives each case one of the two factors. *)
Definition factors_among (u s : R) (N : nat) (f : list R) : Prop :=
  List.length f = N /\ forall j, (j < N)%nat -> u <= nth j f 0 <= s.

(** Linear combination of the rows of [B]. *)
Definition combines (f : list R) (B : list (list R)) (y : list R) : Prop :=
  (forall r, In r B -> List.length r = List.length y) /\
  forall k, (k < List.length y)%nat -> nth k y 0 = rsum (List.length B) (fun j => nth j f 0 * nth k (nth j B []) 0).

(** Factor of each case: its name or its position is given, otherwise zero.  Negative
    positions count from the end, as in Python; of two entries for a case the later counts. *)
Definition names_case (cs : list lcase) (k : fkey) (j : nat) : Prop :=
  match k with
  | KName s => exists c, nth_error cs j = Some c /\ lc_name c = s
  | KIdx z => z = Z.of_nat j \/ z = (Z.of_nat j - Z.of_nat (List.length cs))%Z
  end.
Definition mapped_factor (cs : list lcase) (m : list (fkey * R)) (j : nat) (v : R) : Prop :=
  (exists m1 k m2, m = (m1 ++ (k, v) :: m2)%list /\ names_case cs k j /\ forall k' v', In (k', v') m2 -> ~ names_case cs k' j)
  \/ (v = 0 /\ forall k' v', In (k', v') m -> ~ names_case cs k' j).

Definition unique_names (cs : list lcase) : Prop := NoDup (map lc_name cs).

(** Words for the two senses (any capitalisation is accepted). *)
Definition min_words : list string := ["min"; "minimum"; "neg"; "negative"; "hogging"]%string.
Definition max_words : list string := ["max"; "maximum"; "pos"; "positive"; "sagging"]%string.

(** ** Loading of the beam *)
(** Start of span [i]. *)
Definition start (Ls : list R) (i : nat) : R := lsum (firstn i Ls).
(** Intensity that the row puts on the point at [x] from the start of span [i]. *)
Definition row_intensity (Ls : list R) (i : nat) (x : R) (r : row) : R :=
  match parse_row r with
  | Ok [(s, ld)] => if Z.eqb s (Z.of_nat i) then intensity (action_of (nth i Ls 0) ld) x else 0
  | _ => 0
  end.
Definition loading (Ls : list R) (rows : list row) (i : nat) (x : R) : R :=
  lsum (map (row_intensity Ls i x) rows).

(** Tolerance of lengths in the segment loads. *)
Definition length_tol : R := 1e-9.
