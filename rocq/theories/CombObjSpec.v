(** Independent specification of programs with load combinations. *)
From Coq Require Import String.
From Verif Require Import Base Linalg SectionModel LoadModel UtilsModel BeamModel AnalysisModel ResultsModel LoadCasesModel LoadCasesSpec CombObjModel.
Open Scope R_scope.
Local Notation length := List.length.
Local Open Scope list_scope.

Definition coll_is (st : prog) (h : nat) (c : collection) : Prop := nth_error (pg_colls st) h = Some c.
Definition comb_is (st : prog) (j : nat) (cb : combination) : Prop := nth_error (pg_combs st) j = Some cb.

(** The call is made to add or change loads of collection [h]. *)
Definition edits_coll (k : pcall) (h : nat) : Prop :=
  match k with PAdd h' _ _ | PSet h' _ _ | PLoad h' _ _ => h' = h | _ => False end.

(** Every method of the combination, called without a collection, raises. *)
Definition all_raise (gl : nat -> list (R * R)) (ill : nat -> mat -> bool) (st : prog) (cb : combination) : Prop :=
  (exists e, cb_vector st cb None = Err e) /\ (exists e, cb_to_LM st cb None = Err e) /\ (exists e, cb_to_case st cb None = Err e) /\
  (forall resp, exists e, cb_response gl ill st cb None resp = Err e) /\
  forall npts, (exists e, cb_analyze gl ill st cb None npts = Err e) /\ (exists e, cb_envelope gl ill st cb None npts = Err e).

(** Nothing between the factors [unsel] and [sel] gives, at [x], more (for the maximum; less
    for the minimum) than this combination, on the cases the collection has now. *)
Definition best (gl : nat -> list (R * R)) (ill : nat -> mat -> bool) (minimum : bool) (st : prog) (cb : combination) (c : collection) (x : R) (resp : string) (sel unsel : R) : Prop :=
  exists xs y, cb_response gl ill st cb None resp = Ok (xs, F1 y) /\
  forall f, factors_among unsel sel (length (cl_cases c)) f -> exists z, lcs_combine gl ill (cl_beam c) (cl_cases c) (FSeq f) resp = Ok (xs, F1 z) /\
    if minimum then read_at x xs y <= read_at x xs z else read_at x xs z <= read_at x xs y.

(** The number of stations asked for: the argument, else that of the template. *)
Definition used (t : template) (npts : option nat) : option nat := match npts with Some n => Some n | None => t_npts t end.

(** The first case called [name] is changed as [f] says and the others stay; when there is
    none, [new] comes last. *)
Definition edited (name : string) (f : lcase -> lcase -> Prop) (new : lcase) (cs cs' : list lcase) : Prop :=
  (exists l1 k k' l2, cs = l1 ++ k :: l2 /\ cs' = l1 ++ k' :: l2 /\ lc_name k = name /\ (forall d, In d l1 -> lc_name d <> name) /\ f k k') \/
  ((forall d, In d cs -> lc_name d <> name) /\ cs' = cs ++ [new]).
(** A case with these loads, entered by the user (not at a position of a moving load). *)
Definition plain_case (name : string) (loads : list row) : lcase := {| lc_name := name; lc_loads := loads; lc_pos := None |}.

(** Both combinations give the same with this collection given as with that one bound. *)
Definition same_uses (gl : nat -> list (R * R)) (ill : nat -> mat -> bool) (st : prog) (cb : combination) (given : option nat) (st' : prog) (cb' : combination) (given' : option nat) : Prop :=
  cb_vector st cb given = cb_vector st' cb' given' /\ cb_to_LM st cb given = cb_to_LM st' cb' given' /\
  (forall resp, cb_response gl ill st cb given resp = cb_response gl ill st' cb' given' resp) /\
  forall npts, cb_analyze gl ill st cb given npts = cb_analyze gl ill st' cb' given' npts /\ cb_envelope gl ill st cb given npts = cb_envelope gl ill st' cb' given' npts.
