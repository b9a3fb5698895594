(** Independent specification of the beam constructor and of the span lookup. *)
From Coq Require Import Ascii String.
From Verif Require Import Base SectionModel LoadModel ElementModel UtilsModel UtilsSpec BeamModel.
Local Open Scope string_scope.
Open Scope R_scope.

(** Member types: FF = 1, FP = 2, PF = 3, PP = 4, by number or name. *)
Definition type_names : list (string * nat) :=
  [("FF", 1%nat); ("FP", 2%nat); ("PF", 3%nat); ("PP", 4%nat)].
Inductive type_code : etarg -> nat -> Prop :=
| tc_name s w t : In (w, t) type_names -> spells s w -> type_code (EtName s) t
| tc_num t : (1 <= t <= 4)%nat -> type_code (EtNum [Z.of_nat t]) t.

(** A section describes a member of length [L] when it has pieces and its length agrees
    within 1e-6 of max(1, |L|). *)
Definition covers (e : rigid) (L : R) : Prop :=
  match e with
  | RConst _ => True
  | RSect s => s_pieces s <> [] /\ Rabs (sect_length s - L) <= 1e-6 * Rmax 1 (Rabs L)
  end.

(** The rigidity, shear rigidity and foundation modulus of every member. *)
Definition ei_list (c : ctor) : list rigid :=
  match ct_EI c with EIAll e => repeat e (List.length (ct_L c)) | EIEach l => l end.
Definition gav_list (c : ctor) : list (option rigid) :=
  match ct_GAv c with
  | GNone => repeat None (List.length (ct_L c)) | GAll g => repeat (Some g) (List.length (ct_L c))
  | GEach l => l end.
Definition kf_list (c : ctor) : list (option R) :=
  match ct_kf c with
  | KNone => repeat None (List.length (ct_L c)) | KAll k => repeat (Some k) (List.length (ct_L c))
  | KEach l => l end.

(** The restraint vector: given as R, or as one support per node, never both. *)
Definition restraints_are (c : ctor) (r : list R) : Prop :=
  match ct_sup c, ct_R c with
  | None, Some r' => r = r'
  | Some s, None => List.length s = (List.length (ct_L c) + 1)%nat /\
      exists vs, Forall2 denotes s vs /\ r = concat (map (fun v => [fst v; snd v]) vs)
  | _, _ => False
  end.

Record valid_args (c : ctor) (r : list R) (ts : list nat) : Prop := {
  va_R : restraints_are c r;
  va_Rlen : List.length r = (2 * (List.length (ct_L c) + 1))%nat;
  va_D : match ct_D c with Some d => List.length d = List.length r | None => True end;
  va_EI : List.length (ei_list c) = List.length (ct_L c);
  va_GAv : List.length (gav_list c) = List.length (ct_L c);
  va_kf : List.length (kf_list c) = List.length (ct_L c);
  va_types : Forall2 type_code (firstn (List.length (ct_L c)) (ct_types c)) ts;
  va_sections : Forall2 covers (ei_list c) (ct_L c);
  va_shear : Forall2 (fun g L => match g with Some e => covers e L | None => True end) (gav_list c) (ct_L c) }.

(** Coordinate of node [i]: sum of the spans before it. *)
Definition node_at (b : beam) (i : nat) : R := rsum i (fun m => nth m (b_lengths b) 0).
