(** Model of src/pycba/utils.py (named supports, beam strings) and of the member types of
    src/pycba/types.py.  Python strings are modelled by Coq's ASCII strings: non-ASCII
    characters (and Unicode case or white space rules) are not modelled. *)
From Coq Require Import Ascii String.
From Verif Require Import Base.
Local Open Scope string_scope.
Open Scope R_scope.

(** str.isspace on ASCII: tab..carriage return, file/group/record/unit separators, space. *)
Definition is_space (c : ascii) : bool :=
  let n := nat_of_ascii c in
  (Nat.leb 9 n && Nat.leb n 13) || (Nat.leb 28 n && Nat.leb n 31) || Nat.eqb n 32.

Fixpoint lstrip (s : string) : string :=
  match s with
  | EmptyString => s
  | String c t => if is_space c then lstrip t else s
  end.
Fixpoint rstrip (s : string) : string :=
  match s with
  | EmptyString => s
  | String c t => match rstrip t with
                  | EmptyString => if is_space c then EmptyString else String c EmptyString
                  | t' => String c t'
                  end
  end.
Definition strip (s : string) : string := rstrip (lstrip s).

Definition upper_c (c : ascii) : ascii :=
  let n := nat_of_ascii c in
  if Nat.leb 97 n && Nat.leb n 122 then ascii_of_nat (n - 32) else c.
Definition lower_c (c : ascii) : ascii :=
  let n := nat_of_ascii c in
  if Nat.leb 65 n && Nat.leb n 90 then ascii_of_nat (n + 32) else c.
Fixpoint smap (f : ascii -> ascii) (s : string) : string :=
  match s with EmptyString => EmptyString | String c t => String (f c) (smap f t) end.
Definition upper := smap upper_c.
Definition lower := smap lower_c.

(** Argument of MemberType.coerce: a name, or the flattened entries of np.asarray(value)
    (a MemberType or an int is one entry).  Entries are integers: truncation of
    fractional codes by int() is not modelled. *)
Inductive etarg := EtName (s : string) | EtNum (vals : list Z).

(** types.py:38-69 [MemberType.coerce]. *)
Definition coerce (v : etarg) : result nat :=
  match v with
  | EtName s =>
      let key := upper (strip s) in
      if String.eqb key "FF" then Ok 1%nat
      else if String.eqb key "FP" then Ok 2%nat
      else if String.eqb key "PF" then Ok 3%nat
      else if String.eqb key "PP" then Ok 4%nat
      else Err ValueError
  | EtNum [z] =>
      if Z.eqb z 1 || Z.eqb z 2 || Z.eqb z 3 || Z.eqb z 4 then Ok (Z.to_nat z) else Err ValueError
  | EtNum _ => Err ValueError
  end.

(** utils.py:15-27 [_SUPPORT_DOF]. *)
Definition support_dof (key : string) : option (list R) :=
  if String.eqb key "p" || String.eqb key "pin" || String.eqb key "pinned"
     || String.eqb key "r" || String.eqb key "roller" then Some [-1; 0]
  else if String.eqb key "e" || String.eqb key "encastre" || String.eqb key "fixed"
     || String.eqb key "clamped" then Some [-1; -1]
  else if String.eqb key "f" || String.eqb key "free" then Some [0; 0]
  else None.

(** utils.py:31 [_HINGE_NAMES]. *)
Definition is_hinge (key : string) : bool := String.eqb key "h" || String.eqb key "hinge".

(** utils.py:33 [SupportType]: a name or a sequence of numbers. *)
Inductive support := SupName (s : string) | SupPair (l : list R).

(** utils.py:36-78 [_support_pair]. *)
Definition support_pair (e : support) : result (list R) :=
  match e with
  | SupName s =>
      let key := lower (strip s) in
      if is_hinge key then Err ValueError
      else match support_dof key with Some p => Ok p | None => Err ValueError end
  | SupPair l => if Nat.eqb (length l) 2 then Ok l else Err ValueError
  end.

(** utils.py:81-135 [supports_to_R]. *)
Definition supports_to_R (sup : list support) (n_nodes : option nat) : result (list R) :=
  match n_nodes with
  | Some n => if negb (Nat.eqb (length sup) n) then Err ValueError
              else do ps <- mapM support_pair sup; Ok (concat ps)
  | None => do ps <- mapM support_pair sup; Ok (concat ps)
  end.

(** utils.py:193-194, regular expression [[efhpr]] on the lower-cased string. *)
Definition is_terminal (c : ascii) : bool :=
  Ascii.eqb c "e" || Ascii.eqb c "f" || Ascii.eqb c "h" || Ascii.eqb c "p" || Ascii.eqb c "r".

(** utils.py:193: the terminals found. *)
Fixpoint terminals (s : string) : list ascii :=
  match s with
  | EmptyString => []
  | String c t => if is_terminal c then c :: terminals t else terminals t
  end.
(** utils.py:194: the positions just after each of them ([pos]: position of [s]). *)
Fixpoint term_ends (s : string) (pos : nat) : list nat :=
  match s with
  | EmptyString => []
  | String c t => if is_terminal c then S pos :: term_ends t (S pos) else term_ends t (S pos)
  end.

(** The tuple returned by parse_beam_string. *)
Record beamspec := { bs_L : list R; bs_EI : list R; bs_R : list R; bs_types : list nat }.

(** [l[i] = x]. *)
Fixpoint set_nth {A} (l : list A) (i : nat) (x : A) : list A :=
  match l, i with
  | [], _ => []
  | _ :: t, O => x :: t
  | y :: t, S j => y :: set_nth t j x
  end.

Section BeamString.
(** Python's float(str): not modelled, any partial function. *)
Variable float : string -> result R.

(** utils.py:205-208: [float(beam_string[ends[i] : ends[i+1]-1])]. *)
Fixpoint span_lengths (s : string) (ends : list nat) : result (list R) :=
  match ends with
  | a :: ((b :: _) as t) =>
      do l <- float (substring a (b - 1 - a) s);
      do ls <- span_lengths s t;
      Ok (l :: ls)
  | _ => Ok []
  end.

(** utils.py:213-221: restraints and member types, terminal [i] on. *)
Fixpoint terminal_loop (ts : list ascii) (i : nat) (R : list R) (et : list nat) : result (list Rdefinitions.R * list nat) :=
  match ts with
  | [] => Ok (R, et)
  | t :: r =>
      if Ascii.eqb t "h" then terminal_loop r (S i) (R ++ [0; 0])%list (set_nth et (i - 1) 2%nat)
      else match support_dof (String t EmptyString) with
           | Some p => terminal_loop r (S i) (R ++ p)%list et
           | None => Err KeyError
           end
  end.

(** utils.py:138-226 [parse_beam_string]. *)
Definition parse_beam_string (str : string) : result beamspec :=
  let s := lower str in
  let ts := terminals s in
  let ends := term_ends s 0 in
  if Nat.ltb (length ts) 2 then Err ValueError
  else if Ascii.eqb (hd zero ts) "h" || Ascii.eqb (last ts zero) "h" then Err ValueError
  else if Nat.ltb 2 (length ts) && existsb (fun t => Ascii.eqb t "f" || Ascii.eqb t "e") (removelast (tl ts))
       then Err ValueError
  else
    do L <- span_lengths s ends;
    if negb (Nat.eqb (length ts - 1) (length L)) then Err ValueError
    else
      do re <- terminal_loop ts 0 [] (repeat 1%nat (length L));
      Ok {| bs_L := L; bs_EI := repeat (30 * 1e10 * 1e-6) (length L); bs_R := fst re; bs_types := snd re |}.
End BeamString.
