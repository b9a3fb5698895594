(** Model of the state and the mutators of src/pycba/beam.py [Beam]. *)
From Verif Require Import Base SectionModel FlexModel LoadModel FoundationModel ElementModel UtilsModel.
Open Scope R_scope.

(** beam.py:94-115, the attributes read by the analysis.  [b_LM] is a list value: sharing
    of the caller's list object is not modelled here. *)
Record beam := {
  b_lengths : list R; b_EIs : list rigid; b_GAv : list (option rigid); b_kf : list (option R);
  b_types : list nat; b_nspans : nat; b_length : R; b_terminal : list R;
  b_R : list R; b_D : list (option R); b_LM : list row; b_version : nat }.

Definition beam_empty : beam :=
  {| b_lengths := []; b_EIs := []; b_GAv := []; b_kf := []; b_types := [];
     b_nspans := 0; b_length := 0; b_terminal := [0]; b_R := []; b_D := []; b_LM := [];
     b_version := 0 |}.

Definition with_R (b : beam) (r : list R) (v : nat) : beam :=
  {| b_lengths := b_lengths b; b_EIs := b_EIs b; b_GAv := b_GAv b; b_kf := b_kf b;
     b_types := b_types b; b_nspans := b_nspans b; b_length := b_length b;
     b_terminal := b_terminal b; b_R := r; b_D := b_D b; b_LM := b_LM b; b_version := v |}.
Definition with_D (b : beam) (d : list (option R)) (v : nat) : beam :=
  {| b_lengths := b_lengths b; b_EIs := b_EIs b; b_GAv := b_GAv b; b_kf := b_kf b;
     b_types := b_types b; b_nspans := b_nspans b; b_length := b_length b;
     b_terminal := b_terminal b; b_R := b_R b; b_D := d; b_LM := b_LM b; b_version := v |}.
Definition with_LM (b : beam) (lm : list row) : beam :=
  {| b_lengths := b_lengths b; b_EIs := b_EIs b; b_GAv := b_GAv b; b_kf := b_kf b;
     b_types := b_types b; b_nspans := b_nspans b; b_length := b_length b;
     b_terminal := b_terminal b; b_R := b_R b; b_D := b_D b; b_LM := lm;
     b_version := b_version b |}.

(** beam.py:227-234: rigidities given as a section must cover the member. *)
Definition check_rigid (e : rigid) (L : R) : result unit :=
  match e with RSect s => validate_length s L | RConst _ => Ok tt end.

(** beam.py:192-243 [add_span] ([add_member] 245-288 is the same call).  Returns the new
    state and the exception raised, if any: an unknown member type raises after four of
    the lists have been extended. *)
Definition add_span (b : beam) (L : R) (EI : rigid) (et : etarg) (GAv : option rigid)
    (kf : option R) : beam * result unit :=
  match check_rigid EI L with
  | Err e => (b, Err e)
  | Ok _ =>
    match (match GAv with Some g => check_rigid g L | None => Ok tt end) with
    | Err e => (b, Err e)
    | Ok _ =>
      match coerce et with
      | Err e =>
          ({| b_lengths := b_lengths b ++ [L]; b_EIs := b_EIs b ++ [EI];
              b_GAv := b_GAv b ++ [GAv]; b_kf := b_kf b ++ [kf]; b_types := b_types b;
              b_nspans := b_nspans b; b_length := b_length b; b_terminal := b_terminal b;
              b_R := b_R b; b_D := b_D b; b_LM := b_LM b; b_version := b_version b |}, Err e)
      | Ok t =>
          ({| b_lengths := b_lengths b ++ [L]; b_EIs := b_EIs b ++ [EI];
              b_GAv := b_GAv b ++ [GAv]; b_kf := b_kf b ++ [kf]; b_types := b_types b ++ [t];
              b_nspans := length (b_lengths b ++ [L]); b_length := b_length b + L;
              b_terminal := b_terminal b ++ [last (b_terminal b) 0 + L];
              b_R := b_R b; b_D := b_D b; b_LM := b_LM b; b_version := S (b_version b) |}, Ok tt)
      end
    end
  end.

(** Rigidity arguments: one for all spans, or one per span (beam.py:120-135).  A missing
    EI (None) is not modelled. *)
Inductive ei_arg := EIAll (e : rigid) | EIEach (l : list rigid).
Inductive gav_arg := GNone | GAll (g : rigid) | GEach (l : list (option rigid)).
Inductive kf_arg := KNone | KAll (k : R) | KEach (l : list (option R)).

(** beam.py:156-172 [_broadcast_GAv]. *)
Definition broadcast_GAv (g : gav_arg) (n : nat) : result (list (option rigid)) :=
  match g with
  | GNone => Ok (repeat None n)
  | GAll r => Ok (repeat (Some r) n)
  | GEach l => if negb (Nat.eqb (length l) n) then Err ValueError else Ok l
  end.

(** beam.py:175-190 [_broadcast_kf]. *)
Definition broadcast_kf (k : kf_arg) (n : nat) : result (list (option R)) :=
  match k with
  | KNone => Ok (repeat None n)
  | KAll x => Ok (repeat (Some x) n)
  | KEach l => if negb (Nat.eqb (length l) n) then Err ValueError else Ok l
  end.

(** Python's zip of four sequences: stops at the shortest. *)
Fixpoint zip5 (L : list R) (E : list rigid) (T : list etarg) (G : list (option rigid))
    (K : list (option R)) : list (R * rigid * etarg * option rigid * option R) :=
  match L, E, T, G, K with
  | l :: L', e :: E', t :: T', g :: G', k :: K' => (l, e, t, g, k) :: zip5 L' E' T' G' K'
  | _, _, _, _, _ => []
  end.

Definition add_spans (b : beam) (xs : list (R * rigid * etarg * option rigid * option R)) : result beam :=
  foldM (fun b x => match x with (l, e, t, g, k) =>
           match add_span b l e t g k with
           | (b', Ok _) => Ok b'
           | (_, Err e) => Err e
           end end) xs b.

(** Constructor arguments of Beam (beam.py:28-39). *)
Record ctor := {
  ct_L : list R; ct_EI : ei_arg; ct_R : option (list R); ct_LM : option (list row);
  ct_types : list etarg; ct_D : option (list (option R)); ct_sup : option (list support);
  ct_GAv : gav_arg; ct_kf : kf_arg }.

(** beam.py:117-124: the restraint vector, from [supports] or from [R]. *)
Definition ctor_R (c : ctor) : result (option (list R)) :=
  match ct_sup c with
  | Some s => match ct_R c with
              | Some _ => Err ValueError
              | None => do r <- supports_to_R s (Some (length (ct_L c) + 1)%nat); Ok (Some r)
              end
  | None => Ok (ct_R c)
  end.

(** beam.py:94-153 [Beam.__init__] with L and eletype given (BeamAnalysis always gives
    both). *)
Definition beam_init (c : ctor) : result beam :=
  do oR <- ctor_R c;
  do gl <- broadcast_GAv (ct_GAv c) (length (ct_L c));
  do kl <- broadcast_kf (ct_kf c) (length (ct_L c));
  do b <- match ct_EI c with
          | EIAll e => add_spans beam_empty (zip5 (ct_L c) (repeat e (length (ct_L c))) (ct_types c) gl kl)
          | EIEach es =>
              if Nat.eqb (length (ct_L c)) (length es)
              then add_spans beam_empty (zip5 (ct_L c) es (ct_types c) gl kl)
              else Err ValueError
          end;
  do r <- match oR with None => Err ValueError | Some r => Ok r end;
  if negb (Nat.eqb (length r) (2 * length (ct_L c) + 2)) then Err ValueError
  else
    do d <- match ct_D c with
            | Some d => if negb (Nat.eqb (length d) (length r)) then Err ValueError else Ok d
            | None => Ok (repeat None (length r))
            end;
    Ok (with_LM (with_D (with_R b r (b_version b)) d (b_version b))
                (match ct_LM c with Some l => l | None => [] end)).

(** beam.py:359-375: the restraints setter. *)
Definition set_restraints (b : beam) (r : list R) : beam := with_R b r (S (b_version b)).

(** beam.py:401-421: the prescribed_displacements setter. *)
Definition set_prescribed (b : beam) (d : list (option R)) : beam * result unit :=
  if negb (Nat.eqb (length d) (length (b_R b))) then (b, Err ValueError)
  else (with_D b d (S (b_version b)), Ok tt).

(** beam.py:303-323: loads setter and add_load. *)
Definition set_loads (b : beam) (lm : list row) : beam := with_LM b lm.
Definition add_load (b : beam) (r : row) : beam := with_LM b (b_LM b ++ [r]).

(** Reading the data of member [i] (beam.py:733-736, 883-886, 898). *)
Definition member_at (b : beam) (i : nat) : result member :=
  do e <- get (b_EIs b) i;
  do l <- get (b_lengths b) i;
  do t <- get (b_types b) i;
  Ok {| mb_L := l; mb_EI := e;
        mb_GAv := match nth_error (b_GAv b) i with Some g => g | None => None end;
        mb_kf := match nth_error (b_kf b) i with Some k => k | None => None end;
        mb_type := t |}.

(** beam.py:339-344 in [_set_loads]: an imposed curvature gets the rigidity of its span. *)
Definition attach_EI (b : beam) (p : Z * load) : result (Z * load) :=
  match p with
  | (s, LIC k _) =>
      do i <- py_index (length (b_EIs b)) s;
      do e <- get (b_EIs b) i;
      Ok (s, LIC k (Some e))
  | _ => Ok p
  end.

(** beam.py:325-344 [_set_loads]. *)
Definition parsed_loads (b : beam) : result (list (Z * load)) :=
  do ls <- parse_LM (b_LM b); mapM (attach_EI b) ls.

(** Loads of span [i] (load.i_span == i_span). *)
Definition loads_of (ls : list (Z * load)) (i : nat) : list load :=
  map snd (filter (fun p => Z.eqb (fst p) (Z.of_nat i)) ls).

(** beam.py:502-528 [get_local_span_coords]: index of the first terminal coordinate beyond
    [pos], minus one. *)
Fixpoint first_beyond (xs : list R) (i : Z) (pos : R) : option Z :=
  match xs with
  | [] => None
  | x :: t => if Rltb pos x then Some (i - 1)%Z else first_beyond t (i + 1) pos
  end.
Definition get_local_span_coords (b : beam) (pos : R) : result (Z * R) :=
  if Rltb pos 0 || Rltb (b_length b) pos then Ok ((-1)%Z, 0)
  else
    let isp := match first_beyond (b_terminal b) 0 pos with
               | Some i => i
               | None => (Z.of_nat (b_nspans b) - 1)%Z
               end in
    do i <- py_index (length (b_terminal b)) isp;
    do t <- get (b_terminal b) i;
    Ok (isp, pos - t).
