(** Model of src/pycba/results.py [Envelopes] as Python objects: which matrices are shared
    and which are written in place. *)
From Verif Require Import Base SectionModel LoadModel BeamModel AnalysisModel ResultsModel EnvelopeModel.
Open Scope R_scope.

(** An [Envelopes] object.  [o_val] holds the attributes that are only ever rebound (its
    own [e_Rmax], [e_Rmin] are not read); the two reaction histories are references to
    matrix objects, the only arrays that results.py writes in place (lines 558-560). *)
Record eobj := { o_val : env; o_Rmax : nat; o_Rmin : nat }.
Record heap := { h_arr : list (list (list R)); h_obj : list eobj }.
Definition heap0 : heap := {| h_arr := []; h_obj := [] |}.

Definition arr (h : heap) (a : nat) : list (list R) := nth a (h_arr h) [].
Definition set_at {A} (l : list A) (i : nat) (a : A) : list A := firstn i l ++ a :: skipn (S i) l.
Definition write_arr (h : heap) (a : nat) (m : list (list R)) : heap :=
  {| h_arr := set_at (h_arr h) a m; h_obj := h_obj h |}.
Definition alloc (h : heap) (m : list (list R)) : heap * nat :=
  ({| h_arr := h_arr h ++ [m]; h_obj := h_obj h |}, length (h_arr h)).
Definition alloc_obj (h : heap) (o : eobj) : heap * nat :=
  ({| h_arr := h_arr h; h_obj := h_obj h ++ [o] |}, length (h_obj h)).
Definition write_obj (h : heap) (p : nat) (o : eobj) : heap :=
  {| h_arr := h_arr h; h_obj := set_at (h_obj h) p o |}.

(** What a user reads from an object. *)
Definition with_history (e : env) (rmax rmin : list (list R)) : env :=
  {| e_x := e_x e; e_npts := e_npts e; e_nres := e_nres e; e_nsup := e_nsup e;
     e_Vmax := e_Vmax e; e_Vmin := e_Vmin e; e_Mmax := e_Mmax e; e_Mmin := e_Mmin e;
     e_VcoMmax := e_VcoMmax e; e_VcoMmin := e_VcoMmin e; e_McoVmax := e_McoVmax e; e_McoVmin := e_McoVmin e;
     e_Rmax := rmax; e_Rmin := rmin; e_Rmaxval := e_Rmaxval e; e_Rminval := e_Rminval e |}.
Definition read_obj (h : heap) (o : eobj) : env := with_history (o_val o) (arr h (o_Rmax o)) (arr h (o_Rmin o)).
(** A reference to no object is a NameError in the calling program. *)
Definition view (h : heap) (p : nat) : result env :=
  match nth_error (h_obj h) p with Some o => Ok (read_obj h o) | None => Err NameError end.

(** Bind the value [e] to a new object with its own matrices. *)
Definition new_obj (h : heap) (e : env) : heap * nat :=
  let '(h1, a) := alloc h (e_Rmax e) in
  let '(h2, b) := alloc h1 (e_Rmin e) in
  alloc_obj h2 {| o_val := e; o_Rmax := a; o_Rmin := b |}.

(** results.py:404-438 [__init__]. *)
Definition h_init (h : heap) (vr : list bres) : result (heap * nat) :=
  do e <- env_init vr; Ok (new_obj h e).

(** results.py:558-560: the rows of a matrix are replaced in place. *)
Fixpoint zero_rows (n : nat) (row : list R) (m : list (list R)) : list (list R) :=
  match n with O => m | S k => set_at (zero_rows k row m) k row end.

(** results.py:549-563 [zero_like]: deepcopy, then in-place writes to the copied history
    and rebinding of the other attributes. *)
Definition h_zero_like (h : heap) (p : nat) : result (heap * nat) :=
  do e <- view h p;
  let '(h1, q) := new_obj h e in
  match nth_error (h_obj h1) q with
  | None => Err NameError
  | Some o =>
      let row := zeros (e_nres e) in
      let h2 := write_arr h1 (o_Rmax o) (zero_rows (e_nsup e) row (arr h1 (o_Rmax o))) in
      let h3 := write_arr h2 (o_Rmin o) (zero_rows (e_nsup e) row (arr h2 (o_Rmin o))) in
      Ok (write_obj h3 q {| o_val := zero_like e; o_Rmax := o_Rmax o; o_Rmin := o_Rmin o |}, q)
  end.

(** results.py:652-754 [augment], [sum]: every attribute of [self] is rebound to a new array.
    An exception is raised before anything is rebound. *)
Definition h_merge (op : env -> env -> result env) (h : heap) (p q : nat) : result heap :=
  do s <- view h p;
  do e <- view h q;
  do m <- op s e;
  let '(h1, a) := alloc h (e_Rmax m) in
  let '(h2, b) := alloc h1 (e_Rmin m) in
  Ok (write_obj h2 p {| o_val := m; o_Rmax := a; o_Rmin := b |}).

(** results.py:566-615 [combine].  The operands are evaluated before the call. *)
Definition h_combine (h : heap) (ps : list nat) (md : mode) : result (heap * nat) :=
  do _ <- mapM (view h) ps;
  match ps, md with
  | [], _ => Err ValueError
  | _, MOther => Err ValueError
  | p0 :: _, _ =>
      do z <- h_zero_like h p0;
      let '(h1, out) := z in
      do h2 <- foldM (fun h q => h_merge (match md with MEnvelope => augment | _ => sum_env end) h out q) ps h1;
      Ok (h2, out)
  end.

(** A program that builds, combines and updates envelopes.  A statement that raises is
    caught by the caller and leaves no object behind (what [combine] had allocated is
    unreachable). *)
Inductive eop :=
  | ENew (vr : list bres)
  | ECombine (ps : list nat) (md : mode)
  | EAugment (p q : nat)
  | ESum (p q : nat).
Definition h_exec (h : heap) (o : eop) : heap :=
  match o with
  | ENew vr => match h_init h vr with Ok r => fst r | Err _ => h end
  | ECombine ps md => match h_combine h ps md with Ok r => fst r | Err _ => h end
  | EAugment p q => match h_merge augment h p q with Ok h' => h' | Err _ => h end
  | ESum p q => match h_merge sum_env h p q with Ok h' => h' | Err _ => h end
  end.
Definition h_run (ops : list eop) : heap := fold_left h_exec ops heap0.
