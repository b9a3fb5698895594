(** Model of src/pycba/results.py [Envelopes]. *)
From Verif Require Import Base SectionModel LoadModel BeamModel AnalysisModel ResultsModel.
Open Scope R_scope.

(** results.py:404-438: the attributes.  [e_Rmax], [e_Rmin]: one row per support. *)
Record env := {
  e_x : list R; e_npts : nat; e_nres : nat; e_nsup : nat;
  e_Vmax : list R; e_Vmin : list R; e_Mmax : list R; e_Mmin : list R;
  e_VcoMmax : list R; e_VcoMmin : list R; e_McoVmax : list R; e_McoVmin : list R;
  e_Rmax : list (list R); e_Rmin : list (list R); e_Rmaxval : list R; e_Rminval : list R }.

(** np.zeros. *)
Definition zeros (n : nat) : list R := repeat 0 n.

(** np.where(mask, a, b). *)
Definition where_ (mask : list bool) (a b : list R) : list R :=
  map2 (fun (m : bool) p => if m then fst p else snd p) mask (combine a b).
Definition gt_mask (a b : list R) : list bool := map2 (fun x y => Rltb y x) a b.
Definition lt_mask (a b : list R) : list bool := map2 Rltb a b.

(** results.py:473-496, one result.  Arrays of another length do not broadcast
    (ValueError; the one-station case is not modelled). *)
Record vm := {
  v_Vmax : list R; v_Vmin : list R; v_Mmax : list R; v_Mmin : list R;
  v_VcoMmax : list R; v_VcoMmin : list R; v_McoVmax : list R; v_McoVmin : list R }.
Definition vm_step (npts : nat) (s : vm) (r : bres) : result vm :=
  let V := r_V (br_all r) in let M := r_M (br_all r) in
  if negb (Nat.eqb (length V) npts) || negb (Nat.eqb (length M) npts) then Err ValueError
  else
    let m1 := gt_mask M (v_Mmax s) in
    let m2 := lt_mask M (v_Mmin s) in
    let m3 := gt_mask V (v_Vmax s) in
    let m4 := lt_mask V (v_Vmin s) in
    Ok {| v_VcoMmax := where_ m1 V (v_VcoMmax s); v_Mmax := where_ m1 M (v_Mmax s);
          v_VcoMmin := where_ m2 V (v_VcoMmin s); v_Mmin := where_ m2 M (v_Mmin s);
          v_McoVmax := where_ m3 M (v_McoVmax s); v_Vmax := where_ m3 V (v_Vmax s);
          v_McoVmin := where_ m4 M (v_McoVmin s); v_Vmin := where_ m4 V (v_Vmin s) |}.

(** results.py:440-498 [_get_envelopes_VM]. *)
Definition envelopes_VM (npts : nat) (vr : list bres) : result vm :=
  let z := zeros npts in
  foldM (vm_step npts) vr
    {| v_Vmax := z; v_Vmin := z; v_Mmax := z; v_Mmin := z;
       v_VcoMmax := z; v_VcoMmin := z; v_McoVmax := z; v_McoVmin := z |}.

(** results.py:500-528 [_get_envelope_R]: row per support, column per result.  A reaction
    vector of another length does not fit (ValueError; broadcasting of one reaction to
    several supports is not modelled). *)
Definition envelope_R (nsup : nat) (vr : list bres) : result (list (list R) * list (list R)) :=
  if negb (forallb (fun r => Nat.eqb (length (br_R r)) nsup) vr) then Err ValueError
  else Ok (map (fun i => map (fun r => Rmax 0 (nth i (br_R r) 0)) vr) (seq 0 nsup),
           map (fun i => map (fun r => Rmin 0 (nth i (br_R r) 0)) vr) (seq 0 nsup)).

(** Matrix [.max(axis=1)] and [.min(axis=1)]. *)
Definition row_max (l : list R) : R := match l with [] => 0 | a :: t => fold_left Rmax t a end.
Definition row_min (l : list R) : R := match l with [] => 0 | a :: t => fold_left Rmin t a end.

(** results.py:404-438 [__init__]. *)
Definition env_init (vr : list bres) : result env :=
  match vr with
  | [] => Err IndexError
  | r0 :: _ =>
      let npts := length (r_x (br_all r0)) in
      let nsup := length (br_R r0) in
      do v <- envelopes_VM npts vr;
      do R <- envelope_R nsup vr;
      Ok {| e_x := r_x (br_all r0); e_npts := npts; e_nres := length vr; e_nsup := nsup;
            e_Vmax := v_Vmax v; e_Vmin := v_Vmin v; e_Mmax := v_Mmax v; e_Mmin := v_Mmin v;
            e_VcoMmax := v_VcoMmax v; e_VcoMmin := v_VcoMmin v;
            e_McoVmax := v_McoVmax v; e_McoVmin := v_McoVmin v;
            e_Rmax := fst R; e_Rmin := snd R;
            e_Rmaxval := map row_max (fst R); e_Rminval := map row_min (snd R) |}
  end.

(** results.py:531-563 [zero_like].  The rows of the copied history are replaced one by
    one: the matrix keeps the shape it had. *)
Definition zero_like (e : env) : env :=
  let z := zeros (e_npts e) in
  {| e_x := e_x e; e_npts := e_npts e; e_nres := e_nres e; e_nsup := e_nsup e;
     e_Vmax := z; e_Vmin := z; e_Mmax := z; e_Mmin := z;
     e_VcoMmax := z; e_VcoMmin := z; e_McoVmax := z; e_McoVmin := z;
     e_Rmax := repeat (zeros (e_nres e)) (e_nsup e); e_Rmin := repeat (zeros (e_nres e)) (e_nsup e);
     e_Rmaxval := zeros (e_nsup e); e_Rminval := zeros (e_nsup e) |}.

(** results.py:652-708 [augment]: the new state of [self]. *)
Definition augment (s e : env) : result env :=
  if negb (Nat.eqb (e_npts s) (e_npts e)) || negb (Nat.eqb (e_nsup s) (e_nsup e)) then Err ValueError
  else
    let vmax_u := gt_mask (e_Vmax e) (e_Vmax s) in
    let vmin_u := lt_mask (e_Vmin e) (e_Vmin s) in
    let mmax_u := gt_mask (e_Mmax e) (e_Mmax s) in
    let mmin_u := lt_mask (e_Mmin e) (e_Mmin s) in
    let same := Nat.eqb (e_nres s) (e_nres e) in
    let z := repeat (zeros (e_nres s)) (e_nsup s) in
    Ok {| e_x := e_x s; e_npts := e_npts s; e_nres := e_nres s; e_nsup := e_nsup s;
          e_Vmax := map2 Rmax (e_Vmax s) (e_Vmax e); e_Vmin := map2 Rmin (e_Vmin s) (e_Vmin e);
          e_Mmax := map2 Rmax (e_Mmax s) (e_Mmax e); e_Mmin := map2 Rmin (e_Mmin s) (e_Mmin e);
          e_VcoMmax := where_ mmax_u (e_VcoMmax e) (e_VcoMmax s);
          e_VcoMmin := where_ mmin_u (e_VcoMmin e) (e_VcoMmin s);
          e_McoVmax := where_ vmax_u (e_McoVmax e) (e_McoVmax s);
          e_McoVmin := where_ vmin_u (e_McoVmin e) (e_McoVmin s);
          e_Rmaxval := map2 Rmax (e_Rmaxval s) (e_Rmaxval e);
          e_Rminval := map2 Rmin (e_Rminval s) (e_Rminval e);
          e_Rmax := if same then map2 (map2 Rmax) (e_Rmax s) (e_Rmax e) else z;
          e_Rmin := if same then map2 (map2 Rmin) (e_Rmin s) (e_Rmin e) else z |}.

(** results.py:710-754 [sum]. *)
Definition sum_env (s e : env) : result env :=
  if negb (Nat.eqb (e_npts s) (e_npts e)) || negb (Nat.eqb (e_nsup s) (e_nsup e)) then Err ValueError
  else
    let same := Nat.eqb (e_nres s) (e_nres e) in
    let z := repeat (zeros (e_nres s)) (e_nsup s) in
    Ok {| e_x := e_x s; e_npts := e_npts s; e_nres := e_nres s; e_nsup := e_nsup s;
          e_Vmax := map2 Rplus (e_Vmax s) (e_Vmax e); e_Vmin := map2 Rplus (e_Vmin s) (e_Vmin e);
          e_Mmax := map2 Rplus (e_Mmax s) (e_Mmax e); e_Mmin := map2 Rplus (e_Mmin s) (e_Mmin e);
          e_VcoMmax := e_VcoMmax s; e_VcoMmin := e_VcoMmin s;
          e_McoVmax := e_McoVmax s; e_McoVmin := e_McoVmin s;
          e_Rmaxval := map2 Rplus (e_Rmaxval s) (e_Rmaxval e);
          e_Rminval := map2 Rplus (e_Rminval s) (e_Rminval e);
          e_Rmax := if same then map2 (map2 Rplus) (e_Rmax s) (e_Rmax e) else z;
          e_Rmin := if same then map2 (map2 Rplus) (e_Rmin s) (e_Rmin e) else z |}.

(** results.py:566-615 [combine]; the mode string is one of the two or anything else. *)
Inductive mode := MEnvelope | MSum | MOther.
Definition combine_env (envs : list env) (md : mode) : result env :=
  match envs, md with
  | [], _ => Err ValueError
  | _, MOther => Err ValueError
  | e0 :: _, MEnvelope => foldM augment envs (zero_like e0)
  | e0 :: _, MSum => foldM sum_env envs (zero_like e0)
  end.

(** results.py:756-782 [__or__], [__add__]. *)
Definition env_or (a b : env) : result env := combine_env [a; b] MEnvelope.
Definition env_plus (a b : env) : result env := combine_env [a; b] MSum.
