(** Model of src/pycba/nonlinear.py: incremental plastic analysis. *)
From Coq Require Import ZArith.
From Verif Require Import Base Linalg SectionModel LoadModel FoundationModel EnvelopeModel VehicleModel BridgeModel.
Open Scope R_scope.

(** nonlinear.py:430-441 [_k_FF]. *)
Definition k_FF (EI L : R) : mat :=
  let L2 := L * L in let c := EI / (L * L * L) in
  mat4 (vec4 (c * 12) (c * (6*L)) (c * -12) (c * (6*L)))
       (vec4 (c * (6*L)) (c * (4*L2)) (c * (-6*L)) (c * (2*L2)))
       (vec4 (c * -12) (c * (-6*L)) (c * 12) (c * (-6*L)))
       (vec4 (c * (6*L)) (c * (2*L2)) (c * (-6*L)) (c * (4*L2))).
(** nonlinear.py:444-455 [_k_PF]. *)
Definition k_PF (EI L : R) : mat :=
  let L2 := L * L in let c := EI / (L * L * L) in
  mat4 (vec4 (c * 3) (c * 0) (c * -3) (c * (3*L)))
       (vec4 (c * 0) (c * 0) (c * 0) (c * 0))
       (vec4 (c * -3) (c * 0) (c * 3) (c * (-3*L)))
       (vec4 (c * (3*L)) (c * 0) (c * (-3*L)) (c * (3*L2))).
(** nonlinear.py:458-469 [_k_FP]. *)
Definition k_FP (EI L : R) : mat :=
  let L2 := L * L in let c := EI / (L * L * L) in
  mat4 (vec4 (c * 3) (c * (3*L)) (c * -3) (c * 0))
       (vec4 (c * (3*L)) (c * (3*L2)) (c * (-3*L)) (c * 0))
       (vec4 (c * -3) (c * (-3*L)) (c * 3) (c * 0))
       (vec4 (c * 0) (c * 0) (c * 0) (c * 0)).

(** nonlinear.py:511: the number of elements of a span ([mesh_size] is not zero). *)
Definition mesh_ne (L mesh_size : R) : nat := Z.to_nat (Z.max 1 (py_round (L / mesh_size))).
(** nonlinear.py:509-517: per element its length, the coordinate of its right node and the
    span; [nodes[-1]] after a span is its last node. *)
Fixpoint mesh_from (x0 : R) (i : nat) (Ls : list R) (mesh_size : R) : list (R * R * nat) :=
  match Ls with
  | [] => []
  | L :: t =>
      let ne := mesh_ne L mesh_size in
      let h := L / INR ne in
      map (fun j => (h, x0 + INR (j + 1) * h, i)) (seq 0 ne) ++ mesh_from (x0 + INR ne * h) (S i) t mesh_size
  end.
(** nonlinear.py:524, 636, 716: np.concatenate(([0.0], np.cumsum(span_L))). *)
Fixpoint cumsum (x : R) (Ls : list R) : list R := x :: match Ls with [] => [] | L :: t => cumsum (x + L) t end.
(** nonlinear.py:526, 744: the node nearest to [x]. *)
Definition nearest (coords : list R) (x : R) : nat := argmin (map (fun c => Rabs (c - x)) coords).

(** nonlinear.py:523-530: restrained DOFs. *)
Definition bc_at (coords span_R : list R) (i : nat) (x : R) : result (list nat) :=
  let mn := nearest coords x in
  do r0 <- get span_R (2 * i);
  do r1 <- get span_R (2 * i + 1);
  Ok ((if Reqb r0 (-1) then [(2 * mn)%nat] else []) ++ (if Reqb r1 (-1) then [(2 * mn + 1)%nat] else [])).
Definition mesh_bc (coords span_R supports : list R) : result (list nat) :=
  do ls <- mapM (fun i => bc_at coords span_R i (nth i supports 0)) (seq 0 (length supports));
  Ok (concat ls).

(** The arguments EI, Mp, My: a number or one entry per span. *)
Inductive narg := NScalar (r : R) | NList (l : list R).
Inductive eiargs := EIOne (e : rigid) | EIList (l : list rigid).
(** nonlinear.py:607-618: SectionEI members are refused. *)
Definition ei_numbers (a : eiargs) : result narg :=
  match a with
  | EIOne (RConst r) => Ok (NScalar r)
  | EIOne (RSect _) => Err TypeError
  | EIList l => do rs <- mapM (fun e => match e with RConst r => Ok r | RSect _ => Err TypeError end) l; Ok (NList rs)
  end.
(** nonlinear.py:620-624 [_as]. *)
Definition as_spans (a : narg) (n : nat) : list R := match a with NScalar r => repeat r n | NList l => l end.

(** nonlinear.py:598-659: what the constructor keeps. *)
Record nba := {
  nb_L : list R;           (* span_L *)
  nb_q : R;
  nb_coords : list R;      (* node_coords *)
  nb_eL : list R;          (* elem_L *)
  nb_bc : list nat;        (* bc_dofs *)
  nb_n2s : list nat;       (* node_to_span *)
  nb_EI : list R;          (* elem_EI *)
  nb_Mp : list R;          (* node_Mp *)
  nb_My : list R }.        (* node_My *)
Definition nb_nodes (a : nba) : nat := length (nb_coords a).
Definition nb_elems (a : nba) : nat := length (nb_eL a).
Definition nb_dof (a : nba) : nat := (2 * nb_nodes a)%nat.
(** nonlinear.py:600: np.sum. *)
Definition nb_total (a : nba) : R := lsum (nb_L a).
Definition nb_starts (a : nba) : list R := cumsum 0 (nb_L a).
(** nonlinear.py:642: a zero capacity gives a not-a-number in numpy; the theorems ask for
    positive capacities. *)
Definition nb_gy (a : nba) (j : nat) : R := nth j (nb_My a) 0 / nth j (nb_Mp a) 0.

(** nonlinear.py:588-659 [__init__]. *)
Definition nba_init (Ls : list R) (EI : eiargs) (span_R : list R) (Mp : narg) (My : option narg) (q mesh_size : R) : result nba :=
  let n := length Ls in
  do ei <- ei_numbers EI;
  let span_EI := as_spans ei n in
  let span_Mp := as_spans Mp n in
  let span_My := match My with None => map (fun m => m / (115/100)) span_Mp | Some m => as_spans m n end in
  let el := mesh_from 0 0 Ls mesh_size in
  let coords := 0 :: map (fun t => snd (fst t)) el in
  let eL := map (fun t => fst (fst t)) el in
  let n2s := 0%nat :: map snd el in
  do bc <- mesh_bc coords span_R (cumsum 0 Ls);
  do eEI <- mapM (get span_EI) (firstn (length eL) n2s);
  do nMp <- mapM (get span_Mp) n2s;
  do nMy <- mapM (get span_My) n2s;
  Ok {| nb_L := Ls; nb_q := q; nb_coords := coords; nb_eL := eL; nb_bc := bc; nb_n2s := n2s; nb_EI := eEI; nb_Mp := nMp; nb_My := nMy |}.

(** nonlinear.py:645-653. *)
Definition nb_ke (a : nba) (e : nat) : mat := k_FF (nth e (nb_EI a) 0) (nth e (nb_eL a) 0).
Definition nb_k1 (a : nba) (e : nat) : mat := k_PF (nth e (nb_EI a) 0) (nth e (nb_eL a) 0).
Definition nb_k2 (a : nba) (e : nat) : mat := k_FP (nth e (nb_EI a) 0) (nth e (nb_eL a) 0).

(** nonlinear.py:680-684 (and 774-778): the element stiffness for end ratios [R1], [R2]. *)
Definition nb_k (a : nba) (Re : mat) (e : nat) : mat :=
  let R1 := Re e 0%nat in let R2 := Re e 1%nat in
  if Rleb R2 R1 then fun i j => R2 * nb_ke a e i j + (R1 - R2) * nb_k2 a e i j
  else fun i j => R1 * nb_ke a e i j + (R2 - R1) * nb_k1 a e i j.
(** nonlinear.py:663-687. *)
Definition nb_assemble (a : nba) (Re : mat) : mat := assemble_chain (nb_k a Re) (nb_elems a).
Definition nb_elastic (a : nba) : mat := assemble_chain (nb_ke a) (nb_elems a).

(** nonlinear.py:689-706: rows and columns of restrained DOFs replaced by those of the unit
    matrix, one DOF after another. *)
Definition bc_matrix (bc : list nat) (K : mat) : mat :=
  fold_left (fun K d => fun i j => if Nat.eqb i d then (if Nat.eqb j d then 1 else 0) else if Nat.eqb j d then 0 else K i j) bc K.
Definition bc_vector (bc : list nat) (F : vec) : vec :=
  fold_left (fun F d => vupd F d 0) bc F.

(** nonlinear.py:736-756 [_add_point_load]. *)
Definition add_to (F : vec) (i : nat) (x : R) : vec := vupd F i (F i + x).
Definition add_point (a : nba) (F : vec) (P x : R) : vec :=
  if (Rltb x 0 || Rltb (nb_total a) x)%bool then F
  else
    let c := fun j => nth j (nb_coords a) 0 in
    let ni := nearest (nb_coords a) x in
    if Rltb (Rabs (c ni - x)) 1e-10 then add_to F (2 * ni) (- P)
    else
      let nL := if Rltb (c ni) x then ni else (ni - 1)%nat in
      let nR := (nL + 1)%nat in
      let h := c nR - c nL in
      let s := x - c nL in
      let b := h - s in
      let F := add_to F (2 * nL) (- (P * b ^ 2 * (3 * s + b) / h ^ 3)) in
      let F := add_to F (2 * nL + 1) (- (P * s * b ^ 2 / h ^ 2)) in
      let F := add_to F (2 * nR) (- (P * s ^ 2 * (s + 3 * b) / h ^ 3)) in
      add_to F (2 * nR + 1) (P * s ^ 2 * b / h ^ 2).

(** nonlinear.py:721-731: a uniform load between [xs] and [xe], lumped at the nodes. *)
Definition add_udl (a : nba) (F : vec) (w xs xe : R) : vec :=
  fold_left (fun F e =>
    if (Rleb (nth (e + 1) (nb_coords a) 0) (xs + 1e-10) || Rleb (xe - 1e-10) (nth e (nb_coords a) 0))%bool then F
    else let h := nth e (nb_eL a) 0 in
         add_to (add_to F (2 * e) (- (w * h / 2))) (2 * (e + 1)) (- (w * h / 2)))
    (seq 0 (nb_elems a)) F.

(** nonlinear.py:717-733, one row; other types are skipped.  Numpy arrays take negative
    indices from the end.  [RowNotList] stands for an entry that cannot be indexed. *)
Definition add_row (a : nba) (F : vec) (r : row) : result vec :=
  match r with
  | RowNotList => Err TypeError
  | RowShort => Err IndexError
  | Row s t args =>
      do v <- get args 0;
      if Z.eqb t 1 then
        do xs <- pyget (nb_starts a) (s - 1);
        do xe <- pyget (nb_starts a) (s - 1 + 1);
        Ok (add_udl a F v xs xe)
      else if Z.eqb t 2 then
        do xs <- pyget (nb_starts a) (s - 1);
        do p <- get args 1;
        Ok (add_point a F v (xs + p))
      else Ok F
  end.
(** nonlinear.py:710-734 [_build_force_vector]. *)
Definition force_vector (a : nba) (LM : list row) : result vec := foldM (add_row a) LM (fun _ => 0).

(** nonlinear.py:766-794: nodal moments from element end forces. *)
Definition moments_of (k : nat -> mat) (u : vec) (j : nat) : R :=
  match j with
  | O => mulmv 4 (k 0%nat) (fun i => u i) 1%nat
  | S e => mulmv 4 (k e) (fun i => u (2 * e + i)%nat) 3%nat
  end.
Definition extract_moments (a : nba) (u : vec) (Re : mat) : vec := moments_of (nb_k a Re) u.
Definition extract_elastic (a : nba) (u : vec) : vec := moments_of (nb_ke a) u.

(** nonlinear.py:50-70 [HingeEvent]. *)
Inductive ekind := InitialYield | PlasticHinge.
Record hevent := { ev_lam : R; ev_x : R; ev_node : nat; ev_kind : ekind }.

(** The arrays and sets that [_update_R] changes. *)
Record plast := { pl_gmax : vec; pl_R : mat; pl_yielded : list nat; pl_hinged : list nat; pl_events : list hevent }.
Definition mem (j : nat) (l : list nat) : bool := existsb (Nat.eqb j) l.
Definition set_end (Re : mat) (e i : nat) (v : R) : mat := fun e' i' => if (Nat.eqb e' e && Nat.eqb i' i)%bool then v else Re e' i'.

(** nonlinear.py:820-825. *)
Definition clough (q gy g : R) : R :=
  if Rleb g gy then 1 else if Rleb 1 g then q else 1 - (g - gy) / (1 - gy) * (1 - q).

(** nonlinear.py:813-839: node [j], with ratio [g]. *)
Definition update_node (a : nba) (gamma : nat -> R) (lam : R) (s : plast * bool) (j : nat) : plast * bool :=
  let p := fst s in
  let ie := (j - 1)%nat in
  let en := if Nat.ltb 0 j then 1%nat else 0%nat in
  let g := gamma j in
  let gy := nb_gy a j in
  let gR := if Rleb (pl_gmax p j) g
            then (vupd (pl_gmax p) j g, set_end (pl_R p) ie en (clough (nb_q a) gy g))
            else (pl_gmax p, set_end (pl_R p) ie en 1) in
  let x := nth j (nb_coords a) 0 in
  let y := (Rleb gy g && negb (mem j (pl_yielded p)))%bool in
  let h := (Rleb 1 g && negb (mem j (pl_hinged p)))%bool in
  ({| pl_gmax := fst gR; pl_R := snd gR;
      pl_yielded := if y then pl_yielded p ++ [j] else pl_yielded p;
      pl_hinged := if h then pl_hinged p ++ [j] else pl_hinged p;
      pl_events := pl_events p
        ++ (if y then [{| ev_lam := lam; ev_x := x; ev_node := j; ev_kind := InitialYield |}] else [])
        ++ (if h then [{| ev_lam := lam; ev_x := x; ev_node := j; ev_kind := PlasticHinge |}] else []) |},
   (snd s || h)%bool).
(** nonlinear.py:798-840 [_update_R]. *)
Definition update_R (a : nba) (moments : vec) (p : plast) (lam : R) : plast * bool :=
  fold_left (update_node a (fun j => Rabs (moments j) / nth j (nb_Mp a) 0) lam) (seq 0 (nb_nodes a)) (p, false).

(** nonlinear.py:844-862 [_cluster_hinges] with the default tolerance. *)
Fixpoint insert_nat (x : nat) (l : list nat) : list nat :=
  match l with [] => [x] | y :: t => if Nat.leb x y then x :: l else y :: insert_nat x t end.
Definition sort_nat (l : list nat) : list nat := fold_right insert_nat [] l.
Fixpoint clusters (coords : list R) (tol : R) (cur : list nat) (l : list nat) : list (list nat) :=
  match l with
  | [] => [cur]
  | n :: t => if Rleb (nth n coords 0 - nth (last cur 0%nat) coords 0) tol then clusters coords tol (cur ++ [n]) t
              else cur :: clusters coords tol [n] t
  end.
Definition cluster_hinges (a : nba) (hinged : list nat) : list nat :=
  match sort_nat hinged with
  | [] => []
  | n :: t => map (fun c => nth (length c / 2) c 0%nat) (clusters (nb_coords a) (2 * row_min (nb_eL a)) [n] t)
  end.

(** nonlinear.py:874-879. *)
Definition test_R (a : nba) (reps : list nat) : mat :=
  fold_left (fun Re j =>
    let Re := if Nat.ltb 0 j then set_end Re (j - 1) 1 0 else Re in
    if Nat.ltb j (nb_elems a) then set_end Re j 0 0 else Re) reps (fun _ _ => 1).

(** The part of a NonlinearResult (nonlinear.py:73-111) that the analysis computes; the
    remaining attributes are copies of constructor data. *)
Record nlresult := { nr_lambda : R; nr_collapsed : bool; nr_events : list hevent; nr_moments : vec; nr_R : mat;
  nr_lam_hist : list R; nr_mom_hist : list vec; nr_u : vec }.

Record nlstate := { ns_lam : R; ns_step : nat; ns_p : plast; ns_M : vec; ns_u : vec; ns_lh : list R; ns_mh : list vec }.
Definition plast0 : plast := {| pl_gmax := fun _ => 0; pl_R := fun _ _ => 1; pl_yielded := []; pl_hinged := []; pl_events := [] |}.
Definition nlstate0 : nlstate := {| ns_lam := 0; ns_step := 0; ns_p := plast0; ns_M := fun _ => 0; ns_u := fun _ => 0; ns_lh := []; ns_mh := [] |}.
Definition finish (s : nlstate) (lam : R) (collapsed : bool) : nlresult :=
  {| nr_lambda := lam; nr_collapsed := collapsed; nr_events := pl_events (ns_p s); nr_moments := ns_M s; nr_R := pl_R (ns_p s);
     nr_lam_hist := ns_lh s; nr_mom_hist := ns_mh s; nr_u := ns_u s |}.

(** nonlinear.py:924: R_elem.min(). *)
Definition Rmin_all (a : nba) (Re : mat) : R := row_min (concat (map (fun e => [Re e 0%nat; Re e 1%nat]) (seq 0 (nb_elems a)))).
(** nonlinear.py:925-926. *)
Definition increment (Rmn lambda_max lam : R) : R :=
  let dl := if Rltb (1/2) Rmn then 1/10 else if Rltb (1/4) Rmn then 1/100 else 1/1000 in
  Rmin dl (lambda_max - lam).

Section Rank.
(** nonlinear.py:882: np.linalg.matrix_rank(K, tol=1e-6) < n, by singular values; any function
    here, its contract appears as a hypothesis where it matters. *)
Variable rank_deficient : nat -> mat -> bool.

(** nonlinear.py:864-882 [_is_mechanism]. *)
Definition is_mechanism (a : nba) (hinged : list nat) : bool :=
  let reps := cluster_hinges a hinged in
  if Nat.ltb (length reps) 2 then false
  else rank_deficient (nb_dof a) (bc_matrix (nb_bc a) (nb_assemble a (test_R a reps))).

(** nonlinear.py:924-970: one pass of the loop body; [inl]: the state goes on, [inr]: the
    function returned. *)
Definition increment_step (a : nba) (F : vec) (lambda_max : R) (record_every : nat) (s : nlstate) : nlstate + nlresult :=
  let Re := pl_R (ns_p s) in
  let dl := increment (Rmin_all a Re) lambda_max (ns_lam s) in
  let lam := ns_lam s + dl in
  let step := S (ns_step s) in
  match solve (nb_dof a) (bc_matrix (nb_bc a) (nb_assemble a Re)) (bc_vector (nb_bc a) (fun i => dl * F i)) with
  | None => inr (finish s (lam - dl) true)
  | Some u =>
      let M := fun j => ns_M s j + extract_moments a u Re j in
      let up := update_R a M (ns_p s) lam in
      let s1 := {| ns_lam := lam; ns_step := step; ns_p := fst up; ns_M := M; ns_u := fun i => ns_u s i + u i; ns_lh := ns_lh s; ns_mh := ns_mh s |} in
      if (snd up && is_mechanism a (pl_hinged (fst up)))%bool then inr (finish s1 lam true)
      else inl (if (Nat.ltb 0 record_every && Nat.eqb (step mod record_every) 0)%bool
                then {| ns_lam := lam; ns_step := step; ns_p := fst up; ns_M := M; ns_u := ns_u s1; ns_lh := ns_lh s ++ [lam]; ns_mh := ns_mh s ++ [M] |}
                else s1)
  end.
(** nonlinear.py:923: [while lam < lambda_max and step < max_steps]; [fuel] is
    [max_steps - step]. *)
Fixpoint increments (a : nba) (F : vec) (lambda_max : R) (record_every fuel : nat) (s : nlstate) : nlresult :=
  match fuel with
  | O => finish s (ns_lam s) false
  | S fuel =>
      if Rltb (ns_lam s) lambda_max then
        match increment_step a F lambda_max record_every s with
        | inl s' => increments a F lambda_max record_every fuel s'
        | inr r => r
        end
      else finish s (ns_lam s) false
  end.
(** nonlinear.py:886-983 [analyze]; [record_every] and [max_steps] are not negative. *)
Definition nl_analyze (a : nba) (LM : list row) (lambda_max : R) (record_every max_steps : nat) : result nlresult :=
  do F <- force_vector a LM; Ok (increments a F lambda_max record_every max_steps nlstate0).

(** nonlinear.py:987-1005 [_vehicle_force_vector]. *)
Definition vehicle_forces (a : nba) (aw coords : list R) (pos : R) : vec :=
  fold_left (fun F wc => let x := pos - snd wc in if (Rleb 0 x && Rleb x (nb_total a))%bool then add_point a F (fst wc) x else F)
    (combine aw coords) (fun _ => 0).

(** nonlinear.py:1078-1102 and 1104-1136: the state moved by one sub-increment; [inr]: the
    function returned (LinAlgError caught) or raised (not caught at line 1109). *)
Record mvstate := { mv_p : plast; mv_M : vec; mv_lh : list R; mv_mh : list vec }.
Definition mr (s : mvstate) (x : R) (collapsed : bool) : nlresult :=
  {| nr_lambda := x; nr_collapsed := collapsed; nr_events := pl_events (mv_p s); nr_moments := mv_M s; nr_R := pl_R (mv_p s);
     nr_lam_hist := mv_lh s; nr_mom_hist := mv_mh s; nr_u := fun _ => 0 |}.
Definition with_pM (s : mvstate) (p : plast) (M : vec) : mvstate := {| mv_p := p; mv_M := M; mv_lh := mv_lh s; mv_mh := mv_mh s |}.
Definition reload (a : nba) (d_frac : R) (F_cur : vec) (x_front : R) (s : mvstate) : mvstate + result nlresult :=
  let p := fst (update_R a (mv_M s) (mv_p s) x_front) in
  let s1 := with_pM s p (mv_M s) in
  match solve (nb_dof a) (bc_matrix (nb_bc a) (nb_assemble a (pl_R p))) (bc_vector (nb_bc a) (fun i => d_frac * F_cur i)) with
  | None => inr (Ok (mr s1 x_front true))
  | Some u => inl (with_pM s p (fun j => mv_M s j + extract_moments a u (pl_R p) j))
  end.
Definition unload (a : nba) (d_frac : R) (F_prev : vec) (s : mvstate) : mvstate + result nlresult :=
  match solve (nb_dof a) (bc_matrix (nb_bc a) (nb_elastic a)) (bc_vector (nb_bc a) (fun i => - d_frac * F_prev i)) with
  | None => inr (Err LinAlgError)
  | Some u => inl (with_pM s (mv_p s) (fun j => mv_M s j + extract_elastic a u j))
  end.
Fixpoint iterate {A} (f : mvstate -> mvstate + A) (n : nat) (s : mvstate) : mvstate + A :=
  match n with O => inl s | S n => match f s with inl s' => iterate f n s' | inr r => inr r end end.
(** nonlinear.py:1074-1149: one position. *)
Definition move (a : nba) (d_frac : R) (n_sub : nat) (F_prev F_cur : vec) (x_front : R) (first : bool) (s : mvstate) : mvstate + result nlresult :=
  if first then iterate (reload a d_frac F_cur x_front) n_sub s
  else
    match iterate (fun s => match unload a d_frac F_prev s with inl s' => reload a d_frac F_cur x_front s' | inr r => inr r end) n_sub s with
    | inr r => inr r
    | inl s1 =>
        let up := update_R a (mv_M s1) (mv_p s1) x_front in
        let s2 := with_pM s1 (fst up) (mv_M s1) in
        if (snd up && is_mechanism a (pl_hinged (fst up)))%bool then inr (Ok (mr s2 x_front true)) else inl s2
    end.
Fixpoint moves (a : nba) (aw coords : list R) (d_frac : R) (n_sub record_every i_pos : nat) (F_prev : vec) (ps : list R) (x_last : R) (s : mvstate) : result nlresult :=
  match ps with
  | [] => Ok (mr s x_last false)
  | x :: t =>
      let F_cur := vehicle_forces a aw coords x in
      match move a d_frac n_sub F_prev F_cur x (Nat.eqb i_pos 0) s with
      | inr r => r
      | inl s1 =>
          let s2 := if (Nat.ltb 0 record_every && Nat.eqb (i_pos mod record_every) 0)%bool
                    then {| mv_p := mv_p s1; mv_M := mv_M s1; mv_lh := mv_lh s1 ++ [x]; mv_mh := mv_mh s1 ++ [mv_M s1] |} else s1 in
          moves a aw coords d_frac n_sub record_every (S i_pos) F_cur t x_last s2
      end
  end.
(** nonlinear.py:1061-1062: np.arange(0, x_end + step/2, step). *)
Definition front_positions (x_end step : R) : list R :=
  map (fun i => INR i * step) (seq 0 (Z.to_nat (Zceil ((x_end + step / 2) / step)))).
(** nonlinear.py:1009-1153 [analyze_moving] with a step that is not zero; with a negative one
    there are no positions and positions[-1] raises IndexError. *)
Inductive moving := MAxle (P : R) | MVehicle (v : vehicle) | MNone.
Definition nl_moving (a : nba) (m : moving) (step : R) (n_sub record_every : nat) : result nlresult :=
  do v <- match m with
          | MVehicle v => Ok (v_axw v, v_coords v, v_L v)
          | MAxle P => Ok ([P], [0], 0)
          | MNone => Err ValueError
          end;
  let '(aw, coords, vL) := v in
  let ps := front_positions (nb_total a + vL) step in
  if Nat.eqb n_sub 0 then Err ZeroDivisionError
  else match ps with
       | [] => Err IndexError
       | _ => moves a aw coords (1 / INR n_sub) n_sub record_every 0 (fun _ => 0) ps (last ps 0)
                {| mv_p := plast0; mv_M := fun _ => 0; mv_lh := []; mv_mh := [] |}
       end.
End Rank.
