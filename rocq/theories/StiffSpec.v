(** Independent specification of stiffening a beam and of forces at its nodes. *)
From Verif Require Import Base SectionModel LoadModel ElementModel ElementSpec UtilsModel BeamModel AnalysisModel AnalysisSpec.
Open Scope R_scope.

(** A rigidity raised: larger numbers, or the same pieces with larger values on them. *)
Definition stiffer_rigid (e e' : rigid) : Prop :=
  match e, e' with
  | RConst c, RConst c' => c <= c'
  | RSect s, RSect s' =>
      Forall2 (fun p p' => p_x0 p' = p_x0 p /\ p_x1 p' = p_x1 p /\ p_degree p' = p_degree p) (s_pieces s) (s_pieces s') /\
      forall p x v v', In p (s_pieces s) -> p_x0 p <= x <= p_x1 p -> sect_eval s x = Ok v -> sect_eval s' x = Ok v' -> v <= v'
  | _, _ => False
  end.

(** A member stiffened: rigidities raised (no shear rigidity is the stiffest), releases taken
    away. *)
Record stiffer_member (m m' : member) : Prop := {
  st_L : mb_L m' = mb_L m;
  st_type : forall i, released (mb_type m') i -> released (mb_type m) i;
  st_EI : stiffer_rigid (mb_EI m) (mb_EI m');
  st_GAv : match mb_GAv m, mb_GAv m' with
           | _, None => True
           | Some g, Some g' => stiffer_rigid g g'
           | None, Some _ => False
           end }.

(** A beam of [n] members stiffened: members, supports that are held, springs. *)
Record stiffened (b b' : beam) (n : nat) : Prop := {
  sb_members : forall m mb mb', (m < n)%nat -> member_at b m = Ok mb -> member_at b' m = Ok mb' -> stiffer_member mb mb';
  sb_held : forall i, (i < 2 * (n + 1))%nat -> held b i -> held b' i;
  sb_springs : forall i, (i < 2 * (n + 1))%nat -> ~ held b' i -> restraint b i <= restraint b' i }.

(** Downward forces at nodes, each given as a point load at the start of a span. *)
Definition node_forces (fs : list (nat * R)) : list row := map (fun f => Row (Z.of_nat (fst f) + 1) 2 [snd f; 0]) fs.

(** Rigidities described from the left end of the member on. *)
Definition from_left_end (e : rigid) : Prop :=
  match e with RConst _ => True | RSect s => Forall (fun x => 0 <= x) (breakpoints s) end.
Definition plain_member (m : member) : Prop :=
  sound_member m /\ from_left_end (mb_EI m) /\ forall g, mb_GAv m = Some g -> from_left_end g.
