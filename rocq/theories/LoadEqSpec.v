(** Independent specification for C88: when two load matrices describe the same loading. *)
From Coq Require Import ZArith Permutation.
From Verif Require Import Base Linalg SectionModel FlexModel LoadModel ElementModel UtilsModel BeamModel AnalysisModel ResultsModel.
Open Scope R_scope.

(** A section whose changes all lie on the member. *)
Definition marks_inside (L : R) (e : rigid) : Prop :=
  match e with RConst _ => True | RSect s => Forall (fun x => 0 <= x <= L) (breakpoints s) end.

(** Member number [s] (counted from 1) has length [L] and no elastic foundation. *)
Definition free_span (b : beam) (s : Z) (L : R) : Prop := (1 <= s)%Z /\ exists m, member_at b (Z.to_nat (s - 1)) = Ok m /\
  mb_L m = L /\ 0 < L /\ mb_kf m = None /\ marks_inside L (mb_EI m) /\ (forall g, mb_GAv m = Some g -> marks_inside L g).

(** Member number [s] has length [L] and rests on an elastic foundation. *)
Definition bed_span (b : beam) (s : Z) (L : R) : Prop := (1 <= s)%Z /\ exists m kf, member_at b (Z.to_nat (s - 1)) = Ok m /\
  mb_L m = L /\ 0 < L /\ mb_kf m = Some kf.

(** One row of the load matrix and the rows that say the same. *)
Inductive says (b : beam) : row -> list row -> Prop :=
(* magnitudes of loads at the same place add up *)
| say_udl s L u v : free_span b s L -> says b (Row s 1 [u + v]) [Row s 1 [u]; Row s 1 [v]]
| say_point s L P Q a : free_span b s L -> says b (Row s 2 [P + Q; a]) [Row s 2 [P; a]; Row s 2 [Q; a]]
| say_part s L u v a c : free_span b s L -> a <= L -> says b (Row s 3 [u + v; a; c]) [Row s 3 [u; a; c]; Row s 3 [v; a; c]]
| say_moment s L M N a : free_span b s L -> says b (Row s 4 [M + N; a]) [Row s 4 [M; a]; Row s 4 [N; a]]
| say_ramp s L u1 u2 v1 v2 place : free_span b s L ->
    says b (Row s 5 (u1 + v1 :: u2 + v2 :: place)) [Row s 5 (u1 :: u2 :: place); Row s 5 (v1 :: v2 :: place)]
(* a load over the whole member, given in either way *)
| say_whole s L w : free_span b s L -> says b (Row s 1 [w]) [Row s 3 [w; 0; L]]
(* a ramp between equal values is uniform *)
| say_level s L w a c : free_span b s L -> 0 <= a -> 0 < c -> a + c <= L -> says b (Row s 3 [w; a; c]) [Row s 5 [w; w; a; c]]
(* the omitted entries of a ramp *)
| say_start s L w1 w2 : free_span b s L -> says b (Row s 5 [w1; w2]) [Row s 5 [w1; w2; 0]]
| say_extent s L w1 w2 a : free_span b s L -> says b (Row s 5 [w1; w2; a]) [Row s 5 [w1; w2; a; L - a]]
(* loads that meet end to end *)
| say_cut s L w a c d : free_span b s L -> 0 <= a -> 0 <= c -> 0 <= d -> a + c + d <= L ->
    says b (Row s 3 [w; a; c + d]) [Row s 3 [w; a; c]; Row s 3 [w; a + c; d]]
| say_cut_ramp s L w1 w2 a c d : free_span b s L -> 0 <= a -> 0 < c -> 0 < d -> a + c + d <= L ->
    let mid := w1 + (w2 - w1) * (c / (c + d)) in
    says b (Row s 5 [w1; w2; a; c + d]) [Row s 5 [w1; mid; a; c]; Row s 5 [mid; w2; a + c; d]]
(* the same on an elastic foundation *)
| say_bed_udl s L u v : bed_span b s L -> says b (Row s 1 [u + v]) [Row s 1 [u]; Row s 1 [v]]
| say_bed_point s L P Q a : bed_span b s L -> says b (Row s 2 [P + Q; a]) [Row s 2 [P; a]; Row s 2 [Q; a]]
| say_bed_part s L u v a c : bed_span b s L -> says b (Row s 3 [u + v; a; c]) [Row s 3 [u; a; c]; Row s 3 [v; a; c]]
| say_bed_whole s L w : bed_span b s L -> says b (Row s 1 [w]) [Row s 3 [w; 0; L]]
(* entries beyond those of the load type *)
| say_more_udl s w rest : says b (Row s 1 (w :: rest)) [Row s 1 [w]]
| say_more_point s P a rest : says b (Row s 2 (P :: a :: rest)) [Row s 2 [P; a]]
| say_more_part s w a c rest : says b (Row s 3 (w :: a :: c :: rest)) [Row s 3 [w; a; c]]
| say_more_moment s M a rest : says b (Row s 4 (M :: a :: rest)) [Row s 4 [M; a]].

(** Entries that a row of each type must have after the member and the type. *)
Definition needs (t : Z) : nat := if Z.eqb t 1 then 1%nat else if Z.eqb t 3 then 3%nat else 2%nat.

(** Rows that put nothing on the beam: a type that is not one of the six, or a member that does not exist. *)
Inductive idle (b : beam) : row -> Prop :=
| idle_type s t args : (t < 1 \/ 6 < t)%Z -> idle b (Row s t args)
| idle_span s t args : (s < 1 \/ Z.of_nat (b_nspans b) < s)%Z -> (1 <= t <= 5)%Z -> (needs t <= length args)%nat -> idle b (Row s t args).

Inductive same_loading (b : beam) : list row -> list row -> Prop :=
| same_order l k : Permutation l k -> same_loading b l k
| same_says r rs k : says b r rs -> same_loading b (r :: k) (rs ++ k)
| same_sym l k : same_loading b l k -> same_loading b k l
| same_trans l k j : same_loading b l k -> same_loading b k j -> same_loading b l j.
