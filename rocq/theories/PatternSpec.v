(** The load arrangements of a beam of [N] spans: which spans carry the maximum. *)
From Coq Require Import String.
From Verif Require Import Base LoadModel LoadSpec FoundationModel UtilsModel BeamModel LoadCasesModel.
Local Open Scope list_scope.

Definition arrangements (N : nat) : list (string * (nat -> Prop)) :=
  map (fun i => ("Max hogging spans " ++ dec i ++ "-" ++ dec (i + 1), fun k => k = i \/ k = S i)%string) (seq 1 (N - 1)) ++
  [("Max odd spans", Nat.Odd); ("Max even spans", Nat.Even); ("All spans max", fun _ => True)]%string.

(** The 1-based span [k] carries the dead loads [g] and live loads [q] with the factors of
    an arrangement that puts the maximum on the spans [S]. *)
Definition carries (gmax gmin qmax qmin : R) (S : nat -> Prop) (k : nat) (g q lds : list load) : Prop :=
  (S k -> lds = map (scale_load gmax) g ++ map (scale_load qmax) q) /\
  (~ S k -> lds = map (scale_load gmin) g ++ map (scale_load qmin) q).
