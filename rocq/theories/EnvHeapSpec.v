(** Specification: envelopes as plain values.  A program's variables hold values; building
    and combining append a value, [augment]/[sum] replace the value of their receiver and
    nothing else. *)
From Verif Require Import Base ResultsModel EnvelopeModel EnvHeapModel.

Definition lookup (st : list env) (p : nat) : result env :=
  match nth_error st p with Some e => Ok e | None => Err NameError end.
Definition s_merge (op : env -> env -> result env) (st : list env) (p q : nat) : list env :=
  match (do a <- lookup st p; do b <- lookup st q; op a b) with
  | Ok m => set_at st p m
  | Err _ => st
  end.
Definition s_exec (st : list env) (o : eop) : list env :=
  match o with
  | ENew vr => match env_init vr with Ok e => st ++ [e] | Err _ => st end
  | ECombine ps md => match (do es <- mapM (lookup st) ps; combine_env es md) with Ok e => st ++ [e] | Err _ => st end
  | EAugment p q => s_merge augment st p q
  | ESum p q => s_merge sum_env st p q
  end.
Definition s_run (ops : list eop) : list env := fold_left s_exec ops [].
