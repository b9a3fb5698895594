(** Property theorems about unit systems (C47). *)
From Coq Require Import String Ascii.
From Verif Require Import Base BaseFacts UnitsModel UnitsSpec UnitsFacts.
Open Scope R_scope.
Local Open Scope string_scope.
Local Open Scope list_scope.

(** C47: a given system is returned unchanged, no argument means the default... *)
Theorem C47_given : forall d u, resolve d (USystem u) = Ok u /\ resolve d UNone = Ok d.
Proof. intros d u. split; reflexivity. Qed.
Print Assumptions C47_given.

(** ...letter case, the choice of separator and surrounding blanks do not matter... *)
Theorem C47_spelling : forall d a b, same_name a b -> resolve d (UName a) = resolve d (UName b).
Proof. exact spelling. Qed.
Print Assumptions C47_spelling.

(** ...every spelling of a documented name gives the documented units, and nothing else is
    accepted. *)
Theorem C47_named : forall d s q, named s q -> exists u, resolve d (UName s) = Ok u /\ shows u q.
Proof. exact resolves_named. Qed.
Print Assumptions C47_named.
Theorem C47_accepted : forall d s u, resolve d (UName s) = Ok u -> exists q, named s q /\ shows u q.
Proof. exact resolved_named. Qed.
Print Assumptions C47_accepted.
Theorem C47_unknown : forall d s, (forall q, ~ named s q) -> resolve d (UName s) = Err KeyError.
Proof. exact unknown_name. Qed.
Print Assumptions C47_unknown.

(** The documented names give these texts on axes and with values... *)
Theorem C47_texts : forall d s t g v, named_texts s t -> g v = "7" -> exists u, resolve d (UName s) = Ok u /\
  t = [moment_axis u; shear_axis u; deflection_axis u; distance_axis u; fmt_distributed g u v None; fmt_moment g u v; fmt_force g u v].
Proof. exact named_show. Qed.
Print Assumptions C47_texts.
(** ...and any system, also one's own, labels with its units and not at all without. *)
Theorem C47_labels : forall g u what v w,
  with_label " (" ")" "Bending Moment" (us_moment u) (moment_axis u) /\ with_label " (" ")" "Shear Force" (us_force u) (shear_axis u) /\
  with_label " (" ")" "Deflection" (us_disp_label u) (deflection_axis u) /\ with_label " (" ")" "Distance along beam" (us_length u) (distance_axis u) /\
  with_label " (" ")" what (us_length u) (length_axis u what) /\
  with_label " " "" (g v) (us_force u) (fmt_force g u v) /\ with_label " " "" (g v) (us_moment u) (fmt_moment g u v) /\
  with_label " " "" (g v) (us_distributed u) (fmt_distributed g u v None) /\ with_label " " "" (g v) (us_distributed u) (fmt_distributed g u v (Some v)) /\
  (w <> v -> with_label " " "" (g v ++ "→" ++ g w)%string (us_distributed u) (fmt_distributed g u v (Some w))).
Proof. exact labels. Qed.
Print Assumptions C47_labels.
Example C47_texts_nonvacuous : exists t, named_texts " us_IN" t /\ nth_error t 0 = Some "Bending Moment (kip·in)".
Proof.
  eexists ["Bending Moment (kip·in)"; _; _; _; _; _; _]. split; [|reflexivity]. exists ["US-in"; "kip-in"], "US-in". split; [do 3 right; left; reflexivity|]. split; [left; reflexivity|].
  apply same_name_norm. vm_compute. reflexivity.
Qed.

Example C47_named_nonvacuous : same_name "  Us_CUSTOMARY" "us-customary" /\ named "  Us_CUSTOMARY" ("kip", "ft", "in", 12) /\
  (forall q, ~ named "furlong" q) /\ (forall q, ~ named "kn - m" q).
Proof.
  assert (S : same_name "  Us_CUSTOMARY" "us-customary") by (apply same_name_norm; vm_compute; reflexivity).
  split; [exact S|]. split.
  - eexists. exists "US-customary". split; [right; right; left; reflexivity|]. split; [do 3 right; left; reflexivity|].
    apply same_name_norm. vm_compute. reflexivity.
  - split; intros q (names & name & H1 & H2 & H3); apply same_name_norm in H3;
      destruct (documented_ok _ _ _ H1 H2) as (u & E & _); rewrite <- H3 in E; vm_compute in E; discriminate.
Qed.

(** [set_units] makes the resolved system the default; if it raises, the default stays... *)
Theorem C47_set : forall d a d' r, set_units d a = (d', r) ->
  match r with Ok u => d' = u /\ resolve d a = Ok u | Err e => d' = d /\ resolve d a = Err e end.
Proof. exact set_then. Qed.
Print Assumptions C47_set.

(** ...so after any sequence of calls the default is the system set last, SI if none was. *)
Theorem C47_history : forall cs, let (d, rs) := units_run SI cs in
  d = current SI cs rs /\ resolve d UNone = Ok d /\ get_units d = d.
Proof. exact history. Qed.
Print Assumptions C47_history.

Example C47_history_nonvacuous : forall u, exists rs,
  units_run SI [CSet (UName "US ft"); CSet (UName "furlong"); CResolve (USystem u); CGet] = (US_KIP_FT, rs) /\
  nth_error rs 1 = Some (Err KeyError) /\ nth_error rs 3 = Some (Ok US_KIP_FT).
Proof. intros u. eexists. split; [vm_compute; reflexivity|]. split; reflexivity. Qed.
