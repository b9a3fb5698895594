(** Which tendon profiles are refused. *)
From Verif Require Import Base BaseFacts BeamModel PrestressModel PrestressSpec.
Open Scope R_scope.

Lemma div_ok x y : y <> 0 -> exists z, pydiv x y = Ok z.
Proof. intros H. unfold pydiv. destruct (Reqb_spec y 0); [contradiction|eauto]. Qed.
Ltac divs := repeat match goal with |- context [pydiv ?x ?y] =>
  let z := fresh "z" in let E := fresh "E" in destruct (div_ok x y) as (z & E); [|rewrite E; cbn [rbind]] end.

Lemma order_checked p L t : (match p, t with Parabola _ _ _ _ _, Some _ => False | _, _ => True end) ->
  (in_order p L t -> exists segs, segments p L t = Ok segs) /\
  (~ in_order p L t -> segments p L t = Err ValueError \/ segments p L t = Err NotImplementedError).
Proof.
  intros NT. destruct p as [el em er cl cr|el em er a b c|el em er a cl cr|el e1 e2 er a b cl cr]; cbn [segments in_order].
  - destruct t; [destruct NT|]. unfold parabola_segments, tol. cbv zeta. destruct (Rleb_spec (L - cr - cl) 1e-9) as [H|H]; split; intros O; try lra.
    + left. reflexivity.
    + unfold parabola_through. divs; try lra. eauto.
  - destruct t as [t|]; [split; [intros []|right; reflexivity]|]. unfold compound_segments. cbv zeta.
    destruct (Rltb_spec 0 a), (Rltb_spec a c), (Rltb_spec c (L - b)), (Rltb_spec (L - b) L); cbn [andb negb]; split; intros O; try lra; try (left; reflexivity).
    divs; try (apply pow_nonzero); try lra. eauto.
  - unfold harp_segments. cbv zeta. destruct (Rltb_spec cl a), (Rltb_spec a (L - cr)); cbn [andb negb]; split; intros O; try lra; try (left; reflexivity). eauto.
  - unfold double_harp_segments. cbv zeta. destruct (Rltb_spec cl a), (Rltb_spec a b), (Rltb_spec b (L - cr)); cbn [andb negb]; split; intros O; try lra; try (left; reflexivity). eauto.
Qed.

(** On a cantilever a parabola of negative length is accepted. *)
Lemma tip_unchecked : exists segs s, segments (Parabola 0 0 1 12 0) 10 (Some TipRight) = Ok segs /\ In s segs /\ sg_x2 s < sg_x1 s.
Proof.
  cbn [segments]. unfold parabola_segments. cbv zeta. destruct (div_ok (2 * (1 - 0)) ((10 - 12) ^ 2)) as (z & E); [lra|]. rewrite E. cbn [rbind].
  eexists. eexists. split; [reflexivity|]. split; [apply in_or_app; right; left; reflexivity|]. cbn. lra.
Qed.
