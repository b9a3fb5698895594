(** Specification of what the tendon, mode, ratio and response pictures should show and of the
    axle summary. *)
From Coq Require Import String.
From Verif Require Import Base LoadModel PrestressModel PrestressSpec LoadCasesSpec.
Local Notation length := List.length.
Open Scope R_scope.

(** The stressed spans from left to right, with their profiles. *)
Definition stressed (ps : list (option profile)) : list (nat * profile) :=
  concat (map (fun q => match snd q with Some p => [(fst q, p)] | None => [] end) (combine (seq 0 (length ps)) ps)).

(** The line drawn for span [i] with profile [p]: 80 equally spaced points from its left to
    its right end, at the eccentricity of the tendon (not asked within 1e-9 after a joint of the
    profile). *)
Definition tendon_drawn (rs Ls : list R) (ip : nat * profile) (line : list (R * R)) : Prop :=
  let (i, p) := ip in
  exists L t, nth_error Ls i = Some L /\ tip_of rs i t /\ length line = 80%nat /\
    forall k, (k < 80)%nat -> let x := INR k * (L / 79) in
      exists e, nth_error line k = Some (start Ls i + x, e) /\
        (placed p L t -> (forall b, In b (breaks p L t) -> ~ (b < x <= b + 1e-9)) -> e = drape p L t x).

(** A line through the points of abscissae [x] and heights [y]. *)
Definition through (x y : list R) (line : list (R * R)) : Prop :=
  length x = length y /\ length line = length x /\ forall k, (k < length x)%nat -> nth_error line k = Some (nth k x 0, nth k y 0).

(** Weight [v] agrees with the printed [w] within the tolerance of numpy.isclose. *)
Definition agrees (v w : R) : Prop := Rabs (v - w) <= 1e-8 + 1e-5 * Rabs w.
(** The axle weights that a summary such as "3x150 + 2x120" stands for. *)
Definition expanded (gs : list (nat * R)) : list R := concat (map (fun g => repeat (snd g) (fst g)) gs).
(** The summary of [axw]. *)
Record summary (axw : list R) (gs : list (nat * R)) : Prop := {
  su_weights : Forall2 agrees axw (expanded gs);
  su_some : Forall (fun g => (1 <= fst g)%nat) gs;
  su_exact : forall g, In g gs -> In (snd g) axw;
  su_apart : forall i g h, nth_error gs i = Some g -> nth_error gs (S i) = Some h -> ~ agrees (snd h) (snd g) }.

(** The numbers at the nodes of a restraint list for [n] spans that are not both zero. *)
Definition held (rs : list R) (k : nat) : Prop := nth (2 * k) rs 0 <> 0 \/ nth (2 * k + 1) rs 0 <> 0.
(** [c] of the numbers below [n] have the property. *)
Definition count_of (n : nat) (P : nat -> Prop) (c : nat) : Prop :=
  exists l, NoDup l /\ length l = c /\ forall k, In k l <-> (k < n)%nat /\ P k.
