(** Property theorems about the pictures of sections, rigidities, reactions and vehicles (C93). *)
From Coq Require Import String ZArith.
From Verif Require Import Base SectionModel SectBuildModel SectBuildSpec SectBuildFacts SectBuildFacts2 SectBuildFacts3 VehicleModel VehicleFacts EnvelopeModel InPlotModel InPlotSpec InPlotFacts InPlotFacts2 InPlotExample.
Open Scope R_scope.
Local Notation length := List.length.
Local Open Scope list_scope.

(** C93: the picture of a section has one curve per piece, on the graph of the piece from end to
    end; where the description changes at a coordinate, a vertical line exactly when the two
    values there differ by more than 1e-9 of the first; a mark at the start and at every
    change if marks are asked for, and none otherwise.  It is drawn exactly when a segment has been accepted. *)
Theorem C93_plots : forall pf acc s n sb, history pf acc s -> ((exists v, section_plot n sb s = Ok v) <-> acc <> []).
Proof. exact plot_total. Qed.
Print Assumptions C93_plots.
Theorem C93_curves : forall pf acc s n sb v, history pf acc s -> section_plot n sb s = Ok v ->
  Forall2 (fun p c => graph_of (piece_eval p) (p_x0 p) (p_x1 p) c) (s_pieces s) (sp_curves v).
Proof. exact pieces_drawn. Qed.
Print Assumptions C93_curves.
Theorem C93_described : forall pf acc s b c lo hi f n sb v, history pf acc s -> joined 0 acc b -> In c acc -> declares c lo hi f -> section_plot n sb s = Ok v ->
  exists cv, In cv (sp_curves v) /\ graph_of f lo hi cv.
Proof. exact described_drawn. Qed.
Print Assumptions C93_described.
Theorem C93_risers : forall pf acc s b n sb v, history pf acc s -> joined 0 acc b -> section_plot n sb s = Ok v ->
  forall x y1 y2, In (x, y1, y2) (sp_risers v) <->
    exists k c1 c2, nth_error (sp_curves v) k = Some c1 /\ nth_error (sp_curves v) (S k) = Some c2 /\ last c1 (0, 0) = (x, y1) /\ hd (0, 0) c2 = (x, y2) /\ told_apart y1 y2.
Proof. exact risers_drawn. Qed.
Print Assumptions C93_risers.
Theorem C93_jumps : forall pf acc s b c1 c2 lo x hi f g n sb v, history pf acc s -> joined 0 acc b -> In c1 acc -> In c2 acc -> declares c1 lo x f -> declares c2 x hi g ->
  section_plot n sb s = Ok v -> forall y1 y2, In (x, y1, y2) (sp_risers v) <-> y1 = f x /\ y2 = g x /\ told_apart y1 y2.
Proof. exact jumps_drawn. Qed.
Print Assumptions C93_jumps.
Theorem C93_marks : forall pf acc s b n sb v, history pf acc s -> joined 0 acc b -> acc <> [] -> spaced (1e-9 * Rmax 1 b) 0 (flat_map changes acc) ->
  section_plot n sb s = Ok v -> sp_marks v = if sb then 0 :: flat_map changes acc else [].
Proof. exact marks_drawn. Qed.
Print Assumptions C93_marks.
Example C93_section_nonvacuous : forall pf, exists s v, sect_init pf demo = Ok s /\ history pf demo s /\ joined 0 demo 6 /\ section_plot 200 true s = Ok v /\ In (5, 40, 25) (sp_risers v) /\
  (forall y1 y2, ~ In (2, y1, y2) (sp_risers v)) /\ sp_marks v = [0; 2; 3; 5; 6].
Proof. exact demo_picture. Qed.

(** A beam drawn with depth: at every drawn coordinate the depth is the cube root of a rigidity
    of the beam there over the greatest drawn one, times 0.6 of the symbol size. *)
Theorem C93_depth : forall sh Ls es pts, 0 < sh -> positive_beam Ls es -> depth_profile sh Ls es = Ok (Some pts) ->
  exists top, (exists x, In (x, 6/10 * sh) pts /\ rigidity_at 0 Ls es x top) /\
    forall x h, In (x, h) pts -> exists v, rigidity_at 0 Ls es x v /\ 0 < v <= top /\ 0 < h /\ (h / (6/10 * sh)) ^ 3 = v / top.
Proof. exact depth_shown. Qed.
Print Assumptions C93_depth.
Example C93_depth_nonvacuous : positive_beam [3; 4] [RConst 8; RConst 1] /\ exists pts, depth_profile 1 [3; 4] [RConst 8; RConst 1] = Ok (Some pts) /\ In (0, 6/10) pts /\ In (7, 3/10) pts.
Proof. exact two_depths. Qed.
(** One rigidity throughout is drawn as a plain line... *)
Theorem C93_uniform : forall sh v, 0 < v -> forall Ls es, length Ls = length es -> Forall (eq (RConst v)) es -> depth_profile sh Ls es = Ok None.
Proof. exact const_profile. Qed.
Print Assumptions C93_uniform.
Example C93_uniform_nonvacuous : depth_profile 1 [3; 4] [RConst 8; RConst 8] = Ok None.
Proof. apply (C93_uniform 1 8); [lra|reflexivity|repeat constructor]. Qed.
(** ...but so is a section with a short strip of another rigidity: the samples miss it. *)
Theorem C93_plain_line_refuted : forall pf, exists s, sect_init pf strip = Ok s /\ positive_beam [40] [RSect s] /\ sect_eval s (105/10) = Ok 5 /\ sect_eval s 20 = Ok 1 /\ forall sh, depth_profile sh [40] [RSect s] = Ok None.
Proof. exact strip_flat. Qed.
Print Assumptions C93_plain_line_refuted.

(** A number on a label is the value to one part in two thousand. *)
Theorem C93_round : forall v, label_of v (round_sig v).
Proof. exact sig_near. Qed.
Print Assumptions C93_round.
(** The picture of the reactions: one straight arrow per vertical reaction at its joint, up for
    an upward one, below the beam, longer for a larger one; one curved arrow per moment,
    counter-clockwise when it is positive. *)
Theorem C93_reactions : forall node_x sh vert mom vs ms, 0 < sh -> reactions_picture node_x sh vert mom = Ok (vs, ms) ->
  Forall2 (fun p a => exists x, nth_error node_x (fst p) = Some x /\ force_arrow x (snd p) (- (17/10) * sh) a) vert vs /\
  Forall2 (fun p a => exists x, nth_error node_x (fst p) = Some x /\ turn_arrow x (snd p) a) mom ms /\
  (exists g, (forall r r', r <= r' -> g r <= g r') /\ Forall2 (fun p a => arrow_length a = g (Rabs (snd p))) vert vs).
Proof. exact reactions_shown. Qed.
Print Assumptions C93_reactions.
Example C93_reactions_nonvacuous : exists vs ms, reactions_picture [0; 4; 9] 1 [(0%nat, 10); (2%nat, -3)] [(0%nat, -7)] = Ok (vs, ms) /\ length vs = 2%nat /\ length ms = 1%nat.
Proof. exact reactions_ex. Qed.

(** The picture of a vehicle: one arrow per axle, at its coordinate, labelled with its weight,
    taller for a heavier axle. *)
Theorem C93_vehicle : forall axs axw v, vehicle_init axs axw = Ok v ->
  map (fun a => fst (fst a)) (vehicle_picture v) = v_coords v /\ map snd (vehicle_picture v) = axw /\
  (forall a, In a (vehicle_picture v) -> 4/10 <= snd (fst a) <= 1) /\
  (forall a b, In a (vehicle_picture v) -> In b (vehicle_picture v) -> Rabs (snd a) < Rabs (snd b) -> snd (fst a) < snd (fst b)).
Proof. exact vehicle_shown. Qed.
Print Assumptions C93_vehicle.
Example C93_vehicle_nonvacuous : exists v, vehicle_init [4; 6] [35; 145; 140] = Ok v /\ map snd (vehicle_picture v) = [35; 145; 140] /\ nth 1 (v_coords v) 0 = 4.
Proof. eexists. split; [reflexivity|]. split; [reflexivity|]. cbn. ring. Qed.
