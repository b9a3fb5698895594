(** Property theorems about the pictures of tendons, modes, ratios and load-case responses and
    about the short summaries (C96). *)
From Coq Require Import String.
From Verif Require Import Base SectionModel LoadModel BeamModel PrestressModel PrestressSpec PrestressFacts5 ModalModel ModalSpec ModalFacts2 ModalFacts3 EnvelopeModel BridgeModel BridgeSpec RatioFacts
  VehicleModel LoadCasesModel CollModel LoadCasesSpec MorePlotModel MorePlotSpec MorePlotFacts.
Local Notation length := List.length.
Local Open Scope list_scope.
Open Scope R_scope.

(** C96: [plot_tendon] draws the centre line, a mark at every node that is not free, for each
    stressed span the tendon in its place, and the equivalent loads... *)
Theorem C96_tendon : forall Ls rs f ps pic, plot_tendon Ls rs f ps = Ok pic ->
  tp_base pic = [(0, 0); (lsum Ls, 0)] /\
  (forall x, In x (tp_marks pic) <-> exists k, (k <= length Ls)%nat /\ x = start Ls k /\ ~ free_node rs k) /\
  Forall2 (tendon_drawn rs Ls) (stressed ps) (tp_lines pic) /\
  equivalent_loads Ls rs f ps = Ok (tp_loads pic).
Proof. exact tendon_shown. Qed.
Print Assumptions C96_tendon.
(** ...and draws them whenever the equivalent loads can be found. *)
Theorem C96_tendon_drawn : forall Ls rs f ps LM, length rs = (2 * (length Ls + 1))%nat -> equivalent_loads Ls rs f ps = Ok LM -> exists pic, plot_tendon Ls rs f ps = Ok pic.
Proof. exact tendon_total. Qed.
Print Assumptions C96_tendon_drawn.
Example C96_tendon_nonvacuous : exists pic, plot_tendon [10; 10] [-1; 0; -1; 0; -1; 0] (FScalar 5) [None; Some (Parabola 1 1 1 0 0)] = Ok pic /\
  stressed [None; Some (Parabola 1 1 1 0 0)] = [(1%nat, Parabola 1 1 1 0 0)] /\ placed (Parabola 1 1 1 0 0) 10 None /\ breaks (Parabola 1 1 1 0 0) 10 None = [].
Proof.
  destruct (C96_tendon_drawn [10; 10] [-1; 0; -1; 0; -1; 0] (FScalar 5) [None; Some (Parabola 1 1 1 0 0)] _ eq_refl unstressed_first) as (pic & E).
  exists pic. split; [exact E|]. split; [reflexivity|]. split; [apply ecc_placed|]. cbn. unfold unless0. destruct (Req_EM_T 0 0); [reflexivity|lra].
Qed.

(** [plot_modes] draws the asked modes over the mesh nodes, each in its shape and labelled with
    its number (from 1) and frequency in hertz; by default [plot_results] draws the first three
    (or all there are). *)
Theorem C96_modes : forall b mass nseg EIs Ls ms, vibrating b mass nseg EIs Ls ms -> forall eigh, eigh_sound eigh -> forall n_modes r, solve_modal eigh b mass n_modes nseg = Ok r ->
  forall modes, (forall m, In m modes -> (m < length (mo_omega r))%nat) ->
  exists pic, plot_modes r modes = Ok pic /\ mp_base pic = [(hd 0 (mo_x r), 0); (last (mo_x r) 0, 0)] /\ length (mp_curves pic) = length modes /\
  forall j m, nth_error modes j = Some m -> exists v c, drawn (ModalSpec.column (mo_phi r) m) (elements b nseg + 1) v /\ through (mo_x r) v c /\
    nth_error (mp_curves pic) j = Some (c, ((m + 1)%nat, nth m (mo_omega r) 0 / (2 * PI))).
Proof. exact solved_modes_shown. Qed.
Print Assumptions C96_modes.
Theorem C96_default_modes : forall r, plot_mode_results r None = plot_modes r (seq 0 (Nat.min 3 (length (mo_omega r)))) /\ forall l, plot_mode_results r (Some l) = plot_modes r l.
Proof. exact default_modes. Qed.
Print Assumptions C96_default_modes.
Theorem C96_modal_text : forall r n fs more, modal_text r = (n, fs, more) -> n = length (mo_omega r) /\ length fs = Nat.min 5 n /\
  (forall i, (i < length fs)%nat -> nth i fs 0 = nth i (mo_omega r) 0 / (2 * PI)) /\ (more = true <-> (length fs < n)%nat).
Proof. exact text_shown. Qed.
Print Assumptions C96_modal_text.
Example C96_modes_nonvacuous : exists r, vibrating fixed_beam (MScalar 420) 2 [1] [2] [420] /\ eigh_sound diagonal_eigh /\
  solve_modal diagonal_eigh fixed_beam (MScalar 420) 10 2 = Ok r /\ length (mo_omega r) = 2%nat.
Proof.
  destruct fixed_modes as (M & r & E). exists r. split; [exact fixed_vibrates|]. split; [exact diagonal_sound|]. split; [exact E|].
  destruct (modes_count _ _ _ _ _ _ fixed_vibrates _ diagonal_sound _ _ E) as (C & _). rewrite C, M. reflexivity.
Qed.

(** [plot_ratios] draws the ratios of two envelopes and a bar per reaction... *)
Theorem C96_ratios : forall trial ref q pic, ratios_of trial ref q -> plot_ratios q = Ok pic ->
  rp_base pic = [(0, 0); (last (e_x ref) 0, 0)] /\
  through (e_x ref) (rt_Mmax q) (rp_Mmax pic) /\ through (e_x ref) (rt_Mmin q) (rp_Mmin pic) /\
  through (e_x ref) (rt_Vmax q) (rp_Vmax pic) /\ through (e_x ref) (rt_Vmin q) (rp_Vmin pic) /\
  (forall bars trials refs, (bars, trials, refs) = (rp_bars_max pic, e_Rmaxval trial, e_Rmaxval ref) \/ (bars, trials, refs) = (rp_bars_min pic, e_Rminval trial, e_Rminval ref) ->
     length bars = e_nsup ref /\ forall i, (i < e_nsup ref)%nat -> exists v, nth_error bars i = Some (i, v) /\ ratio_of (nth i trials 0) (nth i refs 0) v).
Proof. exact ratios_shown. Qed.
Print Assumptions C96_ratios.
(** ...unless no reaction is reported (a bridge on springs or on a foundation), when the valid
    ratios are refused as insufficient. *)
Theorem C96_ratios_refuted : forall trial ref, BridgeSpec.shaped trial -> BridgeSpec.shaped ref -> e_npts trial = e_npts ref -> e_nsup trial = e_nsup ref -> length (e_x ref) = e_npts ref -> (0 < e_npts ref)%nat ->
  forall q, ratios_of trial ref q -> ((exists pic, plot_ratios q = Ok pic) <-> (0 < e_nsup ref)%nat) /\ (e_nsup ref = 0%nat -> plot_ratios q = Err ValueError).
Proof. exact ratios_drawn. Qed.
Print Assumptions C96_ratios_refuted.
Definition C96_env (n : nat) : env := {| e_x := [0; 1]; e_npts := 2; e_nres := 0; e_nsup := n; e_Vmax := [1; 1]; e_Vmin := [1; 1]; e_Mmax := [1; 3]; e_Mmin := [1; 1];
  e_VcoMmax := []; e_VcoMmin := []; e_McoVmax := []; e_McoVmin := []; e_Rmax := []; e_Rmin := []; e_Rmaxval := repeat 2 n; e_Rminval := repeat 1 n |}.
Example C96_ratios_nonvacuous : forall n, BridgeSpec.shaped (C96_env n) /\ exists q, ratios_of (C96_env n) (C96_env n) q /\ (n = 0%nat -> plot_ratios q = Err ValueError) /\ ((0 < n)%nat -> exists pic, plot_ratios q = Ok pic).
Proof.
  intros n. assert (S : BridgeSpec.shaped (C96_env n)) by (constructor; cbn; try reflexivity; apply repeat_length). split; [exact S|].
  destruct (ratios_spec _ _ S S eq_refl eq_refl) as (q & _ & H). exists q. split; [exact H|].
  destruct (ratios_drawn _ _ S S eq_refl eq_refl eq_refl (Nat.lt_0_succ 1) q H) as (A & B). split; [exact B|exact (proj2 A)].
Qed.

(** The axle summary of a vehicle stands for its axles, in order, each within the tolerance of
    its group's first weight; neighbouring groups differ; the total is the vehicle's. *)
Theorem C96_axles : forall v gs W, vehicle_spec v = (gs, W) -> summary (v_axw v) gs /\ W = v_W v /\ fold_right Nat.add 0%nat (map fst gs) = length (v_axw v).
Proof. exact axles_shown. Qed.
Print Assumptions C96_axles.
Example C96_axles_nonvacuous : summary [150; 150; 120] [(2%nat, 150); (1%nat, 120)].
Proof.
  assert (A : forall w, agrees w w) by exact agrees_refl. constructor.
  - repeat (constructor; [apply A|]). constructor.
  - repeat constructor.
  - intros g [<-|[<-|[]]]; cbn; tauto.
  - intros [|[|[|i]]] g h Hg Hh; try discriminate. injection Hg as <-. injection Hh as <-. unfold agrees. cbn. rewrite Rabs_left, Rabs_pos_eq; lra.
Qed.

(** [plot_response_envelope] draws one line per load case under its name (a missing name is
    refused), then the two envelopes, the span limits, and the span numbers at mid-span. *)
Theorem C96_responses : forall x B neg pos beam cases pic, plot_response_envelope x B neg pos beam cases = Ok pic ->
  length (rs_lines pic) = (length B + 2)%nat /\
  (forall j row, nth_error B j = Some row -> exists l, through x row l /\ nth_error (rs_lines pic) j = Some (match cases with Some cs => match nth_error cs j with Some c => source_name c j | None => "" end | None => "LC " ++ dec (j + 1) end, l)%string) /\
  (forall j, (j < length B)%nat -> match cases with Some cs => (j < length cs)%nat | None => True end) /\
  (exists n p, through x neg n /\ through x pos p /\ nth_error (rs_lines pic) (length B) = Some ("Additive negative envelope"%string, n) /\
     nth_error (rs_lines pic) (length B + 1) = Some ("Additive positive envelope"%string, p)) /\
  match beam with
  | None => rs_verticals pic = [] /\ rs_names pic = []
  | Some Ls => length (rs_verticals pic) = S (length Ls) /\ (forall i, (i <= length Ls)%nat -> nth i (rs_verticals pic) 0 = start Ls i) /\
      length (rs_names pic) = length Ls /\ forall i, (i < length Ls)%nat -> nth_error (rs_names pic) i = Some (start Ls i + nth i Ls 0 / 2, (i + 1)%nat)
  end.
Proof. exact responses_shown. Qed.
Print Assumptions C96_responses.
Example C96_responses_nonvacuous : exists pic, plot_response_envelope [0; 5; 10] [[0; 1; 0]; [0; 2; 0]] [0; 0; 0] [0; 3; 0] (Some [10]) None = Ok pic.
Proof. eexists. reflexivity. Qed.

(** The text of a beam counts its supported nodes; fixed restraints are the entries equal to -1. *)
Theorem C96_supports : forall n rs, length rs = (2 * (n + 1))%nat -> count_of (n + 1) (held rs) (n_supports n rs).
Proof. exact supports_counted. Qed.
Print Assumptions C96_supports.
Theorem C96_fixed : forall rs, count_of (length rs) (fun k => nth k rs 0 = -1) (no_fixed_restraints rs).
Proof. exact fixed_counted. Qed.
Print Assumptions C96_fixed.
Example C96_supports_nonvacuous : length [-1; 0; 5; 0; 0; 0] = (2 * (2 + 1))%nat /\ held [-1; 0; 5; 0; 0; 0] 1 /\ ~ held [-1; 0; 5; 0; 0; 0] 2.
Proof. unfold held. cbn. repeat split; [left; lra|]. intros [H|H]; lra. Qed.
