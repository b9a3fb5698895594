(** Facts about the drawn envelopes, traverses, influence lines and plastic moments. *)
From Coq Require Import String Ascii Lra Lia.
From Verif Require Import Base BaseFacts Linalg SectionModel LoadModel LoadSpec FoundationModel ElementModel UtilsModel BeamModel BeamSpec AnalysisModel AnalysisSpec UnitsModel ResultsModel ResultsSpec ResultsFacts ShapeFacts CombFacts
  EnvelopeModel EnvelopeSpec EnvelopeFacts EnvReadModel EnvReadSpec EnvReadFacts ExportModel ExportSpec ExportFacts VehicleModel VehicleSpec BridgeModel BridgeSpec BridgeFacts BridgeFacts3 BridgeFacts4 CritFacts InfModel ModalModel NonlinModel PlotModel PlotSpec PlotFacts.
Open Scope R_scope.
Local Notation length := List.length.
Local Open Scope list_scope.

(** ** Envelopes *)
Lemma env_arrays vr e : env_init vr = Ok e -> on_stations (e_x e) vr ->
  length (e_Mmax e) = length (e_x e) /\ length (e_Mmin e) = length (e_x e) /\ length (e_Vmax e) = length (e_x e) /\ length (e_Vmin e) = length (e_x e) /\
  length (e_VcoMmax e) = length (e_x e) /\ length (e_VcoMmin e) = length (e_x e) /\ length (e_McoVmax e) = length (e_x e) /\ length (e_McoVmin e) = length (e_x e).
Proof.
  intros E O. destruct (init_envelope _ _ E O) as [H N]. destruct (companion_lengths _ _ E) as (A & B & C & D). destruct (eo_len _ _ H) as (A' & B' & C' & D' & _). rewrite N in *. tauto.
Qed.
Lemma each_drawn e vr : on_stations (e_x e) vr -> forall m v, exists m' v', 
  foldM (fun p r => do m <- plot (e_x e) (r_M (br_all r)) "r" (fst p); do v <- plot (e_x e) (r_V (br_all r)) "b" (snd p); Ok (m, v)) vr (m, v) = Ok (m', v') /\
  page m' = page m ++ map (fun r => ("r"%string, (e_x e, map (height m) (r_M (br_all r))))) vr /\ page v' = page v ++ map (fun r => ("b"%string, (e_x e, map (height v) (r_V (br_all r))))) vr /\
  ax_ylabel m' = ax_ylabel m /\ ax_ylabel v' = ax_ylabel v /\ ax_xlabel v' = ax_xlabel v.
Proof.
  unfold on_stations. intros O. induction O as [|r vr (X & LM & LV) F IH]; intros m v; cbn [foldM map].
  - exists m, v. rewrite !app_nil_r. repeat split.
  - assert (P1 := plot_ok (e_x e) (r_M (br_all r)) "r" m (eq_sym LM)). assert (P2 := plot_ok (e_x e) (r_V (br_all r)) "b" v (eq_sym LV)).
    destruct (IH (add_curve {| cu_x := e_x e; cu_y := r_M (br_all r); cu_color := "r" |} m) (add_curve {| cu_x := e_x e; cu_y := r_V (br_all r); cu_color := "b" |} v)) as (m' & v' & E & P & Q & Y & Y' & X').
    exists m', v'. split; [cbn [fst snd]; rewrite P1; cbn [rbind]; rewrite P2; cbn [rbind]; exact E|]. rewrite P, Q, !page_add, <- !app_assoc. cbn [cu_color cu_x cu_y app]. auto.
Qed.
Lemma envelope_drawn installed bk us0 e vr each units backend name us : env_init vr = Ok e -> on_stations (e_x e) vr -> e_x e <> [] ->
  resolve_backend bk backend = Ok name -> resolve us0 units = Ok us -> (name = "plotly"%string -> installed = true) ->
  exists m v, plot_envelope installed bk us0 e vr each units backend = inl (m, v) /\
    (name = "matplotlib"%string ->
       page m = [beam_line (last (e_x e) 0); ("r"%string, below (e_x e) (e_Mmax e)); ("b"%string, below (e_x e) (e_Mmin e))] ++ (if each then map (fun r => ("r"%string, below (e_x e) (r_M (br_all r)))) vr else []) /\
       page v = [beam_line (last (e_x e) 0); ("r"%string, above (e_x e) (e_Vmax e)); ("b"%string, above (e_x e) (e_Vmin e))] ++ (if each then map (fun r => ("b"%string, above (e_x e) (r_V (br_all r)))) vr else [])) /\
    (name = "plotly"%string -> page m = [(RED, below (e_x e) (e_Mmax e)); (BLUE, below (e_x e) (e_Mmin e))] /\ page v = [(RED, above (e_x e) (e_Vmax e)); (BLUE, above (e_x e) (e_Vmin e))]) /\
    ax_ylabel m = moment_axis us /\ ax_ylabel v = shear_axis us /\ ax_xlabel v = distance_axis us.
Proof.
  intros E O N B U I. destruct (env_arrays _ _ E O) as (L1 & L2 & L3 & L4 & _).
  assert (NR : Nat.ltb (e_nres e) 1 = false). { destruct (init_parts vr e E) as (r0 & t & -> & _). unfold env_init in E. apply rbind_ok in E as (w & _ & E). apply rbind_ok in E as (R0 & _ & E). apply ok_inj in E. subst e. reflexivity. }
  unfold plot_envelope. rewrite NR, B. destruct (resolved_known _ _ _ B) as [-> | ->].
  - change (String.eqb "matplotlib" "plotly") with false. cbn match. rewrite U. cbn [rbind]. unfold envelope_mpl.
    assert (LO : last_of (e_x e) = Ok (last (e_x e) 0)) by (destruct (e_x e); [congruence|reflexivity]). rewrite LO. cbn [rbind]. unfold pair_panel, zero_line.
    rewrite (plot_ok [0; last (e_x e) 0] [0; 0]) by reflexivity. cbn [rbind]. rewrite (plot_ok (e_x e) (e_Mmax e)), (plot_ok (e_x e) (e_Vmax e)) by congruence. cbn [rbind].
    rewrite (plot_ok (e_x e) (e_Mmin e)), (plot_ok (e_x e) (e_Vmin e)) by congruence. cbn [rbind].
    match goal with |- context [if each then foldM _ _ (?m0, ?v0) else _] => set (m1 := m0); set (v1 := v0) end.
    assert (PM : page m1 = [beam_line (last (e_x e) 0); ("r"%string, below (e_x e) (e_Mmax e)); ("b"%string, below (e_x e) (e_Mmin e))]).
    { rewrite page_down by reflexivity. unfold m1. cbn. rewrite Ropp_0. reflexivity. }
    assert (PV : page v1 = [beam_line (last (e_x e) 0); ("r"%string, above (e_x e) (e_Vmax e)); ("b"%string, above (e_x e) (e_Vmin e))]).
    { rewrite page_up by reflexivity. reflexivity. }
    destruct each.
    + destruct (each_drawn e vr O m1 v1) as (m' & v' & EF & P & Q & Y & Y' & X'). exists m', v'. rewrite EF. split; [reflexivity|]. rewrite P, Q, Y, Y', X', PM, PV.
      split; [intros _; split; f_equal; try (apply map_ext; intros r; first [rewrite height_down by reflexivity; reflexivity|rewrite height_up by reflexivity; reflexivity])|]. split; [discriminate|]. repeat split.
    + exists m1, v1. split; [reflexivity|]. rewrite PM, PV, !app_nil_r. split; [auto|]. split; [discriminate|]. repeat split.
  - rewrite (I eq_refl). change (String.eqb "plotly" "plotly") with true. cbn match. rewrite U. cbn [rbind of_result]. do 2 eexists. split; [reflexivity|]. split; [discriminate|]. split; [|repeat split].
    intros _. rewrite page_down by reflexivity. rewrite page_up by reflexivity. split; reflexivity.
Qed.
Lemma between_opp lo y hi : between lo y hi -> between (map Ropp hi) (map Ropp y) (map Ropp lo).
Proof.
  intros (A & B & C). unfold between. rewrite !map_length. split; [exact B|]. split; [exact A|]. intros k Hk. specialize (C k Hk).
  rewrite !(nth_indep (map Ropp _) 0 (Ropp 0)) by (rewrite map_length; lia). rewrite !map_nth. lra.
Qed.
Lemma each_between vr e r : env_init vr = Ok e -> on_stations (e_x e) vr -> In r vr ->
  between (map Ropp (e_Mmax e)) (map Ropp (r_M (br_all r))) (map Ropp (e_Mmin e)) /\ between (e_Vmin e) (r_V (br_all r)) (e_Vmax e).
Proof.
  intros E O Hr. destruct (init_envelope _ _ E O) as [H N]. destruct (env_arrays _ _ E O) as (L1 & L2 & L3 & L4 & _). unfold on_stations in O. rewrite Forall_forall in O. destruct (O r Hr) as (X & LM & LV).
  split; [apply between_opp|]; (split; [congruence|split; [congruence|]]); intros k Hk.
  - destruct (eo_M _ _ H k ltac:(lia)) as ((_ & A & _) & (_ & B & _)). specialize (A r Hr). specialize (B r Hr). unfold M_at in A, B. lra.
  - destruct (eo_V _ _ H k ltac:(lia)) as ((_ & A & _) & (_ & B & _)). specialize (A r Hr). specialize (B r Hr). unfold V_at in A, B. lra.
Qed.
Lemma coincidents_drawn us0 e vr units us : env_init vr = Ok e -> on_stations (e_x e) vr -> e_x e <> [] -> resolve us0 units = Ok us ->
  exists m mc v vc, plot_coincidents us0 e units = Ok ((m, mc), (v, vc)) /\
    page m = [beam_line (last (e_x e) 0); ("tab:red"%string, below (e_x e) (e_Mmax e)); ("tab:blue"%string, below (e_x e) (e_Mmin e))] /\
    page mc = [("lightcoral"%string, above (e_x e) (e_VcoMmax e)); ("lightskyblue"%string, above (e_x e) (e_VcoMmin e))] /\
    page v = [beam_line (last (e_x e) 0); ("tab:red"%string, above (e_x e) (e_Vmax e)); ("tab:blue"%string, above (e_x e) (e_Vmin e))] /\
    page vc = [("lightcoral"%string, below (e_x e) (e_McoVmax e)); ("lightskyblue"%string, below (e_x e) (e_McoVmin e))] /\
    coincident vr e.
Proof.
  intros E O N U. destruct (env_arrays _ _ E O) as (L1 & L2 & L3 & L4 & L5 & L6 & L7 & L8).
  assert (NR : Nat.ltb (e_nres e) 1 = false). { destruct (init_parts vr e E) as (r0 & t & -> & _). unfold env_init in E. apply rbind_ok in E as (w & _ & E). apply rbind_ok in E as (R0 & _ & E). apply ok_inj in E. subst e. reflexivity. }
  assert (LO : last_of (e_x e) = Ok (last (e_x e) 0)) by (destruct (e_x e); [congruence|reflexivity]).
  unfold plot_coincidents. rewrite NR, U. cbn [rbind]. rewrite LO. cbn [rbind]. unfold zero_line. rewrite (plot_ok [0; last (e_x e) 0] [0; 0]) by reflexivity. cbn [rbind].
  rewrite (plot_ok (e_x e) (e_Mmax e)), (plot_ok (e_x e) (e_Vmax e)), (plot_ok (e_x e) (e_VcoMmax e)), (plot_ok (e_x e) (e_McoVmax e)) by congruence. cbn [rbind].
  rewrite (plot_ok (e_x e) (e_Mmin e)), (plot_ok (e_x e) (e_Vmin e)), (plot_ok (e_x e) (e_VcoMmin e)), (plot_ok (e_x e) (e_McoVmin e)) by congruence. cbn [rbind].
  do 4 eexists. split; [reflexivity|]. split; [rewrite page_down by reflexivity; cbn; rewrite Ropp_0; reflexivity|]. split; [rewrite page_up by reflexivity; reflexivity|].
  split; [rewrite page_up by reflexivity; reflexivity|]. split; [rewrite page_down by reflexivity; reflexivity|]. exact (c22 vr e E).
Qed.
