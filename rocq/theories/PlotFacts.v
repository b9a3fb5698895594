(** Facts about the diagrams drawn. *)
From Coq Require Import String Ascii Lra Lia.
From Verif Require Import Base BaseFacts Linalg SectionModel LoadModel LoadSpec FoundationModel ElementModel UtilsModel BeamModel BeamSpec AnalysisModel AnalysisSpec UnitsModel ResultsModel ResultsSpec ResultsFacts ShapeFacts CombFacts
  EnvelopeModel EnvelopeSpec EnvelopeFacts EnvReadModel EnvReadSpec EnvReadFacts ExportModel ExportSpec ExportFacts VehicleModel VehicleSpec BridgeModel BridgeSpec BridgeFacts BridgeFacts3 BridgeFacts4 CritFacts InfModel ModalModel NonlinModel PlotModel PlotSpec.
Open Scope R_scope.
Local Notation length := List.length.
Local Open Scope list_scope.

(** ** Backends *)
Lemma known_is s : known_backend s = true <-> is_backend s.
Proof.
  unfold known_backend, is_backend. destruct (String.eqb_spec s "matplotlib") as [->|N]; [cbn; intuition|].
  destruct (String.eqb_spec s "plotly") as [->|N']; cbn; intuition congruence.
Qed.
Lemma set_backend_spec installed d name : let '(d', r) := set_backend installed d name in
  (r = inl tt /\ d' = UtilsModel.lower name /\ is_backend d' /\ (d' = "plotly"%string -> installed = true)) \/
  (d' = d /\ ((r = inr (Raised ValueError) /\ ~ is_backend (UtilsModel.lower name)) \/ (r = inr ModuleNotFoundError /\ UtilsModel.lower name = "plotly"%string /\ installed = false))).
Proof.
  unfold set_backend. destruct (known_backend (UtilsModel.lower name)) eqn:K.
  - apply known_is in K. destruct (String.eqb_spec (UtilsModel.lower name) "plotly") as [E|N]; [destruct installed|]; cbn [negb andb].
    + left. rewrite E. cbv. auto.
    + right. split; [reflexivity|]. right. auto.
    + left. split; [reflexivity|]. split; [reflexivity|]. split; [exact K|]. congruence.
  - right. split; [reflexivity|]. left. split; [reflexivity|]. intros H. apply known_is in H. congruence.
Qed.
Lemma default_ok installed d : default_backend installed d -> is_backend d /\ (d = "plotly"%string -> installed = true).
Proof.
  induction 1 as [|d name _ IH]; [split; [left; reflexivity|discriminate]|].
  assert (S := set_backend_spec installed d name). destruct (set_backend installed d name) as [d' r]. cbn [fst]. destruct S as [(_ & _ & A & B)|(-> & _)]; auto.
Qed.
Lemma lower_backend s : is_backend s -> UtilsModel.lower s = s.
Proof. intros [-> | ->]; reflexivity. Qed.
Lemma resolve_default installed d : default_backend installed d -> resolve_backend d None = Ok d /\ resolve_backend d (Some ""%string) = Ok d.
Proof.
  intros H. destruct (default_ok _ _ H) as [K _]. unfold resolve_backend. cbn [String.eqb]. rewrite (lower_backend _ K). rewrite (proj2 (known_is d) K). auto.
Qed.
Lemma resolve_named d s : s <> ""%string -> resolve_backend d (Some s) = if known_backend (UtilsModel.lower s) then Ok (UtilsModel.lower s) else Err ValueError.
Proof. intros N. unfold resolve_backend. destruct (String.eqb_spec s "") as [->|_]; [congruence|]. reflexivity. Qed.
Lemma resolved_known d b n : resolve_backend d b = Ok n -> is_backend n.
Proof. unfold resolve_backend. destruct (known_backend _) eqn:K; intros H; [|discriminate]. apply ok_inj in H. subst n. apply known_is, K. Qed.

(** ** Lines *)
Lemma plot_ok x y c a : length x = length y -> plot x y c a = Ok (add_curve {| cu_x := x; cu_y := y; cu_color := c |} a).
Proof. intros E. unfold plot. rewrite E, Nat.eqb_refl. reflexivity. Qed.
Lemma map_same (f : R -> R) l : (forall y, f y = y) -> map f l = l.
Proof. intros H. rewrite <- (map_id l) at 2. apply map_ext, H. Qed.
Lemma page_add c a : page (add_curve c a) = page a ++ [(cu_color c, (cu_x c, map (height a) (cu_y c)))].
Proof. unfold page, add_curve, height. cbn. rewrite map_app. reflexivity. Qed.
Lemma height_up a l : ax_inverted a = false -> map (height a) l = l.
Proof. intros E. apply map_same. intros y. unfold height. rewrite E. reflexivity. Qed.
Lemma height_down a l : ax_inverted a = true -> map (height a) l = map Ropp l.
Proof. intros E. apply map_ext. intros y. unfold height. rewrite E. reflexivity. Qed.

Lemma page_up a : ax_inverted a = false -> page a = map (fun c => (cu_color c, (cu_x c, cu_y c))) (ax_curves a).
Proof. intros E. unfold page. apply map_ext. intros c. rewrite height_up by exact E. reflexivity. Qed.
Lemma page_down a : ax_inverted a = true -> page a = map (fun c => (cu_color c, (cu_x c, map Ropp (cu_y c)))) (ax_curves a).
Proof. intros E. unfold page. apply map_ext. intros c. rewrite height_down by exact E. reflexivity. Qed.

Lemma inner_lengths (ms : list mres) : Forall (fun m => length (r_D m) = length (r_x m)) ms ->
  length (flat_map (fun m => inner (r_x m)) ms) = length (flat_map (fun m => inner (r_D m)) ms).
Proof.
  intros F. apply sum_lengths. revert F. apply Forall_impl. intros m E. unfold inner.
  assert (G : forall (l l' : list R), length l = length l' -> length (removelast (tl l)) = length (removelast (tl l'))).
  { intros l l' H. assert (T : length (tl l) = length (tl l')) by (destruct l, l'; cbn in *; lia). clear H E.
    assert (Q : forall u : list R, length (removelast u) = pred (length u)).
    { induction u as [|x u IH]; [reflexivity|]. destruct u; [reflexivity|]. cbn [removelast length] in *. rewrite IH. reflexivity. }
    rewrite !Q, T. reflexivity. }
  symmetry. apply G, E.
Qed.
Lemma results_lengths L r : results_of L r -> length (r_x (br_all r)) = length (r_M (br_all r)) /\ length (r_x (br_all r)) = length (r_V (br_all r)) /\
  length (fst (deflection_curve r)) = length (snd (deflection_curve r)).
Proof.
  intros (gl & ill & a & sps & npts & check & a' & E & P & SG & _). assert (S := analysed_lengths _ _ _ _ _ _ _ _ E P SG). unfold same_lengths, five in S. rewrite Forall_forall in S.
  split; [symmetry; apply S; cbn; auto|]. split; [symmetry; apply S; cbn; auto|]. unfold deflection_curve. cbn [fst snd]. apply inner_lengths, Forall_forall. intros m Hm. apply In_nth_error in Hm as (i & Hi).
  destruct (mem_at gl ill a sps npts check a' r E P SG i m Hi) as (mb & _ & _ & _ & (V & M & C) & _). apply (mc_len _ _ _ _ C).
Qed.
Lemma shape_D us r : (fst (deflection_curve r), scaled (us_disp_scale us) (snd (deflection_curve r))) = shape us r KD.
Proof.
  unfold shape, above, deflection_curve, scaled. cbn [fst snd]. f_equal. unfold inner. induction (br_mem r) as [|m ms IH]; [reflexivity|]. cbn [flat_map]. rewrite map_app, IH. reflexivity.
Qed.

(** ** Single diagrams *)
Definition drawn_line (us : unit_system) (r : bres) (k : kind) : list R * list R :=
  match k with KD => (fst (deflection_curve r), scaled (us_disp_scale us) (snd (deflection_curve r))) | KM => (r_x (br_all r), r_M (br_all r)) | KV => (r_x (br_all r), r_V (br_all r)) end.
Definition down (k : kind) : bool := match k with KM => true | _ => false end.
Lemma drawn_lengths L us r k : results_of L r -> length (fst (drawn_line us r k)) = length (snd (drawn_line us r k)).
Proof. intros H. destruct (results_lengths L r H) as (A & B & C). destruct k; cbn [drawn_line fst snd]; [exact A|exact B|]. unfold scaled. rewrite map_length. exact C. Qed.
Lemma drawn_shape us r k a : ax_inverted a = down k -> (fst (drawn_line us r k), map (height a) (snd (drawn_line us r k))) = shape us r k.
Proof.
  intros E. destruct k; cbn [down] in E; cbn [drawn_line fst snd]; [rewrite height_down by exact E; reflexivity|rewrite height_up by exact E; reflexivity|].
  rewrite height_up by exact E. apply shape_D.
Qed.
Lemma diagram_mpl_eq us L r k ax color : diagram_mpl us L r k ax color =
  (do a <- match ax with
          | Some a => Ok a
          | None => do a <- zero_line L new_axes; let a := set_xlabel (distance_axis us) (set_ylabel (label us k) a) in Ok (if down k then invert_yaxis a else a)
          end;
  plot (fst (drawn_line us r k)) (snd (drawn_line us r k)) color a).
Proof. destruct k; reflexivity. Qed.

Lemma mpl_new us L r k color : results_of L r -> exists a, diagram_mpl us L r k None color = Ok a /\ page a = [beam_line L; (color, shape us r k)] /\
  ax_inverted a = down k /\ ax_ylabel a = label us k /\ ax_xlabel a = distance_axis us /\ ax_marks a = [].
Proof.
  intros H. rewrite diagram_mpl_eq. cbn [zero_line rbind]. unfold zero_line. rewrite plot_ok by reflexivity. cbn [rbind]. rewrite plot_ok by exact (drawn_lengths L us r k H).
  eexists. split; [reflexivity|]. rewrite page_add. cbn [cu_color cu_x cu_y].
  set (a0 := if down k then _ else _). assert (I : ax_inverted a0 = down k) by (unfold a0; destruct k; reflexivity).
  rewrite (drawn_shape us r k a0 I). repeat split; try exact I; unfold a0; destruct k; cbn; unfold beam_line; rewrite ?Ropp_0; reflexivity.
Qed.
Lemma mpl_over us L L' r k a color : results_of L r -> ax_inverted a = down k -> exists a', diagram_mpl us L' r k (Some a) color = Ok a' /\ page a' = page a ++ [(color, shape us r k)] /\
  ax_inverted a' = down k /\ ax_ylabel a' = ax_ylabel a /\ ax_xlabel a' = ax_xlabel a.
Proof.
  intros H I. rewrite diagram_mpl_eq. cbn [rbind]. rewrite plot_ok by exact (drawn_lengths L us r k H). eexists. split; [reflexivity|]. rewrite page_add. cbn [cu_color cu_x cu_y].
  rewrite (drawn_shape us r k a I). repeat split; exact I.
Qed.
Lemma ply_new us r k : page (diagram_figure us r k) = [(RED, shape us r k)] /\ ax_ylabel (diagram_figure us r k) = label us k /\ ax_xlabel (diagram_figure us r k) = distance_axis us.
Proof.
  assert (I : ax_inverted (diagram_figure us r k) = down k) by (destruct k; reflexivity). split; [|destruct k; split; reflexivity].
  rewrite <- (drawn_shape us r k _ I). destruct k; reflexivity.
Qed.

Lemma diagram_drawn installed bk us0 L r k units backend color name us : results_of L r ->
  resolve_backend bk backend = Ok name -> resolve us0 units = Ok us -> (name = "plotly"%string -> installed = true) ->
  exists a, plot_diagram installed bk us0 L (Some r) k None units backend color = inl (Some a) /\
    (name = "matplotlib"%string -> page a = [beam_line L; (color, shape us r k)]) /\ (name = "plotly"%string -> page a = [(RED, shape us r k)]) /\
    ax_ylabel a = label us k /\ ax_xlabel a = distance_axis us.
Proof.
  intros H B U I. unfold plot_diagram. rewrite B. destruct (resolved_known _ _ _ B) as [-> | ->]; cbn [String.eqb Ascii.eqb Bool.eqb].
  - destruct (mpl_new us L r k color H) as (a & E & P & _ & Y & X & _). exists a. rewrite U. cbn [rbind]. change (String.eqb "matplotlib" "plotly") with false. cbn match. rewrite E. cbn [rbind of_result].
    split; [reflexivity|]. split; [auto|]. split; [discriminate|]. auto.
  - rewrite (I eq_refl). change (String.eqb "plotly" "plotly") with true. cbn match. rewrite U. cbn [rbind of_result]. eexists. split; [reflexivity|]. destruct (ply_new us r k) as (P & Y & X).
    split; [discriminate|]. auto.
Qed.
Lemma plot_inv x y c a a' : plot x y c a = Ok a' -> a' = add_curve {| cu_x := x; cu_y := y; cu_color := c |} a.
Proof. unfold plot. destruct (Nat.eqb _ _); intros H; [|discriminate]. apply ok_inj in H. auto. Qed.
Lemma matplotlib_call installed bk us0 L r k ax units backend color us a : on_matplotlib bk backend -> resolve us0 units = Ok us ->
  plot_diagram installed bk us0 L (Some r) k ax units backend color = inl (Some a) -> diagram_mpl us L r k ax color = Ok a.
Proof.
  intros B U. unfold plot_diagram, on_matplotlib in *. rewrite B. change (String.eqb "matplotlib" "plotly") with false. cbn match. rewrite U. cbn [rbind].
  destruct (diagram_mpl _ _ _ _ _ _) as [a'|]; cbn [rbind of_result]; intros E; [injection E as <-; reflexivity|discriminate].
Qed.
Lemma overlaid_page installed bk us0 k L l a : overlaid installed bk us0 k L l a ->
  page a = beam_line L :: map (fun h => (fst (fst h), shape (snd (fst h)) (snd h) k)) l /\ ax_inverted a = down k /\ (exists us, ax_ylabel a = label us k).
Proof.
  induction 1 as [r units backend color us a B U E|l a L' r units backend color us a' O (IP & II & IY) B U E].
  - apply (matplotlib_call _ _ _ _ _ _ _ _ _ _ _ _ B U) in E. rewrite diagram_mpl_eq in E. unfold zero_line in E. rewrite plot_ok in E by reflexivity. cbn [rbind] in E.
    apply plot_inv in E. set (a0 := if down k then _ else _) in E. assert (I : ax_inverted a0 = down k) by (unfold a0; destruct k; reflexivity). subst a.
    rewrite page_add. cbn [cu_color cu_x cu_y map fst snd]. rewrite (drawn_shape us r k a0 I). split; [|split; [exact I|exists us; unfold a0; destruct k; reflexivity]].
    unfold a0. destruct k; cbn; unfold beam_line; rewrite ?Ropp_0; reflexivity.
  - apply (matplotlib_call _ _ _ _ _ _ _ _ _ _ _ _ B U) in E. rewrite diagram_mpl_eq in E. cbn [rbind] in E. apply plot_inv in E. subst a'. rewrite page_add. cbn [cu_color cu_x cu_y].
    rewrite (drawn_shape us r k a II), IP, map_app. split; [reflexivity|]. split; [exact II|exact IY].
Qed.
Lemma overlay_completes installed bk us0 k L l a L' L'' r units backend color us : overlaid installed bk us0 k L l a -> results_of L' r -> on_matplotlib bk backend -> resolve us0 units = Ok us ->
  exists a', plot_diagram installed bk us0 L'' (Some r) k (Some a) units backend color = inl (Some a').
Proof.
  intros O H B U. destruct (overlaid_page _ _ _ _ _ _ _ O) as (_ & I & _). destruct (mpl_over us L' L'' r k a color H I) as (a' & E & _). exists a'.
  unfold plot_diagram, on_matplotlib in *. rewrite B. change (String.eqb "matplotlib" "plotly") with false. cbn match. rewrite U. cbn [rbind]. rewrite E. reflexivity.
Qed.

(** ** The figure of all results *)
Lemma diagrams_framed (sb sr : bool) m v d : diagrams ((if sb then [PBeam] else []) ++ [PDiagram m; PDiagram v; PDiagram d] ++ (if sr then [PReactions] else [])) = [m; v; d].
Proof. destruct sb, sr; reflexivity. Qed.
Lemma results_drawn installed bk us0 L r show_beam units backend show_reactions name us : results_of L r ->
  resolve_backend bk backend = Ok name -> resolve us0 units = Ok us -> (name = "plotly"%string -> installed = true) ->
  exists ps m v d, plot_results installed bk us0 L (Some r) show_beam units backend show_reactions = inl (Some ps) /\ diagrams ps = [m; v; d] /\
    (name = "matplotlib"%string -> page m = [beam_line L; ("r"%string, shape us r KM)] /\ page v = [beam_line L; ("r"%string, shape us r KV)] /\ page d = [beam_line L; ("r"%string, shape us r KD)] /\
       length ps = (3 + (if show_beam then 1 else 0) + (if show_reactions then 1 else 0))%nat) /\
    (name = "plotly"%string -> page m = [(RED, shape us r KM)] /\ page v = [(RED, shape us r KV)] /\ page d = [(RED, shape us r KD)] /\ length ps = 3%nat) /\
    ax_ylabel m = label us KM /\ ax_ylabel v = label us KV /\ ax_ylabel d = label us KD.
Proof.
  intros H B U I. destruct (results_lengths L r H) as (LM & LV & LD). unfold plot_results. rewrite B. destruct (resolved_known _ _ _ B) as [-> | ->].
  - change (String.eqb "matplotlib" "plotly") with false. cbn match. rewrite U. cbn [rbind]. unfold results_mpl, zero_line.
    rewrite (plot_ok [0; L] [0; 0]) by reflexivity. cbn [rbind]. rewrite (plot_ok (r_x (br_all r)) (r_M (br_all r))) by exact LM. rewrite (plot_ok (r_x (br_all r)) (r_V (br_all r))) by exact LV. cbn [rbind].
    rewrite (plot_ok (fst (deflection_curve r))) by (unfold scaled; rewrite map_length; exact LD). cbn [rbind of_result].
    do 4 eexists. split; [reflexivity|]. split; [apply diagrams_framed|]. split; [intros _|split; [discriminate|]].
    + split; [|split; [|split]].
      * rewrite page_down by reflexivity. cbn. rewrite Ropp_0. reflexivity.
      * rewrite page_up by reflexivity. reflexivity.
      * rewrite <- shape_D. rewrite page_up by (destruct show_reactions; reflexivity). destruct show_reactions; reflexivity.
      * destruct show_beam, show_reactions; reflexivity.
    + destruct show_reactions; split; try split; reflexivity.
  - rewrite (I eq_refl). change (String.eqb "plotly" "plotly") with true. cbn match. rewrite U. cbn [rbind of_result]. do 4 eexists. split; [reflexivity|]. split; [reflexivity|]. split; [discriminate|].
    split; [intros _|split; [|split]; reflexivity]. split; [reflexivity|]. split; [rewrite page_up by reflexivity; reflexivity|]. split; [|reflexivity].
    rewrite <- shape_D, page_up by reflexivity. reflexivity.
Qed.
Lemma nothing_drawn installed bk us0 L k ax units backend color show_beam show_reactions :
  plot_diagram installed bk us0 L None k ax units backend color = inl None /\ plot_results installed bk us0 L None show_beam units backend show_reactions = inl None.
Proof. auto. Qed.
Lemma plotly_missing bk us0 L r k ax units color show_beam show_reactions backend : resolve_backend bk backend = Ok "plotly"%string ->
  plot_diagram false bk us0 L (Some r) k ax units backend color = inr ModuleNotFoundError /\ plot_results false bk us0 L (Some r) show_beam units backend show_reactions = inr ModuleNotFoundError.
Proof. intros B. unfold plot_diagram, plot_results. rewrite B. auto. Qed.
