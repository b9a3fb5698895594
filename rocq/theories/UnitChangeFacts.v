(** The loads and the members of a beam in other units. *)
From Verif Require Import Base BaseFacts Linalg SectionModel FlexModel LoadModel FoundationModel ElementModel UtilsModel BeamModel AnalysisModel AnalysisSpec ResultsModel UnitChangeSpec.
Open Scope R_scope.

Definition load_units (u : units) (ld : load) : load :=
  match ld with
  | LUDL w => LUDL (per u w)
  | LPL P a => LPL (frc u P) (len u a)
  | LPUDL w a c => LPUDL (per u w) (len u a) (len u c)
  | LTrap w1 w2 a c => LTrap (per u w1) (per u w2) (len u a) (option_map (len u) c)
  | LMaMb Ma Mb => LMaMb (mom u Ma) (mom u Mb)
  | LML m a => LML (mom u m) (len u a)
  | LIC k e => LIC (coeffs_up u (1 / u_len u) k) (option_map (ei_units u) e)
  end.
Definition cnl_units (u : units) (c : cnl) : cnl := {| c_Va := frc u (c_Va c); c_Ma := mom u (c_Ma c); c_Vb := frc u (c_Vb c); c_Mb := mom u (c_Mb c) |}.
Definition rmap {A B} (f : A -> B) (r : result A) : result B := match r with Ok a => Ok (f a) | Err e => Err e end.
Definition plain_ic (L : R) (ld : load) : Prop := match ld with LIC _ (Some e) => whole L e | _ => True end.

Section U.
Variable u : units.
Hypothesis Hu : proper u.
Let Hl : 0 < u_len u := proj1 Hu.
Let Hf : 0 < u_for u := proj2 Hu.

Lemma len_lt x y : Rltb (len u x) (len u y) = Rltb x y.
Proof. unfold Rltb, len. destruct (Rlt_dec x y), (Rlt_dec (u_len u * x) (u_len u * y)); try reflexivity; exfalso; nra. Qed.
Lemma len_le x y : Rleb (len u x) (len u y) = Rleb x y.
Proof. unfold Rleb, len. destruct (Rle_dec x y), (Rle_dec (u_len u * x) (u_len u * y)); try reflexivity; exfalso; nra. Qed.
Lemma len_0 : len u 0 = 0.
Proof. unfold len. ring. Qed.
Lemma len_le0 x : Rleb (len u x) 0 = Rleb x 0.
Proof. rewrite <- len_0 at 1. apply len_le. Qed.
Lemma len_lt0 x : Rltb (len u x) 0 = Rltb x 0.
Proof. rewrite <- len_0 at 1. apply len_lt. Qed.
Lemma len_plus x y : len u x + len u y = len u (x + y).
Proof. unfold len. ring. Qed.
Lemma len_minus x y : len u x - len u y = len u (x - y).
Proof. unfold len. ring. Qed.
Lemma len_max x : Rmax (len u x) 0 = len u (Rmax x 0).
Proof. unfold Rmax, len. destruct (Rle_dec x 0), (Rle_dec (u_len u * x) 0); try reflexivity; nra. Qed.
Lemma len_pos x : 0 < x -> 0 < len u x.
Proof. intros Hx. unfold len. nra. Qed.
Lemma MB_len x : MB (len u x) = len u (MB x).
Proof. apply len_max. Qed.
Lemma H_len x v : H (len u x) v = H x v.
Proof.
  unfold H, len. destruct (Rlt_dec x 0), (Rlt_dec (u_len u * x) 0); try reflexivity; try (exfalso; nra).
  destruct (Rlt_dec 0 x), (Rlt_dec 0 (u_len u * x)); try reflexivity; exfalso; nra.
Qed.
Lemma len_eq x y : len u x = len u y <-> x = y.
Proof. unfold len. split; [intros E; apply Rmult_eq_reg_l in E; [exact E|lra]|intros ->; reflexivity]. Qed.

Lemma polyval_app l a x : polyval (l ++ [a]) x = polyval l x * x + a.
Proof. unfold polyval. rewrite fold_left_app. reflexivity. Qed.
Lemma coeffs_val ks : forall c x, polyval (rev (coeffs_up u c ks)) (len u x) = c * polyval (rev ks) x.
Proof.
  induction ks as [|k t IH]; intros c x; cbn [coeffs_up rev].
  - unfold polyval. cbn. ring.
  - rewrite !polyval_app, IH. unfold len. field. lra.
Qed.
Lemma kappa_len ks x : kappa_imp (coeffs_up u (1 / u_len u) ks) (len u x) = 1 / u_len u * kappa_imp ks x.
Proof. apply coeffs_val. Qed.

Lemma grid_len a b n i : grid (len u a) (len u b) n i = len u (grid a b n i).
Proof. unfold grid, len. unfold Rdiv. ring. Qed.
Lemma simpson_scale n h f c g : (forall i, g i = c * f i) -> simpson n (len u h) g = u_len u * c * simpson n h f.
Proof.
  intros E. unfold simpson. rewrite <- rsum_scal. apply rsum_ext. intros i _. rewrite !E. unfold len. field.
Qed.

Ltac un := unfold per, frc, mom, rig, len.

Variable gl : nat -> list (R * R).

Lemma theta0_units ks L : 0 < L -> ic_theta0 (coeffs_up u (1 / u_len u) ks) [0; len u L] (len u L) = ic_theta0 ks [0; L] L.
Proof.
  intros HL. unfold ic_theta0. cbn [pairs fold_left fst snd]. rewrite len_le0.
  destruct (Rleb L 0); [reflexivity|].
  replace (grid 0 (len u L)) with (grid (len u 0) (len u L)) by (rewrite len_0; reflexivity).
  replace (len u L - 0) with (len u L - len u 0) by (rewrite len_0; reflexivity).
  assert (E : (len u L - len u 0) / INR (2 * simpson_panels) = len u ((L - 0) / INR (2 * simpson_panels))) by (unfold len, Rdiv; ring).
  rewrite E. f_equal; f_equal.
  - rewrite (simpson_scale simpson_panels ((L - 0) / INR (2 * simpson_panels)) (fun i => (1 - grid 0 L simpson_panels i / L) * kappa_imp ks (grid 0 L simpson_panels i)) (1 / u_len u)).
    + field. lra.
    + intros i. rewrite grid_len, kappa_len. unfold len. field. lra.
  - rewrite (simpson_scale simpson_panels ((L - 0) / INR (2 * simpson_panels)) (fun i => (- grid 0 L simpson_panels i / L) * kappa_imp ks (grid 0 L simpson_panels i)) (1 / u_len u)).
    + field. lra.
    + intros i. rewrite grid_len, kappa_len. unfold len. field. lra.
Qed.

(** ** Members of one polynomial *)
Definition value (e : rigid) (x : R) : R := match e with RConst c => c | RSect s => match s_pieces s with p :: _ => piece_eval p x | [] => 0 end end.
Lemma sect_value L s x : whole L (RSect s) -> sect_eval s x = Ok (value (RSect s) x).
Proof.
  intros (p & P & X0 & X1 & J & K & S0 & SE & _). unfold sect_eval, value. rewrite P. cbn [find_piece last]. rewrite X0, X1, S0, SE.
  destruct (Rleb_spec (0 - 1e-12) x); cbn [andb]; [|destruct (Rltb_spec x 0); [reflexivity|lra]].
  destruct (Rleb_spec x (L + 1e-12)); [reflexivity|]. destruct (Rltb_spec x 0); [reflexivity|]. destruct (Rltb_spec L x); [reflexivity|lra].
Qed.
Lemma value_units L c e x : whole L e -> value (rigid_units u c e) (len u x) = c * value e x.
Proof.
  destruct e as [k|s]; [reflexivity|]. intros (p & P & _). cbn [rigid_units value sect_units s_pieces]. rewrite P. cbn [map]. unfold piece_eval. cbn [piece_units p_coeffs].
  rewrite coeffs_val, rev_involutive. reflexivity.
Qed.
Lemma whole_units L c e : 0 < c -> whole L e -> whole (len u L) (rigid_units u c e).
Proof.
  intros Hc. destruct e as [k|s]; cbn [rigid_units whole]; [nra|]. intros W. destruct W as (p & P & X0 & X1 & J & K & S0 & SE & PV).
  exists (piece_units u c p). cbn [sect_units s_pieces s_joins s_kinks s_x0 s_end piece_units p_x0 p_x1]. rewrite P, X0, X1, J, K, S0, SE, len_0.
  repeat split; try reflexivity. intros x Hx. unfold piece_eval. cbn [piece_units p_coeffs].
  replace x with (len u (x / u_len u)) by (unfold len; field; lra). rewrite coeffs_val, rev_involutive. apply Rmult_lt_0_compat; [exact Hc|]. apply PV. unfold len in Hx.
  split; [apply Rmult_le_pos; [lra|left; apply Rinv_0_lt_compat, Hl]|]. apply (Rmult_le_reg_l (u_len u)); [exact Hl|]. replace (u_len u * (x / u_len u)) with x by (field; lra). lra.
Qed.

(** The only intervals of the integrations are from end to end. *)
Definition zl (L : R) (n m : nat) : list R := repeat 0 n ++ repeat L m.
Lemma insert_zl0 L n m : insert_R 0 (zl L n m) = zl L (S n) m \/ L < 0.
Proof.
  destruct n as [|n]; cbn [zl repeat app insert_R].
  - destruct m as [|m]; cbn [zl repeat app insert_R]; [left; reflexivity|]. destruct (Rle_dec 0 L); [left; reflexivity|right; lra].
  - destruct (Rle_dec 0 0); [left; reflexivity|lra].
Qed.
Lemma insert_zlL L n m : 0 < L -> insert_R L (zl L n m) = zl L n (S m).
Proof.
  intros HL. induction n as [|n IH]; cbn [zl repeat app insert_R].
  - destruct m as [|m]; cbn [repeat app insert_R]; [reflexivity|]. destruct (Rle_dec L L); [reflexivity|lra].
  - destruct (Rle_dec L 0); [lra|]. unfold zl in IH. rewrite IH. reflexivity.
Qed.
Lemma sort_zl L l : 0 < L -> Forall (fun x => x = 0 \/ x = L) l -> exists n m, sort_R (l ++ [0; L]) = zl L (S n) (S m).
Proof.
  intros HL F. induction F as [|x t H F IH]; cbn [app].
  - exists 0%nat, 0%nat. cbn. destruct (Rle_dec 0 L); [reflexivity|lra].
  - destruct IH as (n & m & E). unfold sort_R in *. cbn [fold_right]. rewrite E. destruct H as [-> | ->].
    + exists (S n), m. destruct (insert_zl0 L (S n) (S m)) as [Q|Q]; [exact Q|lra].
    + exists n, (S m). apply insert_zlL, HL.
Qed.
Lemma dedup_zl L n m : 0 < L -> dedup_sorted (zl L (S n) (S m)) = [0; L].
Proof.
  intros HL. induction n as [|n IH].
  - cbn [zl repeat app dedup_sorted]. destruct (Req_EM_T 0 L) as [e|_]; [lra|]. f_equal. induction m as [|m IHm]; [reflexivity|].
    cbn [repeat dedup_sorted]. destruct (Req_EM_T L L); [exact IHm|contradiction].
  - change (zl L (S (S n)) (S m)) with (0 :: zl L (S n) (S m)). change (zl L (S n) (S m)) with (0 :: zl L n (S m)) at 1. cbn [dedup_sorted].
    destruct (Req_EM_T 0 0); [exact IH|contradiction].
Qed.
Lemma edges_whole L l : 0 < L -> Forall (fun x => x = 0 \/ x = L) l -> edges l L = [0; L].
Proof.
  intros HL F. unfold edges. destruct (sort_zl L l HL F) as (n & m & ->). rewrite dedup_zl by exact HL. cbn [filter].
  destruct (Rleb_spec (- (1e-12)) 0); [|lra]. destruct (Rleb_spec 0 (L + 1e-12)); [|lra]. destruct (Rleb_spec (- (1e-12)) L); [|lra]. destruct (Rleb_spec L (L + 1e-12)); [|lra]. reflexivity.
Qed.
Lemma breaks_whole L s : 0 < L -> whole L (RSect s) -> breakpoints s <> [] /\ Forall (fun x => x = 0 \/ x = L) (breakpoints s).
Proof.
  intros HL (p & P & X0 & X1 & J & K & S0 & SE & _). unfold breakpoints. rewrite J, K, S0. cbn [app sort_R fold_right insert_R]. destruct (Rle_dec 0 L); [|lra].
  split; [discriminate|]. constructor; [left; reflexivity|]. cbn [keep_gaps]. destruct (Rltb _ _); [constructor; [right; reflexivity|constructor]|constructor].
Qed.

(** Flexibilities and their inverses. *)
Definition flx (F : m22) : m22 := {| m00 := m00 F / (u_for u * u_len u); m01 := m01 F / (u_for u * u_len u); m10 := m10 F / (u_for u * u_len u); m11 := m11 F / (u_for u * u_len u) |}.
Definition mom22 (K : m22) : m22 := {| m00 := mom u (m00 K); m01 := mom u (m01 K); m10 := mom u (m10 K); m11 := mom u (m11 K) |}.
Lemma inv22_units F : inv22 (flx F) = rmap mom22 (inv22 F).
Proof.
  unfold inv22. cbn [flx m00 m01 m10 m11]. set (D := m00 F * m11 F - m01 F * m10 F). assert (N : u_for u * u_len u <> 0) by nra.
  match goal with |- context [Req_EM_T ?X 0] => replace X with (D / (u_for u * u_len u) ^ 2) by (unfold D; field; lra) end.
  destruct (Req_EM_T D 0) as [e|e], (Req_EM_T (D / (u_for u * u_len u) ^ 2) 0) as [e'|e']; cbn [rmap].
  - reflexivity.
  - exfalso. apply e'. rewrite e. unfold Rdiv. ring.
  - exfalso. unfold Rdiv in e'. apply Rmult_integral in e' as [e'|e']; [contradiction|]. revert e'. apply Rinv_neq_0_compat, pow_nonzero, N.
  - unfold mom22, mom. cbn [m00 m01 m10 m11]. f_equal. f_equal; field; repeat split; lra.
Qed.
Lemma nodes_units L c s : whole L (RSect s) -> exists nd, gauss_nodes gl s = Ok nd /\ gauss_nodes gl (sect_units u c s) = Ok (map (fun xw => (len u (fst xw), len u (snd xw))) nd).
Proof.
  intros (p & P & X0 & X1 & _). unfold gauss_nodes. cbn [sect_units s_pieces]. rewrite P. cbn [map concat]. rewrite !app_nil_r. eexists. split; [reflexivity|]. f_equal.
  unfold piece_nodes. cbn [piece_units p_x0 p_x1 p_degree]. rewrite map_map. apply map_ext. intros [a w]. cbn [fst snd]. unfold len. f_equal; ring.
Qed.
Lemma qsum_ok f nd : qsum (fun x => Ok (f x)) nd = Ok (lsum (map (fun xw => snd xw * f (fst xw)) nd)).
Proof. unfold qsum. cbn [rbind]. replace (mapM (fun xw : R * R => Ok (snd xw * f (fst xw))) nd) with (Ok (map (fun xw : R * R => snd xw * f (fst xw)) nd)); [reflexivity|]. induction nd as [|a t IH]; [reflexivity|]. cbn [map mapM]. rewrite <- IH. reflexivity. Qed.
Lemma qsum_ext f g nd : (forall x, f x = g x) -> qsum f nd = qsum g nd.
Proof. intros E. unfold qsum. f_equal. induction nd as [|a t IH]; [reflexivity|]. cbn [mapM]. rewrite E, IH. reflexivity. Qed.
Lemma lsum_scale k l : lsum (map (Rmult k) l) = k * lsum l.
Proof. induction l as [|a t IH]; [cbn; ring|]. cbn [map]. rewrite !lsum_cons, IH. ring. Qed.
Lemma qsum_units f f' k nd : (forall x, f' (len u x) = k * f x) ->
  qsum (fun x => Ok (f' x)) (map (fun xw => (len u (fst xw), len u (snd xw))) nd) = rmap (Rmult (u_len u * k)) (qsum (fun x => Ok (f x)) nd).
Proof.
  intros E. rewrite !qsum_ok. cbn [rmap]. f_equal. rewrite <- lsum_scale, !map_map. f_equal. apply map_ext. intros [x w]. cbn [fst snd]. rewrite E. unfold len. ring.
Qed.
Lemma inv_scale k x : / (k * x) = / k * / x.
Proof. apply Rinv_mult. Qed.
Lemma flexibility_units s L : 0 < L -> whole L (RSect s) -> flexibility gl (sect_units u (u_for u * u_len u ^ 2) s) (len u L) = rmap flx (flexibility gl s L).
Proof.
  intros HL W. destruct (nodes_units L (u_for u * u_len u ^ 2) s W) as (nd & N & N'). unfold flexibility. rewrite N, N'. cbn [rbind].
  assert (W' := whole_units L (u_for u * u_len u ^ 2) (RSect s) ltac:(apply Rmult_lt_0_compat; [exact Hf|apply pow_lt, Hl]) W).
  assert (V' := fun x => value_units L (u_for u * u_len u ^ 2) (RSect s) x W). cbn [rigid_units] in W', V'.
  assert (G : forall g g' : R -> R -> R, (forall x, g' (len u x) (len u L) = g x L) ->
    qsum (fun x => do e <- sect_eval (sect_units u (u_for u * u_len u ^ 2) s) x; Ok (g' x (len u L) / e)) (map (fun xw => (len u (fst xw), len u (snd xw))) nd) =
    rmap (fun v => v / (u_for u * u_len u)) (qsum (fun x => do e <- sect_eval s x; Ok (g x L / e)) nd)).
  { intros g g' E. rewrite (qsum_ext _ (fun x => Ok (g' x (len u L) / value (RSect (sect_units u (u_for u * u_len u ^ 2) s)) x))) by (intros x; rewrite (sect_value _ _ _ W'); reflexivity).
    rewrite (qsum_ext (fun x => do e <- sect_eval s x; _) (fun x => Ok (g x L / value (RSect s) x))) by (intros x; rewrite (sect_value _ _ _ W); reflexivity).
    rewrite (qsum_units (fun x => g x L / value (RSect s) x) _ (/ (u_for u * u_len u ^ 2))).
    - rewrite !qsum_ok. cbn [rmap]. f_equal. field. lra.
    - intros x. rewrite V', E. unfold Rdiv. rewrite inv_scale. ring. }
  rewrite (G (fun x L => (1 - x / L) * (1 - x / L)) (fun x L => (1 - x / L) * (1 - x / L))) by (intros x; unfold len; field; lra).
  rewrite (G (fun x L => (1 - x / L) * (- x / L)) (fun x L => (1 - x / L) * (- x / L))) by (intros x; unfold len; field; lra).
  rewrite (G (fun x L => (- x / L) * (- x / L)) (fun x L => (- x / L) * (- x / L))) by (intros x; unfold len; field; lra).
  repeat match goal with |- context [rmap _ (qsum ?f nd)] => destruct (qsum f nd); [|reflexivity]; cbn [rmap rbind] end. reflexivity.
Qed.
Lemma k_theta_units s L : 0 < L -> whole L (RSect s) -> k_theta gl (sect_units u (u_for u * u_len u ^ 2) s) (len u L) = rmap mom22 (k_theta gl s L).
Proof. intros HL W. unfold k_theta. rewrite flexibility_units by assumption. destruct (flexibility gl s L); [|reflexivity]. cbn [rmap rbind]. apply inv22_units. Qed.

Lemma cnl_of_units ld L : 0 < L -> plain_ic L ld -> get_cnl gl (load_units u ld) (len u L) = rmap (cnl_units u) (get_cnl gl ld L).
Proof.
  intros HL HI. assert (HLn : L <> 0) by lra. assert (Hln : u_len u <> 0) by lra.
  destruct ld as [w|P a|w a c|w1 w2 a c|Ma Mb|m a|k e]; cbn [load_units get_cnl rmap].
  - unfold udl_cnl, cnl_units. cbn. f_equal. f_equal; un; field; lra.
  - unfold pl_cnl, cnl_units. cbv zeta. rewrite len_minus, len_max. set (b := Rmax (L - a) 0). cbn. f_equal. f_equal; un; field; lra.
  - unfold pudl_cnl. rewrite len_lt. destruct (Rltb L a); [reflexivity|]. cbv zeta. rewrite len_plus, len_minus, len_lt0.
    assert (E : (if Rltb (L - (a + c)) 0 then len u c + len u (L - (a + c)) else len u c) = len u (if Rltb (L - (a + c)) 0 then c + (L - (a + c)) else c)) by (destruct (Rltb _ 0); [apply len_plus|reflexivity]).
    rewrite E. set (c' := if Rltb (L - (a + c)) 0 then _ else c). unfold rmap, cnl_units. cbn. f_equal. f_equal; un; field; lra.
  - unfold trap_cnl, trap_resolve. 
    assert (E : match option_map (len u) c with Some c0 => c0 | None => len u L - len u a end = len u (match c with Some c0 => c0 | None => L - a end)) by (destruct c; [reflexivity|apply len_minus]).
    rewrite E. set (c1 := match c with Some _ => _ | None => _ end). rewrite len_le, len_le0, len_plus, len_lt.
    destruct (Rleb L a || Rleb c1 0)%bool eqn:Z.
    + replace (Rleb 0 0) with true by (unfold Rleb; destruct (Rle_dec 0 0); [reflexivity|lra]). unfold cnl_units, cnl_zero. cbn. f_equal. f_equal; un; ring.
    + apply orb_false_iff in Z as [Z1 Z2]. assert (Hc : 0 < c1) by (unfold Rleb in Z2; destruct (Rle_dec c1 0); [discriminate|lra]).
      assert (Ha : a < L) by (unfold Rleb in Z1; destruct (Rle_dec L a); [discriminate|lra]).
      destruct (Rltb L (a + c1)).
      * rewrite len_minus, len_le0. assert (Hla : L - a <> 0) by lra. destruct (Rleb (L - a) 0).
        { unfold cnl_units, cnl_zero. cbn. f_equal. f_equal; un; ring. }
        unfold cnl_units. cbn. f_equal. f_equal; un; field; repeat split; lra.
      * rewrite len_le0, Z2. unfold cnl_units. cbn. f_equal. f_equal; un; field; repeat split; lra.
  - unfold mamb_cnl, cnl_units. cbn. f_equal. f_equal; un; field; lra.
  - unfold ml_cnl, cnl_units. cbv zeta. cbn. f_equal. f_equal; un; field; lra.
  - unfold ic_cnl. destruct e as [e|]; [|reflexivity]. cbn [option_map]. unfold ic_end_moments.
    assert (EE : (match e with RSect s => edges (breakpoints s) L | RConst _ => [0; L] end) = [0; L]).
    { destruct e as [|s]; [reflexivity|]. apply edges_whole; [exact HL|]. apply (breaks_whole L s HL HI). }
    assert (EE' : (match ei_units u e with RSect s => edges (breakpoints s) (len u L) | RConst _ => [0; len u L] end) = [0; len u L]).
    { destruct e as [|s]; [reflexivity|]. cbn [ei_units rigid_units]. assert (P := len_pos L HL). apply edges_whole; [exact P|]. apply (breaks_whole (len u L) _ P).
      apply (whole_units L (u_for u * u_len u ^ 2) (RSect s)); [apply Rmult_lt_0_compat; [exact Hf|apply pow_lt, Hl]|exact HI]. }
    rewrite EE, EE', theta0_units by exact HL. set (th := ic_theta0 k [0; L] L).
    assert (EK : ic_Ktheta gl (ei_units u e) (len u L) = rmap mom22 (ic_Ktheta gl e L)).
    { destruct e as [c|s]; cbn [ei_units rigid_units ic_Ktheta]; [|apply k_theta_units; assumption]. cbn [rmap]. unfold mom22. cbn [m00 m01 m10 m11]. f_equal. f_equal; un; field; lra. }
    rewrite EK. destruct (ic_Ktheta gl e L) as [K|]; [|reflexivity]. cbn [rmap rbind mom22 m00 m01 m10 m11 fst snd].
    unfold cnl_units. cbn. f_equal. f_equal; un; field; lra.
Qed.

(** ** Simple-span diagrams *)
Lemma diag_units ld L d : 0 < L -> diag_of ld L = Some d -> exists d', diag_of (load_units u ld) (len u L) = Some d' /\
  (forall x, f_V d' (len u x) = frc u (f_V d x)) /\ (forall x, f_M d' (len u x) = mom u (f_M d x)).
Proof.
  intros HL E. assert (HLn : L <> 0) by lra. assert (Hln : u_len u <> 0) by lra.
  destruct ld as [w|P a|w a c|w1 w2 a c|Ma Mb|m a|k e]; cbn [load_units diag_of] in *; try discriminate; injection E as <-; eexists; (split; [reflexivity|]).
  - cbn. split; intros x; un; field; lra.
  - unfold pl_diag. cbv zeta. cbn [f_V f_M]. split; intros x; rewrite !len_minus, len_max; set (b := Rmax (L - a) 0).
    + rewrite H_len. un. field. lra.
    + rewrite MB_len. un. field. lra.
  - unfold pudl_diag. cbv zeta. cbn [f_V f_M]. split; intros x; rewrite !len_plus, !len_minus, !MB_len; un; field; lra.
  - unfold trap_diag, trap_resolve. 
    assert (E : match option_map (len u) c with Some c0 => c0 | None => len u L - len u a end = len u (match c with Some c0 => c0 | None => L - a end)) by (destruct c; [reflexivity|apply len_minus]).
    rewrite E. set (c1 := match c with Some _ => _ | None => _ end). rewrite len_le, len_le0, len_plus, len_lt.
    destruct (Rleb L a || Rleb c1 0)%bool eqn:Z.
    + replace (Rleb 0 0) with true by (unfold Rleb; destruct (Rle_dec 0 0); [reflexivity|lra]). cbn. split; intros x; un; ring.
    + apply orb_false_iff in Z as [Z1 Z2]. assert (Hc : 0 < c1) by (unfold Rleb in Z2; destruct (Rle_dec c1 0); [discriminate|lra]).
      assert (Ha : a < L) by (unfold Rleb in Z1; destruct (Rle_dec L a); [discriminate|lra]).
      destruct (Rltb L (a + c1)).
      * rewrite len_minus, len_le0. assert (Hla : L - a <> 0) by lra. destruct (Rleb (L - a) 0).
        { cbn. split; intros x; un; ring. }
        cbn [f_V f_M]. split; intros x; rewrite !len_plus, !len_minus, !MB_len; un; field; repeat split; lra.
      * rewrite len_le0, Z2. cbn [f_V f_M]. split; intros x; rewrite ?len_plus, !len_minus, !MB_len; un; field; repeat split; lra.
  - cbn. split; intros x; un; field; lra.
  - unfold ml_diag. cbv zeta. cbn [f_V f_M]. split; intros x.
    + un. field. lra.
    + rewrite len_minus, H_len.
      assert (E : (if Req_EM_T (len u a) 0 then 1 else if Req_EM_T (len u a) (len u L) then 0 else 1 / 2) = (if Req_EM_T a 0 then 1 else if Req_EM_T a L then 0 else 1 / 2)).
      { destruct (Req_EM_T a 0) as [->|Na].
        - rewrite len_0. destruct (Req_EM_T 0 0); [reflexivity|lra].
        - destruct (Req_EM_T (len u a) 0) as [e|_]; [exfalso; apply Na; unfold len in e; apply Rmult_integral in e as [e|e]; lra|].
          destruct (Req_EM_T a L) as [->|Nl]; [destruct (Req_EM_T (len u L) (len u L)); [reflexivity|contradiction]|].
          destruct (Req_EM_T (len u a) (len u L)) as [e|_]; [exfalso; apply Nl, len_eq, e|reflexivity]. }
      rewrite E. set (hv := if Req_EM_T a 0 then _ else _). set (h := H (x - a) hv). un. field. lra.
Qed.

Lemma set_first_map (f : R -> R) l : f 0 = 0 -> set_first 0 (map f l) = map f (set_first 0 l).
Proof. intros E. destruct l; cbn; [reflexivity|rewrite E; reflexivity]. Qed.
Lemma removelast_map {A B} (f : A -> B) l : removelast (map f l) = map f (removelast l).
Proof. induction l as [|a [|b t] IH]; [reflexivity|reflexivity|]. cbn [map removelast] in *. rewrite IH. reflexivity. Qed.
Lemma set_last_map (f : R -> R) l : f 0 = 0 -> set_last 0 (map f l) = map f (set_last 0 l).
Proof. intros E. destruct l as [|a t]; [reflexivity|]. unfold set_last. cbn [map]. rewrite map_app. cbn [map]. rewrite E. f_equal. change (f a :: map f t) with (map f (a :: t)). apply removelast_map. Qed.
Lemma zero_ends_map (f : R -> R) l : f 0 = 0 -> zero_ends (map f l) = map f (zero_ends l).
Proof. intros E. unfold zero_ends. rewrite set_first_map, set_last_map by exact E. reflexivity. Qed.
Lemma mom_0 : mom u 0 = 0. Proof. un. ring. Qed.
Lemma frc_0 : frc u 0 = 0. Proof. un. ring. Qed.

Lemma sampled_units ld xs L : 0 < L ->
  let r := get_mbr_results ld xs L in let r' := get_mbr_results (load_units u ld) (map (len u) xs) (len u L) in
  r_x r' = map (len u) (r_x r) /\ r_M r' = map (mom u) (r_M r) /\ r_V r' = map (frc u) (r_V r).
Proof.
  intros HL r r'. destruct (diag_of ld L) as [d|] eqn:E.
  - destruct (diag_units ld L d HL E) as (d' & E' & HV & HM).
    assert (Q : r = sample d xs) by (subst r; destruct ld; cbn [get_mbr_results diag_of] in *; try discriminate; injection E as <-; reflexivity).
    assert (Q' : r' = sample d' (map (len u) xs)) by (subst r'; destruct ld; cbn [load_units get_mbr_results diag_of] in *; try discriminate; injection E' as <-; reflexivity).
    rewrite Q, Q'. cbn [sample r_x r_M r_V]. split; [reflexivity|].
    split; rewrite <- zero_ends_map by (apply mom_0 || apply frc_0); rewrite !map_map; f_equal; apply map_ext; intros ?; auto.
  - destruct ld; try discriminate. subst r r'. cbn. split; [reflexivity|].
    split; [rewrite <- zero_ends_map by apply mom_0|rewrite <- zero_ends_map by apply frc_0]; rewrite !map_map; f_equal; apply map_ext; intros ?; [rewrite mom_0|rewrite frc_0]; reflexivity.
Qed.
End U.
