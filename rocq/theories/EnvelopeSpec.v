(** Independent specification of envelopes: extremes (zero included) over a set of
    analyses, station by station. *)
From Verif Require Import Base SectionModel LoadModel BeamModel AnalysisModel ResultsModel EnvelopeModel.
Open Scope R_scope.

(** Effects of one analysis at station [k], and its [i]-th reaction. *)
Definition M_at (k : nat) (r : bres) : R := nth k (r_M (br_all r)) 0.
Definition V_at (k : nat) (r : bres) : R := nth k (r_V (br_all r)) 0.
Definition R_at (i : nat) (r : bres) : R := nth i (br_R r) 0.

(** [m] is the largest (smallest) of zero and the values of [f] on [l]. *)
Definition largest {A} (f : A -> R) (l : list A) (m : R) : Prop :=
  0 <= m /\ (forall a, In a l -> f a <= m) /\ (m = 0 \/ exists a, In a l /\ f a = m).
Definition smallest {A} (f : A -> R) (l : list A) (m : R) : Prop :=
  m <= 0 /\ (forall a, In a l -> m <= f a) /\ (m = 0 \/ exists a, In a l /\ f a = m).

(** Analyses on the same [n] stations with the same [s] reactions. *)
Definition compatible (n s : nat) (vr : list bres) : Prop :=
  Forall (fun r => length (r_x (br_all r)) = n /\ length (r_M (br_all r)) = n /\
                   length (r_V (br_all r)) = n /\ length (br_R r) = s) vr.

(** [e] holds the extremes of the analyses [vr]. *)
Record envelope_of (vr : list bres) (e : env) : Prop := {
  eo_M : forall k, (k < e_npts e)%nat -> largest (M_at k) vr (nth k (e_Mmax e) 0) /\
                                         smallest (M_at k) vr (nth k (e_Mmin e) 0);
  eo_V : forall k, (k < e_npts e)%nat -> largest (V_at k) vr (nth k (e_Vmax e) 0) /\
                                         smallest (V_at k) vr (nth k (e_Vmin e) 0);
  eo_R : forall i, (i < e_nsup e)%nat -> largest (R_at i) vr (nth i (e_Rmaxval e) 0) /\
                                         smallest (R_at i) vr (nth i (e_Rminval e) 0);
  eo_len : length (e_Mmax e) = e_npts e /\ length (e_Mmin e) = e_npts e /\
           length (e_Vmax e) = e_npts e /\ length (e_Vmin e) = e_npts e /\
           length (e_Rmaxval e) = e_nsup e /\ length (e_Rminval e) = e_nsup e }.

(** Where the extreme is not zero, the companion value [c] is that of an analysis that
    attains the extreme [m]. *)
Definition companion {A} (f g : A -> R) (l : list A) (m c : R) : Prop :=
  m <> 0 -> exists a, In a l /\ f a = m /\ g a = c.
Record coincident (vr : list bres) (e : env) : Prop := {
  co_Mmax : forall k, (k < e_npts e)%nat -> companion (M_at k) (V_at k) vr (nth k (e_Mmax e) 0) (nth k (e_VcoMmax e) 0);
  co_Mmin : forall k, (k < e_npts e)%nat -> companion (M_at k) (V_at k) vr (nth k (e_Mmin e) 0) (nth k (e_VcoMmin e) 0);
  co_Vmax : forall k, (k < e_npts e)%nat -> companion (V_at k) (M_at k) vr (nth k (e_Vmax e) 0) (nth k (e_McoVmax e) 0);
  co_Vmin : forall k, (k < e_npts e)%nat -> companion (V_at k) (M_at k) vr (nth k (e_Vmin e) 0) (nth k (e_McoVmin e) 0) }.

(** Equality of everything but the per-analysis reaction history. *)
Definition same_extremes (a b : env) : Prop :=
  e_npts a = e_npts b /\ e_nsup a = e_nsup b /\
  e_Vmax a = e_Vmax b /\ e_Vmin a = e_Vmin b /\ e_Mmax a = e_Mmax b /\ e_Mmin a = e_Mmin b /\
  e_Rmaxval a = e_Rmaxval b /\ e_Rminval a = e_Rminval b.
Definition same_coincidents (a b : env) : Prop :=
  e_VcoMmax a = e_VcoMmax b /\ e_VcoMmin a = e_VcoMmin b /\
  e_McoVmax a = e_McoVmax b /\ e_McoVmin a = e_McoVmin b.

(** The per-analysis reaction history is all zeros. *)
Definition history_zeroed (e : env) : Prop :=
  e_Rmax e = repeat (repeat 0 (e_nres e)) (e_nsup e) /\ e_Rmin e = repeat (repeat 0 (e_nres e)) (e_nsup e).

(** Sum of [f] over a choice of analyses. *)
Definition total (f : bres -> R) (l : list bres) : R := lsum (map f l).

(** [s] bounds every sum over a choice of one analysis from each of [vs]. *)
Definition bounds_sums (vs : list (list bres)) (s : env) : Prop :=
  forall rs, Forall2 (fun r v => In r v) rs vs ->
    (forall k, (k < e_npts s)%nat -> nth k (e_Mmin s) 0 <= total (M_at k) rs <= nth k (e_Mmax s) 0 /\
                                     nth k (e_Vmin s) 0 <= total (V_at k) rs <= nth k (e_Vmax s) 0) /\
    (forall i, (i < e_nsup s)%nat -> nth i (e_Rminval s) 0 <= total (R_at i) rs <= nth i (e_Rmaxval s) 0).
