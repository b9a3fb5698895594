(** What the edits of a collection do, and which collection a combination uses. *)
From Coq Require Import String Lia Lra.
From Verif Require Import Base BaseFacts Linalg SectionModel LoadModel UtilsModel BeamModel AnalysisModel ResultsModel ResultsSpec LoadCasesModel LoadCasesSpec EnvelopeModel CombObjModel CombObjSpec CombObjFacts.
Open Scope R_scope.
Local Notation length := List.length.
Local Open Scope list_scope.

Lemma no_name name cs : has_name name cs = false <-> forall d, In d cs -> lc_name d <> name.
Proof.
  unfold has_name. split.
  - intros H d I E. assert (X : existsb (fun c => String.eqb (lc_name c) name) cs = true) by (apply existsb_exists; exists d; split; [exact I|apply String.eqb_eq, E]). congruence.
  - intros H. destruct (existsb _ cs) eqn:E; [|reflexivity]. apply existsb_exists in E as (d & I & Ed). apply String.eqb_eq in Ed. destruct (H d I Ed).
Qed.
Lemma change_split name f cs : has_name name cs = true ->
  exists l1 k l2, cs = l1 ++ k :: l2 /\ change_case name f cs = l1 ++ f k :: l2 /\ lc_name k = name /\ (forall d, In d l1 -> lc_name d <> name).
Proof.
  induction cs as [|c t IH]; [discriminate|]. cbn. destruct (String.eqb (lc_name c) name) eqn:E; cbn.
  - intros _. exists [], c, t. apply String.eqb_eq in E. repeat apply conj; auto; intros d [].
  - intros H. destruct (IH H) as (l1 & k & l2 & -> & E2 & E3 & E4). exists (c :: l1), k, l2. rewrite E2. repeat apply conj; auto.
    intros d [<-|I]; [apply String.eqb_neq, E|apply E4, I].
Qed.
Lemma set_edits cs name loads : edited name (fun _ k' => k' = plain_case name loads) (plain_case name loads) cs (lcs_set cs name loads).
Proof.
  unfold lcs_set. destruct (has_name name cs) eqn:E.
  - left. destruct (change_split name (fun c => {| lc_name := lc_name c; lc_loads := loads; lc_pos := None |}) cs E) as (l1 & k & l2 & E1 & E2 & E3 & E4).
    exists l1, k, (plain_case name loads), l2. rewrite E2, E3. repeat apply conj; auto.
  - right. split; [apply no_name, E|reflexivity].
Qed.
Lemma load_edits cs name w : edited name (fun k k' => lc_name k' = name /\ lc_loads k' = lc_loads k ++ [w] /\ lc_pos k' = lc_pos k) (plain_case name [w]) cs (lcs_load cs name w).
Proof.
  unfold lcs_load. destruct (has_name name cs) eqn:E.
  - left. destruct (change_split name (fun c => {| lc_name := lc_name c; lc_loads := lc_loads c ++ [w]; lc_pos := lc_pos c |}) cs E) as (l1 & k & l2 & E1 & E2 & E3 & E4).
    exists l1, k, {| lc_name := lc_name k; lc_loads := lc_loads k ++ [w]; lc_pos := lc_pos k |}, l2. rewrite E2. repeat apply conj; auto.
  - right. split; [apply no_name, E|reflexivity].
Qed.

Section Edits.
Variable gl : nat -> list (R * R).
Variable ill : nat -> mat -> bool.
Local Notation ex := (pexec gl ill).

Lemma edits st h c name : coll_is st h c ->
  (forall loads, exists st' cs', ex st (PSet h name loads) = (st', Ok tt) /\ coll_is st' h {| cl_beam := cl_beam c; cl_cases := cs' |} /\ edited name (fun _ k' => k' = plain_case name loads) (plain_case name loads) (cl_cases c) cs') /\
  (forall w, exists st' cs', ex st (PLoad h name w) = (st', Ok tt) /\ coll_is st' h {| cl_beam := cl_beam c; cl_cases := cs' |} /\
     edited name (fun k k' => lc_name k' = name /\ lc_loads k' = lc_loads k ++ [w] /\ lc_pos k' = lc_pos k) (plain_case name [w]) (cl_cases c) cs') /\
  (forall loads, (exists k, In k (cl_cases c) /\ lc_name k = name) -> ex st (PAdd h name loads) = (st, Err ValueError)) /\
  (forall loads, (forall k, In k (cl_cases c) -> lc_name k <> name) -> exists st', ex st (PAdd h name loads) = (st', Ok tt) /\ coll_is st' h {| cl_beam := cl_beam c; cl_cases := cl_cases c ++ [plain_case name loads] |}).
Proof.
  intros H. assert (H' := H). unfold coll_is in H'. repeat apply conj.
  - intros loads. cbn. rewrite H'. exists (put_coll st h (lcs_set (cl_cases c) name loads)), (lcs_set (cl_cases c) name loads).
    split; [reflexivity|]. split; [apply put_coll_same, H|apply set_edits].
  - intros w. cbn. rewrite H'. exists (put_coll st h (lcs_load (cl_cases c) name w)), (lcs_load (cl_cases c) name w).
    split; [reflexivity|]. split; [apply put_coll_same, H|apply load_edits].
  - intros loads (k & I & E). cbn. rewrite H'. unfold lcs_add. cbn [lc_name]. destruct (has_name name (cl_cases c)) eqn:Eh; [reflexivity|].
    rewrite no_name in Eh. destruct (Eh k I E).
  - intros loads N. cbn. rewrite H'. unfold lcs_add. cbn [lc_name]. apply no_name in N. rewrite N.
    eexists; split; [reflexivity|]. apply put_coll_same, H.
Qed.

Lemma given_wins st cb g c st' cb' : coll_is st g c -> cb_factors cb' = cb_factors cb -> cb_bound cb' = Some g -> coll_is st' g c ->
  same_uses gl ill st cb (Some g) st' cb' None.
Proof.
  intros H Ef Eb H'. assert (R : resolve st cb (Some g) = Ok c) by (cbn; unfold get; rewrite H; reflexivity).
  assert (R' : resolve st' cb' None = Ok c) by (cbn; rewrite Eb; unfold get; rewrite H'; reflexivity).
  assert (A : forall npts, cb_analyze gl ill st cb (Some g) npts = cb_analyze gl ill st' cb' None npts) by (intros npts; unfold cb_analyze; rewrite R, R', Ef; reflexivity).
  unfold same_uses. repeat apply conj.
  - unfold cb_vector. rewrite R, R', Ef. reflexivity.
  - unfold cb_to_LM. rewrite R, R', Ef. reflexivity.
  - intros resp. unfold cb_response. rewrite R, R', Ef. reflexivity.
  - intros npts. split; [apply A|]. unfold cb_envelope. rewrite A. reflexivity.
Qed.
End Edits.
