(** Model of the per-span values of an envelope (src/pycba/results.py:856-909). *)
From Coq Require Import String.
From Verif Require Import Base SectionModel LoadModel BeamModel AnalysisModel ResultsModel EnvelopeModel.
Open Scope R_scope.
Local Notation length := List.length.
Local Open Scope list_scope.

(** getattr(self, attr) for the attributes indexed by station; the others (counts, reactions)
    are not modelled. *)
Definition station_attr (e : env) (attr : string) : result (list R) :=
  if String.eqb attr "x" then Ok (e_x e)
  else if String.eqb attr "Vmax" then Ok (e_Vmax e) else if String.eqb attr "Vmin" then Ok (e_Vmin e)
  else if String.eqb attr "Mmax" then Ok (e_Mmax e) else if String.eqb attr "Mmin" then Ok (e_Mmin e)
  else if String.eqb attr "Vco_Mmax" then Ok (e_VcoMmax e) else if String.eqb attr "Vco_Mmin" then Ok (e_VcoMmin e)
  else if String.eqb attr "Mco_Vmax" then Ok (e_McoVmax e) else if String.eqb attr "Mco_Vmin" then Ok (e_McoVmin e)
  else Err AttributeError.
(** str.endswith. *)
Definition ends_with (suf s : string) : bool :=
  String.eqb (substring (String.length s - String.length suf) (String.length suf) s) suf.

(** results.py:890-898: chunks of an array by the numbers of stations of the members. *)
Fixpoint chunks (counts : list nat) (vs : list R) : list (list R) :=
  match counts with
  | [] => []
  | c :: t => firstn c vs :: chunks t (skipn c vs)
  end.
Inductive reduction := RedMax | RedMin.
(** np.max of an empty array raises ValueError. *)
Definition reduce_chunk (k : reduction) (l : list R) : result R :=
  match l with
  | [] => Err ValueError
  | _ => Ok (match k with RedMax => row_max l | RedMin => row_min l end)
  end.
Inductive span_out := Chunks (l : list (list R)) | Values (l : list R).
(** results.py:856-909 [per_span], [r0] the first of the results of the envelope. *)
Definition per_span (e : env) (r0 : bres) (attr reduce : string) : result span_out :=
  if negb (existsb (String.eqb reduce) ["auto"; "max"; "min"; "none"])%string then Err ValueError
  else
    do values <- station_attr e attr;
    let cs := chunks (map (fun m => length (r_x m)) (br_mem r0)) values in
    if String.eqb reduce "none" then Ok (Chunks cs)
    else
      let k := if String.eqb reduce "auto" then (if ends_with "min" attr then RedMin else RedMax)
               else if String.eqb reduce "max" then RedMax else RedMin in
      do vs <- mapM (reduce_chunk k) cs; Ok (Values vs).
