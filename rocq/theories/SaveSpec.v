(** What saving a picture of a beam should do to the files. *)
From Coq Require Import Ascii String ZArith.
From Verif Require Import Base BeamModel UnitsModel RenderModel SchemModel SaveModel.
Local Notation length := List.length.
Local Open Scope list_scope.

Local Open Scope string_scope.
(** [name] is [stem.e]: the part after the last dot, which neither starts nor ends the name. *)
Definition dotless (s : string) : Prop := forall a r, s <> a ++ String "." r.
Definition splits (name stem e : string) : Prop := name = stem ++ "." ++ e /\ stem <> "" /\ e <> "" /\ dotless e.
Definition extension (name e : string) : Prop := exists stem, splits name stem e.

(** "tex" or "pdf" in any mix of cases. *)
Definition either (a lo up : ascii) : Prop := a = lo \/ a = up.
Definition says (e : string) (l1 u1 l2 u2 l3 u3 : ascii) : Prop :=
  exists a b c, e = String a (String b (String c "")) /\ either a l1 u1 /\ either b l2 u2 /\ either c l3 u3.
Definition says_tex (e : string) : Prop := says e "t" "T" "e" "E" "x" "X".
Definition says_pdf (e : string) : Prop := says e "p" "P" "d" "D" "f" "F".

(** The file beside [p] whose name is that of [p] with the extension [e] instead of its own. *)
Definition stem_of (name s : string) : Prop := (exists e, splits name s e) \/ ((forall e, ~ extension name e) /\ s = name).
Definition sibling (p q : path) (e : string) : Prop := in_dir q = in_dir p /\ exists s, stem_of (file p) s /\ file q = s ++ "." ++ e.

(** TikZ is asked for, or inferred from a target named [.tex]. *)
Definition wants_tikz (c : call) : Prop :=
  c_tikz c = Some true \/ (c_tikz c = None /\ exists p e, c_save c = Some p /\ extension (file p) e /\ says_tex e).
(** The document is to be compiled: asked for, or the target is named [.pdf]. *)
Definition wants_pdf (c : call) : Prop :=
  c_compile c = true \/ exists p e, c_save c = Some p /\ extension (file p) e /\ says_pdf e.

(** The disk [d'] is [d] but for the file [q], which now reads [t]. *)
Definition holds (d d' : disk) (q : path) (t : string) : Prop := d' q = Some t /\ forall q', q' <> q -> d' q' = d q'.

(** [o] with [standalone] set. *)
Definition with_standalone (k : kwargs) (s : bool) : kwargs :=
  {| k_standalone := Some s; k_scale := k_scale k; k_dimensions := k_dimensions k; k_labels := k_labels k; k_values := k_values k;
     k_units := k_units k; k_supports := k_supports k; k_style := k_style k |}.

(** A complete LaTeX document around the picture [to_tikz(standalone=False)]. *)
Definition full_document (body t : string) : Prop :=
  exists pre post, t = pre ++ body ++ post /\ prefix "\documentclass" pre = true /\
    (exists a, pre = a ++ "\begin{document}" ++ newline) /\ post = newline ++ "\end{document}" ++ newline.
Definition document (g : R -> string) (uni : nat -> string) (us0 : unit_system) (b : beam) (c : call) (t : string) : Prop :=
  to_tikz g uni us0 b (c_loads c) (with_standalone (c_kw c) true) = Ok t /\
  exists body, to_tikz g uni us0 b (c_loads c) (with_standalone (c_kw c) false) = Ok body /\ full_document body t.

(** The matplotlib schematic of the beam under the loads, with the options given (span dimensions
    are off unless asked for; all else is on). *)
Definition option_is (o : option bool) (dflt v : bool) : Prop := match o with Some x => v = x | None => v = dflt end.
Definition picture (g : R -> string) (uni : nat -> string) (us0 : unit_system) (b : beam) (c : call) (pic : schem) : Prop :=
  exists pl o, beam_plotter b (c_loads c) = Ok pl /\ render_mpl g uni us0 pl o = Ok pic /\
    option_is (k_dimensions (c_kw c)) false (mo_dimensions o) /\ option_is (k_labels (c_kw c)) true (mo_labels o) /\
    option_is (k_values (c_kw c)) true (mo_values o) /\ option_is (k_supports (c_kw c)) true (mo_supports o) /\ mo_units o = k_units (c_kw c) /\
    k_standalone (c_kw c) = None /\ k_scale (c_kw c) = None.

(** The call writes [t] to the file [q] (no compilation). *)
Definition writes (g : R -> string) (uni : nat -> string) (us0 : unit_system) (writable : path -> bool) (figure_file : path -> list schem -> result (path * string))
  (b : beam) (c : call) (q : path) (t : string) : Prop :=
  writable q = true /\ exists p, c_save c = Some p /\
  ((wants_tikz c /\ file p <> "" /\ sibling p q "tex" /\ document g uni us0 b c t) \/
   (~ wants_tikz c /\ exists pic, picture g uni us0 b c pic /\ figure_file p (c_ax c ++ [pic])%list = Ok (q, t))).
