(** Model of [Beam.plot], [Beam.to_tikz], [Beam.save_tikz] (src/pycba/beam.py:530-681),
    [BeamAnalysis.plot_beam] (src/pycba/analysis.py:818-892) and [BeamPlotter.save_tikz]
    (src/pycba/render.py:979-1029): the backend chosen and the files written.

    Outside the code and given as parameters: number formats ([g], [uni]); whether a file can
    be written ([writable]: a refusal leaves the disk as it was; a disk that fills up during a
    write and a text that cannot be encoded are not modelled); [figure_file], the file and bytes that
    matplotlib's [savefig] produces for the axes, or its refusal of a format; [latex], what
    [shutil.which] finds, and the disk and return code that [pdflatex] leaves behind. *)
From Coq Require Import Ascii String ZArith.
From Verif Require Import Base BeamModel UnitsModel RenderModel SchemModel.
Local Notation length := List.length.
Local Open Scope list_scope.
Open Scope R_scope.

(** ** Paths: a directory and the final component. *)
Record path := { in_dir : string; file : string }.
Definition path_eqb (p q : path) : bool := String.eqb (in_dir p) (in_dir q) && String.eqb (file p) (file q).

(** Python's [str.rfind] of one character. *)
Fixpoint rfind (c : ascii) (s : string) : option nat :=
  match s with
  | EmptyString => None
  | String a t => match rfind c t with
                  | Some i => Some (S i)
                  | None => if Ascii.eqb a c then Some 0%nat else None
                  end
  end.
(** Python's [str.lower] on ASCII letters. *)
Definition lower_char (a : ascii) : ascii :=
  let n := nat_of_ascii a in if (65 <=? n)%nat && (n <=? 90)%nat then ascii_of_nat (n + 32) else a.
Fixpoint lower (s : string) : string :=
  match s with EmptyString => EmptyString | String a t => String (lower_char a) (lower t) end.

(** pathlib [PurePath.suffix] (before Python 3.14): [name[i:]] if [0 < i < len(name) - 1]. *)
Definition suffix (name : string) : string :=
  match rfind "." name with
  | Some i => if (0 <? i)%nat && (i <? String.length name - 1)%nat then substring i (String.length name - i) name else ""%string
  | None => ""%string
  end.
(** pathlib [PurePath.with_suffix]; a path without a name is refused. *)
Definition with_suffix (p : path) (s : string) : result path :=
  let name := file p in
  if String.eqb name "" then Err ValueError
  else let old := suffix name in
    Ok {| in_dir := in_dir p;
          file := if String.eqb old "" then (name ++ s)%string else (substring 0 (String.length name - String.length old) name ++ s)%string |}.

(** ** The disk *)
Definition disk := path -> option string.
Definition put (d : disk) (p : path) (t : string) : disk := fun q => if path_eqb q p then Some t else d q.

(** The keyword arguments that [plot] forwards; absent ones are [None].  [k_style] says that one of
    the drawing options of matplotlib is given ([color], [equal_aspect], [figsize]). *)
Record kwargs := { k_standalone : option bool; k_scale : option (option R); k_dimensions : option bool; k_labels : option bool;
  k_values : option bool; k_units : units_arg; k_supports : option bool; k_style : bool }.
Definition given {A} (o : option A) : bool := match o with Some _ => true | None => false end.
Definition default {A} (o : option A) (a : A) : A := match o with Some x => x | None => a end.

Inductive failure := Refused (e : exc) | CannotWrite | NoLatex | LatexFailed.
(** What a call returns; axes are the schematics drawn into them so far. *)
Inductive value := VAxes (l : list schem) | VText (s : string) | VPath (p : path).
Inductive outcome := Done (v : value) | Failed (f : failure).

Section Save.
Variable g : R -> string.
Variable uni : nat -> string.
Variable us0 : unit_system.
Variable writable : path -> bool.
Variable figure_file : path -> list schem -> result (path * string).
Variable latex : option (disk -> path -> disk * Z).

(** render.py:885-976 [render_tikz]: unknown keywords are a TypeError; then the defaults. *)
Definition call_tikz (p : plotter) (k : kwargs) : result string :=
  if given (k_supports k) || k_style k then Err TypeError else
  do us <- resolve us0 (k_units k);
  render_tikz g uni p (default (k_standalone k) true) (default (k_scale k) None) (default (k_dimensions k) true) (default (k_labels k) true)
    (default (k_values k) true) us.
(** render.py:288-301 [render_mpl] likewise. *)
Definition call_mpl (p : plotter) (k : kwargs) : result schem :=
  if given (k_standalone k) || given (k_scale k) then Err TypeError else
  render_mpl g uni us0 p {| mo_dimensions := default (k_dimensions k) false; mo_labels := default (k_labels k) true; mo_values := default (k_values k) true;
    mo_supports := default (k_supports k) true; mo_units := k_units k |}.

(** render.py:1005-1006: [opts.pop("standalone")], then [standalone=True]. *)
Definition stand_alone (k : kwargs) : kwargs :=
  {| k_standalone := Some true; k_scale := k_scale k; k_dimensions := k_dimensions k; k_labels := k_labels k; k_values := k_values k;
     k_units := k_units k; k_supports := k_supports k; k_style := k_style k |}.

(** render.py:1002-1004. *)
Definition tex_path (p : path) : result path :=
  if String.eqb (suffix (file p)) ".tex" then Ok p else with_suffix p ".tex".

(** render.py:1010-1029. *)
Definition compile_tex (d : disk) (p : path) : disk * outcome :=
  match latex with
  | None => (d, Failed NoLatex)
  | Some run =>
      let (d', code) := run d p in
      match with_suffix p ".pdf" with
      | Err e => (d', Failed (Refused e))
      | Ok pdf => if negb (Z.eqb code 0) || negb (given (d' pdf)) then (d', Failed LatexFailed) else (d', Done (VPath pdf))
      end
  end.

(** render.py:979-1029 [save_tikz]; the source is rendered before the file is opened. *)
Definition save_tikz (pl : plotter) (d : disk) (p : path) (compile : bool) (k : kwargs) : disk * outcome :=
  match tex_path p with
  | Err e => (d, Failed (Refused e))
  | Ok q =>
      match call_tikz pl (stand_alone k) with
      | Err e => (d, Failed (Refused e))
      | Ok t =>
          if writable q then
            let d' := put d q t in
            if compile then compile_tex d' q else (d', Done (VPath q))
          else (d, Failed CannotWrite)
      end
  end.

(** beam.py:530-540: the arguments of [plot]. *)
Record call := { c_loads : source; c_tikz : option bool; c_ax : list schem; c_save : option path; c_compile : bool; c_kw : kwargs }.

(** beam.py:607-611. *)
Definition use_tikz (c : call) : bool :=
  match c_tikz c with
  | Some b => b
  | None => match c_save c with Some p => String.eqb (lower (suffix (file p))) ".tex" | None => false end
  end.

(** beam.py:530-625 [Beam.plot] and analysis.py:818-892 [BeamAnalysis.plot_beam]. *)
Definition plot (b : beam) (d : disk) (c : call) : disk * outcome :=
  match beam_plotter b (c_loads c) with
  | Err e => (d, Failed (Refused e))
  | Ok pl =>
      if use_tikz c then
        match c_save c with
        | Some p => save_tikz pl d p (if String.eqb (lower (suffix (file p))) ".pdf" then true else c_compile c) (c_kw c)
        | None => match call_tikz pl (c_kw c) with Ok t => (d, Done (VText t)) | Err e => (d, Failed (Refused e)) end
        end
      else
        match call_mpl pl (c_kw c) with
        | Err e => (d, Failed (Refused e))
        | Ok pic =>
            let ax := c_ax c ++ [pic] in
            match c_save c with
            | None => (d, Done (VAxes ax))
            | Some p =>
                match figure_file p ax with
                | Err e => (d, Failed (Refused e))
                | Ok (q, t) => if writable q then (put d q t, Done (VAxes ax)) else (d, Failed CannotWrite)
                end
            end
        end
  end.

(** beam.py:627-651 [Beam.to_tikz]. *)
Definition to_tikz (b : beam) (s : source) (k : kwargs) : result string := do pl <- beam_plotter b s; call_tikz pl k.
(** beam.py:653-681 [Beam.save_tikz]. *)
Definition beam_save_tikz (b : beam) (d : disk) (p : path) (s : source) (compile : bool) (k : kwargs) : disk * outcome :=
  match beam_plotter b s with
  | Err e => (d, Failed (Refused e))
  | Ok pl => save_tikz pl d p compile k
  end.

(** A session: calls of [plot] one after the other; refused ones are caught by the user. *)
Fixpoint session (b : beam) (d : disk) (cs : list call) : disk :=
  match cs with [] => d | c :: t => session b (fst (plot b d c)) t end.
End Save.
