(** Model of the stroke styles of pyx/style.py (l.45-246) and of how a list of them is merged (pyx/attr.py, AttrModel.v) and processed (deco.py l.130-132).
    Numbers written with a format are the real numbers; widths are in points. *)
From Coq Require Import ZArith String List Reals.
From Verif Require Import AttrModel.
Import ListNotations.
Open Scope R_scope.

(** dash, l.129-141: pattern, offset, rellengths *)
Record dash := mkdash { d_pattern : list R; d_offset : R; d_rel : bool }.
(** linecap l.45-51, linejoin l.72-78, miterlimit l.98-104, dash, linestyle l.176-185 and linewidth l.211-217 (the width in points) *)
Inductive sstyle :=
| Cap (v : Z) | Join (v : Z) | Miter (v : R) | Dash (d : dash) | LineStyle (c : Z) (d : dash) | Width (w : R).
(** the classes and the merge methods: exclusive attributes (l.50, 77, 103, 138, 183); a line width is exclusive and goes before dashes and line styles (l.216) *)
Definition to_attr (i : nat) (s : sstyle) : attr :=
  match s with
  | Cap _ => mkattr i ["linecap"; "strokestyle"]%string (Excl "linecap"%string)
  | Join _ => mkattr i ["linejoin"; "strokestyle"]%string (Excl "linejoin"%string)
  | Miter _ => mkattr i ["miterlimit"; "strokestyle"]%string (Excl "miterlimit"%string)
  | Dash _ => mkattr i ["dash"; "strokestyle"]%string (Excl "dash"%string)
  | LineStyle _ _ => mkattr i ["linestyle"; "strokestyle"]%string (Excl "linestyle"%string)
  | Width _ => mkattr i ["linewidth"; "strokestyle"]%string (SortBeforeExcl "linewidth"%string ["dash"; "linestyle"]%string)
  end.
Fixpoint number (i : nat) (l : list sstyle) : list attr := match l with [] => [] | s :: r => to_attr i s :: number (S i) r end.
(** attr.mergeattrs on a list of stroke styles: the identity of an attribute is its place in the list *)
Definition merged (l : list sstyle) : list sstyle := flat_map (fun a => match nth_error l (aid a) with Some s => [s] | None => [] end) (mergeattrs (number 0 l)).

(** the graphics state of PostScript and PDF, with context.linewidth_pt *)
Record gstate := mkgs { g_width : R; g_cap : Z; g_join : Z; g_miter : R; g_dash : list R * R }.
(** _defaultlinewidth_pt, l.126-127, computed when the units have their default scales *)
Definition defaultlinewidth_pt : R := 0.02 * 72 / 2.54.
(** dash.processPS and processPDF, l.148-160: the offset is not changed *)
Definition dash_out (lw : R) (d : dash) : list R * R :=
  (if d_rel d then map (fun e => e * lw / defaultlinewidth_pt) (d_pattern d) else d_pattern d, d_offset d).
(** processPS and processPDF of the styles, l.56-60, 83-87, 109-113, 148-160, 192-198 and 222-228 *)
Definition process (g : gstate) (s : sstyle) : gstate :=
  match s with
  | Cap v => mkgs (g_width g) v (g_join g) (g_miter g) (g_dash g)
  | Join v => mkgs (g_width g) (g_cap g) v (g_miter g) (g_dash g)
  | Miter v => mkgs (g_width g) (g_cap g) (g_join g) v (g_dash g)
  | Dash d => mkgs (g_width g) (g_cap g) (g_join g) (g_miter g) (dash_out (g_width g) d)
  | LineStyle c d => mkgs (g_width g) c (g_join g) (g_miter g) (dash_out (g_width g) d)
  | Width w => mkgs w (g_cap g) (g_join g) (g_miter g) (g_dash g)
  end.
Definition stroke_state (g : gstate) (l : list sstyle) : gstate := fold_left process (merged l) g.

(** ** SVG *)
(** linecap.processSVGattrs, l.62-63, and linejoin.processSVGattrs, l.89-90; other numbers are KeyErrors *)
Definition svg_cap (v : Z) : option string := match v with 0%Z => Some "butt" | 1%Z => Some "round" | 2%Z => Some "square" | _ => None end%string.
Definition svg_join (v : Z) : option string := match v with 0%Z => Some "miter" | 1%Z => Some "round" | 2%Z => Some "bevel" | _ => None end%string.
(** dash.processSVGattrs, l.162-171: the attributes stroke-dasharray and stroke-dashoffset, None for the word none without an offset *)
Definition svg_dash (lw : R) (d : dash) : option (list R * R) := match dash_out lw d with ([], _) => None | o => Some o end.

(** ** the named styles *)
(** linestyle.solid, dashed, dotted and dashdotted, l.204-207 *)
Definition solid := LineStyle 0 (mkdash [] 0 true).
Definition dashed := LineStyle 0 (mkdash [2] 0 true).
Definition dotted := LineStyle 1 (mkdash [0; 2] 0 true).
Definition dashdotted := LineStyle 1 (mkdash [0; 2; 2; 2] 0 true).
(** miterlimit.lessthan180deg to lessthan45deg, l.118-121, and lessthan11deg, l.122 *)
Definition lessthandeg (deg : R) : R := 1 / sin (PI * deg / 360).
Definition lessthan11deg : R := 10.
(** linewidth.THIN to linewidth.THICK, l.234-245, for the default line width w *)
Definition linewidths (w : R) : list R :=
  [w / sqrt 32; w / sqrt 16; w / sqrt 8; w / sqrt 4; w / sqrt 2; w; w * sqrt 2; w * sqrt 4; w * sqrt 8; w * sqrt 16; w * sqrt 32; w * sqrt 64].
