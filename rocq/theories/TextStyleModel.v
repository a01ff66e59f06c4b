(** Model of the graph style text (pyx/graph/style.py, l.805-873), with real numbers for floats.
    Not modelled: the selection of the attributes (attr.selectattrs, see the attribute models; only whether textattrs is None is kept)
    and the typesetting of the text (text_pt). *)
From Coq Require Import Ascii String Reals List Lra.
Import ListNotations.
Open Scope R_scope.

(** __init__, l.812-822; the lengths are those in points of initdrawpoints, l.844-852 *)
Record tstyle := mktstyle { textname : string; dxname : option string; dyname : option string;
  dxunit_pt : R; dyunit_pt : R; textdx_pt : R; textdy_pt : R; withattrs : bool }.

(** the exceptions *)
Inductive terr := ColumnMissing (name : string) | IncompletePosition.

(** _styleneedingpointpos.columnnames, l.438-441; [missing] is sharedata.vposmissing *)
Definition base_columnnames (missing : list string) : terr + list string :=
  match missing with [] => inr [] | _ :: _ => inl IncompletePosition end.

(** name not in columnnames *)
Definition absent (name : string) (columns : list string) : bool := negb (existsb (String.eqb name) columns).

(** columnnames, l.824-836 *)
Definition text_columnnames (s : tstyle) (columns missing : list string) : terr + list string :=
  if absent (textname s) columns then inl (ColumnMissing (textname s)) else
  let names := [textname s] in
  let dx := match dxname s with
            | None => inr names
            | Some n => if absent n columns then inl (ColumnMissing n) else inr (names ++ [n])
            end in
  match dx with
  | inl e => inl e
  | inr names =>
    let dy := match dyname s with
              | None => inr names
              | Some n => if absent n columns then inl (ColumnMissing n) else inr (names ++ [n])
              end in
    match dy with
    | inl e => inl e
    | inr names => match base_columnnames missing with inl e => inl e | inr l => inr (names ++ l) end
    end
  end.

(** a value of a column: its str and its float, None when the conversion raises an exception *)
Record value := mkvalue { vstr : option string; vfloat : option R }.
(** a data point: the row, None is the KeyError; vposvalid and graph.vpos_pt of vpos *)
Record dpoint := mkdpoint { row : string -> option value; valid : bool; pos_pt : R * R }.

(** str(point[name]) and float(point[name]), None for any exception *)
Definition str_of (p : dpoint) (n : string) : option string := match row p n with Some v => vstr v | None => None end.
Definition float_of (p : dpoint) (n : string) : option R := match row p n with Some v => vfloat v | None => None end.

(** drawpoint, l.854-870: the texts put into the layer data, None is an exception of l.865 or l.869 *)
Definition text_drawpoint (s : tstyle) (p : dpoint) : option (list (R * R * string)) :=
  if (withattrs s && valid p)%bool then
    let '(x, y) := pos_pt p in
    match str_of p (textname s) with
    | None => Some []
    | Some t =>
      let dx := match dxname s with
                | None => Some (textdx_pt s)
                | Some n => match float_of p n with Some f => Some (f * dxunit_pt s) | None => None end
                end in
      match dx with
      | None => None
      | Some dx =>
        let dy := match dyname s with
                  | None => Some (textdy_pt s)
                  | Some n => match float_of p n with Some f => Some (f * dyunit_pt s) | None => None end
                  end in
        match dy with
        | None => None
        | Some dy => Some [(x + dx, y + dy, t)]
        end
      end
    end
  else Some [].

(** the loop over the points in the plot item (pyx/graph/graph.py, l.119-123 and l.132-136), for this style alone: the first exception ends it *)
Fixpoint text_draw (s : tstyle) (ps : list dpoint) : option (list (R * R * string)) :=
  match ps with
  | [] => Some []
  | p :: q =>
    match text_drawpoint s p with
    | None => None
    | Some l => match text_draw s q with None => None | Some m => Some (l ++ m) end
    end
  end.
