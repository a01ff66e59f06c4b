(** Model of the style which draws lines in graphs (pyx/graph/style.py, class _line, l.509-629) and of the positions which it gets
    (class pos, drawpoint, l.222-234).

    Positions are lists of real numbers, one for each dimension of the graph, where 0 and 1 are the boundaries of the graph.  The
    result of axis.convert for each column is given, None when it raises an error.  graphvpos_pt is a parameter. *)
From Coq Require Import Reals Bool List.
Import ListNotations.
Open Scope R_scope.

Definition vpos := list R.
Definition ltb (a b : R) : bool := if Rlt_dec a b then true else false.

Section Line.
  Variable P : Type.
  Variable graphvpos_pt : vpos -> P.
  Variable epsilon : R.

  (** pos.drawpoint, l.222-234: a position is available if all columns could be converted, it is valid if it is in the graph *)
  Definition available (point : list (option R)) : option vpos :=
    fold_right (fun v l => match v, l with Some v, Some l => Some (v :: l) | _, _ => None end) (Some []) point.
  Definition valid (v : vpos) : bool := forallb (fun c => negb (ltb c (- epsilon) || ltb (1 + epsilon) c)) v.

  (** items of the path: moveto_pt, lineto_pt, multilineto_pt *)
  Inductive item := MoveTo (p : P) | LineTo (p : P) | MultiLineTo (l : list P).
  (** privatedata, initpointstopath, l.517-520 *)
  Record data := { path : list item; linebasepoints : list P; lastvpos : option vpos }.
  Definition initpointstopath : data := {| path := []; linebasepoints := []; lastvpos := None |}.

  (** addpointstopath, l.522-530 *)
  Definition addpointstopath (d : data) : data :=
    {| path := path d ++
         match linebasepoints d with
         | [] | [_] => []
         | [p; q] => [MoveTo p; LineTo q]
         | p :: l => [MoveTo p; MultiLineTo l]
         end;
       linebasepoints := []; lastvpos := lastvpos d |}.

  (** the point between two positions, l.551-553 *)
  Definition between (p q : vpos) (cut : R) : vpos := map (fun '(vstart, vend) => vstart + (vend - vstart) * cut) (combine p q).
  (** abs(vend - vstart) > self.epsilon *)
  Definition differs (a b : R) : bool := ltb epsilon (Rabs (b - a)).
  (** where a coordinate is at the boundary behind which v lies: if v > 1 ..., if v < 0 ..., l.542-547 *)
  Definition newcut (v vstart vend : R) : option R :=
    let c := if ltb 1 v then Some ((1 - vstart) / (vend - vstart)) else None in
    if ltb v 0 then Some (- vstart / (vend - vstart)) else c.
  Definition smaller (c : option R) (cut : R) : R := match c with Some n => if ltb n cut then n else cut | None => cut end.
  Definition larger (c : option R) (cut : R) : R := match c with Some n => if ltb cut n then n else cut | None => cut end.
  (** cut end, l.538-550 *)
  Definition cutend (p q : vpos) : R :=
    fold_left (fun cut '(vstart, vend) => if differs vstart vend then smaller (newcut vend vstart vend) cut else cut) (combine p q) 1.
  (** cut beginning, l.561-573 *)
  Definition cutbeginning (p q : vpos) : R :=
    fold_left (fun cut '(vstart, vend) => if differs vstart vend then larger (newcut vstart vstart vend) cut else cut) (combine p q) 0.
  (** sometimes cut beginning and end, l.580-605; None is the break *)
  Fixpoint cutboth (l : list (R * R)) (cutfrom cutto : R) : option (R * R) :=
    match l with
    | [] => Some (cutfrom, cutto)
    | (vstart, vend) :: l =>
        if ltb 1 vstart && ltb 1 vend then None
        else if ltb vstart 0 && ltb vend 0 then None
        else if differs vstart vend then cutboth l (larger (newcut vstart vstart vend) cutfrom) (smaller (newcut vend vstart vend) cutto)
        else cutboth l cutfrom cutto
    end.

  Definition add (d : data) (l : list P) : data := {| path := path d; linebasepoints := linebasepoints d ++ l; lastvpos := lastvpos d |}.
  Definition setlast (v : option vpos) (d : data) : data := {| path := path d; linebasepoints := linebasepoints d; lastvpos := v |}.
  (** addpoint, l.532-619 *)
  Definition addpoint (d : data) (pos : option vpos) : data :=
    match pos with
    | Some v =>
        setlast (Some v)
          (match linebasepoints d, lastvpos d with
           | _ :: _, last =>
               if valid v then add d [graphvpos_pt v]
               else let last := match last with Some p => p | None => [] end in
                    addpointstopath (add d [graphvpos_pt (between last v (cutend last v))])
           | [], Some last =>
               if valid v then add d [graphvpos_pt (between last v (cutbeginning last v)); graphvpos_pt v]
               else match cutboth (combine last v) 0 1 with
                    | Some (cutfrom, cutto) =>
                        if ltb cutfrom cutto then addpointstopath (add d [graphvpos_pt (between last v cutfrom); graphvpos_pt (between last v cutto)]) else d
                    | None => d
                    end
           | [], None => d
           end)
    | None => setlast None (if 1 <? length (linebasepoints d) then addpointstopath d else d)%nat
    end.
  (** donepointstopath, l.626-629 *)
  Definition donepointstopath (d : data) : list item := path (if 1 <? length (linebasepoints d) then addpointstopath d else d)%nat.
  (** line: initdrawpoints, drawpoint for all points, and donedrawpoints, l.653-662 *)
  Definition line (points : list (list (option R))) : list item :=
    donepointstopath (fold_left (fun d p => addpoint d (available p)) points initpointstopath).
End Line.
Arguments MoveTo {P}. Arguments LineTo {P}. Arguments MultiLineTo {P}.
