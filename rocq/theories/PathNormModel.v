(** Model of the conversion of paths to normpaths with an epsilon, pyx/path.py l.226-1056, of
    the cache of the class path, l.1087-1233, and of the way back, pyx/normpath.py l.1263-1282
    and l.1840-1846.  As in NormsubModel.v recursions are limited by a [fuel]. *)
From Coq Require Import Reals Bool List.
From Verif Require Import TrafoModel BboxModel CurveModel ArcModel NormsubModel NormpathModel PathModel.
Import ListNotations.
Open Scope R_scope.

Local Notation pt := (R * R)%type.

Section Conversion.
  Variable fuel : nat.

  (** the subpath made by moveto and rmoveto, l.346-354, 359-361, 485-488 *)
  Definition point_sub (e : R) (p : pt) : res nsp := make fuel [Line p p] false (Some e).

  (** createnormpath(epsilon), l.226-234, 343-351, 623-628, 717-722: a number as epsilon, or the
      default value when none is given.  The PathException of l.234 is [Exn Value]. *)
  Definition create_normpath (e : R) (i : pathitem) : res normpath :=
    match i with
    | Moveto p => bind (point_sub e p) (fun s => Ok [s])
    | Arc x y r a1 a2 => bind (make fuel (arc_items x y r a1 a2) false (Some e)) (fun s => Ok [s])
    | Arcn x y r a1 a2 => bind (make fuel (arc_items x y r a2 a1) false (Some e)) (fun s => path_reversed fuel [s])
    | _ => Exn Value
    end.

  (** normpath.normsubpaths[-1].method(...); there always is a last normsubpath *)
  Definition last_sub (f : nsp -> res nsp) (np : normpath) : res normpath :=
    match rev np with
    | [] => Exn Index
    | s :: _ => bind (f s) (fun s' => Ok (removelast np ++ [s']))
    end.
  (** epsilon and closed of the last normsubpath *)
  Definition last_epsilon (np : normpath) (default : R) : R :=
    match rev np with s :: _ => match epsilon s with Some e => e | None => default end | [] => default end.
  Definition last_closed (np : normpath) : bool := match rev np with s :: _ => closed s | [] => false end.

  (** appending lines and curves, l.396-400, 440-446, 524-529, 574-581, 1007-1012, 1049-1054 *)
  Definition add_item (i : item) (nc : normpath * context) : res (normpath * context) :=
    let '(np, c) := nc in
    bind (last_sub (fun s => append fuel s i) np) (fun np' => Ok (np', mkcontext (atend_pt i) (subfirst c))).
  Fixpoint add_lines (l : list pt) (nc : normpath * context) : res (normpath * context) :=
    match l with
    | [] => Ok nc
    | p :: l' => bind (add_item (Line (current (snd nc)) p) nc) (add_lines l')
    end.
  Fixpoint add_curves (l : list (pt * pt * pt)) (nc : normpath * context) : res (normpath * context) :=
    match l with
    | [] => Ok nc
    | (p1, p2, p3) :: l' => bind (add_item (Curve (current (snd nc)) p1 p2 p3) nc) (add_curves l')
    end.
  (** a new subpath, l.358-366, 481-493; all subpaths of the normpath have the same epsilon *)
  Definition add_move (e : R) (p : pt) (np : normpath) : res (normpath * context) :=
    bind (point_sub (last_epsilon np e) p) (fun s => Ok (np ++ [s], mkcontext p p)).
  (** arc and arcn, l.637-648 and l.731-746: a line, in a new subpath when the last one is
      closed, and the curves *)
  Definition add_arc (e : R) (start stop : pt) (l : list item) (nc : normpath * context) : res (normpath * context) :=
    let '(np, c) := nc in
    let line := Line (current c) start in
    bind (if last_closed np
          then bind (make fuel [line] false (Some (last_epsilon np e))) (fun s => Ok (np ++ [s]))
          else last_sub (fun s => append fuel s line) np) (fun np1 =>
    bind (last_sub (fun s => extend fuel s l) np1) (fun np2 => Ok (np2, mkcontext stop (subfirst c)))).

  (** updatenormpath of all items but arct, l.306-1056 *)
  Definition update_simple (e : R) (nc : normpath * context) (i : pathitem) : res (normpath * context) :=
    let '(np, c) := nc in
    let cur := current c in
    match i with
    | Closepath => bind (last_sub (close fuel) np) (fun np' => Ok (np', mkcontext (subfirst c) (subfirst c)))
    | Moveto p => add_move e p np
    | Lineto p => add_item (Line cur p) nc
    | Curveto p1 p2 p3 => add_item (Curve cur p1 p2 p3) nc
    | Rmoveto d => add_move e (plus_pt cur d) np
    | Rlineto d => add_item (Line cur (plus_pt cur d)) nc
    | Rcurveto d1 d2 d3 => add_item (Curve cur (plus_pt cur d1) (plus_pt cur d2) (plus_pt cur d3)) nc
    | Arc x y r a1 a2 => add_arc e (arcpoint x y r a1) (arcpoint x y r a2) (arc_items x y r a1 a2) nc
    | Arcn x y r a1 a2 => add_arc e (arcpoint x y r a1) (arcpoint x y r a2) (arcn_items x y r a1 a2) nc
    | Arct _ _ _ => Ok nc
    | Multilineto l => add_lines l nc
    | Multicurveto l => add_curves l nc
    end.
  Fixpoint updates_simple (e : R) (nc : normpath * context) (l : list pathitem) : res (normpath * context) :=
    match l with
    | [] => Ok nc
    | i :: l' => bind (update_simple e nc i) (fun nc' => updates_simple e nc' l')
    end.
  (** with arct, l.870-872; the ZeroDivisionError of [arct_pathitems] is [Exn Value] *)
  Definition update_normpath (e : R) (nc : normpath * context) (i : pathitem) : res (normpath * context) :=
    match i with
    | Arct p1 p2 r =>
        match arct_pathitems (current (snd nc)) p1 p2 r with
        | Some l => updates_simple e nc l
        | None => Exn Value
        end
    | _ => update_simple e nc i
    end.
  Fixpoint updates (e : R) (nc : normpath * context) (l : list pathitem) : res (normpath * context) :=
    match l with
    | [] => Ok nc
    | i :: l' => bind (update_normpath e nc i) (fun nc' => updates e nc' l')
    end.

  (** the conversion in normpath, l.1221-1230.  createcontext raises the same exceptions as
      createnormpath. *)
  Definition convert (e : R) (l : list pathitem) : res normpath :=
    match l with
    | [] => Ok []
    | i :: l' =>
        bind (create_normpath e i) (fun np =>
        match createcontext i with
        | Some c => bind (updates e (np, c) l') (fun nc => Ok (fst nc))
        | None => Exn Value
        end)
    end.

  (** pathitem, normpath.py l.321-323 and l.590-592, pathitems, l.1263-1282, and path, l.1840-1846.
      atbegin_pt always succeeds as there is an item. *)
  Definition item_pathitem (i : item) : pathitem :=
    match i with Line _ p => Lineto p | Curve _ p1 p2 p3 => Curveto p1 p2 p3 end.
  Definition is_line (i : item) : bool := match i with Line _ _ => true | _ => false end.
  Definition nsp_pathitems (s : nsp) : list pathitem :=
    match items s with
    | [] => []
    | first :: _ =>
        let kept := if (closed s && match lastitem (items s) with Some i => is_line i | None => false end)%bool
                    then removelast (items s) else items s in
        Moveto (atbegin_pt first) :: map item_pathitem kept ++ (if closed s then [Closepath] else [])
    end.
  Definition np_pathitems (np : normpath) : list pathitem := flat_map nsp_pathitems np.

  (** a path object, l.1073-1085: its items and the cached normpath; [default] is the module
      variable _epsilon of normpath.py l.35-40, which is used when no epsilon is given *)
  Record pathobj := mkpathobj { pathitems : list pathitem; cache : option normpath; default : R }.
  Definition new_path (e : R) (l : list pathitem) : pathobj := mkpathobj l None e.

  (** normpath() without epsilon, l.1215-1233: the result and the path afterwards *)
  Definition get_normpath (p : pathobj) : res normpath * pathobj :=
    match cache p with
    | Some np => (Ok np, p)
    | None =>
        match convert (default p) (pathitems p) with
        | Ok np => (Ok np, mkpathobj (pathitems p) (Some np) (default p))
        | x => (x, p)
        end
    end.

  (** What can be done with a path: append, l.1116-1120, extend, l.1184-1189, __iadd__, l.1093-1101
      (with the items of the other path), join, l.1199-1207 (with the other normpath, which has
      to exist), the methods that use normpath(), l.1122-1309, of which some are given an
      epsilon, normpath.set, normpath.py l.37-40, and the modification in place of a normpath
      obtained from the path: its append, normpath.py l.1618-1624. *)
  Inductive action :=
  | Append (i : pathitem) | Extend (l : list pathitem) | Iadd (l : list pathitem)
  | Join (other : normpath) | Query | QueryEpsilon (e : R)
  | SetEpsilon (e : R) | ModifyNormpath (s : nsp).
  Definition act (p : pathobj) (a : action) : pathobj :=
    match a with
    | Append i => mkpathobj (pathitems p ++ [i]) None (default p)
    | Extend l | Iadd l => mkpathobj (pathitems p ++ l) None (default p)
    | Join other =>
        match get_normpath p with
        | (Ok np, p') =>
            match path_join fuel np other with
            | Ok np' => mkpathobj (np_pathitems np') None (default p)
            | _ => p'
            end
        | (_, p') => p'
        end
    | Query => snd (get_normpath p)
    | QueryEpsilon _ => p
    | SetEpsilon e => mkpathobj (pathitems p) (cache p) e
    | ModifyNormpath s =>
        match get_normpath p with
        | (Ok np, p') => mkpathobj (pathitems p') (Some (np ++ [s])) (default p')
        | (_, p') => p'
        end
    end.
  Definition history (p : pathobj) (l : list action) : pathobj := fold_left act l p.
End Conversion.
