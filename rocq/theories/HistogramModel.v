(** Model of the style histogram (pyx/graph/style.py, l.983-1320).

    Positions along the axis of the ranges (vpos, vmin, vmax) and along the axis of the values (vvalue) are real numbers, where 0 and 1 are the
    boundaries of the graph; None is a value which could not be converted.  A path is modelled as its items in coordinates (position, value); the code has two
    branches for each item, where with rangeaxisindex the coordinates are exchanged in the arguments of vpos_pt and vgeodesic_el, here this is done by swap at
    the end.  Attributes, warnings and the path at the fromvalue are not modelled. *)
From Coq Require Import Reals Bool List.
From Verif Require Import GraphLineModel.
Import ListNotations.
Open Scope R_scope.

Definition point := (R * R)%type.
(** moveto_pt, vgeodesic_el from a point to another one, closepath *)
Inductive hitem := HMove (p : point) | HEl (p q : point) | HClose.
Definition swap_point (rangeaxisindex : bool) (p : point) : point := if rangeaxisindex then (snd p, fst p) else p.
Definition swap_item (rangeaxisindex : bool) (i : hitem) : hitem :=
  match i with HMove p => HMove (swap_point rangeaxisindex p) | HEl p q => HEl (swap_point rangeaxisindex p) (swap_point rangeaxisindex q) | HClose => HClose end.

Section Histogram.
Variable epsilon : R.
Variable fillable steps : bool.
(** privatedata.vfromvalue, initdrawpoints l.1256-1269 *)
Variable vfromvalue : R.

(** the value cut at the graph and the kind of cut (-1, 0 or 1), l.1046-1053 *)
Inductive cut := Below | None_ | Above.
Definition cutat (lo hi v : R) : R * cut := if ltb v lo then (0, Below) else if ltb hi v then (1, Above) else (v, None_).
(** if vvalue1cut *)
Definition iscut (c : cut) : bool := match c with None_ => false | _ => true end.
(** abs(vvalue1cut + vvalue2cut) <= 1: not both at the same side *)
Definition notsame (c d : cut) : bool := match c, d with Below, Below => false | Above, Above => false | _, _ => true end.
(** -self.epsilon < vpos < 1+self.epsilon *)
Definition near (v : R) : bool := ltb (- epsilon) v && ltb v (1 + epsilon).

(** vmoveto, l.1040-1045 *)
Definition vmoveto (vpos vvalue : R) : list hitem := if near vpos && near vvalue then [HMove (vpos, vvalue)] else [].
(** vposline, l.1044-1072 *)
Definition vposline (vpos vvalue1 vvalue2 : R) : list hitem :=
  if near vpos then
    let '(vvalue1, c1) := cutat 0 1 vvalue1 in
    let '(vvalue2, c2) := cutat 0 1 vvalue2 in
    if notsame c1 c2 then
      (if iscut c1 && negb fillable then [HMove (vpos, vvalue1)] else []) ++ [HEl (vpos, vvalue1) (vpos, vvalue2)]
    else []
  else [].
(** vvalueline, l.1074-1120 *)
Definition vvalueline (vvalue vpos1 vpos2 : R) : list hitem :=
  let vvalue := if fillable then let v := if ltb vvalue (- epsilon) then 0 else vvalue in if ltb (1 + epsilon) v then 1 else v else vvalue in
  if fillable || near vvalue then
    let '(vpos1, c1) := cutat 0 1 vpos1 in
    let '(vpos2, c2) := cutat 0 1 vpos2 in
    if notsame c1 c2 then
      (if iscut c1 then if fillable then [HMove (vpos1, vfromvalue); HEl (vpos1, vfromvalue) (vpos1, vvalue)] else [HMove (vpos1, vvalue)] else []) ++
      [HEl (vpos1, vvalue) (vpos2, vvalue)] ++
      (if fillable && iscut c2 then [HEl (vpos2, vvalue) (vpos2, vfromvalue)] else [])
    else []
  else [].

(** drawvalue for fillable histograms without steps, l.1124-1214 *)
Definition sum_cuts (a b c d : bool) : nat := (Nat.b2n a + Nat.b2n b + Nat.b2n c + Nat.b2n d)%nat.
Definition fillrect (fromcut : cut) (vmin vmax vvalue : R) : list hitem :=
  let '(vmin, cmin) := cutat (- epsilon) (1 + epsilon) vmin in
  let '(vmax, cmax) := cutat (- epsilon) (1 + epsilon) vmax in
  let '(vvalue, cval) := cutat (- epsilon) (1 + epsilon) vvalue in
  let closed :=
    [HMove (vmin, vfromvalue); HEl (vmin, vfromvalue) (vmax, vfromvalue); HEl (vmax, vfromvalue) (vmax, vvalue); HEl (vmax, vvalue) (vmin, vvalue);
     HEl (vmin, vvalue) (vmin, vfromvalue); HClose] in
  if Nat.ltb 1 (sum_cuts (iscut cmin) (iscut cmax) (iscut cval) (iscut fromcut)) then
    if negb (notsame cmin cmax) || negb (notsame cval fromcut) then [] else closed
  else if iscut cmin then [HMove (vmin, vfromvalue); HEl (vmin, vfromvalue) (vmax, vfromvalue); HEl (vmax, vfromvalue) (vmax, vvalue); HEl (vmax, vvalue) (vmin, vvalue)]
  else if iscut cmax then [HMove (vmax, vvalue); HEl (vmax, vvalue) (vmin, vvalue); HEl (vmin, vvalue) (vmin, vfromvalue); HEl (vmin, vfromvalue) (vmax, vfromvalue)]
  else if iscut fromcut then [HMove (vmax, vfromvalue); HEl (vmax, vfromvalue) (vmax, vvalue); HEl (vmax, vvalue) (vmin, vvalue); HEl (vmin, vvalue) (vmin, vfromvalue)]
  else if iscut cval then [HMove (vmin, vvalue); HEl (vmin, vvalue) (vmin, vfromvalue); HEl (vmin, vfromvalue) (vmax, vfromvalue); HEl (vmax, vfromvalue) (vmax, vvalue)]
  else closed.

(** privatedata.lastvmax and lastvvalue, which are None together *)
Definition last := option (R * R).
(** drawvalue for other histograms, l.1215-1245; None is a point with an invalid value *)
Definition drawvalue (s : last) (b : option (R * R * R)) : list hitem * last :=
  match s, b with
  | None, None => ([], None)
  | Some (lastvmax, lastvvalue), None => (vposline lastvmax lastvvalue vfromvalue, None)
  | None, Some (vmin, vmax, vvalue) =>
      (vmoveto vmin vfromvalue ++ vposline vmin vfromvalue vvalue ++ vvalueline vvalue vmin vmax, Some (vmax, vvalue))
  | Some (lastvmax, lastvvalue), Some (vmin, vmax, vvalue) =>
      let gap := ltb epsilon (Rabs (vmin - lastvmax)) in
      let sides :=
        if negb gap && (steps || ltb ((lastvvalue - vfromvalue) * (vvalue - vfromvalue)) 0) then vposline vmin lastvvalue vvalue
        else
          let currentbigger := ltb (Rabs (lastvvalue - vfromvalue)) (Rabs (vvalue - vfromvalue)) in
          (if negb currentbigger || gap then vposline lastvmax lastvvalue vfromvalue ++ vmoveto vmin vvalue else []) ++
          (if currentbigger || gap then vmoveto vmin vfromvalue ++ vposline vmin vfromvalue vvalue else []) in
      (sides ++ vvalueline vvalue vmin vmax, Some (vmax, vvalue))
  end.
(** all points and donedrawpoints, l.1313-1316: drawvalue(None, None, None) at the end *)
Fixpoint drawvalues (s : last) (bars : list (option (R * R * R))) : list hitem :=
  match bars with
  | [] => fst (drawvalue s None)
  | b :: r => let '(items, s') := drawvalue s b in items ++ drawvalues s' r
  end.
End Histogram.

(** initdrawpoints, l.1256-1269: the converted fromvalue, None for fromvalue=None (where vfromvaluecut is not set in the code) *)
Definition hist_from (v : option R) : R * cut :=
  match v with Some v => cutat 0 1 v | None => (0, None_) end.
(** the path of the histogram *)
Definition histogram_path (epsilon : R) (fillable steps : bool) (fromvalue : option R) (bars : list (option (R * R * R))) : list hitem :=
  let '(vfromvalue, fromcut) := hist_from fromvalue in
  if fillable && negb steps
  then flat_map (fun b => match b with Some (vmin, vmax, vvalue) => fillrect epsilon vfromvalue fromcut vmin vmax vvalue | None => [] end) bars
  else drawvalues epsilon fillable steps vfromvalue None bars.

(** drawpoint with ranges which are given, l.1298-1305 *)
Definition given_bar (b : option R * option R * option R) : option (R * R * R) :=
  match b with (Some vmin, Some vmax, Some vvalue) => Some (vmin, vmax, vvalue) | _ => None end.
(** drawpoint with automatic ranges, l.1271-1297, for positions which are numbers: the bars in the order in which they are drawn, None for the ValueError
    about unequal steps.  (Positions which are None raise a TypeError in the code.) *)
Definition auto_bar (pointpos vrange : R) (p : R * option R) : option (R * R * R) :=
  match p with (p, Some v) => Some (p - pointpos * vrange, p + (1 - pointpos) * vrange, v) | (_, None) => None end.
Fixpoint auto_rest (epsilon pointpos vrange lastvpos : R) (points : list (R * option R)) : option (list (option (R * R * R))) :=
  match points with
  | [] => Some []
  | p :: r =>
      if ltb epsilon (Rabs (vrange - (fst p - lastvpos))) then None
      else match auto_rest epsilon pointpos vrange (fst p) r with Some l => Some (auto_bar pointpos vrange p :: l) | None => None end
  end.
Definition auto_bars (epsilon pointpos : R) (points : list (R * option R)) : option (list (option (R * R * R))) :=
  match points with
  | [] | [_] => Some []
  | p :: q :: r =>
      let vrange := fst q - fst p in
      match auto_rest epsilon pointpos vrange (fst q) r with
      | Some l => Some (auto_bar pointpos vrange p :: auto_bar pointpos vrange q :: l)
      | None => None
      end
  end.
