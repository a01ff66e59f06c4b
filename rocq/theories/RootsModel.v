(** Model of pyx/mathutils.py l.32-137 with real numbers for floats.
    Exceptions are [None]. *)
From Coq Require Import Reals List.
Import ListNotations.
Open Scope R_scope.

(** sign, l.32-36 *)
Definition sign (x : R) : R := if Rge_dec x 0 then 1 else -1.

(** _realroots_quadratic, l.49-55 *)
Definition realroots_quadratic (a1 a0 : R) : list R :=
  let D := a1 * a1 - 4 * a0 in
  if Rlt_dec D 0 then []
  else let SD := sqrt D in [/2 * (- a1 + SD); /2 * (- a1 - SD)].

(** x**(1/3.0) for x not negative *)
Definition pow13 (x : R) : R := if Rlt_dec 0 x then Rpower x (1 / 3) else 0.

(** _realroots_cubic, l.58-92 *)
Definition realroots_cubic (a2 a1 a0 : R) : list R :=
  let Q := (3 * a1 - a2 * a2) / 9 in
  let R := (9 * a2 * a1 - 27 * a0 - 2 * a2 * a2 * a2) / 54 in
  let D := Q * Q * Q + R * R in
  if Rgt_dec D 0 then
    let SD := sqrt D in
    let S := if Rge_dec (R + SD) 0 then pow13 (R + SD) else - pow13 (- R - SD) in
    let T := if Rge_dec (R - SD) 0 then pow13 (R - SD) else - pow13 (SD - R) in
    [S + T - a2 / 3]
  else if Req_EM_T D 0 then
    if Req_EM_T Q 0 then [- a2 / 3]
    else let S := - sqrt (- Q) in [2 * S - a2 / 3; - S - a2 / 3]
  else
    let SQ := sqrt (- Q) in
    let arg := R / (SQ * SQ * SQ) in
    let theta := if Rge_dec arg 1 then 0 else if Rle_dec arg (-1) then PI else acos (R / (SQ * SQ * SQ)) in
    map (fun i => 2 * SQ * cos ((theta + 2 * 2 * i * PI) / 3) - a2 / 3) [0; 1; 2].

(** min(ys) of the non-empty list y :: ys *)
Definition minlist (y : R) (ys : list R) : R := fold_left Rmin ys y.

(** l.99 *)
Definition geb (x y : R) : bool := if Rge_dec x y then true else false.

(** _realroots_quartic, l.95-108 *)
Definition realroots_quartic (a3 a2 a1 a0 : R) : list R :=
  let ys := realroots_cubic (- a2) (a1 * a3 - 4 * a0) (4 * a0 * a2 - a1 * a1 - a0 * a3 * a3) in
  match filter (fun y => andb (geb (a3 * a3 - 4 * a2 + 4 * y) 0) (geb (y * y - 4 * a0) 0)) ys with
  | [] => []
  | y :: ys' =>
      let y1 := minlist y ys' in
      if Rlt_dec (a3 * y1 - 2 * a1) 0 then
        realroots_quadratic (/2 * (a3 + sqrt (a3 * a3 - 4 * a2 + 4 * y1))) (/2 * (y1 - sqrt (y1 * y1 - 4 * a0))) ++
        realroots_quadratic (/2 * (a3 - sqrt (a3 * a3 - 4 * a2 + 4 * y1))) (/2 * (y1 + sqrt (y1 * y1 - 4 * a0)))
      else
        realroots_quadratic (/2 * (a3 + sqrt (a3 * a3 - 4 * a2 + 4 * y1))) (/2 * (y1 + sqrt (y1 * y1 - 4 * a0))) ++
        realroots_quadratic (/2 * (a3 - sqrt (a3 * a3 - 4 * a2 + 4 * y1))) (/2 * (y1 - sqrt (y1 * y1 - 4 * a0)))
  end.

(** realpolyroots, l.111-137 *)
Fixpoint realpolyroots (cs : list R) : option (list R) :=
  match cs with
  | [] => Some [0]
  | c :: cs' =>
      if Req_EM_T c 0 then realpolyroots cs'                 (* ZeroDivisionError, l.122-123 *)
      else
        match map (fun x => 1 / c * x) cs' with
        | [] => Some []
        | [x0] => Some [- x0]
        | [x1; x0] => Some (realroots_quadratic x1 x0)
        | [x2; x1; x0] => Some (realroots_cubic x2 x1 x0)
        | [x3; x2; x1; x0] => Some (realroots_quartic x3 x2 x1 x0)
        | _ => None                                          (* RuntimeError, l.137 *)
        end
  end.
