(** * Model of the bar styles of graphs: barpos, stackedbarpos and bar of pyx/graph/style.py (l.1327-1585)

    Floats are real numbers.  The conversion of the values by the axes is a parameter: [None] stands for the ArithmeticError,
    ValueError or TypeError of convert.  The columns of a data point are given in the order of the dimensions of the graph.  The
    attributes of the paths (colors) are not modelled. *)

From Coq Require Import Reals Bool List.
From Verif Require Import Graph3dModel.
Import ListNotations.
Open Scope R_scope.

(** the names of bars: strings and numbers are atoms, nested names are tuples; tuples with other than two elements are not
    modelled *)
Inductive name := Atom (n : nat) | Pair (a b : name).
(** addsubvalue, l.1362-1371; the subvalues are the atoms 0 and 1 *)
Fixpoint addsubvalue (v : name) (s : nat) : name :=
  match v with
  | Atom n => Pair (Atom n) (Atom s)
  | Pair a b => Pair a (addsubvalue b s)
  end.

(** a column of a data point: the value of the bar (None if it is not a number) or the name of the bar *)
Inductive column := Value (x : option R) | Name (n : name).

(** the data shared by the styles; l.1330 *)
Record shared := mkshared { vbarrange : list (option R * option R); vpos : list (option R); lastbarvalue : option R;
                            vposavailable : bool; vposvalid : bool }.

Section Bars.
  (** convert of the axis of the values and, for each dimension, of the bar axes *)
  Variable convert : R -> option R.
  Variable convert_name : nat -> name -> option R.
  Definition convert_value (x : option R) : option R := match x with Some y => convert y | None => None end.

  (** vfromvalue in barpos.initdrawpoints, l.1390-1405; errors in the conversion of fromvalue are not caught by the code: None *)
  Definition vfromvalue (fromvalue : option R) : option R :=
    match fromvalue with
    | None => Some 0
    | Some x =>
        match convert x with
        | None => None
        | Some v => let v := if ltb v 0 then 0 else v in Some (if ltb 1 v then 1 else v)
        end
    end.

  (** barpos.drawpoint, l.1407-1430: the positions of one column *)
  Definition column_range (vfrom : R) (i : nat) (c : column) : option R * option R :=
    match c with
    | Value x => (Some vfrom, convert_value x)
    | Name n => (convert_name i (addsubvalue n 0), convert_name i (addsubvalue n 1))
    end.
  Definition column_pos (vfrom : R) (i : nat) (c : column) : option R :=
    match c with
    | Value x => convert_value x
    | Name n => match column_range vfrom i c with (Some a, Some b) => Some (0.5 * (a + b)) | _ => None end
    end.
  (** vposavailable and vposvalid *)
  Definition note (epsilon : R) (flags : bool * bool) (v : option R) : bool * bool :=
    match v with
    | None => (false, false)
    | Some x => if ltb x (- epsilon) || ltb (1 + epsilon) x then (fst flags, false) else flags
    end.
  Fixpoint number {A} (i : nat) (l : list A) : list (nat * A) :=
    match l with [] => [] | x :: l' => (i, x) :: number (S i) l' end.
  Definition last_value (cs : list column) (old : option R) : option R :=
    fold_left (fun acc c => match c with Value x => x | Name _ => acc end) cs old.
  Definition barpos_drawpoint (vfrom epsilon : R) (cs : list column) : shared :=
    let numbered := number 0 cs in
    let pos := map (fun c => column_pos vfrom (fst c) (snd c)) numbered in
    let flags := fold_left (note epsilon) pos (true, true) in
    mkshared (map (fun c => column_range vfrom (fst c) (snd c)) numbered) pos (last_value cs None) (fst flags) (snd flags).

  (** replacing an element of a list *)
  Definition put {A} (i : nat) (x : A) (l : list A) : list A :=
    map (fun c => if Nat.eqb (fst c) i then x else snd c) (number 0 l).
  (** the flags computed again by stackedbarpos, l.1471-1479: the loop stops at the first missing position *)
  Fixpoint check_again (epsilon : R) (flags : bool * bool) (l : list (option R)) : bool * bool :=
    match l with
    | [] => flags
    | None :: _ => (false, false)
    | Some x :: l' => check_again epsilon (if ltb x (- epsilon) || ltb (1 + epsilon) x then (fst flags, false) else flags) l'
    end.
  (** stackedbarpos.drawpoint, l.1460-1480; [i] is barvalueindex, [x] the value of the column stackname *)
  Definition stacked_drawpoint (addontop : bool) (epsilon : R) (i : nat) (x : option R) (s : shared) : shared :=
    let last := if addontop then match lastbarvalue s, x with Some a, Some b => Some (a + b) | _, _ => None end else x in
    let old := match nth_error (vbarrange s) i with Some r => snd r | None => None end in
    let v := convert_value last in
    let range := put i (old, v) (vbarrange s) in
    let pos := put i v (vpos s) in
    match v with
    | None => mkshared range pos last false false
    | Some _ =>
        if negb (vposavailable s) || negb (vposvalid s)
        then let flags := check_again epsilon (true, true) pos in mkshared range pos last (fst flags) (snd flags)
        else mkshared range pos last (vposavailable s) (vposvalid s)
    end.
End Bars.

(** ** bar.drawpoint, l.1516-1571 *)
(** the ranges within the graph, l.1517-1531; None if nothing is drawn *)
Definition clip_range (r : option R * option R) : option (R * R) :=
  match r with
  | (Some a, Some b) =>
      let '(vmin, vmax) := if ltb b a then (b, a) else (a, b) in
      if ltb 1 vmin || ltb vmax 0 then None
      else Some (if ltb vmin 0 then 0 else vmin, if ltb 1 vmax then 1 else vmax)
  | _ => None
  end.
Fixpoint clip_ranges (l : list (option R * option R)) : option (list (R * R)) :=
  match l with
  | [] => Some []
  | r :: l' => match clip_range r, clip_ranges l' with Some x, Some m => Some (x :: m) | _, _ => None end
  end.
(** the corners of the closed path in two dimensional graphs, l.1532-1538 *)
Definition corners2 (x y : R * R) : list (R * R) :=
  [(fst x, fst y); (snd x, fst y); (snd x, snd y); (fst x, snd y)].
(** the planes in three dimensional graphs, l.1540-1566: the four corners *)
Definition face : Type := vec * vec * vec * vec.
Definition far (epsilon : R) (r : R * R) : bool := ltb epsilon (Rabs (fst r - snd r)).
Definition differ (r : R * R) : bool := if Req_EM_T (Rabs (fst r - snd r)) 0 then false else true.
Definition planes (epsilon : R) (x y z : R * R) : list face :=
  let '(x0, x1) := x in let '(y0, y1) := y in let '(z0, z1) := z in
  (if far epsilon x && differ y then
     [((x0, y0, z0), (x1, y0, z0), (x1, y1, z0), (x0, y1, z0)); ((x0, y0, z1), (x0, y1, z1), (x1, y1, z1), (x1, y0, z1))] else []) ++
  (if far epsilon x && differ z then
     [((x0, y0, z0), (x0, y0, z1), (x1, y0, z1), (x1, y0, z0)); ((x0, y1, z0), (x1, y1, z0), (x1, y1, z1), (x0, y1, z1))] else []) ++
  (if far epsilon y && differ z then
     [((x0, y0, z0), (x0, y1, z0), (x0, y1, z1), (x0, y0, z1)); ((x1, y0, z0), (x1, y0, z1), (x1, y1, z1), (x1, y1, z0))] else []).
(** the position for the zindex, l.1567-1571: the middle of the bar, but 0.5 in the dimension of the values *)
Definition middle (valueindex : nat) (x y z : R * R) : vec :=
  let m i r := if Nat.eqb i valueindex then 0.5 else 0.5 * (fst r + snd r) in (m 0%nat x, m 1%nat y, m 2%nat z).
(** the planes which are drawn, l.1572-1584, with the key for sorting.  None is the ZeroDivisionError. *)
Fixpoint draw_planes (g : graphxyz) (z : R) (l : list face) : option (list (R * face)) :=
  match l with
  | [] => Some []
  | f :: l' =>
      let '(v1, v2, v3, v4) := f in
      match vangle g v1 v2 v4, draw_planes g z l' with
      | Some a, Some m => Some (if ltb 0 a then (- z, f) :: m else m)
      | _, _ => None
      end
  end.
Definition draw_bar (g : graphxyz) (epsilon : R) (valueindex : nat) (x y z : R * R) : option (list (R * face)) :=
  match vzindex g (middle valueindex x y z) with
  | Some zi => draw_planes g zi (planes epsilon x y z)
  | None => None
  end.
(** todraw.sort(key=lambda x: x[0]), l.1586: a stable sort *)
Fixpoint insert_key {A} (x : R * A) (l : list (R * A)) : list (R * A) :=
  match l with
  | [] => [x]
  | y :: l' => if ltb (fst y) (fst x) then y :: insert_key x l' else x :: l
  end.
Definition sort_key {A} (l : list (R * A)) : list (R * A) := fold_right insert_key [] l.
(** donedrawpoints, l.1585-1588: the planes of all bars in the order in which they are painted *)
Definition draw_bars (g : graphxyz) (epsilon : R) (valueindex : nat) (bars : list ((R * R) * (R * R) * (R * R))) : option (list (R * face)) :=
  option_map sort_key
    (fold_right (fun b acc => let '(x, y, z) := b in
       match draw_bar g epsilon valueindex x y z, acc with Some d, Some m => Some (d ++ m) | _, _ => None end) (Some []) bars).
