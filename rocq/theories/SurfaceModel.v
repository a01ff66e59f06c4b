(** * Model of the style surface, pyx/graph/style.py l.1736-1737, 1739-1743, 1760-1910

    Floats are real numbers.  Only surfaces without grid lines (gridcolor None, the default) are modelled.  The data stored by
    gridpos are given as a function (None is the KeyError).  Of the colors only the decision for backcolor is modelled (for a
    backcolor which is not None).  None as result is the ZeroDivisionError of vzindex and vangle. *)

From Coq Require Import Reals Bool List.
From Verif Require Import Graph3dModel.
Import ListNotations.
Open Scope R_scope.

(** v[index] = x in a list of three numbers; larger indices are an IndexError, which is not modelled *)
Definition setitem (i : nat) (x : R) (v : vec) : vec :=
  let '(a, b, c) := v in match i with O => (x, b, c) | S O => (a, x, c) | _ => (a, b, x) end.
(** midvalue, l.1736-1737 *)
Definition midvalue (v1 v2 v3 v4 : vec) : vec :=
  let '(a1, b1, c1) := v1 in let '(a2, b2, c2) := v2 in let '(a3, b3, c3) := v3 in let '(a4, b4, c4) := v4 in
  (0.25 * (a1 + a2 + a3 + a4), 0.25 * (b1 + b2 + b3 + b4), 0.25 * (c1 + c2 + c3 + c4)).

Definition bind {A B} (x : option A) (f : A -> option B) : option B := match x with Some a => f a | None => None end.
Notation "'do' x <- a ; b" := (bind a (fun x => b)) (at level 200, x pattern, right associativity).

Section Surface.
  Variable g : graphxyz.
  Variable index1 index2 : nat.
  Definition zero : vec := (0, 0, 0).

  (** the order of the values is reversed, l.1780-1786, 1792-1798 *)
  Definition reversed (index : nat) : option bool :=
    do a <- vzindex g (setitem index (-1) zero); do b <- vzindex g (setitem index 1 zero); Some (ltb a b).
  (** sortElements.sort(): tuples of the zindex and the number *)
  Definition before (a b : R * nat) : bool := ltb (fst a) (fst b) || negb (ltb (fst b) (fst a)) && Nat.leb (snd a) (snd b).
  Fixpoint insert (x : R * nat) (l : list (R * nat)) : list (R * nat) :=
    match l with [] => [x] | y :: l' => if before x y then x :: l else y :: insert x l' end.
  Definition sort (l : list (R * nat)) : list (R * nat) := fold_right insert [] l.
  (** l.1761-1774, 1786, 1798-1801 *)
  Definition sort_elements (r1 r2 : bool) : option (list (R * nat)) :=
    do z0 <- vzindex g (setitem index2 0.5 zero);
    do z1 <- vzindex g (setitem index1 0.5 zero);
    do z2 <- vzindex g (setitem index2 1 (setitem index1 0.5 zero));
    do z3 <- vzindex g (setitem index2 0.5 (setitem index1 1 zero));
    let '(a0, a1, a2, a3) := (- z0, - z1, - z2, - z3) in
    let '(a0, a1, a2, a3) := if r1 then (a3, a1, a2, a0) else (a0, a1, a2, a3) in
    let '(a0, a1, a2, a3) := if r2 then (a0, a2, a1, a3) else (a0, a1, a2, a3) in
    Some (sort [(a0, 0%nat); (a1, 1%nat); (a2, 2%nat); (a3, 3%nat)]).

  (** an element: the two ranges of values, the number of the triangle, its corners, and whether it has the backcolor *)
  Record element := mkelement { range1 : R * R; range2 : R * R; number : nat; tri : vec * vec * vec; back : bool }.
  (** the corners of the triangles, l.1857-1905 *)
  Definition triangle (v1 v2 v3 v4 : vec) (i : nat) : vec * vec * vec :=
    let v5 := midvalue v1 v2 v3 v4 in
    match i with O => (v1, v2, v5) | S O => (v3, v1, v5) | S (S O) => (v2, v4, v5) | _ => (v4, v3, v5) end.
  (** the test of vangle, l.1739-1742, 1842-1856 *)
  Definition is_back (negative : bool) (t : vec * vec * vec) : option bool :=
    let '(a, b, c) := t in do x <- vangle g a b c; Some (ltb ((if negative then -1 else 1) * x) 0).
  Fixpoint triangles (a b : R * R) (negative : bool) (v1 v2 v3 v4 : vec) (order : list (R * nat)) : option (list element) :=
    match order with
    | [] => Some []
    | (_, i) :: order' =>
        do x <- is_back negative (triangle v1 v2 v3 v4 i);
        do l <- triangles a b negative v1 v2 v3 v4 order';
        Some (mkelement a b i (triangle v1 v2 v3 v4 i) x :: l)
    end.
  (** the elements of one cell, l.1809-1820, 1830-1905; the data are (available, valid, vpos) *)
  Definition cell (data : R -> R -> option (bool * bool * vec)) (negative : bool) (order : list (R * nat)) (a b : R * R) : option (list element) :=
    match data (fst a) (fst b), data (fst a) (snd b), data (snd a) (fst b), data (snd a) (snd b) with
    | Some (available1, valid1, v1), Some (available2, valid2, v2), Some (available3, valid3, v3), Some (available4, valid4, v4) =>
        if negb available1 || negb available2 || negb available3 || negb available4 then Some []
        else if negb valid1 || negb valid2 || negb valid3 || negb valid4 then Some []
        else triangles a b negative v1 v2 v3 v4 order
    | _, _, _, _ => Some []
    end.
  (** zip(values[:-1], values[1:]) *)
  Definition pairs (l : list R) : list (R * R) := combine (removelast l) (tl l).
  Fixpoint collect {A B} (f : A -> option (list B)) (l : list A) : option (list B) :=
    match l with [] => Some [] | a :: l' => do x <- f a; do y <- collect f l'; Some (x ++ y) end.
  (** donedrawpoints; [values1] and [values2] are the sorted lists of values *)
  Definition surface (data : R -> R -> option (bool * bool * vec)) (values1 values2 : list R) : option (list element) :=
    do r1 <- reversed index1;
    do r2 <- reversed index2;
    do order <- sort_elements r1 r2;
    let vs1 := if r1 then rev values1 else values1 in
    let vs2 := if r2 then rev values2 else values2 in
    collect (fun a => collect (fun b => cell data (xorb r1 r2) order a b) (pairs vs2)) (pairs vs1).
End Surface.
