(** Model of decoratedpath.excluderange, pyx/deco.py l.72-98, and of the pieces strokepath keeps
    (l.108-121) for a path that is one open subpath.

    Parameters of the path (normpathparam) are real numbers: they are compared in the order along the path. *)
From Coq Require Import Reals List Bool Arith.
Import ListNotations.
Open Scope R_scope.

Definition range := (R * R)%type.
Definition ltb (a b : R) : bool := if Rlt_dec a b then true else false.
(** number of members at the beginning of a list that satisfy a condition: the loops l.77-79 and,
    from the end, l.85-87 *)
Fixpoint count_while {A} (f : A -> bool) (l : list A) : nat :=
  match l with [] => O | a :: r => if f a then S (count_while f r) else O end.
(** excluderange, l.72-98; [after] is iend + 1 *)
Definition excluderange (ranges : option (list range)) (begin_ end_ : R) : list range :=
  match ranges with
  | None => [(begin_, end_)]
  | Some l =>
    let ibegin := count_while (fun r : range => ltb (snd r) begin_) l in
    if Nat.eqb ibegin (length l) then l ++ [(begin_, end_)]
    else
      let after := (length l - count_while (fun r : range => ltb end_ (fst r)) (rev l))%nat in
      if Nat.eqb after 0 then (begin_, end_) :: l
      else
        let b := fst (nth ibegin l (0, 0)) in
        let e := snd (nth (after - 1) l (0, 0)) in
        let begin1 := if ltb b begin_ then b else begin_ in
        let end1 := if ltb end_ e then e else end_ in
        firstn ibegin l ++ [(begin1, end1)] ++ skipn (Nat.max ibegin after) l
  end.
(** strokepath, l.109-119: the split points are all begins and ends; the pieces between them are
    numbered and those with even number kept *)
Fixpoint split_points (l : list range) : list R := match l with [] => [] | (b, e) :: r => b :: e :: split_points r end.
Fixpoint pieces (from_ : R) (points : list R) (to_ : R) : list range :=
  match points with [] => [(from_, to_)] | p :: r => (from_, p) :: pieces p r to_ end.
Fixpoint every_second {A} (l : list A) : list A := match l with [] => [] | [a] => [a] | a :: _ :: r => a :: every_second r end.
Definition kept (l : list range) (from_ to_ : R) : list range :=
  match l with [] => [(from_, to_)] | _ => every_second (pieces from_ (split_points l) to_) end.
