(** Model of the class normsubpath of pyx/normpath.py, l.787-1395, with real numbers for
    floats.

    A normsubpath is modified in place by the code; here the functions return the modified
    normsubpath, and what it contains after an exception is not modelled.  Recursions are
    limited by a [fuel]; [Deep] means it was not enough.  The intersection of normsubpaths
    (l.1106-1215) and the output methods (l.1397-1447) are not modelled here. *)
From Coq Require Import Reals ZArith Bool List.
From Verif Require Import PyDict TrafoModel BboxModel RootsModel CurveModel.
Import ListNotations.
Open Scope R_scope.

Local Notation pt := (R * R)%type.

(** exceptions: AssertionError, NormpathException, ValueError, IndexError *)
Inductive exn := Assertion | Normpath | Value | Index.
Inductive res (A : Type) := Ok (a : A) | Exn (e : exn) | Deep.
Arguments Ok {A} a.
Arguments Exn {A} e.
Arguments Deep {A}.
Definition bind {A B} (x : res A) (f : A -> res B) : res B :=
  match x with Ok a => f a | Exn e => Exn e | Deep => Deep end.

(** the slots of a normsubpath, l.808.  [skipped] is skippedline, which always is a
    normline_pt. *)
Record nsp := mknsp { items : list item; closed : bool; epsilon : option R; skipped : option item }.

(** __init__ without items, l.810-822 *)
Definition empty_nsp (epsilon : option R) : nsp := mknsp [] false epsilon None.

Definition lastitem (l : list item) : option item := match rev l with [] => None | i :: _ => Some i end.

(** the consistency tests of append, l.881-884 *)
Definition gap (p q : pt) : R := hypot (fst p - fst q) (snd p - snd q).
Definition mismatch (e : R) (s : nsp) (i : item) : bool :=
  match skipped s with
  | Some l => negb (ltb (gap (atend_pt l) (atbegin_pt i)) e)
  | None => match lastitem (items s) with
            | Some l => negb (ltb (gap (atend_pt l) (atbegin_pt i)) e)
            | None => false
            end
  end.

(** l.915-916 *)
Definition substantial (e : R) (p0 p1 p2 p3 : pt) : bool :=
  leb e (dist p0 p3) ||
  ((leb e (dist p0 p1 * 3) || leb e (dist p0 p2 * 3)) && (leb e (dist p3 p2 * 3) || leb e (dist p3 p1 * 3))).
(** the shifted control points, l.921-941 *)
Definition toward (e : R) (p q : pt) : pt :=
  (fst p + (fst q - fst p) * e / dist p q / (29 / 10), snd p + (snd q - snd p) * e / dist p q / (29 / 10)).
Definition shift_first (e : R) (p0 p1 p2 p3 : pt) : pt :=
  if ltb (dist p0 p1 * 3) e then if leb e (dist p0 p2 * 3) then toward e p0 p2 else toward e p0 p3 else p1.
Definition shift_second (e : R) (p0 p1 p2 p3 : pt) : pt :=
  if ltb (dist p3 p2 * 3) e then if leb e (dist p3 p1 * 3) then toward e p3 p1 else toward e p3 p0 else p2.

(** the extrema of the derivative, l.946-952.  realpolyroots is called with four
    coefficients and thus never fails. *)
Definition der_coefs (x0 x1 x2 x3 : R) : R * R * R := (x3 - 3 * x2 + 3 * x1 - x0, 2 * x0 - 4 * x1 + 2 * x2, x1 - x0).
Definition extrema (p0 p1 p2 p3 : pt) : list R :=
  let '(ax, bx, cx) := der_coefs (fst p0) (fst p1) (fst p2) (fst p3) in
  let '(ay, by_, cy) := der_coefs (snd p0) (snd p1) (snd p2) (snd p3) in
  match realpolyroots [4 * ax * ax + 4 * ay * ay; 6 * ax * bx + 6 * ay * by_;
                       4 * ax * cx + 4 * ay * cy + 2 * bx * bx + 2 * by_ * by_; 2 * bx * cx + 2 * by_ * cy] with
  | Some rs => rs
  | None => []
  end.
(** l.955 *)
Definition slow (e : R) (p0 p1 p2 p3 : pt) (t : R) : bool :=
  let '(ax, bx, cx) := der_coefs (fst p0) (fst p1) (fst p2) (fst p3) in
  let '(ay, by_, cy) := der_coefs (snd p0) (snd p1) (snd p2) (snd p3) in
  ltb (9 * ((ax * t * t + bx * t + cx) ^ 2 + (ay * t * t + by_ * t + cy) ^ 2)) (e * e).
Definition splitpoints (e : R) (p0 p1 p2 p3 : pt) : list R :=
  filter (fun t => (ltb 0 t && ltb t 1 && slow e p0 p1 p2 p3 t)%bool) (extrema p0 p1 p2 p3).
(** splitpoints.sort(), l.959 *)
Fixpoint rinsert (x : R) (l : list R) : list R :=
  match l with
  | [] => [x]
  | y :: l' => if Rlt_dec x y then x :: y :: l' else y :: rinsert x l'
  end.
Definition rsort (l : list R) : list R := fold_right rinsert [] l.
(** the pieces, l.960-964; [prev] is the previous splitpoint *)
Definition curve_of (c : pt * pt * pt * pt) : item := let '(p0, p1, p2, p3) := c in Curve p0 p1 p2 p3.
Fixpoint pieces (c : pt * pt * pt * pt) (prev : option R) (ts : list R) : list (pt * pt * pt * pt) :=
  match ts with
  | [] => [c]
  | t :: ts' =>
      let '(p0, p1, p2, p3) := c in
      let '(a, b) := split p0 p1 p2 p3 (match prev with None => t | Some u => (t - u) / (1 - u) end) in
      a :: pieces b (Some t) ts'
  end.
(** short curves become lines, l.968-973 *)
Definition line_if_short (e : R) (c : pt * pt * pt * pt) : item :=
  let '(p0, p1, p2, p3) := c in
  if ltb (dist p0 p1 + dist p1 p2 + dist p2 p3) e then Line p0 p3 else Curve p0 p1 p2 p3.

Section Extend.
  Variable append : nsp -> item -> res nsp.
  (** extend, l.1084-1090 *)
  Fixpoint extend_with (s : nsp) (l : list item) : res nsp :=
    match l with
    | [] => Ok s
    | i :: l' => bind (append s i) (fun s' => extend_with s' l')
    end.
End Extend.

Definition push (s : nsp) (i : item) : nsp := mknsp (items s ++ [i]) (closed s) (epsilon s) (skipped s).
Definition with_skipped (s : nsp) (o : option item) : nsp := mknsp (items s) (closed s) (epsilon s) o.

(** append, l.871-977 *)
Fixpoint append (fuel : nat) (s : nsp) (i : item) : res nsp :=
  match fuel with
  | O => Deep
  | S f =>
      match epsilon s with
      | None => Ok (push s i)
      | Some e =>
          if mismatch e s i then Exn Assertion
          else if closed s then Exn Normpath
          else
            let i := match skipped s with Some l => modifiedbegin_pt i (atbegin_pt l) | None => i end in
            let s := with_skipped s None in
            match i with
            | Line p0 p1 => if leb e (dist p0 p1) then Ok (push s i) else Ok (with_skipped s (Some i))
            | Curve p0 p1 p2 p3 =>
                if substantial e p0 p1 p2 p3 then
                  let q1 := shift_first e p0 p1 p2 p3 in
                  let q2 := shift_second e p0 p1 p2 p3 in
                  match splitpoints e p0 q1 q2 p3 with
                  | [] => Ok (push s (Curve p0 q1 q2 p3))
                  | ts => extend_with (append f) s (map (line_if_short e) (pieces (p0, q1, q2, p3) None (rsort ts)))
                  end
                else Ok (with_skipped s (Some (Line p0 p3)))
            end
      end
  end.
Definition extend (fuel : nat) (s : nsp) (l : list item) : res nsp := extend_with (append fuel) s l.

(** flushskippedline, l.1092-1104 *)
Fixpoint flush (fuel : nat) (s : nsp) : res nsp :=
  match skipped s with
  | None => Ok s
  | Some l =>
      match fuel with
      | O => Deep
      | S f =>
          match lastitem (items s) with
          | None => Exn Value
          | Some i => bind (append f (mknsp (removelast (items s)) (closed s) (epsilon s) None) (modifiedend_pt i (atend_pt l)))
                           (flush f)
          end
      end
  end.

(** close, l.1041-1058 *)
Definition close (fuel : nat) (s : nsp) : res nsp :=
  if closed s then Exn Normpath
  else match lastitem (items s), items s with
  | Some l, i :: _ =>
      bind (append fuel s (Line (atend_pt l) (atbegin_pt i))) (fun s =>
      bind (flush fuel s) (fun s => Ok (mknsp (items s) true (epsilon s) (skipped s))))
  | _, _ => Exn Normpath
  end.

(** __init__, l.810-831 *)
Definition make (fuel : nat) (l : list item) (closed : bool) (epsilon : option R) : res nsp :=
  bind (extend fuel (empty_nsp epsilon) l) (fun s => if closed then close fuel s else Ok s).

(** atbegin_pt and atend_pt, l.1019-1029; an IndexError is [None] *)
Definition nsp_atbegin (s : nsp) : option pt :=
  match items s, skipped s with
  | [], Some l => Some (atbegin_pt l)
  | [], None => None
  | i :: _, _ => Some (atbegin_pt i)
  end.
Definition nsp_atend (s : nsp) : option pt :=
  match skipped s with
  | Some l => Some (atend_pt l)
  | None => option_map atend_pt (lastitem (items s))
  end.

(** _distributeparams, l.848-869: int(param) of a positive param is its floor *)
Definition param_index (n : nat) (t : R) : nat :=
  if ltb 0 t then Nat.min (Z.to_nat (floor t)) (n - 1) else 0%nat.
(** The dictionary of lists of positions and parameters.  [index] and [sub] give the key
    and the remaining parameter; the same code with other functions is at l.1602-1616. *)
Section Distribute.
  Context {A B : Type} (index : A -> nat) (sub : A -> B).
  Fixpoint distribute_from (k : nat) (params : list A) (d : list (nat * (list nat * list B))) :=
    match params with
    | [] => d
    | p :: params' =>
        let entry := match dget Nat.eqb (index p) d with Some e => e | None => ([], []) end in
        distribute_from (S k) params' (dset Nat.eqb (index p) (fst entry ++ [k], snd entry ++ [sub p]) d)
    end.
  Definition distribute (params : list A) := distribute_from 0 params [].
End Distribute.
Definition distributeparams (n : nat) (params : list R) : list (nat * (list nat * list R)) :=
  distribute (param_index n) (fun t => t - INR (param_index n t)) params.

(** result[index] = value *)
Fixpoint set_nth {A} (k : nat) (x : A) (l : list A) : list A :=
  match l, k with
  | [], _ => []
  | _ :: l', O => x :: l'
  | y :: l', S k' => y :: set_nth k' x l'
  end.
(** the loops of l.1013-1017, 1078-1082, 1293-1297, 1380-1384 with [method] evaluating the
    parameters of one key; places not set are [None] *)
Definition collect {B C} (method : nat -> list B -> list C) (n : nat) (d : list (nat * (list nat * list B))) : list (option C) :=
  fold_left (fun result '(key, (indices, params)) =>
               fold_left (fun result '(index, value) => set_nth index (Some value) result)
                         (combine indices (method key params)) result)
            d (repeat None n).
(** at_pt for a list of parameters, l.1009-1017.  A normsubpath without any item and
    without skippedline fails with an IndexError for a non-empty list; here the result is
    a list of [None]. *)
Definition item_method {C} (f : item -> R -> C) (l : list item) (key : nat) (params : list R) : list C :=
  match nth_error l key with Some i => map (f i) params | None => [] end.
Definition nsp_at (s : nsp) (params : list R) : list (option pt) :=
  match items s, skipped s with
  | [], Some l => map (fun _ => Some (atbegin_pt l)) params
  | _, _ => collect (item_method at_pt (items s)) (length params) (distributeparams (length (items s)) params)
  end.
(** curvature_pt, rotation and trafo, l.1076-1082, 1291-1297, 1378-1384 *)
Definition nsp_query {C} (f : item -> R -> C) (s : nsp) (params : list R) : list (option C) :=
  collect (item_method f (items s)) (length params) (distributeparams (length (items s)) params).

(** bbox, l.1031-1039 *)
Definition nsp_bbox (s : nsp) : bbox :=
  match items s with
  | [] => empty
  | i :: l => fold_left (fun b j => biadd b (item_bbox j)) l (item_bbox i)
  end.

(** arclen_pt of a normsubpath made of lines, l.979-984.  [line_parts] lists the end points
    of the lines, [None] if there is a curve. *)
Fixpoint line_parts (l : list item) : option (list (pt * pt)) :=
  match l with
  | [] => Some []
  | Line p q :: l' => option_map (cons (p, q)) (line_parts l')
  | Curve _ _ _ _ :: _ => None
  end.
Definition lines_arclen (l : list (pt * pt)) : R := fold_right Rplus 0 (map (fun '(p, q) => line_arclen p q) l).

(** _arclentoparam_pt of a normsubpath made of lines, l.986-1003, with that of a line,
    l.173-176.  The state of the loop is a list of pairs of the remaining length and the
    result, as long as it is not None. *)
Definition line_arclentoparam (p q : pt) (length : R) : R := length / line_arclen p q.
Fixpoint arclentoparam_loop (k : nat) (ls : list (pt * pt)) (st : list (R * option R)) (total : R) : list (R * option R) * R :=
  match ls with
  | [] => (st, total)
  | (p, q) :: ls' =>
      let arclen := line_arclen p q in
      arclentoparam_loop (S k) ls'
        (map (fun '(len, result) =>
                match result with
                | Some _ => (len, result)
                | None =>
                    let param := line_arclentoparam p q len in
                    let len := len - arclen in
                    (len, if (ltb len 0 || match ls' with [] => true | _ => false end)%bool then Some (INR k + param) else None)
                end) st)
        (total + arclen)
  end.
Definition nsp_arclentoparam (ls : list (pt * pt)) (lengths : list R) : list (option R) * R :=
  let '(st, total) := arclentoparam_loop 0 ls (map (fun l => (l, None)) lengths) 0 in (map snd st, total).

(** _paramtoarclen_pt of a normsubpath made of lines, l.1245-1261, with that of a line,
    l.316-319 *)
Fixpoint paramtoarclen_loop (k : nat) (ls : list (pt * pt)) (d : list (nat * (list nat * list R))) (result : list (option R)) (total : R)
  : list (option R) * R :=
  match ls with
  | [] => (result, total)
  | (p, q) :: ls' =>
      let arclen := line_arclen p q in
      let result :=
        match dget Nat.eqb k d with
        | Some (indices, params) =>
            fold_left (fun result '(index, a) => set_nth index (Some (total + a)) result)
                      (combine indices (map (fun t => arclen * t) params)) result
        | None => result
        end in
      paramtoarclen_loop (S k) ls' d result (total + arclen)
  end.
Definition nsp_paramtoarclen (ls : list (pt * pt)) (params : list R) : list (option R) * R :=
  match ls with
  | [] => (map (fun _ => Some 0) params, 0)
  | _ => paramtoarclen_loop 0 ls (distributeparams (length ls) params) (repeat None (length params)) 0
  end.

(** reversed, l.1284-1289 *)
Definition nsp_reversed (fuel : nat) (s : nsp) : res nsp := make fuel (map item_reversed (rev (items s))) (closed s) (epsilon s).

(** transformed, l.1386-1395 *)
Definition nsp_transformed (fuel : nat) (t : trafo) (s : nsp) : res nsp :=
  bind (extend fuel (empty_nsp (epsilon s)) (map (item_transformed t) (items s))) (fun s' =>
    if closed s then close fuel s'
    else match skipped s with
    | Some l => append fuel s' (item_transformed t l)
    | None => Ok s'
    end).

(** join, l.1217-1234, and joined, l.1236-1243.  That [other] may be the same object as
    [self] is not modelled. *)
Definition join (fuel : nat) (s other : nsp) : res nsp :=
  if closed other then Exn Normpath
  else
    bind (match items s with
          | [] => Ok s
          | _ => match nsp_atend s, nsp_atbegin other with
                 | Some p, Some q => append fuel s (Line p q)
                 | _, _ => Exn Index
                 end
          end) (fun s =>
    bind (extend fuel s (items other)) (fun s =>
    match skipped other with Some l => append fuel s l | None => Ok s end)).

(** segments, l.1299-1376.  The state of the loop is the finished normsubpaths, the last
    one, and the collected parameters with their index.  [item_segments] has at least two
    parameters except for the first parameter of all, where it is not called. *)
Fixpoint more_segments (fuel : nat) (eps : option R) (gs : list item) (done : list nsp) (last : nsp) : res (list nsp * nsp) :=
  match gs with
  | [] => Ok (done, last)
  | g :: gs' => bind (make fuel [g] false eps) (fun s => more_segments fuel eps gs' (done ++ [last]) s)
  end.
Definition add_segments (fuel : nat) (eps : option R) (i : item) (params : list R) (done : list nsp) (last : nsp)
  : res (list nsp * nsp) :=
  match item_segments i params with
  | Some (g :: gs) => bind (append fuel last g) (fun last => more_segments fuel eps gs done last)
  | _ => Exn Value
  end.
Fixpoint segments_loop (fuel : nat) (s : nsp) (params : list R) (done : list nsp) (last : nsp) (collected : list R) (collectindex : option nat)
  : res (list nsp) :=
  match params with
  | [] =>
      match collectindex with
      | Some k =>
          match nth_error (items s) k with
          | Some i => bind (add_segments fuel (epsilon s) i collected done last) (fun '(done, last) => Ok (done ++ [last]))
          | None => Exn Index
          end
      | None => Exn Index
      end
  | t :: params' =>
      let index := param_index (length (items s)) t in
      let t := t - INR index in
      match collectindex with
      | None => segments_loop fuel s params' done last (collected ++ [t]) (Some index)
      | Some k =>
          if Nat.eqb index k then segments_loop fuel s params' done last (collected ++ [t]) (Some k)
          else
            match nth_error (items s) k with
            | None => Exn Index
            | Some i =>
                let up := Nat.ltb k index in
                bind (add_segments fuel (epsilon s) i (collected ++ [if up then 1 else 0]) done last) (fun '(done, last) =>
                bind (extend fuel last (if up then firstn (index - k - 1) (skipn (S k) (items s))
                                        else map item_reversed (rev (firstn (k - index - 1) (skipn (S index) (items s))))))
                     (fun last => segments_loop fuel s params' done last [if up then 0 else 1; t] (Some index)))
            end
      end
  end.
Definition reqb (x y : R) : bool := if Req_EM_T x y then true else false.
Definition nsp_segments (fuel : nat) (s : nsp) (params : list R) : res (list nsp) :=
  match params with
  | first :: _ :: _ =>
      match items s with
      | [] => if closed s then Exn Assertion else Ok (repeat s (length params - 1))
      | _ =>
          bind (segments_loop fuel s params [] (empty_nsp (epsilon s)) [] None) (fun result =>
          let n := INR (length (items s)) in
          let final := last params 0 in
          if (closed s && (reqb first 0 && reqb final n || reqb final 0 && reqb first n))%bool then
            match result, rev result with
            | a :: _, b :: _ =>
                let joined := mknsp (items b ++ items a) (closed b) (epsilon b) (skipped b) in
                Ok (joined :: removelast (tl result))
            | _, _ => Exn Index
            end
          else Ok result)
      end
  | _ => Exn Value
  end.
