(** Model of pyx/deformer.py: the curves which replace corners (curvescontrols_from_endlines_pt, l.45-80), the curves with given tangents and
    curvatures at the ends (controldists_from_endgeometry_pt, l.83-333, normcurve_from_endgeometry_pt, l.336-340), intersection (l.343-362) and the
    smoothing of paths made of lines (cornersmoothed.deformsubpath, l.551-682).
    Floats are real numbers.  The cycloid and parallel paths are not modelled. *)
From Coq Require Import Reals List Bool.
From Verif Require Import TrafoModel CurveModel RootsModel.
Import ListNotations.
Open Scope R_scope.

Definition pt := (R * R)%type.

(** ** curvescontrols_from_endlines_pt, l.45-80 *)
(** B + c * r * d, as in l.73-78 *)
Definition from_corner (B : pt) (c r : R) (d : pt) : pt := (fst B + c * r * fst d, snd B + c * r * snd d).
(** f and g, l.69-70 *)
Definition soft_f (softness : R) : R := 0.3192 * softness.
Definition soft_g (f : R) : R := (15.0 * f + sqrt (- 15.0 * f * f + 24.0 * f)) / 12.0.
(** the seven points in the order of l.80; divisions by zero are not modelled *)
Definition corner_points (B tangent1 tangent2 : pt) (r1 r2 softness : R) : pt * pt * pt * pt * pt * pt * pt :=
  let d1 := (- fst tangent1 / hypot (fst tangent1) (snd tangent1), - snd tangent1 / hypot (fst tangent1) (snd tangent1)) in
  let d2 := (fst tangent2 / hypot (fst tangent2) (snd tangent2), snd tangent2 / hypot (fst tangent2) (snd tangent2)) in
  let f := soft_f softness in
  let g := soft_g f in
  let f1 := from_corner B f r1 d1 in
  let f2 := from_corner B f r2 d2 in
  let g1 := from_corner B g r1 d1 in
  let g2 := from_corner B g r2 d2 in
  let d1 := from_corner B 1 r1 d1 in
  let d2 := from_corner B 1 r2 d2 in
  let e := (0.5 * (fst f1 + fst f2), 0.5 * (snd f1 + snd f2)) in
  (d1, g1, f1, e, f2, g2, d2).
(** the two curves of l.621-622 *)
Definition corner_curves (B tangent1 tangent2 : pt) (r1 r2 softness : R) : item * item :=
  let '(d1, g1, f1, e, f2, g2, d2) := corner_points B tangent1 tangent2 r1 r2 softness in (Curve d1 g1 f1 e, Curve e f2 g2 d2).

(** ** controldists_from_endgeometry_pt, l.83-333 *)
Inductive curv := Inf | Fin (c : R).
Definition ltb (x y : R) : bool := if Rlt_dec x y then true else false.
Definition geb (x y : R) : bool := if Rge_dec x y then true else false.
(** is_zero, l.104-105, with the default of curv_epsilon *)
Definition is_zero (x : R) : bool := ltb (Rabs x) (1 / 100000000).
(** math.sqrt(abs(E / (1.5 * curvB))) * mathutils.sign(E*curvB), as in l.126 and elsewhere *)
Definition rootof (E c : R) : R := sqrt (Rabs (E / (1.5 * c))) * sign (E * c).
(** test_divisions, l.99-182; None is an AssertionError *)
Definition test_zeroT (small arbitrary X : R) (c : curv) : option R :=
  match c with
  | Inf => Some small
  | Fin c => if is_zero c then (if ltb (Rabs X) (1 / 10000000000) then Some arbitrary else None) else Some (rootof X c)
  end.
Definition test_divisions (T D E AB : R) (curvA curvB : curv) : option (list (R * R)) :=
  let small := AB * (1 / 10000) in
  let arbitrary := AB * 0.33 in
  if is_zero T then
    match test_zeroT small arbitrary D curvA, test_zeroT small arbitrary E curvB with
    | Some a, Some b => Some [(a, b)]
    | _, _ => None
    end
  else
    match curvA, curvB with
    | Inf, Inf => Some [(small, small)]
    | Inf, Fin cB =>
        Some [(small, if is_zero cB then arbitrary else
                        let b1 := rootof E cB in let b2 := D / T in if ltb (Rabs b1) (Rabs b2) then b1 else b2)]
    | Fin cA, Inf =>
        Some [(if is_zero cA then arbitrary else
                 let a1 := rootof D cA in let a2 := E / T in if ltb (Rabs a1) (Rabs a2) then a1 else a2, small)]
    | Fin cA, Fin cB =>
        if is_zero cA then let b := D / T in Some [((E - 1.5 * cB * b * Rabs b) / T, b)]
        else if is_zero cB then let a := E / T in Some [(a, (D - 1.5 * cA * a * Rabs a) / T)]
        else Some []
    end.
(** fallback_smallT, l.184-196 *)
Definition fallback_smallT (T D E curvA curvB threshold : R) : list (R * R) :=
  let a := rootof D curvA in
  let b := rootof E curvB in
  let q1 := Rmin (Rabs (1.5 * a * a * curvA)) (Rabs D) in
  let q2 := Rmin (Rabs (1.5 * b * b * curvB)) (Rabs E) in
  if geb a 0 && geb b 0 && ltb (Rabs (b * T)) (threshold * q1) && ltb (Rabs (1.5 * a * Rabs a * curvA - D)) (threshold * q1) &&
     ltb (Rabs (a * T)) (threshold * q2) && ltb (Rabs (1.5 * b * Rabs b * curvB - E)) (threshold * q2)
  then [(a, b)] else [].
(** fallback_smallcurv, l.197-220 *)
Definition fallback_smallcurv (T D E curvA curvB threshold : R) : list (R * R) :=
  let a := E / T in
  let b := (D - 1.5 * curvA * a * Rabs a) / T in
  let r1 := if geb a 0 && geb b 0 && ltb (Rabs (1.5 * b * b * curvB)) (threshold * Rmin (Rabs (a * T)) (Rabs E)) &&
               ltb (Rabs (a * T - E)) (threshold * Rmin (Rabs (a * T)) (Rabs E)) then [(a, b)] else [] in
  let b := D / T in
  let a := (E - 1.5 * curvB * b * Rabs b) / T in
  let r2 := if geb a 0 && geb b 0 && ltb (Rabs (1.5 * a * a * curvA)) (threshold * Rmin (Rabs (b * T)) (Rabs D)) &&
               ltb (Rabs (b * T - D)) (threshold * Rmin (Rabs (b * T)) (Rabs D)) then [(a, b)] else [] in
  r1 ++ r2.
(** findnearest, l.222-234, without the index, which is not used; ys = Y :: rest *)
Definition findnearest (x Y : R) (rest : list R) : R :=
  fold_left (fun Y y => if ltb (Rabs (x - y)) (Rabs (x - Y)) then y else Y) rest Y.

(** l.263-265 *)
Definition signs (allownegative : bool) : list (R * R) := if allownegative then [(1, 1); (-1, 1); (1, -1); (-1, -1)] else [(1, 1)].
(** l.270 and l.271: the coefficients for a; those for b are those for a with both ends exchanged *)
Definition coeffs_a (sa sb T D E curvA curvB : R) : list R :=
  [sb * 3.375 * curvA * curvA * curvB; 0.0; - sb * sa * 4.5 * curvA * curvB * D; T ^ 3; sb * 1.5 * curvB * D * D - T * T * E].
Definition coeffs_b (sa sb T D E curvA curvB : R) : list R :=
  [sa * 3.375 * curvA * curvB * curvB; 0.0; - sa * sb * 4.5 * curvA * curvB * E; T ^ 3; sa * 1.5 * curvA * E * E - T * T * D].
(** l.272 and l.273; realpolyroots has no exception for five coefficients *)
Definition with_sign (s : R) (roots : option (list R)) : list R :=
  match roots with Some l => filter (fun root => geb (s * root) 0) l | None => [] end.
Definition candidates_a (allownegative : bool) (T D E curvA curvB : R) : list R :=
  flat_map (fun '(sa, sb) => with_sign sa (realpolyroots (coeffs_a sa sb T D E curvA curvB))) (signs allownegative).
Definition candidates_b (allownegative : bool) (T D E curvA curvB : R) : list R :=
  flat_map (fun '(sa, sb) => with_sign sb (realpolyroots (coeffs_b sa sb T D E curvA curvB))) (signs allownegative).
(** l.274-278 *)
Definition exact_solutions (allownegative : bool) (T D E curvA curvB : R) : list (R * R) :=
  match candidates_b allownegative T D E curvA curvB with
  | [] => []
  | Y :: rest => map (fun a => (a, findnearest ((D - 1.5 * curvA * a * Rabs a) / T) Y rest)) (candidates_a allownegative T D E curvA curvB)
  end.
(** l.281-285 *)
Definition or_else {A} (l l' : list A) : list A := match l with [] => l' | _ => l end.
Definition solutions (allownegative : bool) (T D E curvA curvB : R) : list (R * R) :=
  or_else (or_else (or_else (or_else (exact_solutions allownegative T D E curvA curvB)
    (fallback_smallT T D E curvA curvB (1 / 100))) (fallback_smallcurv T D E curvA curvB (1 / 100)))
    (fallback_smallT T D E curvA curvB (1 / 10))) (fallback_smallcurv T D E curvA curvB (1 / 10)).

(** intersection, l.343-362 *)
Definition intersection (A D tangA tangD : pt) : option (R * R) :=
  let det := - fst tangA * snd tangD + snd tangA * fst tangD in
  if Req_EM_T det 0 then None
  else let DA := (fst D - fst A, snd D - snd A) in
       Some ((- snd tangD * fst DA + fst tangD * snd DA) / det, (- snd tangA * fst DA + fst tangA * snd DA) / det).

(** mycmp, l.288-330, as the answer to mycmp(x, y) < 0, which is all that sort uses.  Parallel tangents, for which abs(None) is a TypeError, do not
    come here, since T is not zero. *)
Definition inside (ts : R * R) (x : R * R) : bool := ltb 0 (fst ts) && ltb (fst ts) (fst x) && ltb 0 (snd ts) && ltb (snd ts) (snd x).
Definition before (ts : R * R) (x y : R * R) : bool :=
  let sx := ltb 0 (fst x) && ltb 0 (snd x) in
  let sy := ltb 0 (fst y) && ltb 0 (snd y) in
  let errx := fst x ^ 2 + snd x ^ 2 in
  let erry := fst y ^ 2 + snd y ^ 2 in
  if sx && sy then
    (if inside ts x then (if inside ts y then ltb errx erry else true)
     else if inside ts y then false else ltb errx erry)
  else sx && negb sy.
(** solutions.sort, l.331, as a stable insertion sort (which sort is, for short lists) *)
Fixpoint insert (ts : R * R) (x : R * R) (l : list (R * R)) : list (R * R) :=
  match l with
  | [] => [x]
  | y :: l' => if before ts x y then x :: l else y :: insert ts x l'
  end.
Definition sorted (ts : R * R) (l : list (R * R)) : list (R * R) := fold_left (fun l x => insert ts x l) l [].

(** l.236-333; None is an exception *)
Definition cross (v w : pt) : R := fst v * snd w - snd v * fst w.
Definition minus (p q : pt) : pt := (fst p - fst q, snd p - snd q).
Definition controldists (A B tangA tangB : pt) (curvA curvB : curv) (allownegative : bool) : option (list (R * R)) :=
  let T := cross tangA tangB in
  let D := cross tangA (minus B A) in
  let E := cross tangB (minus A B) in
  let AB := hypot (fst A - fst B) (snd A - snd B) in
  match test_divisions T D E AB curvA curvB with
  | None => None
  | Some (s :: l) => Some (s :: l)
  | Some [] =>
      match curvA, curvB, intersection A B tangA tangB with
      | Fin cA, Fin cB, Some (t, s) => Some (sorted (Rabs t, Rabs s) (solutions allownegative T D E cA cB))
      | _, _, _ => None
      end
  end.
(** normcurve_from_endgeometry_pt, l.336-340; None is an exception *)
Definition end_curve (A B tangA tangB : pt) (a b : R) : item :=
  Curve A (fst A + a * fst tangA, snd A + a * snd tangA) (fst B - b * fst tangB, snd B - b * snd tangB) B.
Definition normcurve_from_endgeometry (A B tangA tangB : pt) (curvA curvB : curv) : option item :=
  match controldists A B tangA tangB curvA curvB false with
  | Some ((a, b) :: _) => Some (end_curve A B tangA tangB a b)
  | _ => None
  end.

(** ** cornersmoothed.deformsubpath, l.551-682, for subpaths made of lines.  The lines are given by their ends, without those which are shorter than
    pertinentepsilon (l.556-560).  epsilon is 0 in the construction of the new subpath: lines of no length are left out. *)
Definition lline := (pt * pt)%type.
(** l.562-580: the parameters where the line p is cut; first and last tell whether it is the first or last line of an open subpath *)
Definition line_params (radius : R) (first last : bool) (l : lline) : R * R :=
  let arclen := line_arclen (fst l) (snd l) in
  if last then (Rmin radius arclen / arclen, arclen / arclen)
  else if first then (0 / arclen, Rmax 0 (arclen - radius) / arclen)
  else (Rmin radius (0.5 * arclen) / arclen, Rmax (0.5 * arclen) (arclen - radius) / arclen).
(** the middle segment, l.594 *)
Definition middle (l : lline) (ps : R * R) : list item :=
  let i := line_segment (fst l) (snd l) (fst ps) (snd ps) in
  if Req_EM_T (line_arclen (atbegin_pt i) (atend_pt i)) 0 then [] else [i].
(** the corner between two lines, l.599-622 *)
Definition corner (softness : R) (this : lline) (thisparams : R * R) (next : lline) (nextparams : R * R) : list item :=
  let t1 := apply_pt (item_rotation (Line (fst this) (snd this)) (snd thisparams)) (1, 0) in
  let t2 := apply_pt (item_rotation (Line (fst next) (snd next)) (fst nextparams)) (1, 0) in
  let '(c1, c2) := corner_curves (snd this) t1 t2 (line_arclen (fst this) (snd this) * (1 - snd thisparams))
    (line_arclen (fst next) (snd next) * fst nextparams) softness in
  [c1; c2].
(** the loop, l.583-622, over the lines with their parameters; wrap is the first line of a closed subpath *)
Fixpoint smooth_loop (softness : R) (wrap : option (lline * (R * R))) (l : list (lline * (R * R))) : list item :=
  match l with
  | [] => []
  | (this, tp) :: rest =>
      middle this tp ++
      match rest with
      | (next, np) :: _ => corner softness this tp next np
      | [] => match wrap with Some (next, np) => corner softness this tp next np | None => [] end
      end ++ smooth_loop softness wrap rest
  end.
(** the lines with their parameters *)
Fixpoint with_params (radius : R) (closed first : bool) (ls : list lline) : list (lline * (R * R)) :=
  match ls with
  | [] => []
  | l :: rest => (l, line_params radius (negb closed && first) (negb closed && match rest with [] => true | _ => false end) l) :: with_params radius closed false rest
  end.
Definition smoothed (radius softness : R) (closed : bool) (ls : list lline) : list item :=
  let l := with_params radius closed true ls in
  smooth_loop softness (if closed then hd_error l else None) l.
