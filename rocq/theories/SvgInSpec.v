(** Meaning of SVG path data and transformations (SVG 1.1, chapters 7.6 and 8.3) and statements about
    them, independent of pyx. *)
From Coq Require Import Reals Bool List.
From Verif Require Import TrafoModel PathModel PathSpec SvgInModel.
Import ListNotations.
Open Scope R_scope.

Local Notation pt := (R * R)%type.

(** ** Paths *)
(** The commands with their arguments; [up] tells upper case letters. *)
Inductive scmd :=
| SMove (up : bool) (p : pt) (l : list pt)
| SLine (up : bool) (p : pt) (l : list pt)
| SHor (up : bool) (x : R) (l : list R)
| SVert (up : bool) (y : R) (l : list R)
| SCurve (up : bool) (c : pt * pt * pt) (l : list (pt * pt * pt))
| SSmooth (up : bool) (c : pt * pt) (l : list (pt * pt))
| SQuad (up : bool) (c : pt * pt) (l : list (pt * pt))
| SSmoothQuad (up : bool) (p : pt) (l : list pt)
| SClose (up : bool).

(** The control point a smooth curve refers to (8.3.6, 8.3.7). *)
Inductive control := NoControl | Cubic (p : pt) | Quadratic (p : pt).
Definition st := (gstate * control)%type.
Definition here (s : st) : option pt := point_of (now (fst s)).
Definition at_pt (up : bool) (q p : pt) : pt := if up then p else (fst q + fst p, snd q + snd p).
Definition reflected (q p : pt) : pt := (2 * fst q - fst p, 2 * snd q - snd p).
(** the cubic curve that is the quadratic curve from p0 by q to p3; see svg_quadratic_curve *)
Definition elevated (p0 q p3 : pt) : seg :=
  SegCurve (fst p0 / 3 + 2 * fst q / 3, snd p0 / 3 + 2 * snd q / 3) (2 * fst q / 3 + fst p3 / 3, 2 * snd q / 3 + snd p3 / 3) p3.

Definition drawing (s : st) (f : pt -> seg * control) : option st :=
  match here s with
  | Some q => match add_seg (fst s) (fst (f q)) with Some g => Some (g, snd (f q)) | None => None end
  | None => None
  end.
Definition do_line up (s : st) (p : pt) : option st := drawing s (fun q => (SegLine (at_pt up q p), NoControl)).
Definition do_hor up (s : st) (x : R) : option st := drawing s (fun q => (SegLine (if up : bool then x else fst q + x, snd q), NoControl)).
Definition do_vert up (s : st) (y : R) : option st := drawing s (fun q => (SegLine (fst q, if up : bool then y else snd q + y), NoControl)).
Definition do_curve up (s : st) (c : pt * pt * pt) : option st :=
  let '(p1, p2, p3) := c in
  drawing s (fun q => (SegCurve (at_pt up q p1) (at_pt up q p2) (at_pt up q p3), Cubic (at_pt up q p2))).
Definition do_smooth up (s : st) (c : pt * pt) : option st :=
  let '(p2, p3) := c in
  drawing s (fun q => (SegCurve (match snd s with Cubic p => reflected q p | _ => q end) (at_pt up q p2) (at_pt up q p3), Cubic (at_pt up q p2))).
Definition do_quad up (s : st) (c : pt * pt) : option st :=
  let '(p1, p3) := c in
  drawing s (fun q => (elevated q (at_pt up q p1) (at_pt up q p3), Quadratic (at_pt up q p1))).
Definition do_smoothquad up (s : st) (p3 : pt) : option st :=
  drawing s (fun q => let p1 := match snd s with Quadratic p => reflected q p | _ => q end in
                      (elevated q p1 (at_pt up q p3), Quadratic p1)).
(** a relative move at the beginning is an absolute one (8.3.2) *)
Definition do_move up (s : st) (p : pt) : st :=
  (move (fst s) (match here s with Some q => at_pt up q p | None => p end), NoControl).
Definition do_close (s : st) : option st :=
  match here s with
  | Some _ => match obey (fst s) Oclose with Some g => Some (g, NoControl) | None => None end
  | None => None
  end.
Fixpoint each {A} (f : st -> A -> option st) (s : st) (l : list A) : option st :=
  match l with
  | [] => Some s
  | a :: l' => match f s a with Some s' => each f s' l' | None => None end
  end.
Definition perform (s : st) (c : scmd) : option st :=
  match c with
  | SMove up p l => each (do_line up) (do_move up s p) l
  | SLine up p l => each (do_line up) s (p :: l)
  | SHor up x l => each (do_hor up) s (x :: l)
  | SVert up y l => each (do_vert up) s (y :: l)
  | SCurve up c l => each (do_curve up) s (c :: l)
  | SSmooth up c l => each (do_smooth up) s (c :: l)
  | SQuad up c l => each (do_quad up) s (c :: l)
  | SSmoothQuad up p l => each (do_smoothquad up) s (p :: l)
  | SClose _ => do_close s
  end.
Definition perform_all (s : st) (l : list scmd) : option st := each perform s l.
Definition blank : st := (mkgstate [] NoPoint, NoControl).

(** The numbers of the commands in the order in which they are written. *)
Definition nums1 (l : list pt) : list R := flat_map (fun p => [fst p; snd p]) l.
Definition nums2 (l : list (pt * pt)) : list R := flat_map (fun '(p, q) => [fst p; snd p; fst q; snd q]) l.
Definition nums3 (l : list (pt * pt * pt)) : list R := flat_map (fun '(p, q, r) => [fst p; snd p; fst q; snd q; fst r; snd r]) l.
Definition written (c : scmd) : command :=
  match c with
  | SMove up p l => Cmd LM up (nums1 (p :: l)) false
  | SLine up p l => Cmd LL up (nums1 (p :: l)) false
  | SHor up x l => Cmd LH up (x :: l) false
  | SVert up y l => Cmd LV up (y :: l) false
  | SCurve up c l => Cmd LC up (nums3 (c :: l)) false
  | SSmooth up c l => Cmd LS up (nums2 (c :: l)) false
  | SQuad up c l => Cmd LQ up (nums2 (c :: l)) false
  | SSmoothQuad up p l => Cmd LT up (nums1 (p :: l)) false
  | SClose up => Cmd LZ up [] false
  end.

(** Lists in which paths are closed only after something was drawn, and a move follows. *)
Definition sends (c : scmd) : kind :=
  match c with SMove _ _ [] => Moves | SClose _ => Closes | _ => Draws end.
Fixpoint neat (prev : kind) (l : list scmd) : bool :=
  match l with
  | [] => true
  | SMove up p r :: l' => neat (sends (SMove up p r)) l'
  | SClose _ :: l' => match prev with Draws => neat Closes l' | _ => false end
  | c :: l' => match prev with Closes => false | _ => neat Draws l' end
  end.
(** Lists in which the smooth commands do not follow curves of the other degree. *)
Inductive degree := Two | Three | Other.
Definition degree_of (c : scmd) : degree :=
  match c with
  | SCurve _ _ _ | SSmooth _ _ _ => Three
  | SQuad _ _ _ | SSmoothQuad _ _ _ => Two
  | _ => Other
  end.
Fixpoint matching (prev : degree) (l : list scmd) : bool :=
  match l with
  | [] => true
  | c :: l' =>
      match c, prev with
      | SSmooth _ _ _, Two | SSmoothQuad _ _ _, Three => false
      | _, _ => matching (degree_of c) l'
      end
  end.

(** ** Curves *)
Definition quadratic_point (p0 p1 p2 : pt) (t : R) : pt :=
  let f a b c := (1 - t) * (1 - t) * a + 2 * t * (1 - t) * b + t * t * c in
  (f (fst p0) (fst p1) (fst p2), f (snd p0) (snd p1) (snd p2)).
Definition cubic_point (p0 p1 p2 p3 : pt) (t : R) : pt :=
  let f a b c d := (1 - t) ^ 3 * a + 3 * t * (1 - t) ^ 2 * b + 3 * t ^ 2 * (1 - t) * c + t ^ 3 * d in
  (f (fst p0) (fst p1) (fst p2) (fst p3), f (snd p0) (snd p1) (snd p2) (snd p3)).

(** ** Transformations, 7.6 *)
(** what a single entry does to a point *)
Definition deg (a : R) : R := a * PI / 180.
Definition transform_pt (x : transform) (p : pt) : pt :=
  match x with
  | Matrix a b c d e f => (a * fst p + c * snd p + e, b * fst p + d * snd p + f)
  | Translate x y => (fst p + x, snd p + match y with Some y => y | None => 0 end)
  | Scale x y => (x * fst p, match y with Some y => y | None => x end * snd p)
  | Rotate a None => (cos (deg a) * fst p - sin (deg a) * snd p, sin (deg a) * fst p + cos (deg a) * snd p)
  | Rotate a (Some (cx, cy)) =>
      (cx + cos (deg a) * (fst p - cx) - sin (deg a) * (snd p - cy), cy + sin (deg a) * (fst p - cx) + cos (deg a) * (snd p - cy))
  | SkewX a => (fst p + tan (deg a) * snd p, snd p)
  | SkewY a => (fst p, snd p + tan (deg a) * fst p)
  end.
(** the last entry is applied first *)
Definition transform_all (l : list transform) (p : pt) : pt := fold_right transform_pt p l.
(** entries which are put on the right side by toTrafo wherever they are *)
Definition plain_entry (x : transform) : bool :=
  match x with Translate _ _ | Scale _ _ | Rotate _ _ => true | _ => false end.
(** entries that may come last: the matrix must be symmetric *)
Definition last_entry (x : transform) : Prop := match x with Matrix _ b c _ _ _ => b = c | _ => True end.
