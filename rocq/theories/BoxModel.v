(** Model of pyx/box.py l.34-47, 63-80, 104-123, 139-162, 172-219, 224-253, 279-290, 306-318: polygons, their alignment at lines,
    distances and tiling.  Floats are real numbers, lengths are in points.  Alignment at circles (l.82-102, 125-137) is
    in BoxCircleModel.v, genericalignequal_pt (l.256-264) there and in AxisPaintModel.v; paths of polygons (l.49-61) are not modelled. *)
From Coq Require Import Reals List Bool Arith.
Import ListNotations.
Open Scope R_scope.

Definition point : Type := R * R.
Definition px (p : point) := fst p.
Definition py (p : point) := snd p.
(** polygon_pt; the center is never None after the constructor *)
Record polygon := { corners : list point; center : point }.
(** _ensurecenter, l.42-47 *)
Definition mean_center (l : list point) : point :=
  (fold_left (fun s p => s + px p) l 0 / INR (length l), fold_left (fun s p => s + py p) l 0 / INR (length l)).
Definition new_polygon (l : list point) (c : option point) : polygon :=
  {| corners := l; center := match c with Some c => c | None => mean_center l end |}.
(** rect_pt, l.306-318 *)
Definition new_rect (x y w h : R) (relcenter abscenter : point) : polygon :=
  {| corners := [(x, y); (x + w, y); (x + w, y + h); (x, y + h)];
     center := (x + px relcenter * w + px abscenter, y + py relcenter * h + py abscenter) |}.
(** transform by a function on points, l.63-67 *)
Definition transform (t : point -> point) (keep_anchor : bool) (p : polygon) : polygon :=
  {| corners := map t (corners p); center := if keep_anchor then center p else t (center p) |}.
Definition translation (v : point) (p : point) : point := (px p + px v, py p + py v).
(** reltransform, l.69-74 *)
Definition reltransform (ts : list (point -> point)) (p : polygon) : polygon :=
  fold_left (fun q t => transform t false q) ([translation (- px (center p), - py (center p))] ++ ts ++ [translation (center p)]) p.
(** successivepointnumbers and successivepoints, l.76-80 *)
Definition successivepointnumbers (n : nat) : list (nat * nat) :=
  map (fun i => if Nat.eqb i 0 then (n - 1, 0)%nat else (i - 1, i)%nat) (seq 0 n).
Definition corner (l : list point) (i : nat) : point := nth i l (0, 0).
Definition successivepoints (l : list point) : list (point * point) :=
  map (fun ij => (corner l (fst ij), corner l (snd ij))) (successivepointnumbers (length l)).

Definition ltb (a b : R) : bool := if Rlt_dec a b then true else false.
(** ** alignment at lines *)
(** result of linealignlinevector_pt: None, 0, 1 or a tuple *)
Inductive align := Nothing | UseE | UseF | Vector (v : point).
Definition eps : R := / 10 ^ 10.
(** linealignlinevector_pt, l.104-123, with the default epsilon=1e-10 *)
Definition linealignline (c : point) (a dx dy : R) (e f : point) : align :=
  let gx := px e - px f in let gy := py e - py f in
  let dg := dx * gx + dy * gy in
  if ltb (gx * gx + gy * gy) eps then Nothing
  else if ltb (gy * dx - gx * dy) (- eps) then Nothing
  else if ltb eps dg || ltb dg (- eps) then (if ltb dg 0 then UseE else UseF)
  else let alpha := ((a * dx + px c - px e) * dy - (a * dy + py c - py e) * dx) * 1 / (gy * dx - gx * dy) in
       if ltb (0 - eps) alpha && ltb alpha (1 + eps)
       then let beta := ((px e - a * dx - px c) * gy - (py e - a * dy - py c) * gx) * 1 / (gx * dy - gy * dx) in
            Vector (beta * dx, beta * dy)
       else if ltb alpha 0 then UseE else UseF.
(** linealignpointvector_pt, l.139-142 *)
Definition linealignpoint (c : point) (a dx dy : R) (p : point) : point :=
  let beta := (a * dx + px c - px p) * dy - (a * dy + py c - py p) * dx in
  (a * dx - beta * dy - px p + px c, a * dy + beta * dx - py p + py c).
Fixpoint first_vector (l : list align) : option point :=
  match l with [] => None | Vector v :: _ => Some v | _ :: r => first_vector r end.
Definition is_nothing (x : align) : bool := match x with Nothing => true | _ => false end.
Definition is_e (x : align) : bool := match x with UseE => true | _ => false end.
Definition is_f (x : align) : bool := match x with UseF => true | _ => false end.
(** alignvector_pt, l.144-156, for alignment at lines *)
Definition linealignvector (p : polygon) (a dx0 dy0 : R) : point :=
  let n := sqrt (dx0 * dx0 + dy0 * dy0) in
  let dx := dx0 / n in let dy := dy0 / n in
  let sp := successivepoints (corners p) in
  let linevectors := map (fun ps => linealignline (center p) a dx dy (fst ps) (snd ps)) sp in
  match first_vector linevectors with
  | Some v => v
  | None =>
    match find (fun ij => let l1 := nth (fst ij) linevectors Nothing in let l2 := nth (snd ij) linevectors Nothing in
                          (negb (is_nothing l1) || negb (is_nothing l2)) && (is_f l1 || is_nothing l1) && (is_e l2 || is_nothing l2))
               (successivepointnumbers (length (corners p))) with
    | Some ij => linealignpoint (center p) a dx dy (fst (nth (snd ij) sp ((0, 0), (0, 0))))
    | None => (a * dx, a * dy)
    end
  end.
(** linealign_pt, l.176-178 *)
Definition linealign (p : polygon) (a dx dy : R) : polygon := transform (translation (linealignvector p a dx dy)) false p.
(** extent_pt, l.188-197 *)
Definition extent (p : polygon) (dx0 dy0 : R) : R :=
  let n := sqrt (dx0 * dx0 + dy0 * dy0) in
  let dx := dx0 / n in let dy := dy0 / n in
  let v1 := linealignvector p 0 dx dy in
  let v2 := linealignvector p 0 (- dx) (- dy) in
  (px v1 - px v2) * dx + (py v1 - py v2) * dy.
(** tile_pt, l.279-290: the polygons afterwards and the result *)
Definition tile (ps : list polygon) (a dx dy : R) : list polygon * R :=
  let maxextent := fold_left (fun m p => let e := extent p dx dy in if ltb m e then e else m) (tl ps) (extent (hd (new_polygon [] None) ps) dx dy) in
  let delta := maxextent + a in
  (map (fun kp => transform (translation (INR (fst kp) * delta * dx, INR (fst kp) * delta * dy)) false (snd kp)) (combine (seq 0 (length ps)) ps), delta).

(** ** distances *)
Definition hypot (x y : R) : R := sqrt (x * x + y * y).
(** the loop body of pointdistance_pt, l.205-216 *)
Definition edge_distance (x y : R) (e : point * point) : R :=
  let (p1, p2) := e in
  let gx := px p2 - px p1 in let gy := py p2 - py p1 in
  if ltb (gx * gx + gy * gy) eps then hypot (px p1 - x) (py p1 - y)
  else let a := (gx * (x - px p1) + gy * (y - py p1)) / (gx * gx + gy * gy) in
       if ltb a 0 then hypot (px p1 - x) (py p1 - y)
       else if ltb 1 a then hypot (px p2 - x) (py p2 - y)
       else hypot (x - px p1 - a * gx) (y - py p1 - a * gy).
(** if result is None or new < result: result = new *)
Definition least (r : option R) (new : R) : option R :=
  match r with None => Some new | Some old => if ltb new old then Some new else Some old end.
(** pointdistance_pt, l.202-219 *)
Definition pointdistance (l : list point) (x y : R) : option R :=
  fold_left (fun r e => least r (edge_distance x y e)) (successivepoints l) None.
(** the test of boxdistance_pt for two edges, l.228-234 *)
Definition crossing (e f : point * point) : bool :=
  let (p1, p2) := e in let (p3, p4) := f in
  let a := (py p4 - py p3) * (px p3 - px p1) - (px p4 - px p3) * (py p3 - py p1) in
  let b := (py p2 - py p1) * (px p3 - px p1) - (px p2 - px p1) * (py p3 - py p1) in
  let c := (px p2 - px p1) * (py p4 - py p3) - (py p2 - py p1) * (px p4 - px p3) in
  ltb eps (Rabs c) && ltb (- eps) (a / c) && ltb (a / c) (1 + eps) && ltb (- eps) (b / c) && ltb (b / c) (1 + eps).
Inductive distance := Crossing | Distance (d : option R).
(** least for a distance which may be None *)
Definition least_of (r new : option R) : option R :=
  match new with Some d => least r d | None => r end.
(** boxdistance_pt, l.224-244; polygons without corners are not meant *)
Definition boxdistance (l m : list point) : distance :=
  if existsb (fun e => existsb (crossing e) (successivepoints m)) (successivepoints l) then Crossing
  else Distance (fold_left (fun r p => least_of r (pointdistance m (px p) (py p))) l
                  (fold_left (fun r p => least_of r (pointdistance l (px p) (py p))) m None)).
