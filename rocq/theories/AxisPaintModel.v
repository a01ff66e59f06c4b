(** Model of pyx/graph/axis/painter.py l.33-47 (axiscanvas), l.50-72 (rotatetext), l.81-110 (_title), l.113-121 (tick lengths), l.181-262
    (regular.paint), l.298-364 (bar.paint), l.396-428 (split.paint), pyx/graph/axis/axis.py l.335-362 (subaxispositioner),
    pyx/graph/axis/tick.py l.268-276 (maxlevels) and pyx/box.py l.256-271 (genericalignequal_pt for alignment at lines).
    Floats are real numbers, lengths are in points.  Texts are the boxes they are typeset to, with the point of the text as center
    (text.py, textbox_pt): the polygons of BoxModel.  The attributes of strokes are left out, except for whether
    anything is painted; the layers of the canvas are separate lists.  Base paths and grid paths are left out. *)
From Coq Require Import Reals List Bool Arith.
From Verif Require Import TrafoModel CurveModel BoxModel.
Import ListNotations.
Open Scope R_scope.

Definition reqb (a b : R) : bool := if Req_EM_T a b then true else false.
(** ** positions *)
(** a positioner: vtickpoint_pt and vtickdirection, positioner.py l.42-47 *)
Record positioner := { vtickpoint : R -> point; vtickdirection : R -> point }.
(** lineaxispos_pt, positioner.py l.79-107 *)
Definition linepositioner (a b d : point) : positioner :=
  {| vtickpoint := fun v => ((1 - v) * px a + v * px b, (1 - v) * py a + v * py b); vtickdirection := fun _ => d |}.
(** the part of a subaxis, vmin, vmax, vminover and vmaxover *)
Record subaxis := { vmin : R; vmax : R; vminover : R; vmaxover : R }.
(** subaxispositioner, axis.py l.335-362; v1 and v2 of the base path are given to the base positioner *)
Definition subpositioner (p : positioner) (s : subaxis) : positioner :=
  {| vtickpoint := fun v => vtickpoint p (vmin s + v * (vmax s - vmin s)); vtickdirection := fun v => vtickdirection p (vmin s + v * (vmax s - vmin s)) |}.
Definition subbasepath (s : subaxis) (v1 v2 : option R) : R * R :=
  (match v1 with Some v => vmin s + v * (vmax s - vmin s) | None => vminover s end,
   match v2 with Some v => vmin s + v * (vmax s - vmin s) | None => vmaxover s end).

(** ** the direction of texts *)
(** the loops of rotatetext.trafo, painter.py l.58-65: [turned test step a b] holds when the loop
    while (test): direction += step
    started with a ends with b *)
Inductive turned (test : R -> Prop) (step : R) : R -> R -> Prop :=
| turned_end a : ~ test a -> turned test step a a
| turned_step a b : test a -> turned test step (a + step) b -> turned test step a b.
(** rotatetext.trafo, painter.py l.57-66, up to the angle of the rotation *)
Definition textangle (direction eps dx dy r : R) : Prop := exists a b c,
  turned (fun x => 180 + eps < x) (- (360)) (direction + atan2 dy dx * 180 / PI) a /\
  turned (fun x => x < - (180) - eps) 360 a b /\
  turned (fun x => 90 + eps < x) (- (180)) b c /\
  turned (fun x => x < - (90) - eps) 180 c r.
(** rotatetext.parallel and rotatetext.orthogonal, l.69-70, with the default epsilon of l.53 *)
Definition parallel (dx dy r : R) : Prop := textangle 90 (/ 10 ^ 10) dx dy r.
Definition orthogonal (dx dy r : R) : Prop := textangle 180 (/ 10 ^ 10) dx dy r.
(** the arguments of titledirection.trafo, l.94-104 *)
Definition titlevector (p : positioner) (titlepos : R) : point :=
  let (x, y) := vtickpoint p titlepos in
  let (dx, dy) := vtickdirection p titlepos in
  let (x2, y2) := vtickpoint p (titlepos + 0.001) in
  let dx2 := x2 - x in let dy2 := y2 - y in
  let turn := ltb (dx * dy2 - dy * dx2) 0 in
  let dx3 := if turn then dx2 * - (1) else dx2 in
  let dy3 := if turn then dy2 * - (1) else dy2 in
  (dy3, - dx3).

(** ** boxes with a common direction *)
(** genericalignequal_pt with linealignvector_pt, box.py l.256-264: the vector *)
Definition farthest (a dx dy : R) (l : list polygon) : option point :=
  fold_left (fun vec p => let v := linealignvector p a dx dy in
    match vec with
    | None => Some v
    | Some w => if ltb (px w * dx + py w * dy) (px v * dx + py v * dy) then Some v else Some w
    end) l None.
(** linealignequal_pt, box.py l.270-271 *)
Definition linealignequal (l : list polygon) (a dx dy : R) : list polygon :=
  match farthest a dx dy l with None => l | Some v => map (transform (translation v) false) l end.

(** ** tick lengths *)
(** innerticklength and outerticklength: None, a length or a geometricseries, l.113-121 *)
Inductive lengthattr := Without | Fixed (l : R) | Series (initial factor : R).
(** attr.selectattr, attr.py l.201-212, with geometricseries.select, l.121-122 *)
Definition selectlength (a : lengthattr) (index : nat) : option R :=
  match a with Without => None | Fixed l => Some l | Series i f => Some (i * f ^ index) end.
(** a tick with what paint makes of it: its point and direction (l.182-185), its ticklevel, and the
    box of its label when labellevel is not None (l.190-200) *)
Record mark := { mpoint : point; mdir : point; ticklevel : option nat; label : option polygon }.
(** maxlevels, tick.py l.268-276, for the ticklevel *)
Definition maxticklevel (l : list mark) : nat :=
  fold_left (fun m t => match ticklevel t with Some k => if Nat.leb m k then S k else m | None => m end) l 0%nat.

(** the painter: which ticks and grid lines have attributes (None of the lists or of selectattrs means no), lengths,
    whether labelattrs is not None, distances *)
Record regular := { tickattrs : nat -> nat -> bool; gridattrs : option nat -> nat -> bool; innerlength : lengthattr; outerlength : lengthattr;
  labelattrs : bool; labeldist : R; hequalize : bool; vequalize : bool; titledist : R }.
(** the canvas: extent_pt and the layers *)
Record canvas := { extent_pt : R; ticks : list (point * point); grid : list mark; labels : list polygon; titles : list polygon }.
(** axiscanvas.__init__, l.36-41 *)
Definition axiscanvas : canvas := {| extent_pt := 0; ticks := []; grid := []; labels := []; titles := [] |}.

(** equaldirection, l.201-207 *)
Definition equaldirection (l : list point) : bool :=
  match l with
  | d :: ((_ :: _) as r) => forallb (fun e => reqb (px e) (px d) && reqb (py e) (py d)) r
  | _ => false
  end.
(** the test of l.208-209 *)
Definition equalize (h v : bool) (l : list point) : bool :=
  equaldirection l && match l with d :: _ => (reqb (px d) 0 && v) || (reqb (py d) 0 && h) | [] => false end.
Fixpoint replace_labels (l : list mark) (bs : list polygon) : list mark :=
  match l with
  | [] => []
  | t :: l' => match label t, bs with
               | Some _, b :: bs' => {| mpoint := mpoint t; mdir := mdir t; ticklevel := ticklevel t; label := Some b |} :: replace_labels l' bs'
               | _, _ => t :: replace_labels l' bs
               end
  end.
Definition boxes (l : list mark) : list polygon := flat_map (fun t => match label t with Some b => [b] | None => [] end) l.
Definition align_mark (a : R) (t : mark) : mark :=
  {| mpoint := mpoint t; mdir := mdir t; ticklevel := ticklevel t;
     label := match label t with Some b => Some (linealign b a (- px (mdir t)) (- py (mdir t))) | None => None end |}.
(** the alignment of the labels, l.201-216; nothing is aligned without labelattrs *)
Definition aligned (p : regular) (l : list mark) : list mark :=
  if labelattrs p then
    if equalize (hequalize p) (vequalize p) (map mdir l)
    then match l with d :: _ => replace_labels l (linealignequal (boxes l) (labeldist p) (- px (mdir d)) (- py (mdir d))) | [] => [] end
    else map (align_mark (labeldist p)) l
  else l.
(** if x > canvas.extent_pt: canvas.extent_pt = x *)
Definition widen (c : R) (x : R) : R := if ltb c x then x else c.
(** the line of a tick, l.228-234 *)
Definition tick_line (t : mark) (inner outer : R) : point * point :=
  ((px (mpoint t) + px (mdir t) * inner, py (mpoint t) + py (mdir t) * inner), (px (mpoint t) - px (mdir t) * outer, py (mpoint t) - py (mdir t) * outer)).
(** the lengths of a tick, l.219-229, None when nothing is painted *)
Definition tick_lengths (p : regular) (total : nat) (t : mark) : option (R * R) :=
  match ticklevel t with
  | Some k => if tickattrs p k total
              then match selectlength (innerlength p) k, selectlength (outerlength p) k with
                   | None, None => None
                   | i, o => Some (match i with Some i => i | None => 0 end, match o with Some o => o | None => 0 end)
                   end
              else None
  | None => None
  end.
(** the loop body, l.218-248 *)
Definition paint_mark (p : regular) (total : nat) (c : canvas) (t : mark) : canvas :=
  let c1 := match tick_lengths p total t with
            | Some (i, o) => {| extent_pt := widen (widen (extent_pt c) o) (- i); ticks := ticks c ++ [tick_line t i o]; grid := grid c; labels := labels c; titles := titles c |}
            | None => c
            end in
  let c2 := if gridattrs p (ticklevel t) total
            then {| extent_pt := extent_pt c1; ticks := ticks c1; grid := grid c1 ++ [t]; labels := labels c1; titles := titles c1 |} else c1 in
  match label t with
  | Some b => if labelattrs p
              then {| extent_pt := widen (extent_pt c2) (extent b (px (mdir t)) (py (mdir t)) + labeldist p); ticks := ticks c2; grid := grid c2; labels := labels c2 ++ [b]; titles := titles c2 |}
              else c2
  | None => c2
  end.
(** regular.paint without the title, l.182-250 *)
Definition paint_regular (p : regular) (l : list mark) (c : canvas) : canvas :=
  fold_left (paint_mark p (maxticklevel l)) (aligned p l) c.
(** _title.paint, l.97-112, with the box of the title, its center at the tick point; None without title or titleattrs *)
Definition paint_title (dist : R) (title : option (polygon * point)) (c : canvas) : canvas :=
  match title with
  | None => c
  | Some (b, d) =>
      let e := extent_pt c + dist in
      let b' := linealign b e (- px d) (- py d) in
      {| extent_pt := e + extent b' (px d) (py d); ticks := ticks c; grid := grid c; labels := labels c; titles := titles c ++ [b'] |}
  end.
(** regular.paint, l.181-262 *)
Definition paint (p : regular) (l : list mark) (title : option (polygon * point)) (c : canvas) : canvas :=
  paint_title (titledist p) title (paint_regular p l c).

(** ** bars *)
Record barpainter := { bartickattrs : bool; barinner : option R; barouter : option R; nameattrs : bool; namedist : R; namepos : R;
  namehequalize : bool; namevequalize : bool; bartitledist : R }.
(** the positions of the names, l.299-305 *)
Definition name_v (p : barpainter) (s : subaxis) : R := vmin s + namepos p * (vmax s - vmin s).
(** the boxes aligned, l.306-328: [bs] are the boxes of the names with the directions *)
Definition aligned_names (p : barpainter) (dist : R) (bs : list polygon) (dirs : list point) : list polygon :=
  if equalize (namehequalize p) (namevequalize p) dirs
  then match dirs with d :: _ => linealignequal bs dist (- px d) (- py d) | [] => bs end
  else map (fun bd => linealign (fst bd) dist (- px (snd bd)) (- py (snd bd))) (combine bs dirs).
(** bar.paint, l.298-364: [typeset] gives the box of the name of a subaxis *)
Definition paint_bar (p : barpainter) (q : positioner) (l : list (subaxis * polygon)) (title : option (polygon * point)) (c : canvas) : canvas :=
  let dirs := map (fun sb => vtickdirection q (name_v p (fst sb))) l in
  let dist := extent_pt c + namedist p in
  let bs := aligned_names p dist (if nameattrs p then map snd l else []) dirs in
  let inner := match barinner p with Some i => i | None => 0 end in
  let outer := match barouter p with Some o => o | None => 0 end in
  let e1 := match barinner p with Some i => widen (extent_pt c) (- i) | None => extent_pt c end in
  let e2 := match barouter p with Some o => widen e1 o | None => e1 end in
  let painted := bartickattrs p && match barinner p, barouter p with None, None => false | _, _ => true end in
  let line v := let x := vtickpoint q v in let d := vtickdirection q v in
    ((px x + px d * inner, py x + py d * inner), (px x - px d * outer, py x - py d * outer)) in
  let ts := if painted then map line (map (fun sb => vminover (fst sb)) l ++ [1]) else [] in
  let e3 := if painted then e2 else extent_pt c in
  let e4 := fold_left (fun e bd => widen e (extent (fst bd) (px (snd bd)) (py (snd bd)) + dist)) (combine bs dirs) e3 in
  paint_title (bartitledist p) title
    {| extent_pt := e4; ticks := ticks c ++ ts; grid := grid c; labels := labels c ++ bs; titles := titles c |}.

(** ** breaks of split axes *)
(** rotate_pt about a point as used in l.408 and l.412, trafo.py l.268-287 *)
Definition rotated (angle : R) (c p : point) : point :=
  (px c + cos (radians angle) * (px p - px c) - sin (radians angle) * (py p - py c), py c + sin (radians angle) * (px p - px c) + cos (radians angle) * (py p - py c)).
(** l.406-419: the two lines for the point and the unit tangent of the base path *)
Definition break_lines (dist len angle : R) (c t : point) : (point * point) * (point * point) :=
  let bend := (px c + len * px t, py c + len * py t) in
  let wend := rotated (angle + 90) c (px c + dist * px t, py c + dist * py t) in
  let tocenter := (0.5 * (px c - px bend), 0.5 * (py c - py bend)) in
  let towidth := (0.5 * (px c - px wend), 0.5 * (py c - py wend)) in
  let b := rotated angle c (translation tocenter c) in
  let e := rotated angle c (translation tocenter bend) in
  let back := (- px towidth, - py towidth) in
  ((translation towidth b, translation towidth e), (translation back b, translation back e)).
(** breaklinesextent_pt, l.400-401 *)
Definition break_extent (dist len angle : R) : R :=
  0.5 * dist * Rabs (cos (angle * PI / 180)) + 0.5 * len * Rabs (sin (angle * PI / 180)).
(** the corners of the filled region, l.417-421 *)
Definition break_region (ls : (point * point) * (point * point)) : list point := [fst (fst ls); snd (fst ls); snd (snd ls); fst (snd ls)].
