(** Model of pyx/bbox.py (l.30-344) with real numbers for floats.

    llx_pt is None for an empty box; the other attributes of an empty box (None or
    stale numbers, l.91-92) are arbitrary numbers here.  ValueErrors are [None]. *)
From Coq Require Import Reals List.
From Verif Require Import UnitModel TrafoModel.
Open Scope R_scope.

(** bbox_pt.__init__, l.41-45 *)
Record bbox := mkbbox { llx : option R; lly : R; urx : R; ury : R }.
(** __bool__, l.47-48 *)
Definition nonempty (b : bbox) : bool := match llx b with Some _ => true | None => false end.
(** class empty, l.340-344 *)
Definition empty : bbox := mkbbox None 0 0 0.
(** class bbox, l.328-337 *)
Definition new_bbox (st : ustate) (x1 y1 x2 y2 : pyval) : bbox := mkbbox (Some (topt st x1)) (topt st y1) (topt st x2) (topt st y2).

(** __add__, l.50-59 *)
Definition badd (s o : bbox) : bbox :=
  match llx s with
  | Some l => match llx o with
              | Some l' => mkbbox (Some (Rmin l l')) (Rmin (lly s) (lly o)) (Rmax (urx s) (urx o)) (Rmax (ury s) (ury o))
              | None => mkbbox (Some l) (lly s) (urx s) (ury s)
              end
  | None => mkbbox (llx o) (lly o) (urx o) (ury o)
  end.
(** __iadd__, l.61-74: the new state of self *)
Definition biadd (s o : bbox) : bbox :=
  match llx s with
  | Some l => match llx o with
              | Some l' => mkbbox (Some (Rmin l l')) (Rmin (lly s) (lly o)) (Rmax (urx s) (urx o)) (Rmax (ury s) (ury o))
              | None => s
              end
  | None => mkbbox (llx o) (lly o) (urx o) (ury o)
  end.
(** __mul__, l.76-82 *)
Definition bmul (s o : bbox) : bbox :=
  match llx s, llx o with
  | Some l, Some l' => mkbbox (Some (Rmax l l')) (Rmax (lly s) (lly o)) (Rmin (urx s) (urx o)) (Rmin (ury s) (ury o))
  | _, _ => empty
  end.
(** __imul__, l.84-93: the new state of self *)
Definition bimul (s o : bbox) : bbox :=
  match llx s, llx o with
  | Some l, Some l' => mkbbox (Some (Rmax l l')) (Rmax (lly s) (lly o)) (Rmin (urx s) (urx o)) (Rmin (ury s) (ury o))
  | _, None => mkbbox None (lly s) (urx s) (ury s)
  | None, Some _ => s
  end.

(** math.floor and math.ceil *)
Definition floor (x : R) : Z := Int_part x.
Definition ceil (x : R) : Z := (- Int_part (- x))%Z.
(** lowrestuple_pt and highrestuple_pt, l.104-113 *)
Definition lowrestuple_pt (b : bbox) : option (Z * Z * Z * Z) :=
  match llx b with Some l => Some (floor l, floor (lly b), ceil (urx b), ceil (ury b)) | None => None end.
Definition highrestuple_pt (b : bbox) : option (R * R * R * R) :=
  match llx b with Some l => Some (l, lly b, urx b, ury b) | None => None end.

(** intersects, l.115-123 *)
Definition gtb (x y : R) : bool := if Rgt_dec x y then true else false.
Definition ltb (x y : R) : bool := if Rlt_dec x y then true else false.
Definition intersects (s o : bbox) : bool :=
  match llx s, llx o with
  | Some l, Some l' => negb (gtb l (urx o) || gtb (lly s) (ury o) || ltb (urx s) l' || ltb (ury s) (lly o))
  | _, _ => false
  end.

(** includepoint_pt, l.125-133: the new state of self *)
Definition includepoint_pt (s : bbox) (p : R * R) : bbox :=
  match llx s with
  | None => mkbbox (Some (fst p)) (snd p) (fst p) (snd p)
  | Some l => mkbbox (Some (Rmin l (fst p))) (Rmin (lly s) (snd p)) (Rmax (urx s) (fst p)) (Rmax (ury s) (snd p))
  end.

(** min and max of four arguments *)
Definition min4 (a b c d : R) : R := Rmin (Rmin (Rmin a b) c) d.
Definition max4 (a b c d : R) : R := Rmax (Rmax (Rmax a b) c) d.
(** transform, l.135-150 (the new state), and transformed, l.152-165 *)
Definition transform (s : bbox) (t : trafo) : bbox :=
  match llx s with
  | None => s
  | Some l =>
      let ll := apply_pt t (l, lly s) in
      let lr := apply_pt t (urx s, lly s) in
      let ur := apply_pt t (urx s, ury s) in
      let ul := apply_pt t (l, ury s) in
      mkbbox (Some (min4 (fst ll) (fst lr) (fst ur) (fst ul))) (min4 (snd ll) (snd lr) (snd ur) (snd ul))
             (max4 (fst ll) (fst lr) (fst ur) (fst ul)) (max4 (snd ll) (snd lr) (snd ur) (snd ul))
  end.
Definition transformed (s : bbox) (t : trafo) : bbox :=
  match llx s with
  | None => empty
  | Some l =>
      let ll := apply_pt t (l, lly s) in
      let lr := apply_pt t (urx s, lly s) in
      let ur := apply_pt t (urx s, ury s) in
      let ul := apply_pt t (l, ury s) in
      mkbbox (Some (min4 (fst ll) (fst lr) (fst ur) (fst ul))) (min4 (snd ll) (snd lr) (snd ur) (snd ul))
             (max4 (fst ll) (fst lr) (fst ur) (fst ul)) (max4 (snd ll) (snd lr) (snd ur) (snd ul))
  end.

Definition given (o : option R) (d : R) : R := match o with Some v => v | None => d end.
(** enlarge_pt, l.167-186 (the new state), and enlarged_pt, l.188-204 *)
Definition enlarge_pt (s : bbox) (all : R) (bottom left top right : option R) : bbox :=
  match llx s with
  | None => s
  | Some l => mkbbox (Some (l - given left all)) (lly s - given bottom all) (urx s + given right all) (ury s + given top all)
  end.
Definition enlarged_pt (s : bbox) (all : R) (bottom left top right : option R) : bbox :=
  match llx s with
  | None => empty
  | Some l => mkbbox (Some (l - given left all)) (lly s - given bottom all) (urx s + given right all) (ury s + given top all)
  end.
(** enlarge, l.206-226, and enlarged, l.228-245 *)
Definition optpt (st : ustate) (o : option pyval) : option R := match o with Some v => Some (topt st v) | None => None end.
Definition enlarge (st : ustate) (s : bbox) (all : pyval) (bottom left top right : option pyval) : bbox :=
  enlarge_pt s (topt st all) (optpt st bottom) (optpt st left) (optpt st top) (optpt st right).
Definition enlarged (st : ustate) (s : bbox) (all : pyval) (bottom left top right : option pyval) : bbox :=
  enlarged_pt s (topt st all) (optpt st bottom) (optpt st left) (optpt st top) (optpt st right).

(** center_pt, l.292-296; height_pt and width_pt, l.256-266 *)
Definition center_pt (b : bbox) : option (R * R) :=
  match llx b with Some l => Some (/2 * (l + urx b), /2 * (lly b + ury b)) | None => None end.
Definition width_pt (b : bbox) : option R := match llx b with Some l => Some (urx b - l) | None => None end.
Definition height_pt (b : bbox) : option R := match llx b with Some l => Some (ury b - lly b) | None => None end.
