(** Model of the reading of SVG paths and transformations, pyx/svgfile.py l.29-281, after the numbers have
    been read from the text (SvgTextModel.v).  Floats are real numbers; fuel as in NormsubModel.v. *)
From Coq Require Import Reals Bool List.
From Verif Require Import TrafoModel BboxModel CurveModel ArcModel NormsubModel NormpathModel PathModel PathNormModel.
Import ListNotations.
Open Scope R_scope.

Local Notation pt := (R * R)%type.

(** ** endpointarc, l.29-79 *)
(** the center parametrisation, l.38-70: the radii, the angles in radians; None is the ZeroDivisionError
    of l.57.  The radii are not zero. *)
Record arcparams := mkarc { rad_x : R; rad_y : R; theta1 : R; theta2 : R }.
Definition center_params (p1 p2 : pt) (fA fS : bool) (rx ry phi : R) : option arcparams :=
  let rx := if ltb rx 0 then - rx else rx in
  let ry := if ltb ry 0 then - ry else ry in
  let cos_phi := cos (radians phi) in
  let sin_phi := sin (radians phi) in
  let dx := (fst p1 - fst p2) / 2 in
  let dy := (snd p1 - snd p2) / 2 in
  let x1' := cos_phi * dx + sin_phi * dy in
  let y1' := - sin_phi * dx + cos_phi * dy in
  let Lambda := (x1' / rx) ^ 2 + (y1' / ry) ^ 2 in
  let rx' := if ltb 1 Lambda then rx * sqrt Lambda else rx in
  let ry' := if ltb 1 Lambda then ry * sqrt Lambda else ry in
  let d := (rx' * y1') ^ 2 + (ry' * x1') ^ 2 in
  if eqb d 0 then None
  else
    let c_sq := ((rx' * ry') ^ 2 - (rx' * y1') ^ 2 - (ry' * x1') ^ 2) / d in
    let c := if ltb 0 c_sq then sqrt c_sq else 0 in
    let c := if Bool.eqb fA fS then - c else c in
    let cx' := c * rx' * y1' / ry' in
    let cy' := - c * ry' * x1' / rx' in
    Some (mkarc rx' ry' (atan2 ((y1' - cy') / ry') ((x1' - cx') / rx')) (atan2 ((- y1' - cy') / ry') ((- x1' - cx') / rx'))).
(** the unit arc, l.72-76 *)
Definition unit_arc (fS : bool) (a : arcparams) : pathitem :=
  if fS then Arc 0 0 1 (theta1 a * 180 / PI) (theta2 a * 180 / PI) else Arcn 0 0 1 (theta1 a * 180 / PI) (theta2 a * 180 / PI).
(** trafo.scale(rx, ry).rotated(phi), l.77 *)
Definition ellipse_trafo (a : arcparams) (phi : R) : trafo :=
  tmul (mktrafo (cos (radians phi)) (- sin (radians phi)) (sin (radians phi)) (cos (radians phi)) 0 0) (mktrafo (rad_x a) 0 0 (rad_y a) 0 0).

Section Reading.
  (** the default epsilon of normpaths *)
  Variables (fuel : nat) (e : R).

  (** the normpath of what endpointarc returns, l.34-35, 72-79 *)
  Definition endpointarc (p1 p2 : pt) (fA fS : bool) (rx ry phi : R) : res normpath :=
    if (eqb rx 0 || eqb ry 0)%bool then convert fuel e [Moveto p1; Lineto p2]
    else
      match center_params p1 p2 fA fS rx ry phi with
      | None => Exn Value
      | Some a =>
          bind (convert fuel e [unit_arc fS a]) (fun np =>
          bind (path_transformed fuel (ellipse_trafo a phi) np) (fun arc =>
          match path_atbegin arc with
          | Some q => path_transformed fuel (translate_pt (fst p1 - fst q) (snd p1 - snd q)) arc
          | None => Exn Normpath
          end))
      end.

  (** ** toPath, l.145-241 *)
  (** p.atend_pt(), path.py l.1152-1154; None is an exception *)
  Definition atend (p : list pathitem) : option pt :=
    match convert fuel e p with Ok np => path_atend np | _ => None end.
  (** p.join, path.py l.1195-1206 *)
  Definition joined (p : list pathitem) (other : res normpath) : option (list pathitem) :=
    match other with
    | Ok o =>
        match convert fuel e p with
        | Ok np => match path_join fuel np o with Ok np' => Some (np_pathitems np') | _ => None end
        | _ => None
        end
    | _ => None
    end.

  (** the letters; upper case letters are told apart by a boolean *)
  Inductive letter := LM | LL | LH | LV | LC | LS | LQ | LT | LZ.
  (** A command with its numbers and whether they are followed by something that is no number; the arguments of
      an arc up to such a place. *)
  Inductive command :=
  | Cmd (l : letter) (upper : bool) (args : list R) (bad : bool)
  | CmdA (upper : bool) (args : list (R * R * R * bool * bool * pt)).

  (** l.154-164; None is the ValueError of l.157 *)
  Fixpoint read_lines (upper moves : bool) (args : list R) (p : list pathitem) : option (list pathitem) :=
    match args with
    | x :: y :: rest =>
        let i := if moves then (if (upper || match p with [] => true | _ => false end)%bool then Moveto (x, y) else Rmoveto (x, y))
                 else (if upper then Lineto (x, y) else Rlineto (x, y)) in
        match rest with [] => Some (p ++ [i]) | _ => read_lines upper false rest (p ++ [i]) end
    | _ => None
    end.
  (** l.167-173, the loop *)
  Fixpoint read_straight (upper horizontal : bool) (q : pt) (args : list R) (p : list pathitem) : list pathitem :=
    match args with
    | [] => p
    | a :: rest =>
        let q := if horizontal then (a, snd q) else (fst q, a) in
        read_straight upper horizontal q rest (p ++ [if upper then Lineto q else Rlineto q])
    end.
  (** the difference of the last two points of p[-1], l.180-187 and 209-215; (0, 0) for items other than
      curves, None is the IndexError *)
  Definition last_delta (p : list pathitem) : option pt :=
    match rev p with
    | [] => None
    | Curveto _ p2 p3 :: _ => Some (fst p3 - fst p2, snd p3 - snd p2)
    | Rcurveto _ d2 d3 :: _ => Some (fst d3 - fst d2, snd d3 - snd d2)
    | _ => Some (0, 0)
    end.
  (** l.174-193 *)
  Fixpoint read_curves (upper : bool) (args : list R) (p : list pathitem) : option (list pathitem) :=
    match args with
    | x1 :: y1 :: x2 :: y2 :: x3 :: y3 :: rest =>
        let p' := p ++ [if upper then Curveto (x1, y1) (x2, y2) (x3, y3) else Rcurveto (x1, y1) (x2, y2) (x3, y3)] in
        match rest with [] => Some p' | _ => read_curves upper rest p' end
    | _ => None
    end.
  Fixpoint read_smooth (upper : bool) (args : list R) (p : list pathitem) : option (list pathitem) :=
    match args with
    | x2 :: y2 :: x3 :: y3 :: rest =>
        match last_delta p with
        | None => None
        | Some d =>
            match (if upper then option_map (plus_pt d) (atend p) else Some d) with
            | None => None
            | Some p1 =>
                let p' := p ++ [if upper then Curveto p1 (x2, y2) (x3, y3) else Rcurveto p1 (x2, y2) (x3, y3)] in
                match rest with [] => Some p' | _ => read_smooth upper rest p' end
            end
        end
    | _ => None
    end.
  (** l.217-221 *)
  Definition from_quadratic (p0 q p3 : pt) : pathitem :=
    Curveto (fst p0 + 2 / 3 * (fst q - fst p0), snd p0 + 2 / 3 * (snd q - snd p0))
            (fst p3 + 2 / 3 * (fst q - fst p3), snd p3 + 2 / 3 * (snd q - snd p3)) p3.
  (** l.194-221 *)
  Fixpoint read_quadratic (upper : bool) (args : list R) (p : list pathitem) : option (list pathitem) :=
    match atend p with
    | None => None
    | Some p0 =>
        match args with
        | xq :: yq :: x3 :: y3 :: rest =>
            let q := if upper then (xq, yq) else (xq + fst p0, yq + snd p0) in
            let p3 := if upper then (x3, y3) else (x3 + fst p0, y3 + snd p0) in
            let p' := p ++ [from_quadratic p0 q p3] in
            match rest with [] => Some p' | _ => read_quadratic upper rest p' end
        | _ => None
        end
    end.
  (** p.atend_pt() of l.216 is the same as the one before *)
  Fixpoint read_smooth_quadratic (upper : bool) (args : list R) (p : list pathitem) : option (list pathitem) :=
    match atend p with
    | None => None
    | Some p0 =>
        match args with
        | x3 :: y3 :: rest =>
            match last_delta p with
            | None => None
            | Some d =>
                let p3 := if upper then (x3, y3) else (x3 + fst p0, y3 + snd p0) in
                let q := (fst p0 + 3 / 2 * fst d, snd p0 + 3 / 2 * snd d) in
                let p' := p ++ [from_quadratic p0 q p3] in
                match rest with [] => Some p' | _ => read_smooth_quadratic upper rest p' end
            end
        | _ => None
        end
    end.
  (** l.222-235 *)
  Fixpoint read_arcs (upper : bool) (args : list (R * R * R * bool * bool * pt)) (p : list pathitem) : option (list pathitem) :=
    match args with
    | [] => Some p
    | (rx, ry, phi, fA, fS, p2) :: rest =>
        match atend p with
        | None => None
        | Some p1 =>
            let p2 := if upper then p2 else plus_pt p2 p1 in
            match joined p (endpointarc p1 p2 fA fS rx ry phi) with
            | Some p' => read_arcs upper rest p'
            | None => None
            end
        end
    end.
  (** one command, l.148-240.  If the arguments are followed by something else, an svgValueError is raised
      while all of them are collected (l.157, 177, 179, 198, 205), before the path is changed, and
      ignored; lines by H and V before that place are added.  The evaluation of atend_pt before, in
      l.196, may fail. *)
  Definition read_command (p : list pathitem) (c : command) : option (list pathitem) :=
    match c with
    | Cmd LM upper args bad => if bad then Some p else read_lines upper true args p
    | Cmd LL upper args bad => if bad then Some p else read_lines upper false args p
    | Cmd LH upper args _ | Cmd LV upper args _ =>
        let horizontal := match c with Cmd LH _ _ _ => true | _ => false end in
        if upper then option_map (fun q => read_straight true horizontal q args p) (atend p)
        else Some (read_straight false horizontal (0, 0) args p)
    | Cmd LC upper args bad => if bad then Some p else read_curves upper args p
    | Cmd LS upper args bad => if bad then Some p else read_smooth upper args p
    | Cmd LQ upper args bad => if bad then option_map (fun _ => p) (atend p) else read_quadratic upper args p
    | Cmd LT upper args bad => if bad then option_map (fun _ => p) (atend p) else read_smooth_quadratic upper args p
    | Cmd LZ _ _ _ => Some (p ++ [Closepath])
    | CmdA upper args => read_arcs upper args p
    end.
  Fixpoint read_commands (p : list pathitem) (l : list command) : option (list pathitem) :=
    match l with
    | [] => Some p
    | c :: l' => match read_command p c with Some p' => read_commands p' l' | None => None end
    end.
  Definition toPath (l : list command) : option (list pathitem) := read_commands [] l.
End Reading.

(** ** toTrafo, l.243-281 *)
(** the entries of a list of transformations with their numbers *)
Inductive transform :=
| Matrix (a b c d e f : R) | Translate (x : R) (y : option R) | Scale (x : R) (y : option R)
| Rotate (a : R) (center : option pt) | SkewX (a : R) | SkewY (a : R).
(** one step of the loop, l.246-280; trafo.identity is the unit matrix.  rotated_pt with center (0, 0) is used if
    there is none. *)
Definition add_transform (t : trafo) (x : transform) : trafo :=
  match x with
  | Matrix a b c d e f => tmul t (mktrafo a b c d e f)
  | Translate x y => tmul (translate_pt x (match y with Some y => y | None => 0 end)) t
  | Scale x y => tmul (mktrafo x 0 0 (match y with Some y => y | None => x end) 0 0) t
  | Rotate a center =>
      let phi := radians a in
      let '(x, y) := match center with Some c => c | None => (0, 0) end in
      tmul (mktrafo (cos phi) (- sin phi) (sin phi) (cos phi) (fst (rvector a x y)) (snd (rvector a x y))) t
  | SkewX a => tmul t (mktrafo 1 (tan (a * PI / 180)) 0 1 0 0)
  | SkewY a => tmul t (mktrafo 1 0 (tan (a * PI / 180)) 1 0 0)
  end.
Definition toTrafo (l : list transform) : trafo := fold_left add_transform (rev l) (mktrafo 1 0 0 1 0 0).
