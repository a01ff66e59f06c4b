(** * Model of the styles gridpos and density of pyx/graph/style.py (l.1622-1660, 1915-2020)

    Floats are real numbers.  A point is given by its two grid coordinates (vpos at index1 and index2, None if vposavailable is
    false), the other data stored for it, and its color.  Dictionaries are lists with the newest entry first, keys of floats are
    compared by equality. *)

From Coq Require Import Reals Bool List.
From Verif Require Import Graph3dModel TrafoModel.
Import ListNotations.
Open Scope R_scope.

Definition eqR (a b : R) : bool := if Req_EM_T a b then true else false.
Definition leb (a b : R) : bool := if Rle_dec a b then true else false.

Section Grid.
  (** what is stored for a point (validity and positions) and the colors *)
  Variable D C : Type.
  Record point := mkpoint { coords : option (R * R); content : D; color : C }.

  (** the shared data; value1 and value2 are attributes which exist only after the first point with a position *)
  Record grid := mkgrid { values1 : list R; values2 : list R; data12 : list ((R * R) * D); current : option (R * R) }.
  (** gridpos.initdrawpoints, l.1632-1638 *)
  Definition new_grid : grid := mkgrid [] [] [] None.
  (** gridpos.drawpoint, l.1640-1660: the value of the grid and the new list of values (in the order of insertion) *)
  Definition snap (epsilon : R) (vs : list R) (v : R) : R * list R :=
    if existsb (fun h => eqR h v) vs then (v, vs)
    else match find (fun h => leb (h - epsilon) v && leb v (h + epsilon)) vs with
         | Some h => (h, vs)
         | None => (v, vs ++ [v])
         end.
  (** data12 and data21 are filled with the same data; data21 is not modelled separately *)
  Definition grid_point (epsilon : R) (g : grid) (p : point) : grid :=
    match coords p with
    | None => g
    | Some (x, y) =>
        let '(a, vs1) := snap epsilon (values1 g) x in
        let '(b, vs2) := snap epsilon (values2 g) y in
        mkgrid vs1 vs2 (((a, b), content p) :: data12 g) (Some (a, b))
    end.
  Definition lookup {X} (k : R * R) (d : list ((R * R) * X)) : option X :=
    match find (fun e => eqR (fst (fst e)) (fst k) && eqR (snd (fst e)) (snd k)) d with Some e => Some (snd e) | None => None end.

  (** density.drawpoint, l.1927-1935, after gridpos.drawpoint for the same point: the colors.  None is the AttributeError when
      there was no point with a position before.  The check of the third dimension is not modelled. *)
  Definition density_point (g : grid) (colors : list ((R * R) * C)) (p : point) : option (list ((R * R) * C)) :=
    match current g with
    | Some k => Some ((k, color p) :: colors)
    | None => None
    end.
  Definition draw_point (epsilon : R) (s : option (grid * list ((R * R) * C))) (p : point) : option (grid * list ((R * R) * C)) :=
    match s with
    | None => None
    | Some (g, colors) =>
        let g' := grid_point epsilon g p in
        match density_point g' colors p with Some colors' => Some (g', colors') | None => None end
    end.
  Definition draw_points (epsilon : R) (ps : list point) : option (grid * list ((R * R) * C)) :=
    fold_left (draw_point epsilon) ps (Some (new_grid, [])).

  (** sorted(list(values.keys())), l.1940-1941 *)
  Fixpoint insert (x : R) (l : list R) : list R := match l with [] => [x] | y :: l' => if ltb y x then y :: insert x l' else x :: l end.
  Definition sorted (l : list R) : list R := fold_right insert [] l.
  (** equidistant, l.1942-1949; false are the ValueErrors.  The comparison is done for all values; [i] counts from 0. *)
  Fixpoint equidistant_from (epsilon first range l : R) (i : nat) (values : list R) : bool :=
    match values with
    | [] => true
    | v :: values' => negb (ltb epsilon (Rabs (v - first - INR i * range / l))) && equidistant_from epsilon first range l (S i) values'
    end.
  Definition equidistant (epsilon : R) (values : list R) : bool :=
    match values with
    | first :: _ :: _ => equidistant_from epsilon first (last values 0 - first) (INR (length values - 1)) 0 values
    | _ => false
    end.
  (** the pixels, l.1974-1999: the lines from the lowest to the highest value2, in each line from the lowest to the highest value1;
      None for the empty (transparent) ones.  [conv] is the conversion of the color, which may fail.  All stored data are
      available.  A missing color is a KeyError; it cannot occur, since colors are stored for each point. *)
  Definition pixel {B} (conv : C -> option B) (g : grid) (colors : list ((R * R) * C)) (v1 v2 : R) : option B :=
    match lookup (v1, v2) (data12 g) with
    | None => None
    | Some _ => match lookup (v1, v2) colors with Some c => conv c | None => None end
    end.
  Definition pixels {B} (conv : C -> option B) (g : grid) (colors : list ((R * R) * C)) (vs1 vs2 : list R) : list (option B) :=
    flat_map (fun v2 => map (fun v1 => pixel conv g colors v1 v2) vs1) vs2.
  (** needalpha, l.1952-1966: some pixel is empty *)
  Definition needalpha {B} (l : list (option B)) : bool := existsb (fun p => match p with None => true | Some _ => false end) l.
  (** the bytes; colors have len(mode) bytes *)
  Definition pixel_bytes (modelen : nat) (alpha : bool) (p : option (list nat)) : list nat :=
    match p with
    | None => repeat 0%nat (if alpha then S modelen else modelen)
    | Some c => c ++ (if alpha then [255%nat] else [])
    end.
  Definition image_bytes (modelen : nat) (l : list (option (list nat))) : list nat := flat_map (pixel_bytes modelen (needalpha l)) l.

  (** the transformation of the image, l.1999-2013; [vpos] is graph.vpos_pt with the other coordinates fixed.  The check of the
      fourth corner, l.2013-2018, is not modelled. *)
  Definition enlargement (vs : list R) : R := (last vs 0 - hd 0 vs) * 0.5 / INR (length vs - 1).
  Definition density_trafo (vpos : R -> R -> R * R) (vs1 vs2 : list R) : trafo :=
    let e1 := enlargement vs1 in let e2 := enlargement vs2 in
    let '(x1, y1) := vpos (hd 0 vs1 - e1) (last vs2 0 + e2) in
    let '(x2, y2) := vpos (last vs1 0 + e1) (last vs2 0 + e2) in
    let '(x3, y3) := vpos (hd 0 vs1 - e1) (hd 0 vs2 - e2) in
    mktrafo (x2 - x1) (x3 - x1) (y2 - y1) (y3 - y1) x1 y1.
End Grid.
