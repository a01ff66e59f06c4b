(** * Model of the ranges of data in graphs: class range of pyx/graph/style.py, l.240-388

    A column is its name, a value of data is an element of any type V, in which subtraction and addition can fail (as for strings), and the
    conversion of an axis gives a position of any type W or fails (ArithmeticError, ValueError, TypeError). *)

From Coq Require Import ZArith Ascii String List Bool.
Import ListNotations.
Open Scope Z_scope.

(** the bit masks, l.245-250 *)
Definition mask_value := 1. Definition mask_min := 2. Definition mask_max := 4. Definition mask_dmin := 8. Definition mask_dmax := 16. Definition mask_d := 32.

(** _numberofbits, l.256-262, on the binary digits *)
Fixpoint bits_of (p : positive) : Z := match p with xH => 1 | xO q => bits_of q | xI q => bits_of q + 1 end.
Definition numberofbits (mask : Z) : Z := match mask with Zpos p => bits_of p | _ => 0 end.
Definition bit (mask m : Z) : bool := negb (Z.land mask m =? 0).

(** l.278-296: what a column adds to the mask *)
Definition mask_of (usename columnname : string) : Z :=
  (if usename =? columnname then mask_value
  else if usename ++ "min" =? columnname then mask_min
  else if usename ++ "max" =? columnname then mask_max
  else if "d" ++ usename ++ "min" =? columnname then mask_dmin
  else if "d" ++ usename ++ "max" =? columnname then mask_dmax
  else if "d" ++ usename =? columnname then mask_d
  else 0)%string.
Definition mask_sum (usename : string) (columnnames : list string) : Z := fold_left (fun m c => m + mask_of usename c) columnnames 0.
Definition uses (usename : string) (columnnames : list string) : list string := filter (fun c => negb (mask_of usename c =? 0)) columnnames.

Definition low := Z.lor mask_min (Z.lor mask_dmin mask_d).
Definition high := Z.lor mask_max (Z.lor mask_dmax mask_d).
Definition delta := Z.lor mask_dmin (Z.lor mask_dmax mask_d).

Record columns := mkc { usecolumns : list string; poscolumns : list (string * string * Z); missing : list nat; minmissing : list nat; maxmissing : list nat }.

(** the body of the inner loop, l.272-307, for the axis axisname; None is the ValueError *)
Definition one_axis (usename : string -> string) (columnnames : list string) (s : columns) (axisname : string) : option columns :=
  let u := usename axisname in
  let mask := mask_sum u columnnames in
  let used := usecolumns s ++ uses u columnnames in
  if bit mask (Z.lor (Z.lor mask_min mask_max) delta) then
    if (1 <? numberofbits (Z.land mask low)) || (1 <? numberofbits (Z.land mask high)) then None
    else if bit mask delta && negb (bit mask mask_value) then None
    else Some (mkc used (poscolumns s ++ [(axisname, u, mask)]) (missing s) (minmissing s) (maxmissing s))
  else if mask =? mask_value then Some (mkc (removelast used) (poscolumns s) (missing s) (minmissing s) (maxmissing s))
  else Some (mkc used (poscolumns s) (missing s) (minmissing s) (maxmissing s)).
Fixpoint all_axes (usename : string -> string) (columnnames : list string) (s : columns) (axisnames : list string) : option columns :=
  match axisnames with
  | [] => Some s
  | a :: r => match one_axis usename columnnames s a with Some s' => all_axes usename columnnames s' r | None => None end
  end.
(** l.308-318: after the axes of a dimension *)
Definition end_dimension (count : nat) (s : columns) : option columns :=
  let n := (List.length (poscolumns s) + List.length (missing s))%nat in
  if Nat.ltb (count + 1) n then None
  else if Nat.ltb n (count + 1) then Some (mkc (usecolumns s) (poscolumns s) (missing s ++ [count]) (minmissing s ++ [count]) (maxmissing s ++ [count]))
  else match List.rev (poscolumns s) with
    | (_, _, mask) :: _ =>
      Some (mkc (usecolumns s) (poscolumns s) (missing s) (if bit mask low then minmissing s else minmissing s ++ [count]) (if bit mask high then maxmissing s else maxmissing s ++ [count]))
    | [] => None
    end.
Fixpoint dimensions (usename : string -> string) (columnnames : list string) (count : nat) (s : columns) (axesnames : list (list string)) : option columns :=
  match axesnames with
  | [] => Some s
  | axisnames :: r =>
    match all_axes usename columnnames s axisnames with
    | Some s' => match end_dimension count s' with Some s'' => dimensions usename columnnames (S count) s'' r | None => None end
    | None => None
    end
  end.
(** columnnames, l.264-319 *)
Definition columnnames_range (usename : string -> string) (columnnames : list string) (axesnames : list (list string)) : option columns :=
  dimensions usename columnnames 0 (mkc [] [] [] [] []) axesnames.

(** initdrawpoints, l.363-370: the indices of the dimensions *)
Definition shift_index (missing index : nat) : nat := if Nat.leb missing index then S index else index.
Definition indices (missing : list nat) (n : nat) : list nat := map (fun i => fold_left (fun i m => shift_index m i) missing i) (seq 0 n).

Section Values.
Context {V W : Type}.
Variable sub add : V -> V -> option V.
Variable convert : string -> V -> option W.
Definition bind {A B} (o : option A) (f : A -> option B) : option B := match o with Some a => f a | None => None end.

(** drawpoint, l.372-388, for a single column of ranges: point gives the values, None stands for a value which is no number (None, TypeError);
    assignments in sequence, the last one whose mask is set counts, an error gives None. *)
Definition lower (axisname usename : string) (mask : Z) (point : string -> option V) : option W :=
  let at_min := bind (point (usename ++ "min")%string) (convert axisname) in
  let at_dmin := bind (point usename) (fun v => bind (point ("d" ++ usename ++ "min")%string) (fun d => bind (sub v d) (convert axisname))) in
  let at_d := bind (point usename) (fun v => bind (point ("d" ++ usename)%string) (fun d => bind (sub v d) (convert axisname))) in
  let failed o := match o : option W with None => true | Some _ => false end in
  if (bit mask mask_min && failed at_min) || (bit mask mask_dmin && failed at_dmin) || (bit mask mask_d && failed at_d) then None
  else if bit mask mask_d then at_d else if bit mask mask_dmin then at_dmin else if bit mask mask_min then at_min else None.
Definition upper (axisname usename : string) (mask : Z) (point : string -> option V) : option W :=
  let at_max := bind (point (usename ++ "max")%string) (convert axisname) in
  let at_dmax := bind (point usename) (fun v => bind (point ("d" ++ usename ++ "max")%string) (fun d => bind (add v d) (convert axisname))) in
  let at_d := bind (point usename) (fun v => bind (point ("d" ++ usename)%string) (fun d => bind (add v d) (convert axisname))) in
  let failed o := match o : option W with None => true | Some _ => false end in
  if (bit mask mask_max && failed at_max) || (bit mask mask_dmax && failed at_dmax) || (bit mask mask_d && failed at_d) then None
  else if bit mask mask_d then at_d else if bit mask mask_dmax then at_dmax else if bit mask mask_max then at_max else None.

Fixpoint set_nth {A} (n : nat) (l : list A) (x : A) : list A :=
  match n, l with 0%nat, _ :: r => x :: r | S n, y :: r => y :: set_nth n r x | _, [] => [] end.
(** initdrawpoints and drawpoint for all columns of ranges: vrange after a point *)
Definition vrange (c : columns) (point : string -> option V) : list (option W * option W) :=
  fold_left (fun vr (e : nat * (string * string * Z)) => let '(i, (a, u, mask)) := e in set_nth i vr (lower a u mask point, upper a u mask point))
    (combine (indices (missing c) (List.length (poscolumns c))) (poscolumns c))
    (repeat (None, None) (List.length (poscolumns c) + List.length (missing c))).

(** adjustaxis, l.321-361, for a single axis: the state is rangeposdeltacolumns[axisname], the result what is given to the adjustaxis method of
    the axis.  (The code runs over all axes in each of the three loops; the axes are independent of each other.  The code gives the
    data of one axis in the order of a dictionary, here the order is fixed.) *)
Record deltas := mkd { d_value : option (list V); d_min : option (list V); d_max : option (list V); d_both : option (list V) }.
Definition no_deltas := mkd None None None None.
Fixpoint zip_with (op : V -> V -> option V) (a b : list V) : list V :=
  match a, b with
  | x :: a, y :: b => match op x y with Some v => v :: zip_with op a b | None => zip_with op a b end
  | _, _ => []
  end.
Definition adjust (usename : string) (mask : Z) (s : deltas) (columnname : string) (data : list V) : list (list V) * deltas :=
  let direct :=
    (if (columnname =? usename ++ "min")%string && bit mask mask_min then [data] else []) ++
    (if (columnname =? usename ++ "max")%string && bit mask mask_max then [data] else []) in
  let s := if (columnname =? usename)%string && bit mask delta then mkd (Some data) (d_min s) (d_max s) (d_both s) else s in
  let s := if (columnname =? "d" ++ usename ++ "min")%string && bit mask mask_dmin then mkd (d_value s) (Some data) (d_max s) (d_both s) else s in
  let s := if (columnname =? "d" ++ usename ++ "max")%string && bit mask mask_dmax then mkd (d_value s) (d_min s) (Some data) (d_both s) else s in
  let s := if (columnname =? "d" ++ usename)%string && bit mask mask_d then mkd (d_value s) (d_min s) (d_max s) (Some data) else s in
  match d_value s with
  | None => (direct, s)
  | Some v =>
    (direct ++ match d_min s with Some d => [zip_with sub v d] | None => [] end
      ++ match d_max s with Some d => [zip_with add v d] | None => [] end
      ++ match d_both s with Some d => [zip_with sub v d; zip_with add v d] | None => [] end,
     mkd (Some v) None None None)
  end.
Fixpoint adjust_all (usename : string) (mask : Z) (s : deltas) (cols : list (string * list V)) : list (list V) :=
  match cols with
  | [] => []
  | (c, d) :: r => let '(calls, s') := adjust usename mask s c d in calls ++ adjust_all usename mask s' r
  end.
End Values.
