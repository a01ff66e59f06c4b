(** Model of data sets of functions and joined data sets: pyx/graph/data.py, l.426-456, 526-554, 567-587 and 603-651.  Floats are real numbers.  Expressions are
    functions; what is compiled and the names in them are not modelled. *)
From Coq Require Import Reals ZArith List Bool String.
Import ListNotations.
Open Scope R_scope.

Inductive res (A : Type) := Ok (a : A) | Exn.
Arguments Ok {A}. Arguments Exn {A}.
Definition bind {A B} (r : res A) (f : A -> res B) : res B := match r with Ok a => f a | Exn => Exn end.
(** the value of an expression: a number, an ArithmeticError or a ValueError, or another exception *)
Inductive value := Num (y : R) | Undefined | Failure.

(** ** function.dynamiccolumns, l.526-554 *)
(** the numbers x of l.542-544; a float division by zero is an exception *)
Definition sample (n i : nat) (min max : R) : res R :=
  if Nat.eqb n 1 then Exn else Ok (min + (max - min) * INR i / (INR n - 1)).
Fixpoint points (f : R -> value) (logaxis : bool) (n : nat) (min max : R) (is : list nat) : res (list (R * option R)) :=
  match is with
  | [] => Ok []
  | i :: is' =>
      bind (sample n i min max) (fun x =>
      let x := if logaxis then exp x else x in
      bind (match f x with Num y => Ok (Some y) | Undefined => Ok None | Failure => Exn end) (fun y =>
      bind (points f logaxis n min max is') (fun l => Ok ((x, y) :: l))))
  end.
(** the two columns, as pairs; [fmin] and [fmax] are the attributes min and max, [amin] and [amax] are those of the data of the axis.  The logarithm of a number which is
    not positive is an exception. *)
Definition log (x : R) : res R := if Rlt_dec 0 x then Ok (ln x) else Exn.
Definition function_columns (f : R -> value) (fmin fmax : option R) (amin amax : R) (logaxis : bool) (n : nat) : res (list (R * option R)) :=
  let min := match fmin with Some x => x | None => amin end in
  let max := match fmax with Some x => x | None => amax end in
  bind (if logaxis then log min else Ok min) (fun min =>
  bind (if logaxis then log max else Ok max) (fun max =>
  points f logaxis n min max (seq 0 n))).

(** ** paramfunction, l.567-587 *)
(** dictionaries *)
Fixpoint lookup {A} (d : list (string * A)) (k : string) : option A :=
  match d with [] => None | (k', v) :: d' => if String.eqb k k' then Some v else lookup d' k end.
(** self.columns[key].append(value) *)
Fixpoint append_value (d : list (string * list R)) (k : string) (v : R) : list (string * list R) :=
  match d with [] => [] | (k', l) :: d' => if String.eqb k k' then (k', l ++ [v]) :: d' else (k', l) :: append_value d' k v end.
Fixpoint append_values (d : list (string * list R)) (ks : list string) (vs : list R) : list (string * list R) :=
  match ks, vs with k :: ks', v :: vs' => append_values (append_value d k v) ks' vs' | _, _ => d end.
(** the dictionary of l.577: one entry for equal keys *)
Fixpoint new_columns (ks : list string) : list (string * list R) :=
  match ks with [] => [] | k :: ks' => (k, []) :: filter (fun p => negb (String.eqb (fst p) k)) (new_columns ks') end.
(** the loop; [values] is the variable, which is not bound before the first round *)
Fixpoint param_loop (f : R -> res (list R)) (keys : list string) (n : nat) (min max : R) (is : list nat) (d : list (string * list R)) (values : option (list R))
  : res (list (string * list R) * option (list R)) :=
  match is with
  | [] => Ok (d, values)
  | i :: is' => bind (sample n i min max) (fun p => bind (f p) (fun vs => param_loop f keys n min max is' (append_values d keys vs) (Some vs)))
  end.
Definition paramfunction (f : R -> res (list R)) (keys : list string) (n : nat) (min max : R) : res (list (string * list R)) :=
  bind (param_loop f keys n min max (seq 0 n) (new_columns keys) None) (fun '(d, values) =>
  match values with
  | None => Exn
  | Some vs => if Nat.eqb (List.length keys) (List.length vs) then Ok d else Exn
  end).

(** ** join, l.603-651 *)
Section Join.
Context {A : Type}.
Definition columns := list (string * list (option A)).
(** merge_lists, l.603-608; the order is arbitrary, here it is the one of the first occurrences *)
Fixpoint merge_lists (seen : list string) (ls : list (list string)) : list string :=
  match ls with
  | [] => seen
  | l :: ls' => merge_lists (fold_left (fun s k => if existsb (String.eqb k) s then s else s ++ [k]) l seen) ls'
  end.
(** l.614-624: None is not needed later *)
Definition empty_for (keys : list string) (d : columns) : option (list (option A)) :=
  if Nat.eqb (List.length d) (List.length keys) then None
  else match d with [] => Some [] | (_, c) :: _ => Some (repeat None (List.length c)) end.
(** d.get(key, e); extend with None is a TypeError *)
Definition get (d : columns) (k : string) (e : option (list (option A))) : option (list (option A)) :=
  match lookup d k with Some c => Some c | None => e end.
Fixpoint extend_all (ds : list columns) (keys : list string) (k : string) : res (list (option A)) :=
  match ds with
  | [] => Ok []
  | d :: ds' => match get d k (empty_for keys d) with Some c => bind (extend_all ds' keys k) (fun r => Ok (c ++ r)) | None => Exn end
  end.
(** merge_dicts, l.610-630 *)
Definition merge_dicts (ds : list columns) : res columns :=
  let keys := merge_lists [] (map (map fst) ds) in
  fold_right (fun k r => bind (extend_all ds keys k) (fun c => bind r (fun r => Ok ((k, c) :: r)))) (Ok []) keys.
End Join.
Arguments columns A : clear implicits.

(** ** the strokes of cbdfile, l.437-454: [c1] and [c2] are bytes, their comparison with a text at l.440, 444 and 450 is a TypeError; the numbers of a long stroke
    (l.452) are not reached, here they are zeros *)
Definition later_than_text (c : Z) : res bool := Exn.
Definition stroke (file : list Z) : res (Z * Z * list Z) :=
  match file with
  | c1 :: c2 :: r =>
      if Z.testbit c2 6 then
        bind (later_than_text c1) (fun n1 => bind (later_than_text c2) (fun n2 => Ok ((if n2 then c2 - 256 else c2 - 64)%Z, (if n1 then c1 - 256 else c1)%Z, r)))
      else match r with
           | c3 :: c4 :: c5 :: c6 :: c7 :: c8 :: r' => bind (later_than_text c2) (fun n2 => Ok (0%Z, 0%Z, r'))
           | _ => Exn
           end
  | _ => Exn
  end.
Fixpoint strokes (n : nat) (file : list Z) (x y : Z) : res (list (Z * Z)) :=
  match n with
  | O => Ok [(y, x)]
  | S n' => bind (stroke file) (fun '(dx, dy, r) => bind (strokes n' r (x + dx) (y + dy)) (fun l => Ok ((y, x) :: l)))
  end.
