(** Model of pyx/graph/axis/tick.py: rational (l.35-204), tick (l.207-237),
    mergeticklists (l.240-265) and maxlevels (l.268-276).

    Strings are lists of 8 bit characters (simplification: str.isdigit, int and
    str.strip are modelled for these characters only).  Exceptions are [None].
    Construction from floats goes through the percent-g formatting of Python
    (l.101-105) and initfromstring; the formatting itself is not modelled. *)
From Coq Require Import String Ascii ZArith Bool List.
Import ListNotations.
Open Scope Z_scope.

Definition text := list ascii.
Definition code (c : ascii) : Z := Z.of_N (N_of_ascii c).

(** str.isdigit per character *)
Definition is_digit (c : ascii) : bool := (48 <=? code c) && (code c <=? 57).
Definition isdigit (s : text) : bool :=
  match s with [] => false | _ => forallb is_digit s end.

(** int() of a string of digits *)
Definition int_of (s : text) : Z := fold_left (fun v c => v * 10 + (code c - 48)) s 0.

(** str.strip *)
Definition is_space (c : ascii) : bool :=
  let n := code c in
  ((9 <=? n) && (n <=? 13)) || ((28 <=? n) && (n <=? 32)) || (n =? 133) || (n =? 160).
Fixpoint lstrip (s : text) : text :=
  match s with [] => [] | c :: s' => if is_space c then lstrip s' else s end.
Definition strip (s : text) : text := rev (lstrip (rev (lstrip s))).

(** str.replace('E', 'e') *)
Definition replace_E (s : text) : text := map (fun c => if Ascii.eqb c "E" then "e"%char else c) s.

(** str.split(sep) for a single character *)
Fixpoint split_on (sep : ascii) (s : text) : list text :=
  match s with
  | [] => [[]]
  | c :: s' => if Ascii.eqb c sep then [] :: split_on sep s'
               else match split_on sep s' with
                    | [] => [[c]]  (* not reachable *)
                    | h :: t => (c :: h) :: t
                    end
  end.

Record rational := mkrat { num : Z; denom : Z }.

(** l.55-59 and 80-84: sign character of a part *)
Definition cut_sign (s : text) : bool * text :=
  match s with
  | c :: s' => if Ascii.eqb c "-" then (true, s') else if Ascii.eqb c "+" then (false, s') else (false, s)
  | [] => (false, [])
  end.

(** l.60-77: an empty part counts as zero *)
Definition part_value (s : text) : option Z :=
  match s with
  | [] => Some 0
  | _ => if isdigit s then Some (int_of s) else None
  end.

(** l.48-51 *)
Definition two_parts (l : list text) : option (text * text) :=
  match l with
  | [a] => Some (a, [])
  | [a; b] => Some (a, b)
  | _ => None
  end.

(** rational.initfromstring, l.41-99 *)
Definition initfromstring (s : text) : option rational :=
  let expparts := split_on "e" (replace_E (strip s)) in
  match expparts with
  | [] => None (* not reachable *)
  | mant :: rest =>
      match rest with
      | _ :: _ :: _ => None                                        (* l.44-45 *)
      | _ =>
        match two_parts (split_on "." mant) with                     (* l.46-50 *)
        | None => None
        | Some (c0, c1) =>
          let d := 10 ^ Z.of_nat (length c1) in                      (* l.52-55 *)
          let '(neg, c0') := cut_sign c0 in                          (* l.56-60 *)
          match part_value c0', part_value c1 with                   (* l.61-78 *)
          | Some x, Some y =>
            let n := if neg then - (x * d + y) else x * d + y in     (* l.79-81 *)
            match rest with
            | [e] =>
              match e with
              | [] => None                                            (* IndexError, l.83 *)
              | _ => let '(eneg, e') := cut_sign e in                 (* l.83-87 *)
                     if isdigit e' then                               (* l.88 *)
                       if eneg then Some (mkrat n (d * 10 ^ int_of e'))   (* l.90-94 *)
                       else Some (mkrat (n * 10 ^ int_of e') d)           (* l.95-99 *)
                     else None
              end
            | _ => Some (mkrat n d)
            end
          | _, _ => None
          end
        end
      end
  end.

(** in-place division, l.192-197 *)
Definition idiv (a b : rational) : rational := mkrat (num a * denom b) (denom a * num b).
(** in-place multiplication, l.182-185 *)
Definition imul (a b : rational) : rational := mkrat (num a * num b) (denom a * denom b).

(** the kinds of x accepted by the constructor, l.119-143.  A rational instance
    behaves like a number in l.121 (its __add__, l.175-177, accepts 0), so it is
    formatted as float like any number: the text is the formatted number (l.101-105;
    the percent-g formatting of Python itself is not modelled). *)
Inductive ratarg := FromString (s : text) | FromPair (n d : Z) | FromNumber (formatted : text).

(** the check of l.144 and the power handling, l.145-158 *)
Definition finish (r : rational) (power : Z) : option rational :=
  if denom r =? 0 then None
  else if power =? -1 then Some (mkrat (denom r) (num r))
  else if power <? -1 then Some (mkrat (denom r ^ (- power)) (num r ^ (- power)))
  else if 1 <? power then Some (mkrat (num r ^ power) (denom r ^ power))
  else Some r.

(** rational.__init__, l.107-158 *)
Definition new_rational (x : ratarg) (power : Z) : option rational :=
  if power =? 0 then Some (mkrat 1 1)                                  (* l.115-118 *)
  else
    match x with
    | FromPair n d => finish (mkrat n d) power                         (* l.128-129 *)
    | FromNumber s => match initfromstring s with Some r => finish r power | None => None end
    | FromString s =>
        match split_on "/" s with                                      (* l.135-140 *)
        | [a] => match initfromstring a with Some r => finish r power | None => None end
        | [a; b] =>
            match initfromstring a with
            | None => None
            | Some r =>
              (* rational(fraction[1]), itself a call of the constructor; b has no slash *)
              match initfromstring b with
              | None => None
              | Some r2 => match finish r2 1 with
                           | Some r2' => finish (idiv r r2') power
                           | None => None
                           end
              end
            end
        | _ => None
        end
    end.

(** __lt__ and __eq__ for two rationals, l.160-170 *)
Definition lt (a b : rational) : bool := num a * denom b <? num b * denom a.
Definition eq (a b : rational) : bool := num a * denom b =? num b * denom a.
(** functools.total_ordering, l.35: the operators derived from __lt__ *)
Definition gt (a b : rational) : bool := negb (lt a b) && negb (eq a b).
Definition le (a b : rational) : bool := lt a b || eq a b.
Definition ge (a b : rational) : bool := negb (lt a b).

(** __abs__, __mul__, __truediv__, l.172-190 *)
Definition rabs (a : rational) : option rational := new_rational (FromPair (Z.abs (num a)) (Z.abs (denom a))) 1.
Definition rmul (a b : rational) : option rational := new_rational (FromPair (num a * num b) (denom a * denom b)) 1.
Definition rdiv (a b : rational) : option rational := new_rational (FromPair (num a * denom b) (denom a * num b)) 1.

(** tick, l.207-225; labelattrs are not modelled *)
Record tick := mktick { pos : rational; ticklevel : option Z; labellevel : option Z; label : option string }.

(** l.232-235 *)
Definition merge_level (a b : option Z) : option Z :=
  match a with
  | None => b
  | Some x => match b with Some y => if y <? x then b else a | None => a end
  end.

(** tick.merge, l.227-237 *)
Definition tmerge (self other : tick) : tick :=
  mktick (pos self) (merge_level (ticklevel self) (ticklevel other))
         (merge_level (labellevel self) (labellevel other))
         (match label self with None => label other | l => l end).

(** Tick objects live in a store, lists hold references (natural numbers). *)
Definition store := nat -> tick.
Definition upd (st : store) (r : nat) (t : tick) : store := fun r' => if Nat.eqb r' r then t else st r'.

(** the loops of mergeticklists, l.251-265.  The lists are represented as
    zippers: list1 = pre ++ rest1 with i = len(pre), list2[j:] = rest2; the
    IndexErrors of l.253 and 257 occur exactly if one of the rests is empty. *)
Fixpoint merge_loop (mergeequal : bool) (rest1 : list nat) : store -> list nat -> list nat -> store * list nat :=
  match rest1 with
  | [] => fun st pre rest2 => (st, pre ++ rest2)                        (* l.263-264 *)
  | x :: rest1' =>
      fix inner (st : store) (pre rest2 : list nat) {struct rest2} : store * list nat :=
        match rest2 with
        | [] => (st, pre ++ x :: rest1')                                (* l.262-265 *)
        | y :: rest2' =>
            if lt (pos (st y)) (pos (st x)) then                        (* l.253-256 *)
              inner st (pre ++ [y]) rest2'
            else if eq (pos (st y)) (pos (st x)) then                   (* l.257-261 *)
              merge_loop mergeequal rest1' (if mergeequal then upd st x (tmerge (st x) (st y)) else st)
                         (pre ++ [x]) rest2'
            else merge_loop mergeequal rest1' st (pre ++ [x]) rest2     (* l.261 *)
        end
  end.

(** mergeticklists, l.240-265: the list1 variable is a copy, the tick objects are shared *)
Definition mergeticklists (mergeequal : bool) (st : store) (list1 list2 : list nat) : store * list nat :=
  merge_loop mergeequal list1 st [] list2.

(** maxlevels, l.268-276 *)
Definition bump (m : Z) (l : option Z) : Z :=
  match l with Some v => if m <=? v then v + 1 else m | None => m end.
Definition maxlevels (ticks : list tick) : Z * Z :=
  fold_left (fun m t => (bump (fst m) (ticklevel t), bump (snd m) (labellevel t))) ticks (0, 0).
