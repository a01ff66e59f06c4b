(** Model of the string functions of pyx/text.py: remove_string, remove_pattern, remove_nested_brackets (l.37-183), some parsers of
    texmessage (l.247-336), and escapestring (l.1843-1874).

    Strings are lists of characters.  The patterns of the regular expressions are written as functions which return what
    re.search finds: the part before the match, the match, the part after it, and the group filename. *)
From Coq Require Import Arith Bool Ascii String List Lia.
Import ListNotations.
Open Scope nat_scope.

Definition str := list ascii.
Definition s (x : string) : str := list_ascii_of_string x.
Definition nl : ascii := "010"%char.
Definition quot : ascii := "034"%char.
Fixpoint str_eqb (a b : str) : bool := match a, b with [], [] => true | x :: a, y :: b => Ascii.eqb x y && str_eqb a b | _, _ => false end.
Fixpoint prefixb (p x : str) : bool := match p, x with [], _ => true | a :: p, b :: x => Ascii.eqb a b && prefixb p x | _, _ => false end.

(** str.replace(p, '', 1); the empty string is found at the beginning *)
Fixpoint replace_first (p x : str) : str :=
  if prefixb p x then skipn (length p) x else match x with [] => [] | c :: x => c :: replace_first p x end.
(** remove_string, l.37-59 *)
Definition remove_string (p x : str) : str * bool := let r := replace_first p x in (r, negb (str_eqb r x)).

(** str.replace of newlines by nothing *)
Definition strip (x : str) : str := filter (fun c => negb (Ascii.eqb c nl)) x.

(** the loop of remove_pattern over the characters of s, l.98-107; sstart and send grow *)
Fixpoint count_nl (x : str) (j rstart rend sstart send : nat) : nat * nat :=
  match x with
  | [] => (sstart, send)
  | c :: x =>
      if Ascii.eqb c nl then
        if j <? rend then count_nl x j rstart rend (if j <=? rstart then S sstart else sstart) (S send) else count_nl x j rstart rend sstart send
      else count_nl x (S j) rstart rend sstart send
  end.
(** remove_pattern, l.62-109; p.search gives the span of the match and anything else (the groups) *)
Definition remove_pattern {G} (search : str -> option (nat * nat * G)) (x : str) (ignore_nl : bool) : str * option G :=
  let r := if ignore_nl then strip x else x in
  let has_nl := if ignore_nl then negb (str_eqb r x) else false in
  match search r with
  | Some (rstart, rend, g) =>
      let '(sstart, send) := if has_nl then count_nl x 0 rstart rend rstart rend else (rstart, rend) in
      (firstn sstart x ++ skipn send x, Some g)
  | None => (x, None)
  end.

(** index_all, l.112-121 *)
Fixpoint index_from (c : ascii) (x : str) (i : nat) : list nat :=
  match x with [] => [] | a :: x => (if Ascii.eqb a c then [i] else []) ++ index_from c x (S i) end.
Definition index_all (c : ascii) (x : str) : list nat := index_from c x 0.
(** pairwise, l.124-127 *)
Fixpoint pairwise (l : list nat) : list (nat * nat) :=
  match l with a :: (b :: _) as r => (a, b) :: pairwise r | _ => [] end.

(** the loop over the quotes, l.150-157 *)
Definition outside (q : nat * nat) (l : list nat) : list nat := filter (fun pos => negb ((fst q <? pos) && (pos <? snd q))) l.
Definition unquoted (pairs : list (nat * nat)) (openpos closepos : list nat) : list nat * list nat :=
  fold_left (fun oc q => if (1 <=? fst q) && existsb (Nat.eqb (fst q - 1)) (fst oc) then (outside q (fst oc), outside q (snd oc)) else oc) pairs (openpos, closepos).

(** sorted(..., reverse=True) of pairs, l.170-172; the second number is true for a closing bracket *)
Definition before (a b : nat * bool) : bool := (fst b <? fst a) || ((fst b =? fst a) && (snd a || negb (snd b))).
Fixpoint insert (a : nat * bool) (l : list (nat * bool)) : list (nat * bool) :=
  match l with [] => [a] | b :: r => if before a b then a :: l else b :: insert a r end.
Definition sorted (l : list (nat * bool)) : list (nat * bool) := fold_right insert [] l.

(** the loop over the brackets, l.168-182; None is the return of the unmodified string.  endpos is set before it is used: it is
    0 here at first. *)
Fixpoint cut (l : list (nat * bool)) (level : nat) (endpos : nat) (r : str) : option str :=
  match l with
  | [] => Some r
  | (pos, true) :: l => cut l (S level) (if S level =? 2 then S pos else endpos) r
  | (pos, false) :: l =>
      match level with
      | O => None
      | S level => cut l level endpos (if level =? 1 then firstn pos r ++ skipn endpos r else r)
      end
  end.
(** remove_nested_brackets, l.130-183 *)
Definition remove_nested_brackets (x : str) (openbracket closebracket : ascii) (quote : option ascii) : str :=
  let '(openpos, closepos) :=
    match quote with
    | Some q => unquoted (pairwise (index_all q x)) (index_all openbracket x) (index_all closebracket x)
    | None => (index_all openbracket x, index_all closebracket x)
    end in
  if negb (length openpos =? length closepos) then x
  else match cut (sorted (map (fun p => (p, false)) openpos ++ map (fun p => (p, true)) closepos)) 0 0 x with Some r => r | None => x end.

(** ** Patterns *)
(** the longest beginning with characters which are allowed, and the rest *)
Fixpoint span (ok : ascii -> bool) (x : str) : str * str :=
  match x with c :: y => if ok c then let '(a, b) := span ok y in (c :: a, b) else ([], x) | [] => ([], []) end.
(** a match at the beginning: the match, and the filename *)
Definition matcher := str -> option (str * str).
(** re.search: the first place where there is a match *)
Fixpoint search_from (m : matcher) (x : str) (i : nat) : option (nat * nat * str) :=
  match m x with
  | Some (t, f) => Some (i, i + length t, f)
  | None => match x with [] => None | _ :: y => search_from m y (S i) end
  end.
Definition search (m : matcher) (x : str) := search_from m x 0.
Definition isnot (c : ascii) (a : ascii) : bool := negb (Ascii.eqb a c).

(** quoted_file_pattern, l.258: an opening bracket, a quoted filename, anything but newlines up to the first closing bracket *)
Definition quoted_file : matcher := fun x =>
  match x with
  | "("%char :: q :: y =>
      if Ascii.eqb q quot then
        let '(f, z) := span (isnot quot) y in
        match f, z with
        | _ :: _, q2 :: z =>
            let '(a, b) := span (fun c => isnot ")" c && isnot nl c) z in
            match b with ")"%char :: _ => Some (["("%char; quot] ++ f ++ [q2] ++ a ++ [")"%char], f) | _ => None end
        | _, _ => None
        end
      else None
  | _ => None
  end.
(** file_pattern, l.259: an opening bracket, one character but no quote, further ones but spaces and closing brackets (these are the
    filename), anything up to the first closing bracket *)
Definition file : matcher := fun x =>
  match x with
  | "("%char :: c :: y =>
      if isnot quot c then
        let '(f, z) := span (fun c => isnot " " c && isnot ")" c) y in
        let '(a, b) := span (isnot ")") z in
        match b with ")"%char :: _ => Some (["("%char; c] ++ f ++ a ++ [")"%char], c :: f) | _ => None end
      else None
  | _ => None
  end.
Definition suffixb (p x : str) : bool := prefixb (rev p) (rev x).
(** quoted_def_pattern, l.308: brackets around a quoted filename which ends with .fd or .def *)
Definition quoted_name (left right : ascii) (endings : list str) : matcher := fun x =>
  match x with
  | a :: q :: y =>
      if Ascii.eqb a left && Ascii.eqb q quot then
        let '(f, z) := span (isnot quot) y in
        match f, z with
        | _ :: g, q2 :: b :: _ => if existsb (fun e => suffixb e g) endings && Ascii.eqb b right then Some ([a; quot] ++ f ++ [q2; b], f) else None
        | _, _ => None
        end
      else None
  | _ => None
  end.
(** def_pattern, l.309: brackets around a filename with such an ending, which does not begin with a quote, and has no spaces and
    closing brackets behind the first character *)
Definition plain_name (left right : ascii) (spaces : bool) (endings : list str) : matcher := fun x =>
  match x with
  | a :: c :: y =>
      if Ascii.eqb a left && isnot quot c then
        let '(f, z) := span (fun c => (spaces || isnot " " c) && isnot right c) y in
        match z with
        | b :: _ => if existsb (fun e => suffixb e f) endings && Ascii.eqb b right then Some ([a; c] ++ f ++ [b], c :: f) else None
        | _ => None
        end
      else None
  | _ => None
  end.
Definition def_endings : list str := [s ".fd"; s ".def"].
Definition quoted_def := quoted_name "(" ")" def_endings.
Definition def_ := plain_name "(" ")" false def_endings.
(** quoted_graphics_pattern and graphics_pattern, l.323-324: the same with angle brackets and .eps, where spaces are allowed *)
Definition quoted_graphics := quoted_name "<" ">" [s ".eps"].
Definition graphics := plain_name "<" ">" true [s ".eps"].

Section Load.
  Variable isfile : str -> bool. (* os.path.isfile of the filename in the chroot of the configuration *)

  (** while m: ... in load, load_def and load_graphics; None is the return of msg.  again is the pattern within the loop. *)
  Fixpoint removing (fuel : nat) (good : str -> bool) (again : matcher) (ignore_nl : bool) (rm : str * option str) : option str :=
    match fuel with
    | O => None
    | S fuel =>
        match rm with
        | (r, None) => Some r
        | (r, Some f) => if good f then removing fuel good again ignore_nl (remove_pattern (search again) r ignore_nl) else None
        end
    end.
  (** str.split at newlines, and itertools.accumulate *)
  Fixpoint split_nl (x : str) (cur : str) : list str :=
    match x with [] => [cur] | c :: x => if Ascii.eqb c nl then cur :: split_nl x [] else split_nl x (cur ++ [c]) end.
  Fixpoint accumulate (acc : str) (l : list str) : list str := match l with [] => [] | a :: l => (acc ++ a) :: accumulate (acc ++ a) l end.
  Definition goodname (f : str) : bool := existsb isfile (accumulate [] (split_nl f [])).

  (** load, l.261-306 *)
  Definition load (msg : str) : str :=
    let r := remove_nested_brackets msg "(" ")" (Some quot) in
    match removing (S (length msg)) isfile quoted_file true (remove_pattern (search quoted_file) r true) with
    | Some r => match removing (S (length msg)) goodname file false (remove_pattern (search file) r false) with Some r => r | None => msg end
    | None => msg
    end.
  (** load_def, l.311-322 *)
  Definition load_def (msg : str) : str :=
    match removing (S (length msg)) isfile quoted_def true (remove_pattern (search quoted_def) msg true) with
    | Some r => match removing (S (length msg)) isfile def_ true (remove_pattern (search def_) r true) with Some r => r | None => msg end
    | None => msg
    end.
  (** load_graphics, l.326-336: within the loop the pattern is quoted_file_pattern *)
  Definition load_graphics (msg : str) : str :=
    match removing (S (length msg)) isfile quoted_file true (remove_pattern (search quoted_graphics) msg true) with
    | Some r => match removing (S (length msg)) isfile quoted_file true (remove_pattern (search graphics) r true) with Some r => r | None => msg end
    | None => msg
    end.
End Load.

(** ** escapestring, l.1843-1874 *)
Definition replacement (c : ascii) : option str :=
  match c with
  | " "%char => Some (s "~") | "$"%char => Some (s "\$") | "&"%char => Some (s "\&") | "#"%char => Some (s "\#") | "_"%char => Some (s "\_") | "%"%char => Some (s "\%")
  | "^"%char => Some (s "\string^") | "~"%char => Some (s "\string~") | "<"%char => Some (s "{$<$}") | ">"%char => Some (s "{$>$}")
  | "{"%char => Some (s "{$\{$}") | "}"%char => Some (s "{$\}$}") | "\"%char => Some (s "{$\setminus$}") | "|"%char => Some (s "{$\mid$}")
  | _ => None
  end.
Definition printable (c : ascii) : bool := (32 <=? nat_of_ascii c) && (nat_of_ascii c <? 127).
(** the while loop; None is the ValueError *)
Fixpoint escape_loop (fuel : nat) (i : nat) (x : str) : option str :=
  match fuel with
  | O => None
  | S fuel =>
      match nth_error x i with
      | None => Some x
      | Some c =>
          if printable c then
            match replacement c with
            | None => escape_loop fuel (S i) x
            | Some r => escape_loop fuel (i + length r) (firstn i x ++ r ++ skipn (S i) x)
            end
          else None
      end
  end.
Definition escapestring (x : str) : option str := escape_loop (S (length x)) 0 x.
