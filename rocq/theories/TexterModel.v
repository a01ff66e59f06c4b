(** Model of pyx/graph/axis/texter.py: decimal.labels (l.83-138), default.labels
    (l.209-272), rational.gcd, lcm and labels (l.350-439).

    Ticks are the ticks of TickModel.v; texts are lists of characters.  labelattrs
    are not modelled.  Python exceptions are [None]. *)
From Coq Require Import String Ascii ZArith QArith Qround Bool List.
From Verif Require Import TickModel.
Import ListNotations.
Open Scope Z_scope.

(** str(z) and the percent-i format of a non-negative integer: the decimal digits,
    by repeated division; the number of binary digits bounds the number of decimal
    digits *)
Definition digit_char (d : Z) : ascii := ascii_of_N (Z.to_N (48 + d)).
Fixpoint str_fuel (fuel : nat) (z : Z) : text :=
  match fuel with
  | O => []
  | S f => if z <? 10 then [digit_char z] else str_fuel f (z / 10) ++ [digit_char (z mod 10)]
  end.
Definition str (z : Z) : text := str_fuel (S (Z.to_nat (Z.log2 z))) z.

(** ** decimal *)

(** decimal.__init__, l.47-75.  The format string period is represented by the
    texts before and behind its insert operator. *)
Record decimaltexter := mkdecimal {
  dprefix : text; dinfix : text; dsuffix : text; equalprecision : bool;
  decimalsep : text; thousandsep : text; thousandthpartsep : text;
  dplus : text; dminus : text; period_before : text; period_behind : text }.

(** l.96-100, the tail of the quotient has l-i-1 characters *)
Fixpoint thousands (sep : text) (q : text) : text :=
  match q with
  | [] => []
  | c :: q' => c :: (if (Nat.modulo (length q') 3 =? 0)%nat && (0 <? length q')%nat then sep else []) ++ thousands sep q'
  end.

(** oldremainders.index(remainder), l.111: None if not contained *)
Fixpoint index (x : Z) (l : list Z) : option nat :=
  match l with
  | [] => None
  | y :: l' => if x =? y then Some O else option_map S (index x l')
  end.

(** the while loop with its else branch, l.105-122: the label and temp_decprecision.
    [None] if the fuel is used up (proved not to happen). *)
Fixpoint frac_loop (fuel : nat) (t : decimaltexter) (n remainder : Z) (old : list Z) (prec : Z) (label : text)
    : option (text * option Z) :=
  match fuel with
  | O => None
  | S f =>
      if remainder =? 0 then Some (label, Some prec)
      else
        let prec := prec + 1 in                                               (* l.108 *)
        match index remainder old with                                        (* l.109-113 *)
        | Some i =>
            let periodstart := (length label - (length old - i))%nat in
            Some (firstn periodstart label ++ period_before t ++ skipn periodstart label ++ period_behind t, None)
        | None =>                                                             (* l.114-119 *)
            let quotient := remainder * 10 / n in
            let remainder' := (remainder * 10) mod n in
            let sep := if ((prec - 1) mod 3 =? 0) && (1 <? prec) then thousandthpartsep t else [] in
            frac_loop f t n remainder' (old ++ [remainder]) prec (label ++ sep ++ str quotient)
        end
  end.

(** the body of the first loop for one tick, l.89-119 *)
Definition decimal_body (t : decimaltexter) (r : rational) : option (text * option Z) :=
  let m := Z.abs (num r) in                                                   (* l.89-91 *)
  let n := Z.abs (denom r) in
  if n =? 0 then None                                                         (* ZeroDivisionError, l.92 *)
  else
    let quotient := str (m / n) in
    let remainder := m mod n in
    let label := match thousandsep t with [] => quotient | sep => thousands sep quotient end in (* l.94-102 *)
    let label := if remainder =? 0 then label else label ++ decimalsep t in   (* l.103-104 *)
    frac_loop (S (Z.to_nat n)) t n remainder [] 0 label.

(** the maximum of l.120-122 *)
Definition maxprec (bodies : list (text * option Z)) : Z :=
  fold_left (fun m b => match snd b with Some p => if m <? p then p else m | None => m end) bodies 0.

(** the zeros of l.128-131 for i in range(i, i + k) *)
Fixpoint zeros (t : decimaltexter) (i : Z) (k : nat) : text :=
  match k with
  | O => []
  | S k' => (if ((i - 1) mod 3 =? 0) && (1 <? i) then thousandthpartsep t else []) ++ "0"%char :: zeros t (i + 1) k'
  end.

(** l.123-131 *)
Definition pad (t : decimaltexter) (maxdecprecision : Z) (b : text * option Z) : text :=
  match b with
  | (label, Some p) =>
      if equalprecision t then
        label ++ (if (p =? 0) && (0 <? maxdecprecision) then decimalsep t else [])
              ++ zeros t p (Z.to_nat (maxdecprecision - p))
      else label
  | (label, None) => label
  end.

(** l.132-137 *)
Definition decorate (t : decimaltexter) (r : rational) (label : text) : text :=
  dprefix t ++ (if num r * denom r <? 0 then dminus t else dplus t) ++ dinfix t ++ label ++ dsuffix t.

Fixpoint sequence {A : Type} (l : list (option A)) : option (list A) :=
  match l with
  | [] => Some []
  | Some a :: l' => match sequence l' with Some r => Some (a :: r) | None => None end
  | None :: _ => None
  end.

(** decimal.labels, l.83-137, for ticks which all get a label *)
Definition decimal_labels (t : decimaltexter) (ticks : list rational) : option (list text) :=
  match sequence (map (decimal_body t) ticks) with
  | None => None
  | Some bodies => Some (map (fun rb => decorate t (fst rb) (pad t (maxprec bodies) (snd rb))) (combine ticks bodies))
  end.

(** a tick with its label state: l.87 selects the ticks without label, but with a
    labellevel *)
Record ltick := mkltick { lpos : rational; llevel : option Z; llabel : option text }.
Definition wants_label (k : ltick) : bool :=
  match llabel k, llevel k with None, Some _ => true | _, _ => false end.

(** distribution of the created labels to the selected ticks *)
Fixpoint set_labels (ticks : list ltick) (labels : list text) : list ltick :=
  match ticks with
  | [] => []
  | k :: ticks' =>
      if wants_label k then
        match labels with
        | [] => k :: ticks'                                                  (* not reachable *)
        | s :: labels' => mkltick (lpos k) (llevel k) (Some s) :: set_labels ticks' labels'
        end
      else k :: set_labels ticks' labels
  end.

(** decimal.labels, l.83-137, for all ticks *)
Definition decimal_run (t : decimaltexter) (ticks : list ltick) : option (list ltick) :=
  option_map (set_labels ticks) (decimal_labels t (map lpos (filter wants_label ticks))).

(** ** default *)

Inductive skipunity := Never | Each | All.                                   (* l.144-149 *)

(** default.__init__, l.156-201 *)
Record defaulttexter := mkdefault {
  multiplicationtex : text; base : Q; skipmantissaunity : skipunity; minusunity : text;
  minexponent : Z; minnegexponent : Z; uniformexponent : bool;
  mantissatexter : decimaltexter; basetexter : decimaltexter; exponenttexter : decimaltexter }.

(** the while loops of l.223-228.  The fuel is enough for bases above one (proved). *)
Fixpoint shrink (fuel : nat) (b m : Q) (e : Z) : option (Q * Z) :=
  match fuel with
  | O => None
  | S f => if Qle_bool b m then shrink f b (m / b)%Q (e + 1) else Some (m, e)
  end.
Fixpoint grow (fuel : nat) (b m : Q) (e : Z) : option (Q * Z) :=
  match fuel with
  | O => None
  | S f => if negb (Qle_bool 1 m) then grow f b (m * b)%Q (e - 1) else Some (m, e)
  end.
Definition loop_fuel (b m : Q) : nat := S (S (Z.to_nat (Zpos (Qden b) * Qceiling m))).

(** temp_sign, temp_mantissa, temp_exponent of a tick, l.217-234 *)
Definition decompose (b : Q) (r : rational) : option (Z * Q * Z) :=
  if num r =? 0 then Some (1, 0%Q, 0)
  else if denom r =? 0 then None
  else
    let sign := if num r * denom r <? 0 then -1 else 1 in
    let m := Qmake (Z.abs (num r)) (Z.to_pos (Z.abs (denom r))) in
    match shrink (loop_fuel b m) b m 0 with
    | Some (m1, e1) =>
        match grow (loop_fuel b (/ m1)%Q) b m1 e1 with
        | Some (m2, e2) => Some (sign, m2, e2)
        | None => None
        end
    | None => None
    end.

(** temp_wantexponent before the uniform decision, l.229 and 234 *)
Definition wantexponent (t : defaulttexter) (e : Z) : bool :=
  negb ((- minnegexponent t <? e) && (e <? minexponent t)).

Record part := mkpart { ppos : rational; psign : Z; pmantissa : Q; pexponent : Z; pwant : bool }.

(** l.213-240 *)
Definition exp_part (t : defaulttexter) (r : rational) : option part :=
  match decompose (base t) r with
  | Some (s, m, e) => Some (mkpart r s m e (wantexponent t e))
  | None => None
  end.
Definition uniform (t : defaulttexter) (ps : list part) : list part :=
  if uniformexponent t && existsb pwant ps
  then map (fun p => if num (ppos p) =? 0 then p
                     else mkpart (ppos p) (psign p) (pmantissa p) (pexponent p) true) ps
  else ps.

(** l.242-250: the mantissas which are omitted *)
Definition skips (t : defaulttexter) (ps : list part) (p : part) : bool :=
  match skipmantissaunity t with
  | Never => false
  | Each => pwant p && Qeq_bool (pmantissa p) 1
  | All => pwant p && forallb (fun p' => negb (pwant p') || Qeq_bool (pmantissa p') 1) ps
  end.

Inductive deflabel :=
| DPlain (s : text)                                                          (* l.262-264 *)
| DExp (mantissa : option text) (sign : Z) (base exponent : text).           (* l.264-272 *)

(** the ticks created in l.253-264: Tick(x) formats x as a float (tick.py:101-105,
    119-121).  The formatting is the parameter [fmt]. *)
Section Default.
  Variable fmt : Q -> text.

  Definition as_tick (x : Q) : option rational := new_rational (FromNumber (fmt x)) 1.

  Definition mantissa_tick (t : defaulttexter) (ps : list part) (p : part) : option rational :=
    if pwant p then as_tick (inject_Z (psign p) * pmantissa p)%Q else Some (ppos p).

  (** l.264-272: [mls] and [els] are the labels created so far for the mantissas and
      exponents *)
  Fixpoint assemble (t : defaulttexter) (all ps : list part) (bl : text) (mls els : list text) : list deflabel :=
    match ps with
    | [] => []
    | p :: ps' =>
        if pwant p then
          match els with
          | [] => []                                                         (* not reachable *)
          | el :: els' =>
              if skips t all p then DExp None (psign p) bl el :: assemble t all ps' bl mls els'
              else match mls with
                   | [] => []                                                (* not reachable *)
                   | ml :: mls' => DExp (Some ml) (psign p) bl el :: assemble t all ps' bl mls' els'
                   end
          end
        else match mls with
             | [] => []                                                      (* not reachable *)
             | ml :: mls' => DPlain ml :: assemble t all ps' bl mls' els
             end
    end.

  (** default.labels, l.209-272, for ticks which all get a label *)
  Definition default_labels (t : defaulttexter) (ticks : list rational) : option (list deflabel) :=
    match sequence (map (exp_part t) ticks) with
    | None => None
    | Some ps0 =>
        let ps := uniform t ps0 in
        match as_tick (base t),
              sequence (map (mantissa_tick t ps) (filter (fun p => negb (skips t ps p)) ps)),
              sequence (map (fun p => as_tick (inject_Z (pexponent p))) (filter pwant ps)) with
        | Some bt, Some mts, Some ets =>
            match decimal_labels (basetexter t) [bt], decimal_labels (mantissatexter t) mts,
                  decimal_labels (exponenttexter t) ets with
            | Some [bl], Some mls, Some els => Some (assemble t ps ps bl mls els)
            | _, _, _ => None
            end
        | _, _, _ => None
        end
    end.
End Default.

(** ** rational *)

(** rational.gcd for two arguments, l.357-363; the loop variable j decreases *)
Fixpoint gcd_loop (fuel : nat) (i j : Z) : option Z :=
  match fuel with
  | O => None
  | S f => if 0 <? j then gcd_loop f j (i mod j) else Some i
  end.
Definition gcd2 (i j : Z) : option Z :=
  let '(i, j) := if i <? j then (j, i) else (i, j) in
  gcd_loop (S (Z.to_nat j)) i j.

(** rational.gcd for other numbers of arguments, l.364-368: the outer [None] stands
    for the missing fuel, the inner one for the result None *)
Definition gcdn (l : list Z) : option (option Z) :=
  match l with
  | [] => Some None
  | [i; j] => option_map Some (gcd2 i j)
  | x :: l' => option_map Some (fold_left (fun res i => match res with Some r => gcd2 r i | None => None end) l' (Some x))
  end.

(** rational.lcm, l.370-380: [None] is a ZeroDivisionError (or missing fuel) *)
Definition lcm_step (res : option Z) (i : Z) : option Z :=
  match res with
  | Some r => match gcd2 r i with
              | Some g => if g =? 0 then None else Some (r * i / g)
              | None => None
              end
  | None => None
  end.
Definition lcmn (l : list Z) : option (option Z) :=
  match l with
  | [] => Some None
  | x :: l' => option_map Some (fold_left lcm_step l' (Some x))
  end.

(** rational.__init__, l.279-342.  The format string over is represented by its
    three parts. *)
Record rationaltexter := mkrational {
  rprefix : text; rinfix : text; rsuffix : text; numprefix : text; numinfix : text; numsuffix : text;
  denomprefix : text; denominfix : text; denomsuffix : text; rplus : text; rminus : text; minuspos : Z;
  equaldenom : bool; skip1 : bool; skipnum0 : bool; skipnum1 : bool; skipdenom1 : bool }.

Record rpart := mkrpart { rnum : Z; rdenom : Z; rsign : Z }.

(** l.387-397 *)
Definition reduce (r : rational) : option rpart :=
  let sign := (if num r <? 0 then -1 else 1) * (if denom r <? 0 then -1 else 1) in
  let n := Z.abs (num r) in
  let d := Z.abs (denom r) in
  match gcd2 n d with
  | None => None
  | Some g => if g =? 0 then None else Some (mkrpart (n / g) (d / g) sign)
  end.

(** l.398-403.  The list of denominators of l.399 takes all ticks without label; the
    ones without labellevel have no temp_rationaldenom attribute: [None] is the
    AttributeError. *)
Definition common (t : rationaltexter) (unlabelled_without_level : bool) (ps : list rpart) : option (list rpart) :=
  if equaldenom t then
    if unlabelled_without_level then None
    else match lcmn (map rdenom ps) with
         | None => None
         | Some None => Some ps
         | Some (Some e) =>
             Some (map (fun p => let factor := e / rdenom p in
                                 mkrpart (factor * rnum p) (factor * rdenom p) (rsign p)) ps)
         end
  else Some ps.

Definition nonempty (s : text) : bool := match s with [] => false | _ => true end.

Inductive ratlabel :=
| RText (s : text)                                       (* l.419, 424, 431 *)
| RFrac (pre numerator denominator suf : text).          (* l.434-435 *)

(** l.404-435 *)
Definition ratlabel_of (t : rationaltexter) (p : rpart) : option ratlabel :=
  let plusminus := if rsign p =? -1 then rminus t else rplus t in
  if negb ((minuspos t =? 0) || (minuspos t =? 1) || (minuspos t =? -1)) then None   (* RuntimeError, l.417 *)
  else
    let rationalminus := if minuspos t =? 0 then plusminus else [] in
    let rationalnumminus := if minuspos t =? 1 then plusminus else [] in
    let rationaldenomminus := if minuspos t =? -1 then plusminus else [] in
    let nodenom := negb (nonempty rationaldenomminus) && negb (nonempty (denomprefix t)) &&
                   negb (nonempty (denominfix t)) && negb (nonempty (denomsuffix t)) in
    if skipnum0 t && (rnum p =? 0) then Some (RText ["0"%char])
    else if skip1 t && skipdenom1 t && (rnum p =? 1) && (rdenom p =? 1) &&
            (nonempty (rprefix t) || nonempty (rinfix t) || nonempty (rsuffix t)) &&
            negb (nonempty rationalnumminus) && negb (nonempty (numprefix t)) && negb (nonempty (numinfix t)) &&
            negb (nonempty (numsuffix t)) && nodenom
    then Some (RText (rprefix t ++ rationalminus ++ rinfix t ++ rsuffix t))
    else
      let numtext := if skipnum1 t && (rnum p =? 1) && (nonempty (numprefix t) || nonempty (numinfix t) || nonempty (numsuffix t))
                     then numprefix t ++ rationalnumminus ++ numinfix t ++ numsuffix t
                     else numprefix t ++ rationalnumminus ++ numinfix t ++ str (rnum p) ++ numsuffix t in
      if skipdenom1 t && (rdenom p =? 1) && nodenom
      then Some (RText (rprefix t ++ rationalminus ++ rinfix t ++ numtext ++ rsuffix t))
      else Some (RFrac (rprefix t ++ rationalminus ++ rinfix t) numtext
                       (denomprefix t ++ rationaldenomminus ++ denominfix t ++ str (rdenom p) ++ denomsuffix t)
                       (rsuffix t)).

(** rational.labels, l.382-435, for all ticks: the labels of the selected ones *)
Definition rational_labels (t : rationaltexter) (ticks : list ltick) : option (list ratlabel) :=
  match sequence (map (fun k => reduce (lpos k)) (filter wants_label ticks)) with
  | None => None
  | Some ps =>
      match common t (existsb (fun k => match llabel k, llevel k with None, None => true | _, _ => false end) ticks) ps with
      | None => None
      | Some ps' => sequence (map (ratlabel_of t) ps')
      end
  end.
