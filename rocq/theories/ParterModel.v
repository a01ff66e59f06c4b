(** Model of pyx/graph/axis/parter.py, l.65-336, with real numbers for floats.  Ticks are
    objects in a store as in TickModel.  Exceptions are [None].  The methods __call__
    (l.81, 147, 227, 310) use a module which is not imported and are not modelled. *)
From Coq Require Import Reals ZArith Bool List.
From Verif Require Import BboxModel TickModel.
Import ListNotations.
Open Scope R_scope.

(** rational.__float__, tick.py l.199-201; the ZeroDivisionError is treated at the callers *)
Definition rval (r : rational) : R := IZR (num r) / IZR (denom r).
Definition nonzero (r : rational) : bool := negb (num r =? 0)%Z && negb (denom r =? 0)%Z.
(** range(a, b) *)
Definition zrange (a b : Z) : list Z := map (fun k => (a + Z.of_nat k)%Z) (seq 0 (Z.to_nat (b - a))).

(** the tick objects: a store and the next free place in it *)
Record heap := mkheap { objects : store; next : nat }.
Definition no_tick : tick := mktick (mkrat 0 1) None None None.
Definition start : heap := mkheap (fun _ => no_tick) 0.
(** new tick objects *)
Definition alloc (h : heap) (ts : list tick) : heap * list nat :=
  (mkheap (fun r => if Nat.ltb r (next h) then objects h r else nth (r - next h) ts no_tick) (next h + length ts), seq (next h) (length ts)).
(** ticks = tick.mergeticklists(ticks, <list of new ticks>) *)
Definition merge_new (s : heap * list nat) (ts : list tick) : heap * list nat :=
  let '(h, refs) := alloc (fst s) ts in
  let '(st, m) := mergeticklists true (objects h) (snd s) refs in
  (mkheap st (next h), m).

(** linear.extendminmax, l.85-93; [None] is the division by zero *)
Definition linear_extend (epsilon min max : R) (dist : rational) (extendmin extendmax : bool) : option (R * R) :=
  if negb (nonzero dist) && (extendmin || extendmax) then None
  else Some (if extendmin then rval dist * IZR (floor (min / rval dist + epsilon)) else min,
             if extendmax then rval dist * IZR (ceil (max / rval dist - epsilon)) else max).
(** linear.getticks, l.95-105 *)
Definition linear_ticks (epsilon min max : R) (dist : rational) (ticklevel labellevel : option Z) : option (list tick) :=
  if nonzero dist then
    let imin := ceil (min / rval dist - 1 / 2 * epsilon) in
    let imax := floor (max / rval dist + 1 / 2 * epsilon) in
    Some (map (fun i => mktick (mkrat (i * num dist) (denom dist)) ticklevel labellevel None) (zrange imin (imax + 1)))
  else None.

(** preexp, l.190-201 *)
Record preexp := mkpreexp { pres : list rational; pexp : Z }.
(** the tests of l.232-233 and 267-268 *)
Definition leb (x y : R) : bool := if Rle_dec x y then true else false.
Definition mixed_signs (min max : R) : bool := (leb min 0 && leb 0 max) || (leb 0 min && leb max 0).
Definition ltb (x y : R) : bool := if Rlt_dec x y then true else false.
(** math.log(x / float(f)) / math.log(exp) for positive x fails unless f is positive and
    exp is positive and not one *)
Definition log_ok (p : preexp) : bool :=
  forallb (fun f => ltb 0 (rval f) && nonzero f) (pres p) && (0 <? pexp p)%Z && negb (pexp p =? 1)%Z.
Definition loge (p : preexp) (x : R) (f : rational) : R := ln (x / rval f) / ln (IZR (pexp p)).
(** the loop of l.239-248; the state is minpower, minindex, maxpower and maxindex *)
Fixpoint extend_loop (epsilon min max : R) (p : preexp) (i : nat) (fs : list rational) (st : option (Z * nat) * option (Z * nat))
  : option (Z * nat) * option (Z * nat) :=
  match fs with
  | [] => st
  | f :: fs' =>
      let imin := (floor (loge p min f + epsilon) + 1)%Z in
      let imax := (ceil (loge p max f - epsilon) - 1)%Z in
      extend_loop epsilon min max p (S i) fs'
        (match fst st with Some (m, _) => if (imin <? m)%Z then Some (imin, i) else fst st | None => Some (imin, i) end,
         match snd st with Some (m, _) => if (m <=? imax)%Z then Some (imax, i) else snd st | None => Some (imax, i) end)
  end.
(** logarithmic.extendminmax, l.231-264; [None] also for the UnboundLocalError of an empty
    list.  The lookups of pres (l.250, 255) cannot fail. *)
Definition zero_rational : rational := mkrat 0 1.
Definition log_extend (epsilon min max : R) (p : preexp) (extendmin extendmax : bool) : option (R * R) :=
  if mixed_signs min max || negb (log_ok p) then None
  else
    let neglog := ltb max 0 in
    let '(lo, hi) := if neglog then (- max, - min) else (min, max) in
    match extend_loop epsilon lo hi p 0 (pres p) (None, None) with
    | (Some (minpower, minindex), Some (maxpower, maxindex)) =>
        let '(minrational, minpower) :=
          match minindex with
          | S k => (nth k (pres p) zero_rational, minpower)
          | O => (last (pres p) zero_rational, (minpower - 1)%Z)
          end in
        let '(maxrational, maxpower) :=
          if Nat.eqb maxindex (length (pres p) - 1) then (hd zero_rational (pres p), (maxpower + 1)%Z)
          else (nth (S maxindex) (pres p) zero_rational, maxpower) in
        let lo := if extendmin then rval minrational * powerRZ (IZR (pexp p)) minpower else lo in
        let hi := if extendmax then rval maxrational * powerRZ (IZR (pexp p)) maxpower else hi in
        Some (if neglog then (- hi, - lo) else (lo, hi))
    | _ => None
    end.

(** the ticks of one fraction, l.274-284, before the insertion into the list; [None] stands
    for the exceptions of the constructor of rationals *)
Fixpoint all_some {A} (l : list (option A)) : option (list A) :=
  match l with
  | [] => Some []
  | Some a :: l' => option_map (cons a) (all_some l')
  | None :: _ => None
  end.
Definition fraction_ticks (epsilon min max : R) (neglog : bool) (p : preexp) (f : rational) (ticklevel labellevel : option Z) : option (list tick) :=
  let imin := ceil (loge p min f - 1 / 2 * epsilon) in
  let imax := floor (loge p max f + 1 / 2 * epsilon) in
  let one i := match new_rational (FromPair (pexp p) 1) i with
               | Some q => match rmul f q with
                           | Some r => Some (mktick (mkrat (if neglog then (- num r)%Z else num r) (denom r)) ticklevel labellevel None)
                           | None => None
                           end
               | None => None
               end in
  option_map (fun l => if neglog then rev l else l) (all_some (map one (zrange imin (imax + 1)))).
Fixpoint merge_lists (s : heap * list nat) (ls : list (option (list tick))) : option (heap * list nat) :=
  match ls with
  | [] => Some s
  | Some ts :: ls' => merge_lists (merge_new s ts) ls'
  | None :: _ => None
  end.
(** logarithmic.getticks, l.266-286 *)
Definition log_ticks (epsilon : R) (h : heap) (min max : R) (p : preexp) (ticklevel labellevel : option Z) : option (heap * list nat) :=
  if mixed_signs min max || negb (log_ok p) then None
  else
    let neglog := ltb max 0 in
    let '(lo, hi) := if neglog then (- max, - min) else (min, max) in
    merge_lists (h, []) (map (fun f => fraction_ticks epsilon lo hi neglog p f ticklevel labellevel) (pres p)).
Definition linear_get (epsilon : R) (h : heap) (min max : R) (dist : rational) (ticklevel labellevel : option Z) : option (heap * list nat) :=
  option_map (alloc h) (linear_ticks epsilon min max dist ticklevel labellevel).

(** partfunction of linear, inherited by logarithmic, l.107-125, for the first call; later
    calls give None *)
Section Partition.
  Context {D : Type} (extend : R -> R -> D -> bool -> bool -> option (R * R))
    (get : heap -> R -> R -> D -> option Z -> option Z -> option (heap * list nat)).
  Definition extend_by (level : option nat) (dists : list D) (extendmin extendmax : bool) (range : option (R * R)) : option (R * R) :=
    match range with
    | None => None
    | Some (min, max) =>
        match level with
        | None => range
        | Some k => match nth_error dists k with Some d => extend min max d extendmin extendmax | None => range end
        end
    end.
  Fixpoint merge_levels (min max : R) (k : Z) (dists : list D) (level : Z -> option Z * option Z) (s : option (heap * list nat)) : option (heap * list nat) :=
    match dists with
    | [] => s
    | d :: dists' =>
        merge_levels min max (k + 1) dists' level
          (match s with
           | None => None
           | Some (h, l) =>
               match get h min max d (fst (level k)) (snd (level k)) with
               | None => None
               | Some (h', refs) => let '(st, m) := mergeticklists true (objects h') l refs in Some (mkheap st (next h'), m)
               end
           end)
    end.
  Definition partition (extendtick extendlabel : option nat) (ticklist labellist : list D) (min max : R) (extendmin extendmax : bool) : option (list tick) :=
    match extend_by extendlabel labellist extendmin extendmax (extend_by extendtick ticklist extendmin extendmax (Some (min, max))) with
    | None => None
    | Some (min, max) =>
        option_map (fun '(h, l) => map (objects h) l)
          (merge_levels min max 0 labellist (fun i => (None, Some i)) (merge_levels min max 0 ticklist (fun i => (Some i, None)) (Some (start, []))))
    end.
End Partition.
Definition linear_partition (epsilon : R) := partition (linear_extend epsilon) (linear_get epsilon).
Definition log_partition (epsilon : R) := partition (log_extend epsilon) (log_ticks epsilon).

(** the levels given to the constructors, l.68-79 and 213-225; [None] for the exceptions if
    none of them is given or the first distance is missing *)
Definition levels {A} (ticks labels : option (list A)) : option (list A * list A) :=
  match ticks, labels with
  | None, None => None
  | Some t, Some l => Some (t, l)
  | None, Some [] => None
  | None, Some (x :: l) => Some ([x], x :: l)
  | Some [], None => None
  | Some (x :: t), None => Some (x :: t, [x])
  end.

(** ** autolinear *)
(** tick.rational(r) for a rational r formats its value with ten digits (see
    TickModel.ratarg); [fmt] is this formatting *)
Section Auto.
  Variable fmt : rational -> text.
  Definition copy (r : rational) : option rational := new_rational (FromNumber (fmt r)) 1.
  (** l.152-159; [None] is the ValueError of the logarithm *)
  Definition trunc (x : R) : Z := if ltb x 0 then ceil x else floor x.
  Definition auto_base (min max : R) : option rational :=
    if ltb 0 (max - min) then
      let logmm := ln (max - min) / ln 10 in
      new_rational (FromPair 10 1) (trunc (if ltb logmm 0 then logmm - 1 else logmm))
    else None.
  (** the state of l.163-168 and its change by partfunction, l.170-182, with [n] variants *)
  Record autodata := mkautodata { up : bool; tickindex : Z; base : rational }.
  Definition auto_step (n : Z) (d : autodata) : autodata :=
    if up d then
      if (tickindex d <? n - 1)%Z then mkautodata true (tickindex d + 1) (base d)
      else mkautodata true 0 (mkrat (num (base d) * 10) (denom (base d)))
    else
      if negb (tickindex d =? 0)%Z then mkautodata false (tickindex d - 1) (base d)
      else mkautodata false (n - 1) (mkrat (num (base d)) (denom (base d) * 10)).
  Definition auto_start (direction : bool) (b : rational) : autodata := mkautodata direction (if direction then (-1)%Z else 0%Z) b.
  (** the tick distances, l.183, and their copies by the constructor of linear, l.72 *)
  Definition auto_dists (variants : list (list rational)) (d : autodata) : option (list rational) :=
    match nth_error variants (Z.to_nat (tickindex d)) with
    | None => None
    | Some v =>
        match all_some (map (fun t => match copy t with Some t' => match rmul t' (base d) with Some r => copy r | None => None end | None => None end) v) with
        | None => None
        | Some dists => Some dists
        end
    end.
  (** the first [n] results of one of the two functions, l.163-185: distances and partition.
      The copies of the base (l.164, 167) are made by copy as well. *)
  Fixpoint auto_run (n : nat) (variants : list (list rational)) (part : list rational -> option (list tick)) (d : autodata) : list (option (list tick)) :=
    match n with
    | O => []
    | S n' =>
        let d' := auto_step (Z.of_nat (length variants)) d in
        match auto_dists variants d' with Some dists => part dists | None => None end :: auto_run n' variants part d'
    end.
  Definition auto_partitions (variants : list (list rational)) (extendtick : option nat) (epsilon min max : R) (extendmin extendmax direction : bool) (n : nat)
    : option (list (option (list tick))) :=
    match auto_base min max with
    | None => None
    | Some b =>
        match copy b with
        | None => None
        | Some b' =>
            Some (auto_run n variants
              (fun dists => match levels (Some dists) None with
                            | Some (t, l) => linear_partition epsilon extendtick None t l min max extendmin extendmax
                            | None => None
                            end)
              (auto_start direction b'))
        end
    end.
End Auto.
(** l.137-140 *)
Definition defaultvariants : list (list rational) :=
  [[mkrat 1 1; mkrat 1 2]; [mkrat 2 1; mkrat 1 1]; [mkrat 5 2; mkrat 5 4]; [mkrat 5 1; mkrat 5 2]].

(** ** autologarithmic *)
(** l.208-210 *)
Definition pre1exp : preexp := mkpreexp [mkrat 1 1] 10.
Definition pre125exp : preexp := mkpreexp [mkrat 1 1; mkrat 2 1; mkrat 5 1] 10.
Definition pre1to9exp : preexp := mkpreexp (map (fun x => mkrat x 1) (zrange 1 10)) 10.
(** the first [n] results of variantspartfunction, l.316-328, with index [k] before the first
    call; the inner [None] is the end of the partitions *)
Fixpoint variants_run (n : nat) (k : Z) (variants : list (option (list preexp) * option (list preexp)))
  (part : list preexp -> list preexp -> option (list tick)) : list (option (option (list tick))) :=
  match n with
  | O => []
  | S n' =>
      (if (0 <=? k - 1)%Z then
         match nth_error variants (Z.to_nat (k - 1)) with
         | Some (t, l) => match levels t l with Some (t, l) => option_map Some (part t l) | None => None end
         | None => None
         end
       else Some None) :: variants_run n' (k - 1) variants part
  end.
(** the first [n] results of autopartfunction, l.330-334 *)
Fixpoint exponents_run (n : nat) (autoexponent exponent : Z) (part : list preexp -> list preexp -> option (list tick)) : list (option (list tick)) :=
  match n with
  | O => []
  | S n' =>
      let e := (exponent * autoexponent)%Z in
      match levels (Some [mkpreexp [mkrat 1 1] e; pre1exp]) None with Some (t, l) => part t l | None => None end
      :: exponents_run n' autoexponent e part
  end.
