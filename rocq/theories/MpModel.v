(** Model of pyx/metapost/mp_path.py and pyx/metapost/path.py: paths through given points as chosen by MetaPost.

    Floats are real numbers.  The knots are objects with a link to the next one; here the objects are numbered from 0
    to N - 1 in the order in which they are linked (path.py l.315-317), a heap is a function from these numbers, and the
    next knot of i is (i + 1) mod N.  None is an exception (a division by zero or arithmetic with Python's None). *)
From Coq Require Import Reals List Bool PeanoNat Lra Lia.
From Verif Require Import CurveModel PathModel.
Import ListNotations.
Local Open Scope R_scope.
Local Notation pt := (R * R)%type.

(** mp_endpoint ... mp_end_cycle, mp_path.py l.38-43 *)
Inductive ktype := Endpoint | Explicit | Given | Curl | Open | EndCycle.
Definition number (t : ktype) : nat :=
  match t with Endpoint => 0 | Explicit => 1 | Given => 2 | Curl => 3 | Open => 4 | EndCycle => 5 end.
Definition is (a b : ktype) : bool := (number a =? number b)%nat.

(** _knot, path.py l.39-53; lx_pt and ly_pt are also used for the curl or angle and for the tension, l.55-75 *)
Record knot := mkknot { kx : R; ky : R; ltype : ktype; lx : option R; ly : option R; rtype : ktype; rx : option R; ry : option R }.
Definition set_left (t : ktype) (a b : option R) (k : knot) := mkknot (kx k) (ky k) t a b (rtype k) (rx k) (ry k).
Definition set_right (t : ktype) (a b : option R) (k : knot) := mkknot (kx k) (ky k) (ltype k) (lx k) (ly k) t a b.

Definition heap := nat -> knot.
(** assignment to attributes of object i *)
Definition upd (i : nat) (f : knot -> knot) (K : heap) : heap := fun j => if (j =? i)%nat then f (K j) else K j.

Definition bind {A B} (o : option A) (f : A -> option B) : option B := match o with Some a => f a | None => None end.
Notation "'let*' x := a 'in' b" := (bind a (fun x => b)) (at level 61, x pattern, right associativity).
(** mp_make_fraction, mp_path.py l.382-390: p/q *)
Definition frac (p q : R) : option R := if Req_EM_T q 0 then None else Some (p / q).
Definition below (a b : R) : bool := if Rlt_dec a b then true else false.
Fixpoint sequence {A} (l : list (option A)) : option (list A) :=
  match l with [] => Some [] | o :: r => let* a := o in let* s := sequence r in Some (a :: s) end.

(** mp_n_arg, l.337-339 *)
Definition n_arg (x y : R) : R := atan2 y x.

(** mp_curl_ratio, l.407-421 *)
Definition curl_ratio (gamma a_tension b_tension : R) : option R :=
  let* alpha := frac 1 a_tension in let* beta := frac 1 b_tension in
  let* q := frac ((3 - alpha) * alpha ^ 2 * gamma + beta ^ 3) (alpha ^ 3 * gamma + (3 - beta) * beta ^ 2) in Some (Rmin 4 q).

(** mp_velocity, l.433-438 *)
Definition velocity (st ct sf cf t : R) : option R :=
  let* q := frac (2 + sqrt 2 * (st - sf / 16) * (sf - st / 16) * (ct - cf)) (1.5 * t * (2 + (sqrt 5 - 1) * ct + (3 - sqrt 5) * cf)) in Some (Rmin 4 q).

(** reduce_angle, l.439-447 *)
Definition reduce_angle (a : R) : R := if below PI (Rabs a) then if below 0 a then a - 2 * PI else a + 2 * PI else a.

(** mp_ab_vs_cd(a, b, c, d) < 0, l.422-432 *)
Definition ab_below_cd (a b c d : R) : bool := below (a * b) (c * d).

(** the factor in mp_set_controls, l.367; its value is the one of the source *)
Definition safety : R := 1.00024414062.

(** the velocities of mp_set_controls, l.356-373; rt and lt are the tensions with their signs *)
Definition velocities (rt lt st ct sf cf : R) : option (R * R) :=
  let* rr := velocity st ct sf cf (Rabs rt) in let* ss := velocity sf cf st ct (Rabs lt) in
  if (below rt 0 || below lt 0) && ((negb (below st 0) && negb (below sf 0)) || (negb (below 0 st) && negb (below 0 sf))) then
    let sine := Rabs st * cf + Rabs sf * ct in
    if below 0 sine then
      let sine := sine * safety in
      let* rr := (if below rt 0 && ab_below_cd (Rabs sf) 1 rr sine then frac (Rabs sf) sine else Some rr) in
      let* ss := (if below lt 0 && ab_below_cd (Rabs st) 1 ss sine then frac (Rabs st) sine else Some ss) in
      Some (rr, ss)
    else Some (rr, ss)
  else Some (rr, ss).

(** mp_set_controls for the knots i and j, l.349-381 *)
Definition set_controls (i j : nat) (dx dy st ct sf cf : R) (K : heap) : option heap :=
  let* lt := ly (K j) in let* rt := ry (K i) in
  let* (rr, ss) := velocities rt lt st ct sf cf in
  Some (upd j (fun q => set_left Explicit (Some (kx q - (dx * cf + dy * sf) * ss)) (Some (ky q - (dy * cf - dx * sf) * ss)) q)
       (upd i (fun p => set_right Explicit (Some (kx p + (dx * ct - dy * st) * rr)) (Some (ky p + (dy * ct + dx * st) * rr)) p) K)).

Section Path.
  Variable N : nat. (* the number of knots *)
  Variable eps : R.

  Definition next (i : nat) : nat := ((i + 1) mod N)%nat.
  (** the knot k steps behind p *)
  Definition along (p k : nat) : nat := ((p + k) mod N)%nat.

  Definition near (dx dy : R) : bool := below (dx ^ 2 + dy ^ 2) (eps ^ 2).

  (** l.56-75 (334) for one knot and the next *)
  Definition join (p : nat) (K : heap) : heap :=
    let q := next p in
    if (1 <? number (rtype (K p)))%nat && near (kx (K p) - kx (K q)) (ky (K p) - ky (K q)) then
      let x := kx (K p) in let y := ky (K p) in
      let K := upd p (fun k => set_right Explicit (rx k) (ry k) k) K in
      let K := upd p (fun k => if is (ltype k) Open then set_left Curl (Some 1) (ly k) k else k) K in
      let K := upd q (fun k => set_left Explicit (lx k) (ly k) k) K in
      let K := upd q (fun k => if is (rtype k) Open then set_right Curl (Some 1) (ry k) k else k) K in
      let K := upd p (fun k => set_right (rtype k) (Some x) (Some y) k) K in
      upd q (fun k => set_left (ltype k) (Some x) (Some y) k) K
    else K.
  Definition joins (K : heap) : heap := fold_left (fun K p => join p K) (seq 0 N) K.

  (** l.77-89 (335): the first breakpoint; the first knot becomes one if there is none *)
  Definition smooth (k : knot) : bool := is (ltype k) Open && is (rtype k) Open.
  Definition find_break (K : heap) : nat * heap :=
    match find (fun i => negb (smooth (K i))) (seq 0 N) with
    | Some h => (h, K)
    | None => (0%nat, upd 0 (fun k => set_left EndCycle (lx k) (ly k) k) K)
    end.

  (** l.95-99: the number of steps from p to the next breakpoint *)
  Fixpoint steps (fuel : nat) (K : heap) (p k : nat) : option nat :=
    match fuel with
    | O => None
    | S f => if smooth (K (along p k)) then steps f K p (S k) else Some k
    end.

  Section Run.
    Variable K : heap.
    Variable p n : nat. (* the run goes from p to the knot n steps behind it *)

    Definition node (k : nat) : knot := K (along p k).
    (** l.101-125 (346): the entries of the lists delta_x, delta_y, delta and psi *)
    Definition dx (k : nat) : R := kx (node (S k)) - kx (node k).
    Definition dy (k : nat) : R := ky (node (S k)) - ky (node k).
    Definition delta (k : nat) : R := sqrt (dx k * dx k + dy k * dy k).
    Definition turning (k : nat) : option R :=
      let* sine := frac (dy (k - 1)) (delta (k - 1)) in let* cosine := frac (dx (k - 1)) (delta (k - 1)) in
      Some (n_arg (dx k * cosine + dy k * sine) (dy k * cosine - dx k * sine)).
    (** l.126-130: the list psi, whose first entry is not used.  For cycles the loop makes one step more. *)
    Definition closed : bool := is (ltype (node n)) EndCycle.
    Definition psis : option (list R) :=
      let* l := sequence (map turning (seq 1 (if closed then n else n - 1))) in
      Some (0 :: l ++ [if closed then nth 0 l 0 else 0]).

    Section Solve.
      Variable psi : nat -> R.

      (** tensions; abs of Python's None is an error *)
      Definition lt (k : nat) : option R := let* t := ly (node k) in Some (Rabs t).
      Definition rt (k : nat) : option R := let* t := ry (node k) in Some (Rabs t).

      (** l.184-235 (354): the first entries of uu, vv, ww, if the simple cases (372, 373) do not apply *)
      Definition first_entry : option (R * R * R) :=
        match rtype (node 0) with
        | Given => let* a := rx (node 0) in Some (0, reduce_angle (a - n_arg (dx 0) (dy 0)), 0)
        | Curl =>
            let* cc := rx (node 0) in let* l := lt 1 in let* r := rt 0 in
            let* u := curl_ratio cc r l in Some (u, - (psi 1 * u), 0)
        | Open => Some (0, 0, 1)
        | _ => None
        end.

      (** l.238-276 (357-359): the entries k, given the entries k - 1 *)
      Definition entry (k : nat) (e : R * R * R) : option (R * R * R) :=
        let '(u0, v0, w0) := e in
        let* rr := rt (k - 1) in let* tl := lt (S k) in
        let* aa := frac 1 (3 * rr - 1) in
        let* ir := frac 1 rr in let dd := delta k * (3 - ir) in
        let* bb := frac 1 (3 * tl - 1) in
        let* il := frac 1 tl in let ee := delta (k - 1) * (3 - il) in
        let cc := 1 - u0 * aa in
        let dd := dd * cc in
        let* l := lt k in let* r := rt k in
        let* (dd, ee) := (if below l r then let* q := frac l r in Some (dd * q ^ 2, ee)
                          else if below r l then let* q := frac r l in Some (dd, ee * q ^ 2)
                          else Some (dd, ee)) in
        let* ff := frac ee (ee + dd) in
        let u := ff * bb in
        let acc := - (psi (S k) * u) in
        if is (rtype (node (k - 1))) Curl then Some (u, acc - psi 1 * (1 - ff), 0)
        else
          let* ff := frac (1 - ff) cc in
          let acc := acc - psi k * ff in
          let ff := ff * aa in
          Some (u, acc - v0 * ff, - (w0 * ff)).

      (** the loop l.182-319: the entries k, ..., k + m - 1 after the entry e *)
      Fixpoint entries (m k : nat) (e : R * R * R) : option (list (R * R * R)) :=
        match m with
        | O => Some []
        | S m => let* a := entry k e in let* r := entries m (S k) a in Some (a :: r)
        end.

      (** l.321-324 (367): theta[k] = vv[k] - theta[k+1] * uu[k], for the entries of a list and the last theta *)
      Fixpoint backward (l : list (R * R * R)) (last : R) : list R :=
        match l with
        | [] => [last]
        | (u, v, _) :: r => let t := backward r last in (v - hd 0 t * u) :: t
        end.

      (** l.278-296 (360): the loop for aa and bb, from the last entry to the first *)
      Fixpoint cycle_loop (l : list (R * R * R)) (ab : R * R) : R * R :=
        match l with
        | [] => ab
        | (u, v, w) :: r => cycle_loop r (v - fst ab * u, w - snd ab * u)
        end.

      (** l.168-324: all theta.  The loop over k ends at k = n, because all knots in between are open on both sides; the
          types mp_endpoint and mp_explicit at the end, for which the code would go on behind the run, are an error here. *)
      Definition thetas : option (list R) :=
        let* e0 := first_entry in
        let* es := entries (n - 1) 1 e0 in
        let '(un, vn, wn) := last (e0 :: es) e0 in
        match ltype (node n) with
        | EndCycle =>
            let* e := entry n (un, vn, wn) in
            let '(aa, bb) := cycle_loop (rev es ++ [e]) (0, 1) in
            let* a := frac aa (1 - bb) in
            let shift := fun e : R * R * R => let '(u, v, w) := e in (u, v + a * w, w) in
            Some (backward ((fst (fst e0), a, snd e0) :: map shift es) a)
        | Curl =>
            let* cc := lx (node n) in let* l := lt n in let* r := rt (n - 1) in
            let* ff := curl_ratio cc l r in
            let* q := frac (vn * ff) (1 - ff * un) in
            Some (backward (e0 :: es) (- q))
        | Given =>
            let* a := lx (node n) in
            Some (backward (e0 :: es) (reduce_angle (a - n_arg (dx (n - 1)) (dy (n - 1)))))
        | _ => None
        end.
    End Solve.
  End Run.

  (** l.325-335 *)
  Fixpoint all_controls (K0 : heap) (p : nat) (psi theta : nat -> R) (ks : list nat) (K : heap) : option heap :=
    match ks with
    | [] => Some K
    | k :: r =>
        let phi := - psi (S k) - theta (S k) in
        let* K := set_controls (along p k) (along p (S k)) (dx K0 p k) (dy K0 p k) (sin (theta k)) (cos (theta k)) (sin phi) (cos phi) K in
        all_controls K0 p psi theta r K
    end.

  (** mp_solve_choices, l.168-336 *)
  Definition solve_choices (p n : nat) (psi : nat -> R) (K : heap) : option heap :=
    let q := along p n in let a := node K p 0 in let b := node K p 1 in
    if is (rtype a) Given && is (ltype b) Given then
      (* 372: the next knot is the last one *)
      let aa := n_arg (dx K p 0) (dy K p 0) in
      let* pa := rx (K p) in let* qa := lx (K q) in
      set_controls p q (dx K p 0) (dy K p 0) (sin (pa - aa)) (cos (pa - aa)) (- sin (qa - aa)) (cos (qa - aa)) K
    else if is (rtype a) Curl && is (ltype b) Curl then
      (* 373 *)
      let* lt := ly (K q) in let* rt := ry (K p) in
      let* f := frac 1 (3 * Rabs rt) in let* g := frac 1 (3 * Rabs lt) in
      Some (upd q (fun k => set_left Explicit (Some (kx k - dx K p 0 * g)) (Some (ky k - dy K p 0 * g)) k)
           (upd p (fun k => set_right Explicit (Some (kx k + dx K p 0 * f)) (Some (ky k + dy K p 0 * f)) k) K))
    else
      let* theta := thetas K p n psi in
      all_controls K p psi (fun k => nth k theta 0) (seq 0 n) K.

  (** l.132-152 (347): the open types at the breakpoints *)
  Definition open_left (q : nat) (K : heap) : option heap :=
    if is (ltype (K q)) Open then
      let* a := rx (K q) in let* b := ry (K q) in
      let x := a - kx (K q) in let y := b - ky (K q) in
      Some (if near x y then upd q (fun k => set_left Curl (Some 1) (ly k) k) K
            else upd q (fun k => set_left Given (Some (n_arg x y)) (ly k) k) K)
    else Some K.
  Definition open_right (p : nat) (K : heap) : option heap :=
    if is (rtype (K p)) Open && is (ltype (K p)) Explicit then
      let* a := lx (K p) in let* b := ly (K p) in
      let x := kx (K p) - a in let y := ky (K p) - b in
      Some (if near x y then upd p (fun k => set_right Curl (Some 1) (ry k) k) K
            else upd p (fun k => set_right Given (Some (n_arg x y)) (ry k) k) K)
    else Some K.

  (** the loop l.91-166 (336, 337) from the knot p to the breakpoint h, which is d steps behind p *)
  Fixpoint runs (fuel : nat) (p d : nat) (K : heap) : option heap :=
    match fuel with
    | O => None
    | S fuel =>
        let* (K, n) :=
          (if (2 <=? number (rtype (K p)))%nat then
             let* n := steps N K p 1 in
             let* psi := psis K p n in
             let* K := open_left (along p n) K in
             let* K := open_right p K in
             let* K := solve_choices p n (fun k => nth k psi 0) K in Some (K, n)
           else if is (rtype (K p)) Endpoint then
             let q := next p in
             let K := upd p (fun k => set_right Endpoint (Some (kx k)) (Some (ky k)) k) K in
             Some (upd q (fun k => set_left (ltype k) (Some (kx k)) (Some (ky k)) k) K, 1%nat)
           else Some (K, 1%nat)) in
        if (d <=? n)%nat then Some K else runs fuel (along p n) (d - n) K
    end.

  (** mp_make_choices, l.54-167 *)
  Definition make_choices (K : heap) : option heap :=
    let '(h, K) := find_break (joins K) in runs N h N K.
End Path.

(** ** path.py *)
(** The links, l.205-281.  The distances of controlcurve are in points. *)
Inductive link := Straight (keepangles : bool) | Controls (lcontrol rcontrol : pt) | Tension (ltension rtension : R).
(** tensioncurve.__init__, l.259-273 *)
Definition tensioncurve (ltension : R) (latleast : bool) (rtension : option R) (ratleast : option bool) : link :=
  let rtension := match rtension with Some t => t | None => ltension end in
  let ratleast := match ratleast with Some b => b | None => latleast end in
  let l := Rmax 0.75 (Rabs ltension) in let r := Rmax 0.75 (Rabs rtension) in
  Tension (if latleast then - l else l) (if ratleast then - r else r).

(** the knots, l.117-199: angles in radians and positions in points *)
Definition side (curl : R) (angle : option R) : ktype * option R := match angle with None => (Curl, Some curl) | Some a => (Given, Some a) end.
Definition beginknot (x y curl : R) (angle : option R) : knot :=
  let '(t, v) := side curl angle in mkknot x y Endpoint None None t v (Some 1).
Definition endknot (x y curl : R) (angle : option R) : knot :=
  let '(t, v) := side curl angle in mkknot x y t v (Some 1) Endpoint None None.
Definition smoothknot (x y : R) : knot := mkknot x y Open None (Some 1) Open None (Some 1).
Definition roughknot (x y lcurl : R) (rcurl langle rangle : option R) : knot :=
  let '(lt, lv) := side lcurl langle in
  let '(rt, rv) := match rcurl with
                   | Some c => (Curl, Some c)
                   | None => match rangle with Some a => (Given, Some a) | None => (lt, lv) end
                   end in
  mkknot x y lt lv (Some 1) rt rv (Some 1).

(** set_knots, l.219-229, 242-246, 275-279, for the knots i and j; None is the exception of l.277 *)
Definition set_knots (l : link) (i j : nat) (K : heap) : option heap :=
  match l with
  | Straight keepangles =>
      let K := upd i (fun k => set_right Endpoint None None k) K in
      let K := upd j (fun k => set_left Endpoint None None k) K in
      if keepangles then
        let angle := atan2 (ky (K j) - ky (K i)) (kx (K j) - kx (K i)) in
        let K := upd i (fun k => set_left Given (Some angle) (ly k) k) K in
        Some (upd j (fun k => set_right Given (Some angle) (ry k) k) K)
      else Some K
  | Controls (a, b) (c, d) =>
      let K := upd i (fun k => set_right Explicit (Some a) (Some b) k) K in
      Some (upd j (fun k => set_left Explicit (Some c) (Some d) k) K)
  | Tension a b =>
      if (number (rtype (K i)) <=? 1)%nat || (number (ltype (K j)) <=? 1)%nat then None
      else
        let K := upd i (fun k => set_right (rtype k) (rx k) (Some a) k) K in
        Some (upd j (fun k => set_left (ltype k) (lx k) (Some b) k) K)
  end.

(** The elements are knots, each with the link behind it, if there is one.  (Two links in a row are not modelled.) *)
Definition elements := list (knot * option link).

(** the loop l.305-313 *)
Fixpoint set_all (N : nat) (es : elements) (i : nat) (K : heap) (is_closed : bool) : option (heap * bool) :=
  match es with
  | [] => Some (K, is_closed)
  | (_, l) :: r =>
      let is_closed := is_closed && negb (is (ltype (K i)) Endpoint || is (rtype (K i)) Endpoint) in
      let* K := match l with Some l => set_knots l i (next N i) K | None => Some K end in
      set_all N r (S i) K is_closed
  end.

Definition point2 (a b : option R) : option pt := let* x := a in let* y := b in Some (x, y).
(** l.322-346: the path items for the knots from i on; l is the link before knot i.  Lines from knot to knot need not set
    anything else. *)
Definition item_to (K : heap) (l : option link) (prev i : nat) : option pathitem :=
  match l with
  | None => Some (Moveto (kx (K i), ky (K i)))
  | Some (Straight _) => Some (Lineto (kx (K i), ky (K i)))
  | Some _ => let* a := point2 (rx (K prev)) (ry (K prev)) in let* b := point2 (lx (K i)) (ly (K i)) in Some (Curveto a b (kx (K i), ky (K i)))
  end.
Fixpoint items (K : heap) (es : elements) (l : option link) (i : nat) : option (list pathitem) :=
  match es with
  | [] => Some []
  | (_, l') :: r => let* a := item_to K l (i - 1) i in let* t := items K r l' (S i) in Some (a :: t)
  end.
(** l.348-356: the end *)
Definition closing (K : heap) (l : option link) (prev : nat) (is_closed : bool) : option (list pathitem) :=
  if is (ltype (K 0%nat)) Explicit then
    match l with
    | Some (Straight _) => Some (if is_closed then [Closepath] else [])
    | Some _ => let* a := item_to K l prev 0 in Some (a :: if is_closed then [Closepath] else [])
    | None => Some []
    end
  else Some [].

(** path.__init__, l.301-356 *)
Definition heap_of (es : elements) : heap := fun i => nth i (map fst es) (smoothknot 0 0).
Definition path_init (eps : R) (es : elements) : option (list pathitem) :=
  let N := length es in
  let* (K, is_closed) := set_all N es 0 (heap_of es) true in
  let* K := make_choices N eps K in
  let* l := items K es None 0 in
  let* c := closing K (snd (last es (smoothknot 0 0, None))) (N - 1) is_closed in
  Some (l ++ c).
