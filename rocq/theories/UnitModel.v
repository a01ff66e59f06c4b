(** Model of pyx/unit.py: the scales and set (l.25-48), _convert_to and its users
    (l.51-70), the class length (l.76-196).

    Floats are idealised as real numbers.  The module variables scale and
    _default_unit are the record [ustate].  Exceptions are [None]. *)
From Coq Require Import Reals List.
Open Scope R_scope.

Inductive lunit := Um | Ucm | Umm | Uinch | Upt.
(** the dictionary _m, l.29-35 *)
Definition meters (u : lunit) : R :=
  match u with
  | Um => 1
  | Ucm => 1 / 100
  | Umm => 1 / 1000
  | Uinch => 1 / 100 * (254 / 100)
  | Upt => 1 / 100 * (254 / 100) / 72
  end.

(** the module variables, l.25-27 *)
Record ustate := mkustate { scale_u : R; scale_v : R; scale_w : R; scale_x : R; default_unit : lunit }.
Definition initial : ustate := mkustate 1 1 1 1 Ucm.

(** a call of unit.set, l.37-48: [None] is an argument not given *)
Record setcall := mkset { set_u : option R; set_v : option R; set_w : option R; set_x : option R; set_unit : option lunit }.
Definition assign {A} (new : option A) (old : A) : A := match new with Some v => v | None => old end.
Definition do_set (st : ustate) (c : setcall) : ustate :=
  mkustate (assign (set_u c) (scale_u st)) (assign (set_v c) (scale_v st)) (assign (set_w c) (scale_w st))
           (assign (set_x c) (scale_x st)) (assign (set_unit c) (default_unit st)).
Definition run_sets (st : ustate) (l : list setcall) : ustate := fold_left do_set l st.

(** class length, l.77: the attributes t, u, v, w, x *)
Record length := mklength { lt_ : R; lu : R; lv : R; lw : R; lx : R }.

(** the type argument of the constructor; other strings give the length zero, l.92-103 *)
Inductive ltype := Tt | Tu | Tv | Tw | Tx | Tother.

(** length.__init__, l.88-103 *)
Definition new_length (st : ustate) (f : R) (ty : ltype) (u : option lunit) : length :=
  let l := f * meters (assign u (default_unit st)) in
  match ty with
  | Tt => mklength l 0 0 0 0
  | Tu => mklength 0 l 0 0 0
  | Tv => mklength 0 0 l 0 0
  | Tw => mklength 0 0 0 l 0
  | Tx => mklength 0 0 0 0 l
  | Tother => mklength 0 0 0 0 0
  end.

(** a Python value: a number or a length *)
Inductive pyval := Num (x : R) | Len (l : length).

(** _convert_to, l.51-55 *)
Definition convert_to (st : ustate) (v : pyval) (dest : lunit) : R :=
  match v with
  | Len l => (lt_ l + lu l * scale_u st + lv l * scale_v st + lw l * scale_w st + lx l * scale_x st) / meters dest
  | Num x => x * meters (default_unit st) * scale_u st / meters dest
  end.
(** l.57-70 *)
Definition tom st v := convert_to st v Um.
Definition tocm st v := convert_to st v Ucm.
Definition tomm st v := convert_to st v Umm.
Definition toinch st v := convert_to st v Uinch.
Definition topt st v := convert_to st v Upt.

(** __mul__ with a number, l.117-124 *)
Definition lmul (l : length) (f : R) : length := mklength (f * lt_ l) (f * lu l) (f * lv l) (f * lw l) (f * lx l).
(** __div__ by a number, l.128-137 *)
Definition ldiv (l : length) (d : R) : length := mklength (lt_ l / d) (lu l / d) (lv l / d) (lw l / d) (lx l / d).
(** __add__, l.141-156; __sub__, l.160-175; __neg__, l.189-196 for two lengths *)
Definition ladd (a b : length) : length := mklength (lt_ a + lt_ b) (lu a + lu b) (lv a + lv b) (lw a + lw b) (lx a + lx b).
Definition lsub (a b : length) : length := mklength (lt_ a - lt_ b) (lu a - lu b) (lv a - lv b) (lw a - lw b) (lx a - lx b).
Definition lneg (a : length) : length := mklength (- lt_ a) (- lu a) (- lv a) (- lw a) (- lx a).

(** conversion of a number operand to a length, l.143-149, 162-168, 179-180 *)
Definition to_length (st : ustate) (v : pyval) : length :=
  match v with Len l => l | Num x => new_length st x Tu None end.

(** the operators of Python for numbers and lengths, l.117-196 *)
Definition py_add (st : ustate) (a b : pyval) : option pyval :=
  match a, b with
  | Num x, Num y => Some (Num (x + y))
  | _, _ => Some (Len (ladd (to_length st a) (to_length st b)))     (* __add__ and __radd__, l.141-158 *)
  end.
Definition py_sub (st : ustate) (a b : pyval) : option pyval :=
  match a, b with
  | Num x, Num y => Some (Num (x - y))
  | _, _ => Some (Len (lsub (to_length st a) (to_length st b)))     (* __sub__ and __rsub__, l.160-187 *)
  end.
Definition py_neg (a : pyval) : option pyval :=
  match a with Num x => Some (Num (- x)) | Len l => Some (Len (lneg l)) end.
(** the product of two lengths (whose components would be lengths) is not modelled *)
Definition py_mul (a b : pyval) : option pyval :=
  match a, b with
  | Num x, Num y => Some (Num (x * y))
  | Len l, Num y => Some (Len (lmul l y))
  | Num x, Len l => Some (Len (lmul l x))                            (* __rmul__, l.126 *)
  | Len _, Len _ => None
  end.
(** ZeroDivisionError; a number divided by a length is a TypeError *)
Definition py_div (st : ustate) (a b : pyval) : option pyval :=
  match b with
  | Len _ => match a with
             | Len _ => if Req_EM_T (tom st b) 0 then None else Some (Num (tom st a / tom st b))   (* l.129-130 *)
             | Num _ => None
             end
  | Num y => if Req_EM_T y 0 then None
             else Some (match a with Num x => Num (x / y) | Len l => Len (ldiv l y) end)
  end.

(** __eq__ and __lt__, l.105-115; total_ordering (l.76) derives the others.  A number
    is compared by its conversion. *)
Definition py_eq (st : ustate) (a b : pyval) : bool := if Req_EM_T (tom st a) (tom st b) then true else false.
Definition py_lt (st : ustate) (a b : pyval) : bool := if Rlt_dec (tom st a) (tom st b) then true else false.
Definition py_gt (st : ustate) (a b : pyval) : bool := andb (negb (py_lt st a b)) (negb (py_eq st a b)).
Definition py_le (st : ustate) (a b : pyval) : bool := orb (py_lt st a b) (py_eq st a b).
Definition py_ge (st : ustate) (a b : pyval) : bool := negb (py_lt st a b).

(** Expressions of a user program. *)
Inductive expr :=
| ENum (x : R)
| ELen (f : R) (ty : ltype) (u : option lunit)
| EAdd (a b : expr) | ESub (a b : expr) | ENeg (a : expr) | EMul (a b : expr) | EDiv (a b : expr).

Definition bind {A B} (x : option A) (f : A -> option B) : option B := match x with Some a => f a | None => None end.
Fixpoint eval (st : ustate) (e : expr) : option pyval :=
  match e with
  | ENum x => Some (Num x)
  | ELen f ty u => Some (Len (new_length st f ty u))
  | EAdd a b => bind (eval st a) (fun x => bind (eval st b) (fun y => py_add st x y))
  | ESub a b => bind (eval st a) (fun x => bind (eval st b) (fun y => py_sub st x y))
  | ENeg a => bind (eval st a) py_neg
  | EMul a b => bind (eval st a) (fun x => bind (eval st b) (fun y => py_mul x y))
  | EDiv a b => bind (eval st a) (fun x => bind (eval st b) (fun y => py_div st x y))
  end.
