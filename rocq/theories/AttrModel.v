(** Model of pyx/attr.py: attribute lists and their merging.

    Simplifications.  A Python class is represented by its name; an attribute
    instance carries an identity ([aid]), the list of classes of which it is an
    instance ([ainst], i.e. the method resolution order of its class) and the
    [merge] behaviour it inherits ([akind]).  The attribute classes with an own
    merge method elsewhere (deco.py:789, linehatched) are not modelled. *)
From Coq Require Import String Bool Arith List.
Import ListNotations.

Definition cls := string.

(** The merge method an attribute inherits (pyx/attr.py:71-166). *)
Inductive kind : Type :=
| Plain                                    (* attr, l.71-85 *)
| Excl (c : cls)                           (* exclusiveattr, l.88-99 *)
| SortBefore (bs : list cls)               (* sortbeforeattr, l.102-120 *)
| SortBeforeExcl (c : cls) (bs : list cls) (* sortbeforeexclusiveattr, l.123-145 *)
| ClearClass (c : cls)                     (* clearclass, l.148-157 *)
| ClearAll.                                (* _clear, l.160-166 *)

Record attr : Type := mkattr { aid : nat; ainst : list cls; akind : kind }.

(** isinstance(a, c) and isinstance(a, tuple(cs)) as used throughout attr.py. *)
Definition isinstance (a : attr) (c : cls) : bool := existsb (String.eqb c) (ainst a).
Definition isinstance_any (a : attr) (cs : list cls) : bool := existsb (isinstance a) cs.

(** The loop of sortbeforeattr.merge, pyx/attr.py:110-120: [first] is the flag. *)
Fixpoint sortbefore_loop (self : attr) (bs : list cls) (first : bool) (l : list attr) : list attr :=
  match l with
  | [] => if first then [self] else []
  | a :: l' =>
      if first && isinstance_any a bs
      then self :: a :: sortbefore_loop self bs false l'
      else a :: sortbefore_loop self bs first l'
  end.

(** The loop of sortbeforeexclusiveattr.merge, pyx/attr.py:134-145. *)
Fixpoint sortbeforeexcl_loop (self : attr) (c : cls) (bs : list cls) (first : bool) (l : list attr)
  : list attr :=
  match l with
  | [] => if first then [self] else []
  | a :: l' =>
      let ins := first && isinstance_any a bs in
      let first' := if ins then false else first in
      (if ins then [self] else []) ++
      (if isinstance a c then [] else [a]) ++
      sortbeforeexcl_loop self c bs first' l'
  end.

(** The merge methods, pyx/attr.py:76-85, 96-99, 110-120, 134-145, 156-157, 165-166. *)
Definition merge (self : attr) (attrs : list attr) : list attr :=
  match akind self with
  | Plain => attrs ++ [self]
  | Excl c => filter (fun a => negb (isinstance a c)) attrs ++ [self]
  | SortBefore bs => sortbefore_loop self bs true attrs
  | SortBeforeExcl c bs => sortbeforeexcl_loop self c bs true attrs
  | ClearClass c => filter (fun a => negb (isinstance a c)) attrs
  | ClearAll => []
  end.

(** mergeattrs, pyx/attr.py:28-38.  The TypeError for elements which are not
    attributes is excluded by typing. *)
Definition mergeattrs (attrs : list attr) : list attr :=
  fold_left (fun newattrs a => merge a newattrs) attrs [].

(** getattrs, pyx/attr.py:41-44. *)
Definition getattrs (attrs : list attr) (cs : list cls) : list attr :=
  filter (fun a => isinstance_any a cs) attrs.

Inductive checkresult : Type :=
| CheckOk                     (* no exception *)
| CheckTypeError (a : attr).  (* TypeError naming instance a *)

(** The zip loop of checkattrs, pyx/attr.py:52-56; comparison is by identity. *)
Fixpoint check_loop (attrs got : list attr) : option attr :=
  match attrs, got with
  | a1 :: r1, a2 :: r2 => if Nat.eqb (aid a1) (aid a2) then check_loop r1 r2 else Some a1
  | _, _ => None
  end.

(** checkattrs, pyx/attr.py:47-56. *)
Definition checkattrs (attrs : list attr) (allowed : list cls) : checkresult :=
  let got := getattrs attrs allowed in
  if Nat.eqb (length attrs) (length got) then CheckOk
  else match check_loop attrs got with
       | Some a => CheckTypeError a
       | None => match nth_error attrs (length got) with
                 | Some a => CheckTypeError a
                 | None => CheckOk (* IndexError; excluded: length got < length attrs *)
                 end
       end.

(** refineattrs, pyx/attr.py:58-65: None stands for a raised TypeError,
    Some None for the returned None. *)
Definition refineattrs (attrs : option (list attr)) (defaults : list attr) (allowed : list cls)
  (allow_none : bool) : option (option (list attr)) :=
  match attrs with
  | None => if allow_none then Some None else None
  | Some l => match checkattrs l allowed with
              | CheckOk => Some (Some (mergeattrs (defaults ++ l)))
              | CheckTypeError _ => None
              end
  end.

(** Changeable attributes, pyx/attr.py:213-262.  [SelErr] is a Python exception
    (ZeroDivisionError, KeyError/IndexError or RecursionError). *)
Inductive selresult (A : Type) : Type :=
| Sel (a : A) | SelNone | SelErr.
Arguments Sel {A} _. Arguments SelNone {A}. Arguments SelErr {A}.

Inductive changeattr : Type :=
| ChangeList (attrs : list attr) (cyclic : bool)            (* changelist, l.230-249 *)
| MultiChange (table : list (nat * changeattr)).            (* multichangeattr, l.252-262 *)

(** changelist.select, pyx/attr.py:243-249. *)
Definition changelist_select (attrs : list attr) (cyclic : bool) (index : nat) : selresult attr :=
  if cyclic then
    match attrs with
    | [] => SelErr
    | _ => match nth_error attrs (Nat.modulo index (length attrs)) with
           | Some a => Sel a | None => SelErr end
    end
  else if Nat.ltb index (length attrs) then
    match nth_error attrs index with Some a => Sel a | None => SelErr end
  else SelNone.

(** select methods, pyx/attr.py:243-249 and 261-262 (the dictionary is an
    association list, the first entry for a key counts). *)
Fixpoint select (c : changeattr) (index total : nat) : selresult attr :=
  match c with
  | ChangeList l cyc => changelist_select l cyc index
  | MultiChange t =>
      (fix look (t : list (nat * changeattr)) : selresult attr :=
         match t with
         | [] => SelErr
         | (k, c') :: t' => if Nat.eqb k total then select c' index total else look t'
         end) t
  end.

(** An element of the lists given to selectattrs: an attribute or a changeable one. *)
Inductive attr_or_change : Type := AFix (a : attr) | AChange (c : changeattr).

(** selectattrs, pyx/attr.py:178-199 for attrs not None. *)
Fixpoint selectattrs (l : list attr_or_change) (index total : nat) : selresult (list attr) :=
  match l with
  | [] => Sel []
  | AFix a :: l' => match selectattrs l' index total with
                    | Sel r => Sel (a :: r) | SelNone => SelNone | SelErr => SelErr end
  | AChange c :: l' =>
      match select c index total with
      | SelErr => SelErr
      | SelNone => SelNone
      | Sel a => match selectattrs l' index total with
                 | Sel r => Sel (a :: r) | SelNone => SelNone | SelErr => SelErr end
      end
  end.
