(** Model of pyx/utils.py, kwsplit (l.23-75) and merge_members_kwargs (l.78-87). *)
From Coq Require Import String Ascii Bool List.
From Verif Require Import PyDict.
Import ListNotations.
Open Scope string_scope.

Definition uscore : ascii := "_"%char.

(** key.split('_', 1) and the unpacking in two names, l.64: [None] is the
    ValueError of l.65 for a key without underscore. *)
Fixpoint split_uscore (s : string) : option (string * string) :=
  match s with
  | EmptyString => None
  | String c s' => if Ascii.eqb c uscore then Some (EmptyString, s')
                   else match split_uscore s' with
                        | Some (p, r) => Some (String c p, r)
                        | None => None
                        end
  end.

Section KW.
  Context {V : Type}.
  Local Notation kwdict := (list (string * V)).

  (** parts is None or part in parts, l.68 *)
  Definition in_parts (parts : option (list string)) (part : string) : bool :=
    match parts with
    | None => true
    | Some l => existsb (String.eqb part) l
    end.

  (** one iteration of the loop, l.62-73 *)
  Definition kwstep (parts : option (list string)) (st : list (string * kwdict) * kwdict)
      (item : string * V) : list (string * kwdict) * kwdict :=
    let '(split, rest) := st in
    let '(key, value) := item in
    match split_uscore key with
    | None => (split, dset String.eqb key value rest)                 (* l.65-66 *)
    | Some (part, subkey) =>
        if in_parts parts part then
          (* l.69-71 *)
          let split1 := match dget String.eqb part split with
                        | None => dset String.eqb part [] split
                        | Some _ => split
                        end in
          let sub := match dget String.eqb part split1 with Some d => d | None => [] end in
          (dset String.eqb part (dset String.eqb subkey value sub) split1, rest)
        else (split, dset String.eqb key value rest)                  (* l.72-73 *)
    end.

  (** kwsplit, l.60-76: [None] is the ValueError of l.75 *)
  Definition kwsplit (kwargs : kwdict) (parts : option (list string)) (allow_only_split : bool)
      : option (list (string * kwdict) * kwdict) :=
    let '(split, rest) := fold_left (kwstep parts) kwargs ([], []) in
    if allow_only_split && negb (match rest with [] => true | _ => false end)
    then None else Some (split, rest).

  (** dict.update, used in l.86 *)
  Definition dupdate (d u : kwdict) : kwdict :=
    fold_left (fun d kv => dset String.eqb (fst kv) (snd kv) d) u d.

  (** merge_members_kwargs, l.78-87; [getattr] is the attribute lookup on the
      object, [None] the AttributeError *)
  Fixpoint members (getattr : string -> option V) (names : list string) (d : kwdict) : option kwdict :=
    match names with
    | [] => Some d
    | n :: ns => match getattr n with
                 | Some v => members getattr ns (dset String.eqb n v d)
                 | None => None
                 end
    end.

  Definition merge_members_kwargs (getattr : string -> option V) (kwargs_updates : list kwdict)
      (member_names : list string) : option kwdict :=
    option_map (fun d => fold_left dupdate kwargs_updates d) (members getattr member_names []).
End KW.
