(** Specification of attribute merging, independent of the loops in AttrModel. *)
From Coq Require Import String Bool Arith List.
From Verif Require Import AttrModel.
Import ListNotations.

(** [kills b a]: giving b after a removes a. *)
Definition kills (b a : attr) : Prop :=
  match akind b with
  | Excl c | SortBeforeExcl c _ | ClearClass c => In c (ainst a)
  | ClearAll => True
  | Plain | SortBefore _ => False
  end.

Definition stays (a : attr) : Prop :=
  match akind a with ClearClass _ | ClearAll => False | _ => True end.

(** Occurrences of the input that survive: not clears and not killed by a later one. *)
Inductive Survivors : list attr -> list attr -> Prop :=
| sv_nil : Survivors [] []
| sv_keep a l s : stays a -> (forall b, In b l -> ~ kills b a) -> Survivors l s -> Survivors (a :: l) (a :: s)
| sv_drop a l s : ~ stays a \/ (exists b, In b l /\ kills b a) -> Survivors l s -> Survivors (a :: l) s.

Definition before_classes (a : attr) : list cls :=
  match akind a with SortBefore bs | SortBeforeExcl _ bs => bs | _ => [] end.
Definition issb (a : attr) : bool :=
  match akind a with SortBefore _ | SortBeforeExcl _ _ => true | _ => false end.
Definition mustprecede (a b : attr) : Prop :=
  issb a = true /\ exists c, In c (before_classes a) /\ In c (ainst b).

(** class c is used exclusively in l: all its instances are exclusive attributes of exactly this class *)
Definition exclusive_in (c : cls) (l : list attr) : Prop :=
  forall a, In a l -> In c (ainst a) ->
    akind a = Excl c \/ (exists bs, akind a = SortBeforeExcl c bs).

(** no sorting attribute stands behind one it has to precede; the two conditions on the sorting relation used to guarantee this;  *)
Definition prec_ok (l : list attr) : Prop :=
  forall l1 x l2, l = l1 ++ x :: l2 -> forall a, In a l2 -> ~ mustprecede a x.

Definition sb_transitive (l : list attr) : Prop :=
  forall a b x, In a l -> In b l -> In x l -> mustprecede a b -> mustprecede b x -> mustprecede a x.

Definition sb_irrefl (l : list attr) : Prop :=
  forall a b, In a l -> In b l -> mustprecede a b -> ~ mustprecede b a.

(** two attributes of exclusive classes kill each other mutually (not only one way) *)
Definition kill_sym (l : list attr) : Prop :=
  forall a b, In a l -> In b l -> stays a -> kills a b -> kills b a.

(** attribute identities determine the attribute *)
Definition ids_consistent (l : list attr) : Prop :=
  forall a b, In a l -> In b l -> aid a = aid b -> a = b.

