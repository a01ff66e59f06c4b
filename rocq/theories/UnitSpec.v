(** Physical meaning of length expressions: a pure number, or a number of meters. *)
From Coq Require Import Reals List.
From Verif Require Import UnitModel.
Open Scope R_scope.

Inductive quantity := Pure (x : R) | Meters (x : R).

(** the factors in force: the last one given for the kind in the history of unit.set
    calls (most recent call first in the argument), one initially *)
Fixpoint last_given {A} (get : setcall -> option A) (first : A) (recent_first : list setcall) : A :=
  match recent_first with
  | nil => first
  | cons c l => match get c with Some v => v | None => last_given get first l end
  end.

Section Meaning.
  (** [k]: meters of one default unit times the user scale; [factor]: scale of each kind;
      [default]: the default unit *)
  Variable k : R.
  Variable factor : ltype -> R.
  Variable default : lunit.

  (** a pure number used as a length counts in default units of user type *)
  Definition in_meters (q : quantity) : R := match q with Pure x => x * k | Meters x => x end.

  Inductive means : expr -> quantity -> Prop :=
  | m_num x : means (ENum x) (Pure x)
  | m_len f ty u : means (ELen f ty u) (Meters (f * meters (match u with Some v => v | None => default end) * factor ty))
  | m_add_pure a b x y : means a (Pure x) -> means b (Pure y) -> means (EAdd a b) (Pure (x + y))
  | m_add a b p q : means a p -> means b q -> (exists x, p = Meters x) \/ (exists x, q = Meters x) ->
      means (EAdd a b) (Meters (in_meters p + in_meters q))
  | m_sub_pure a b x y : means a (Pure x) -> means b (Pure y) -> means (ESub a b) (Pure (x - y))
  | m_sub a b p q : means a p -> means b q -> (exists x, p = Meters x) \/ (exists x, q = Meters x) ->
      means (ESub a b) (Meters (in_meters p - in_meters q))
  | m_neg_pure a x : means a (Pure x) -> means (ENeg a) (Pure (- x))
  | m_neg a x : means a (Meters x) -> means (ENeg a) (Meters (- x))
  | m_mul_pure a b x y : means a (Pure x) -> means b (Pure y) -> means (EMul a b) (Pure (x * y))
  | m_mul_l a b x y : means a (Pure x) -> means b (Meters y) -> means (EMul a b) (Meters (x * y))
  | m_mul_r a b x y : means a (Meters x) -> means b (Pure y) -> means (EMul a b) (Meters (x * y))
  | m_div_pure a b x y : means a (Pure x) -> means b (Pure y) -> y <> 0 -> means (EDiv a b) (Pure (x / y))
  | m_div_l a b x y : means a (Meters x) -> means b (Pure y) -> y <> 0 -> means (EDiv a b) (Meters (x / y))
  | m_div a b x y : means a (Meters x) -> means b (Meters y) -> y <> 0 -> means (EDiv a b) (Pure (x / y)).
End Meaning.
