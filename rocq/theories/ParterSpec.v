(** Tick positions of linear and logarithmic partitions. *)
From Coq Require Import Reals ZArith Qreals List.
From Verif Require Import TickModel TickSpec ParterModel.
Import ListNotations.
Open Scope R_scope.

(** the real number a rational stands for *)
Definition real (r : rational) : R := IZR (num r) / IZR (denom r).
(** positive distances and fractions in lowest or other terms *)
Definition positive (r : rational) : Prop := (0 < num r)%Z /\ (0 < denom r)%Z.

(** [x] is a multiple of [d] *)
Definition multiple (d x : R) : Prop := exists i : Z, x = IZR i * d.
(** ... in the range, where each end is widened by a part of the distance *)
Definition multiple_within (slack lo hi d x : R) : Prop := multiple d x /\ lo - slack * d <= x <= hi + slack * d.

(** one of the fractions times an integer power of the base *)
Definition scaled (fs : list R) (base x : R) : Prop := exists f (i : Z), In f fs /\ x = f * powerRZ base i.
Definition scaled_within (slack lo hi : R) (fs : list R) (base x : R) : Prop :=
  scaled fs base x /\ lo * Rpower base (- slack) <= x <= hi * Rpower base slack.
(** the same on positive ranges, and mirrored for negative ranges *)
Definition log_position (slack lo hi : R) (fs : list R) (base x : R) : Prop :=
  (0 < lo /\ scaled_within slack lo hi fs base x) \/ (hi < 0 /\ scaled_within slack (- hi) (- lo) fs base (- x)).

(** the number of the first member with property [P] *)
Definition first_with {A} (P : A -> Prop) (l : list A) (level : option Z) : Prop :=
  match level with
  | None => forall a, In a l -> ~ P a
  | Some k => (0 <= k)%Z /\ (exists a, nth_error l (Z.to_nat k) = Some a /\ P a) /\
              forall j a, (0 <= j < k)%Z -> nth_error l (Z.to_nat j) = Some a -> ~ P a
  end.

Inductive ascending : list R -> Prop :=
| asc_nil : ascending []
| asc_cons x l : (forall y, In y l -> x < y) -> ascending l -> ascending (x :: l).

(** the largest value with property [P] which is at most [b], and the smallest which is at least [b] *)
Definition greatest_below (P : R -> Prop) (b x : R) : Prop := P x /\ x <= b /\ forall y, P y -> y <= b -> y <= x.
Definition least_above (P : R -> Prop) (b x : R) : Prop := P x /\ b <= x /\ forall y, P y -> b <= y -> x <= y.

(** the range after stretching its ends to values with property [P], where the ends may be moved inwards up to [a] and [b] *)
Definition stretched (P : R -> Prop) (emin emax : bool) (a b lo hi lo' hi' : R) : Prop :=
  (if emin then greatest_below P a lo' else lo' = lo) /\ (if emax then least_above P b hi' else hi' = hi).
(** ... to multiples of the distance number [level], if there is one *)
Definition stretched_linear (eps : R) (level : option nat) (dists : list rational) (emin emax : bool) (lo hi lo' hi' : R) : Prop :=
  match level with
  | None => lo' = lo /\ hi' = hi
  | Some k => match nth_error dists k with
              | None => lo' = lo /\ hi' = hi
              | Some d => stretched (multiple (real d)) emin emax (lo + eps * real d) (hi - eps * real d) lo hi lo' hi'
              end
  end.

(** at most ten digits *)
Definition short (x : R) : Prop := exists m i : Z, (Z.abs m < 10 ^ 10)%Z /\ x = IZR m * powerRZ 10 i.
(** the formatting of numbers is exact for such numbers *)
Definition exact_format (fmt : rational -> text) : Prop :=
  forall r, (0 < denom r)%Z -> short (real r) -> exists q, decimal (fmt r) q /\ Q2R q = real r.

(** positive fractions and a base of at least two *)
Definition base_ok (p : preexp) : Prop := Forall positive (pres p) /\ (2 <= pexp p)%Z.
(** ascending fractions within one power of the base *)
Definition spread (p : preexp) : Prop :=
  ascending (map real (pres p)) /\ pres p <> [] /\ forall f g, In f (pres p) -> In g (pres p) -> real f < IZR (pexp p) * real g.
(** the positions [p] stands for *)
Definition positions (p : preexp) : R -> Prop := scaled (map real (pres p)) (IZR (pexp p)).
(** the range after stretching it to such positions, for positive ranges, and mirrored for negative ranges;
    in the latter case the flag [emin] belongs to the upper end *)
Definition stretched_log (eps : R) (level : option nat) (ps : list preexp) (emin emax : bool) (lo hi lo' hi' : R) : Prop :=
  match level with
  | None => lo' = lo /\ hi' = hi
  | Some k => match nth_error ps k with
              | None => lo' = lo /\ hi' = hi
              | Some p =>
                  let wide := Rpower (IZR (pexp p)) eps in
                  (0 < lo -> stretched (positions p) emin emax (lo * wide) (hi / wide) lo hi lo' hi') /\
                  (hi < 0 -> stretched (positions p) emin emax (- hi * wide) (- lo / wide) (- hi) (- lo) (- hi') (- lo'))
              end
  end.
