(** What the texts of decimal labels mean. *)
From Coq Require Import String Ascii ZArith QArith Qpower Qabs Bool List.
From Verif Require Import TickSpec.
Import ListNotations.
Open Scope Z_scope.

(** digits in groups of three from the right, separated by [sep] *)
Inductive grouped_right (sep : list ascii) : list ascii -> list ascii -> Prop :=
| gr_short ds : (length ds <= 3)%nat -> grouped_right sep ds ds
| gr_more ds t a b c : ds <> [] -> grouped_right sep ds t -> grouped_right sep (ds ++ [a; b; c]) (t ++ sep ++ [a; b; c]).

(** digits in groups of three from the left, separated by [sep] *)
Inductive grouped_left (sep : list ascii) : list ascii -> list ascii -> Prop :=
| gl_short ds : (length ds <= 3)%nat -> grouped_left sep ds ds
| gl_more ds t a b c : ds <> [] -> grouped_left sep ds t -> grouped_left sep (a :: b :: c :: ds) (a :: b :: c :: sep ++ t).

(** no superfluous leading zero *)
Definition canonical (ds : list ascii) : Prop :=
  ds <> [] /\ (hd "0"%char ds = "0"%char -> ds = ["0"%char]).

(** an integer part with its value *)
Definition int_part (sep : list ascii) (s : list ascii) (v : Z) : Prop :=
  exists ds, canonical ds /\ digits_value ds v /\ grouped_right sep ds s.

(** A fraction part: nothing, or the separator and digits, or the separator, digits
    and digits under the period mark.  The number is the number of digits, None for
    a periodic fraction.  A period of k digits with value v, behind m other digits,
    is worth v / (10^k - 1) / 10^m. *)
Inductive frac_part (dsep tsep pb pa : list ascii) : list ascii -> option nat -> Q -> Prop :=
| fp_none : frac_part dsep tsep pb pa [] (Some O) 0
| fp_finite f t v : f <> [] -> digits_value f v -> grouped_left tsep f t ->
    frac_part dsep tsep pb pa (dsep ++ t) (Some (length f)) (inject_Z v * pow10 (- Z.of_nat (length f)))
| fp_periodic f t v p tp vp : digits_value f v -> digits_value p vp -> p <> [] ->
    tsep = [] -> t = f -> tp = p ->
    frac_part dsep tsep pb pa (dsep ++ t ++ pb ++ tp ++ pa) None
      ((inject_Z v + inject_Z vp / (inject_Z (10 ^ Z.of_nat (length p) - 1))) * pow10 (- Z.of_nat (length f))).

(** [denotes t k s q]: the text s is a number of value q with k fraction digits (None:
    a periodic fraction) in the notation given by the prefix, infix, suffix, plus,
    minus, decimal separator, thousand separators and period marks. *)
Definition denotes (pre inf suf plus minus dsep ksep tsep pb pa : list ascii) (k : option nat)
    (s : list ascii) (q : Q) : Prop :=
  exists sg ip fp vi qf, s = pre ++ sg ++ inf ++ ip ++ fp ++ suf /\
    int_part ksep ip vi /\ frac_part dsep tsep pb pa fp k qf /\
    ((sg = minus /\ (q < 0)%Q /\ (q == - (inject_Z vi + qf))%Q) \/
     (sg = plus /\ (0 <= q)%Q /\ (q == inject_Z vi + qf)%Q)).

(** a finite number of decimal digits is enough *)
Definition terminating (q : Q) : Prop := exists (k z : Z), 0 <= k /\ (q * inject_Z (10 ^ k) == inject_Z z)%Q.

(** Labels of the default texter: a plain number, or mantissa, base and exponent, where
    an omitted mantissa counts as one with the sign given. *)
Definition exponential (mdenotes bdenotes edenotes : option nat -> list ascii -> Q -> Prop)
    (mantissa : option (list ascii)) (sign : Z) (base exponent : list ascii) (q : Q) : Prop :=
  exists kb qb ke e, bdenotes kb base qb /\ edenotes ke exponent (inject_Z e) /\
    match mantissa with
    | Some m => exists k qm, mdenotes k m qm /\ (q == qm * Qpower qb e)%Q
    | None => (q == inject_Z sign * Qpower qb e)%Q
    end.

(** the numbers to be written with an exponent: those outside of the range from
    b^(1-minneg) up to (not including) b^minexp; zero counts as having exponent zero *)
Definition out_of_range (b : Q) (minneg minexp : Z) (q : Q) : Prop :=
  (~ q == 0 /\ ~ (Qpower b (1 - minneg) <= Qabs q < Qpower b minexp))%Q \/
  ((q == 0)%Q /\ ~ (- minneg < 0 < minexp)).

(** A number n written in the middle of other texts: its decimal digits, or nothing
    if n is one. *)
Definition numeral (n : Z) (s : list ascii) : Prop :=
  (canonical s /\ digits_value s n) \/ (n = 1 /\ s = []).

(** Labels of the rational texter for sign * n / d.  The text of the sign is at one of
    three places. *)
Section Fractions.
  Variables pre inf suf npre ninf nsuf dpre dinf dsuf plus minus : list ascii.
  Variable place : Z.
  Definition sign_at (here : Z) (sign : Z) : list ascii :=
    if place =? here then (if sign <? 0 then minus else plus) else [].

  Inductive shows_text (sign n d : Z) : list ascii -> Prop :=
  | st_zero : n = 0 -> shows_text sign n d ["0"%char]
  | st_int N : numeral n N -> d = 1 ->
      (N = [] -> pre ++ inf ++ suf ++ npre ++ ninf ++ nsuf <> []) ->
      sign_at (-1) sign ++ dpre ++ dinf ++ dsuf = [] ->
      shows_text sign n d (pre ++ sign_at 0 sign ++ inf ++ (npre ++ sign_at 1 sign ++ ninf ++ N ++ nsuf) ++ suf).

  Inductive shows_fraction (sign n d : Z) : list ascii -> list ascii -> list ascii -> list ascii -> Prop :=
  | sf_intro N D : numeral n N -> (N = [] -> npre ++ ninf ++ nsuf <> []) -> canonical D -> digits_value D d ->
      shows_fraction sign n d (pre ++ sign_at 0 sign ++ inf) (npre ++ sign_at 1 sign ++ ninf ++ N ++ nsuf)
        (dpre ++ sign_at (-1) sign ++ dinf ++ D ++ dsuf) suf.
End Fractions.
