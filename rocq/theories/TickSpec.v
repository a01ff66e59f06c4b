(** Values of numbers written as text, and of rationals. *)
From Coq Require Import String Ascii ZArith QArith Bool List.
Import ListNotations.
Open Scope Z_scope.

(** the digit characters *)
Definition digit_value (c : ascii) (v : Z) : Prop :=
  exists n, (n < 10)%nat /\ c = ascii_of_nat (48 + n) /\ v = Z.of_nat n.

(** the value of a string of digits *)
Inductive digits_value : list ascii -> Z -> Prop :=
| dv_nil : digits_value [] 0
| dv_snoc s v c d : digits_value s v -> digit_value c d -> digits_value (s ++ [c]) (v * 10 + d).

(** optional sign; the boolean says whether the value is to be negated *)
Inductive sign_text : list ascii -> bool -> Prop :=
| st_none : sign_text [] false
| st_plus : sign_text ["+"%char] false
| st_minus : sign_text ["-"%char] true.

(** white space around numbers *)
Definition blank (s : list ascii) : Prop :=
  Forall (fun c => In (Z.of_N (N_of_ascii c)) [9; 10; 11; 12; 13; 28; 29; 30; 31; 32; 133; 160]) s.

Definition signed (b : bool) (q : Q) : Q := if b then (- q)%Q else q.
Definition pow10 (z : Z) : Q := Qpower 10 z.

(** fraction part: nothing, or a dot and digits *)
Inductive frac_text : list ascii -> list ascii -> Prop :=
| ft_none : frac_text [] []
| ft_dot f : frac_text ("."%char :: f) f.

(** exponent part with its value *)
Inductive exp_text : list ascii -> Z -> Prop :=
| et_none : exp_text [] 0
| et_some e sg b ds v : e = "e"%char \/ e = "E"%char -> sign_text sg b -> ds <> [] -> digits_value ds v ->
    exp_text (e :: sg ++ ds) (if b then - v else v).

(** [decimal s q]: the text s is a decimal number of value q.  Integer and
    fraction digits may be missing. *)
Inductive decimal : list ascii -> Q -> Prop :=
| dec w1 w2 sg neg i ft f et e v :
    blank w1 -> blank w2 -> sign_text sg neg -> frac_text ft f -> exp_text et e ->
    (exists vi, digits_value i vi) -> (exists vf, digits_value f vf) -> digits_value (i ++ f) v ->
    decimal (w1 ++ sg ++ i ++ ft ++ et ++ w2)
            (signed neg (inject_Z v * pow10 (- Z.of_nat (length f)) * pow10 e)).

(** numbers and fractions of two numbers *)
Inductive number_text : list ascii -> Q -> Prop :=
| nt_dec s q : decimal s q -> number_text s q
| nt_frac s1 q1 s2 q2 : decimal s1 q1 -> decimal s2 q2 -> ~ (q2 == 0)%Q -> number_text (s1 ++ "/"%char :: s2) (q1 / q2).

(** [prominent a b c]: level c is the more prominent one of the levels a and b
    (smaller numbers are more prominent, None means: not present). *)
Definition as_prominent (a b : option Z) : Prop :=
  match a, b with
  | _, None => True
  | None, Some _ => False
  | Some x, Some y => x <= y
  end.
Definition prominent (a b c : option Z) : Prop :=
  (c = a \/ c = b) /\ as_prominent c a /\ as_prominent c b.

(** the least number of levels covering all levels in a list *)
Definition least_bound (ls : list (option Z)) (m : Z) : Prop :=
  (0 <= m /\ forall v, In (Some v) ls -> v < m) /\
  forall m', 0 <= m' -> (forall v, In (Some v) ls -> v < m') -> m <= m'.
