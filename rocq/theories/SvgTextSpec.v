(** C158, C159: what the texts of SVG files mean: numbers, lists of numbers, path data, lists of transformations *)
From Coq Require Import Ascii String ZArith QArith List Bool.
Import ListNotations.
Open Scope Z_scope.

Definition isdigit (c : Z) : Prop := 48 <= c <= 57.
(** the white space of SVG: blank, tab, line feed, form feed, carriage return *)
Definition wsp (c : Z) : Prop := In c [32; 9; 10; 12; 13].
(** the number written by digits *)
Fixpoint decimal (ds : list Z) : Z := match ds with [] => 0 | d :: r => (d - 48) * 10 ^ Z.of_nat (List.length r) + decimal r end.
(** a number: sign (true is minus), digits before the point, digits behind it, exponent (upper case letter, sign, digits) *)
Record num := mknum { sg : option bool; whole : list Z; frac : option (list Z); ex : option (bool * option bool * list Z) }.
Definition sign_text (s : option bool) : list Z := match s with Some true => [45] | Some false => [43] | None => [] end.
Definition num_text (n : num) : list Z :=
  sign_text (sg n) ++ whole n ++ match frac n with Some f => 46 :: f | None => [] end ++ match ex n with Some (u, s, ds) => (if u then 69 else 101) :: sign_text s ++ ds | None => [] end.
Definition is_num (n : num) : Prop :=
  Forall isdigit (whole n) /\ match frac n with Some f => f <> [] /\ Forall isdigit f | None => whole n <> [] end /\
  match ex n with Some (_, _, ds) => ds <> [] /\ Forall isdigit ds | None => True end.
Definition signed (s : option bool) (z : Z) : Z := match s with Some true => - z | _ => z end.
Definition magnitude (n : num) : Q :=
  (inject_Z (decimal (whole n)) + match frac n with Some f => inject_Z (decimal f) / inject_Z (10 ^ Z.of_nat (List.length f)) | None => 0 end)%Q.
Definition num_value (n : num) : Q :=
  ((match sg n with Some true => - magnitude n | _ => magnitude n end) * Qpower 10 (match ex n with Some (_, s, ds) => signed s (decimal ds) | None => 0 end))%Q.
(** white space with or without a comma *)
Definition is_sep (s : list Z) : Prop := exists a b, Forall wsp a /\ Forall wsp b /\ (s = a ++ b \/ s = a ++ 44 :: b).
(** the text behind a number without a separator begins with a sign, or with a point if the number has a point or an exponent already *)
Definition continues (n : num) (r : list Z) : Prop :=
  r = [] \/ exists c r', r = c :: r' /\ (c = 43 \/ c = 45 \/ (c = 46 /\ (frac n <> None \/ ex n <> None))).
(** lists of numbers and flags *)
Inductive token := TNum (n : num) | TFlag (b : bool).
Inductive tokens : list token -> list Z -> Prop :=
| tokens_nil : tokens [] []
| tokens_num n s l r : is_num n -> is_sep s -> (s = [] -> continues n r) -> tokens l r -> tokens (TNum n :: l) (num_text n ++ s ++ r)
| tokens_flag (b : bool) s l r : is_sep s -> tokens l r -> tokens (TFlag b :: l) ((if b then 49 else 48) :: s ++ r).
Definition numbers (l : list num) : list Z -> Prop := tokens (map TNum l).
(** the arguments of an arc: the radii, the angle, the flags and the point *)
Record arcnum := mkarc { a_rx : num; a_ry : num; a_phi : num; a_large : bool; a_sweep : bool; a_x : num; a_y : num }.
Definition arc_tokens (a : arcnum) : list token := [TNum (a_rx a); TNum (a_ry a); TNum (a_phi a); TFlag (a_large a); TFlag (a_sweep a); TNum (a_x a); TNum (a_y a)].
(** path data: commands with white space and arguments; only z has none *)
Inductive segment := Seg (c : Z) (l : list num) | SegA (c : Z) (l : list arcnum).
Inductive path_data : list segment -> list Z -> Prop :=
| data_nil : path_data [] []
| data_close c w l r : In c [122; 90] -> Forall wsp w -> path_data l r -> path_data (Seg c [] :: l) (c :: w ++ r)
| data_seg c w n ns a l r : In c [109; 108; 104; 118; 99; 115; 113; 116; 77; 76; 72; 86; 67; 83; 81; 84] -> Forall wsp w -> numbers (n :: ns) a -> path_data l r ->
    path_data (Seg c (n :: ns) :: l) (c :: w ++ a ++ r)
| data_arc c w n ns a l r : In c [97; 65] -> Forall wsp w -> tokens (flat_map arc_tokens (n :: ns)) a -> path_data l r -> path_data (SegA c (n :: ns) :: l) (c :: w ++ a ++ r).
