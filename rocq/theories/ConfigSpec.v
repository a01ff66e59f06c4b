(** Notions for the search for files. *)
From Coq Require Import Ascii String List Arith Bool.
From Verif Require Import ConfigModel.
Import ListNotations.
Open Scope string_scope.

(** the name ends with an extension of one of the formats *)
Definition has_extension (filename : string) (formats : list format) : Prop :=
  exists f e p, In f formats /\ In e (extensions f) /\ filename = p ++ e.

(** ls-R files: comments, then for each directory its name and a colon, the names in it and
    an empty line *)
Definition nl : string := String "010"%char EmptyString.
Definition block_lines (b : string * list string) : list string := ((fst b ++ ":" ++ nl)%string :: map (fun n => n ++ nl)%string (snd b) ++ [nl])%list.
Record listing := mklisting { base : string; comments : list string; blocks : list (string * list string) }.
Definition listing_lines (l : listing) : list string := (map (fun c => "%" ++ c ++ nl)%string (comments l) ++ flat_map block_lines (blocks l))%list.
(** the files listed, with their paths *)
Definition listed (l : listing) : list (string * string) :=
  flat_map (fun '(d, names) => map (fun n => (n, path_join (path_join (base l) d) n)) names) (blocks l).
(** a name as found in such a file *)
Definition proper_name (n : string) : Prop := n <> "" /\ rstrip n = n /\ forall p, n <> p ++ ":".
Definition proper_dir (d : string) : Prop := forall r, d <> "%" ++ r.
Definition proper (l : listing) : Prop :=
  Forall (fun '(d, names) => proper_dir d /\ Forall proper_name names) (blocks l).
(** the first of the files with a name *)
Definition first_entry (l : list (string * string)) (n p : string) : Prop :=
  exists l1 l2, l = (l1 ++ (n, p) :: l2)%list /\ forall p', ~ In (n, p') l1.

(** the files in a directory and the directories below, with their paths *)
Fixpoint dfiles (d : directory) : list (string * string) :=
  match d with
  | Directory path es => (fix go (es : list (string * option directory)) : list (string * string) :=
      match es with
      | [] => []
      | (n, None) :: es' => (n, path_join path n) :: go es'
      | (_, Some d') :: es' => (dfiles d' ++ go es')%list
      end) es
  end.
Definition all_files (ds : list directory) : list (string * string) := flat_map dfiles ds.
(** the states of the locator after any requests *)
Inductive reached (start : list directory) : list directory -> dict -> Prop :=
  | at_start : reached start start []
  | after : forall dirs cache filename formats r dirs' cache', reached start dirs cache ->
      rec_openers dirs cache filename formats = (r, dirs', cache') -> reached start dirs' cache'.

(** the characters of a string *)
Fixpoint each (P : ascii -> Prop) (s : string) : Prop :=
  match s with EmptyString => True | String c s' => P c /\ each P s' end.
(** an item of a list as it is written in the configuration: with SPACE for each blank *)
Fixpoint written (s : string) : string :=
  match s with
  | EmptyString => EmptyString
  | String c s' => (if Ascii.eqb c " " then "SPACE" else String c EmptyString) ++ written s'
  end.
Definition list_item (s : string) : Prop :=
  s <> "" /\ each (fun c => c = " "%char \/ is_space c = false) s /\ forall a b, s <> a ++ "SPACE" ++ b.
