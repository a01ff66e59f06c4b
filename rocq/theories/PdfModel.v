(** Model of the object registry, the file structure and the strings of
    pyx/pdfwriter.py (l.36-120, 184-191, 208-306) and of PSregistry of pyx/pswriter.py
    (l.27-52).  zlib, dates and the contents of the objects are not modelled. *)
From Coq Require Import String Ascii ZArith Bool List.
From Verif Require Import PyDict TickModel TexterModel.
Import ListNotations.
Open Scope Z_scope.

(** ** PDFregistry *)

(** (object.type, object.id): hashable Python values, represented by integers *)
Definition key : Type := Z * Z.
Definition key_eqb (a b : key) : bool := (fst a =? fst b) && (snd a =? snd b).

(** PDFobject, l.123-138.  [oident] is the identity of the Python object.  Annotation and
    form objects (l.208-239) have a list of entries, which merge appends to; [omergeable]
    distinguishes them from the objects with the empty merge method of l.137-138.  The
    lists are kept in a heap, indexed by the identity. *)
Record obj := mkobj { okey : key; oident : nat; omergeable : bool }.
Definition heap := nat -> list Z.
Definition hset (h : heap) (i : nat) (v : list Z) : heap := fun j => if Nat.eqb j i then v else h j.

(** PDFregistry.__init__, l.38-44; the dictionary of dictionaries types is a dictionary of
    pairs; merged is the number of another registry *)
Record registry := mkreg { types : list (key * obj); objects : list obj; merged : option nat }.
Definition new_registry : registry := mkreg [] [] None.

(** add, l.52-59.  A list object merged with itself is an endless loop (l.214-216, 229-231
    append to the list they iterate over): [None]. *)
Definition add (r : registry) (h : heap) (o : obj) : option (registry * heap) :=
  match dget key_eqb (okey o) (types r) with
  | Some o' =>
      if omergeable o' then
        if Nat.eqb (oident o') (oident o) && negb (match h (oident o) with [] => true | _ => false end) then None
        else Some (r, hset h (oident o') (h (oident o') ++ h (oident o)))
      else Some (r, h)
  | None => Some (mkreg (dset key_eqb (okey o) o (types r)) (objects r ++ [o]) (merged r), h)
  end.
Fixpoint add_all (r : registry) (h : heap) (l : list obj) : option (registry * heap) :=
  match l with
  | [] => Some (r, h)
  | o :: l' => match add r h o with Some (r', h') => add_all r' h' l' | None => None end
  end.

(** a program using several registries; Alloc creates the list of an annotation or form
    object (l.210-212, 224-227) *)
Inductive op := New | Alloc (i : nat) (v : list Z) | Add (r : nat) (o : obj) | Merge (r1 r2 : nat).
Record world := mkworld { regs : list registry; wheap : heap }.
Fixpoint set_nth {A} (n : nat) (x : A) (l : list A) : list A :=
  match n, l with
  | O, _ :: l' => x :: l'
  | S n', y :: l' => y :: set_nth n' x l'
  | _, [] => []
  end.

(** one operation: New is PDFregistry(), Merge is mergeregistry, l.67-71, with its assert *)
Definition step (w : world) (p : op) : option world :=
  match p with
  | New => Some (mkworld (regs w ++ [new_registry]) (wheap w))
  | Alloc i v => Some (mkworld (regs w) (hset (wheap w) i v))
  | Add r o =>
      match nth_error (regs w) r with
      | Some reg => match add reg (wheap w) o with
                    | Some (reg', h') => Some (mkworld (set_nth r reg' (regs w)) h')
                    | None => None
                    end
      | None => None
      end
  | Merge r1 r2 =>
      match nth_error (regs w) r1, nth_error (regs w) r2 with
      | Some reg1, Some reg2 =>
          match merged reg2 with
          | Some _ => None                                               (* AssertionError, l.68 *)
          | None =>
              match add_all reg1 (wheap w) (objects reg2) with
              | Some (reg1', h') =>
                  let l := set_nth r1 reg1' (regs w) in
                  match nth_error l r2 with
                  | Some reg2' => Some (mkworld (set_nth r2 (mkreg (types reg2') (objects reg2') (Some r1)) l) h')
                  | None => None
                  end
              | None => None
              end
          end
      | _, _ => None
      end
  end.
Fixpoint steps (w : world) (l : list op) : option world :=
  match l with
  | [] => Some w
  | p :: l' => match step w p with Some w' => steps w' l' | None => None end
  end.
Definition run (l : list op) : option world := steps (mkworld [] (fun _ => [])) l.

(** write, l.73-78: the numbers of the objects of a registry *)
Fixpoint number_from (n : Z) (l : list obj) : list (obj * Z) :=
  match l with [] => [] | o :: l' => (o, n) :: number_from (n + 1) l' end.
Definition refno_of (numbered : list (obj * Z)) (i : nat) : option Z :=
  match find (fun p => Nat.eqb (oident (fst p)) i) numbered with Some (_, n) => Some n | None => None end.

(** getrefno, l.61-65, after the registry [top] has been written; following merged needs
    at most as many steps as there are registries, unless it runs in a circle *)
Fixpoint getrefno (fuel : nat) (w : world) (top : nat) (r : nat) (k : key) : option Z :=
  match fuel with
  | O => None
  | S f =>
      match nth_error (regs w) r, nth_error (regs w) top with
      | Some reg, Some regtop =>
          match merged reg with
          | Some r' => getrefno f w top r' k
          | None => match dget key_eqb k (types reg) with
                    | Some o => refno_of (number_from 1 (objects regtop)) (oident o)
                    | None => None                                       (* KeyError *)
                    end
          end
      | _, _ => None
      end
  end.

(** ** The file, l.73-106 *)
Definition nl : text := ["010"%char].
Definition T (s : string) : text := list_ascii_of_string s.

(** the format percent-010i *)
Definition fmt010 (n : Z) : text := let s := str n in repeat "0"%char (10 - length s) ++ s.

(** l.80-86: the objects are written behind [out]; [bodies] is what object.write writes *)
Fixpoint write_objects (out : text) (refno : Z) (fileposes : list Z) (bodies : list text) : text * list Z :=
  match bodies with
  | [] => (out, fileposes)
  | b :: bodies' =>
      write_objects (out ++ str refno ++ T " 0 obj" ++ nl ++ b ++ T "endobj" ++ nl) (refno + 1)
                    (fileposes ++ [Z.of_nat (length out)]) bodies'
  end.
(** l.88-106; [out] is what is in the file before (the header, l.383) *)
Definition write_file (header : text) (bodies : list text) (root info : Z) : text :=
  let refno := Z.of_nat (length bodies) + 1 in
  let '(out, fileposes) := write_objects header 1 [] bodies in
  let xrefpos := Z.of_nat (length out) in
  out ++ T "xref" ++ nl ++ T "0 " ++ str refno ++ nl ++ T "0000000000 65535 f " ++ nl ++
  concat (map (fun p => fmt010 p ++ T " 00000 n " ++ nl) fileposes) ++
  T "trailer" ++ nl ++ T "<<" ++ nl ++ T "/Size " ++ str refno ++ nl ++
  T "/Root " ++ str root ++ T " 0 R" ++ nl ++ T "/Info " ++ str info ++ T " 0 R" ++ nl ++
  T ">>" ++ nl ++ T "startxref" ++ nl ++ str xrefpos ++ nl ++ T "%%EOF" ++ nl.

(** ** pdfstring, l.184-191, on code points *)
Fixpoint oct_fuel (fuel : nat) (z : Z) : list Z :=
  match fuel with
  | O => []
  | S f => if z <? 8 then [48 + z] else oct_fuel f (z / 8) ++ [48 + z mod 8]
  end.
(** the format percent-03o *)
Definition fmt03o (z : Z) : list Z := let s := oct_fuel (S (Z.to_nat (Z.log2 z))) z in repeat 48 (3 - length s) ++ s.
Definition pdfchar (c : Z) : list Z :=
  if (32 <=? c) && (c <=? 127) && negb (existsb (Z.eqb c) [40; 41; 91; 93; 60; 62; 92]) then [c] else 92 :: fmt03o c.
Definition pdfstring (s : list Z) : list Z := flat_map pdfchar s.

(** ** Annotations of a document, l.242-306 and pdfextra.py:207-213 *)

Definition annotations_key : key := (0, 0).
(** What is registered for the annotations of a page in registry [r]: for each annotation a
    new PDFannotations object and the annotation itself (pdfextra.py:208-213, 196).  [next]
    and the following numbers are the identities. *)
Fixpoint annot_ops (r : nat) (next : nat) (annots : list Z) : list op :=
  match annots with
  | [] => []
  | a :: l => Alloc next [a] :: Add r (mkobj annotations_key next true) :: Add r (mkobj (1, a) (S next) false) ::
              annot_ops r (S (S next)) l
  end.
(** PDFpage.__init__ and the loop of PDFpages, l.247-250, 264-284: registry 0 is the global
    one, registry [S p] that of page [p].  Other objects of the pages are left out. *)
Definition page_ops (p : nat) (next : nat) (annots : list Z) : list op :=
  let page := mkobj (2, Z.of_nat p) next false in
  [New; Add (S p) page] ++ annot_ops (S p) (S (S next)) annots ++
  [Add (S p) (mkobj (3, Z.of_nat p) (S next) false); Merge 0 (S p); Add 0 page].
Fixpoint pages_ops (p next : nat) (pages : list (list Z)) : list op :=
  match pages with
  | [] => []
  | annots :: l => page_ops p next annots ++ pages_ops (S p) (next + 2 + 2 * length annots) l
  end.
Definition document_world (pages : list (list Z)) : option world := run (New :: pages_ops 0 0 pages).
(** PDFpage.write, l.300-302: the entries of the array a page refers to; the registry is the
    global one, whatever the page *)
Definition page_annots (w : world) (p : nat) : list Z :=
  match nth_error (regs w) 0 with
  | Some reg => match dget key_eqb annotations_key (types reg) with
                | Some o => wheap w (oident o)
                | None => []
                end
  | None => []
  end.

(** ** PSregistry of pswriter.py, l.27-52; resources with a payload merged by appending *)
Record psregistry := mkpsreg { resourceshash : list (key * obj); resourceslist : list obj }.
(** add, l.37-43 *)
Definition ps_add (s : psregistry * heap) (o : obj) : psregistry * heap :=
  let '(r, h) := s in
  match dget key_eqb (okey o) (resourceshash r) with
  | Some o' => (r, if omergeable o' then hset h (oident o') (h (oident o') ++ h (oident o)) else h)
  | None => (mkpsreg (dset key_eqb (okey o) o (resourceshash r)) (resourceslist r ++ [o]), h)
  end.
(** output, l.49-52: the resources in the order of writing, with their payload *)
Definition ps_output (s : psregistry * heap) : list (key * list Z) :=
  map (fun o => (okey o, snd s (oident o))) (resourceslist (fst s)).
