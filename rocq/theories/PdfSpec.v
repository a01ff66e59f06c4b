(** What the parts of a PDF file mean. *)
From Coq Require Import String Ascii ZArith Bool List.
From Verif Require Import PdfModel.
Import ListNotations.
Open Scope Z_scope.

(** the keys registered in registry [r] by a history, in order: those added and those of
    the registries merged into it *)
Fixpoint registrations (history : list op) (r : nat) : list key :=
  match history with
  | [] => []
  | p :: before =>                                     (* most recent operation first *)
      match p with
      | New | Alloc _ _ => registrations before r
      | Add r1 o => registrations before r ++ (if Nat.eqb r1 r then [okey o] else [])
      | Merge r1 r2 => registrations before r ++ (if Nat.eqb r1 r then registrations before r2 else [])
      end
  end.
(** only the first occurrence of each key *)
Fixpoint firsts_acc {A} (dec : forall x y : A, {x = y} + {x <> y}) (seen l : list A) : list A :=
  match l with
  | [] => []
  | x :: l' => if in_dec dec x seen then firsts_acc dec seen l' else x :: firsts_acc dec (x :: seen) l'
  end.
Definition key_dec (a b : key) : {a = b} + {a <> b}.
Proof. decide equality; apply Z.eq_dec. Defined.
Definition firsts (l : list key) : list key := firsts_acc key_dec [] l.

(** registries are not changed any more once they have been merged into another one *)
Fixpoint disciplined (done : list nat) (l : list op) : Prop :=
  match l with
  | [] => True
  | New :: l' | Alloc _ _ :: l' => disciplined done l'
  | Add r o :: l' => ~ In r done /\ disciplined done l'
  | Merge r1 r2 :: l' => ~ In r1 done /\ r1 <> r2 /\ disciplined (r2 :: done) l'
  end.
(** the identity of an object determines the object *)
Definition added (l : list op) (o : obj) : Prop := exists r, In (Add r o) l.
Definition consistent (l : list op) : Prop :=
  forall o o', added l o -> added l o' -> oident o = oident o' -> o = o'.
(** [top] is where [r] ends up by merging *)
Inductive leads (w : world) (top : nat) : nat -> nat -> Prop :=
| leads_here : leads w top 0 top
| leads_step n r r' reg : nth_error (regs w) r = Some reg -> merged reg = Some r' -> leads w top n r' -> leads w top (S n) r.

Definition slice {A} (s : list A) (from len : nat) : list A := firstn len (skipn from s).

(** the characters of a literal string in parentheses by the rules of PDF (PDF reference
    3.2.3); [depth] counts open parentheses; the opening one has been read *)
Definition octal (c : Z) : bool := (48 <=? c) && (c <=? 55).
(** single-letter escapes *)
Definition escape (c : Z) : Z :=
  if c =? 110 then 10 else if c =? 114 then 13 else if c =? 116 then 9 else if c =? 98 then 8 else if c =? 102 then 12 else c.
Definition cons_char (c : Z) (r : option (list Z * list Z)) : option (list Z * list Z) :=
  match r with Some (t, r') => Some (c :: t, r') | None => None end.
Fixpoint literal (depth : nat) (s : list Z) : option (list Z * list Z) :=
  match s with
  | [] => None
  | c :: r =>
      if c =? 41 then match depth with O => Some ([], r) | S d => cons_char 41 (literal d r) end
      else if c =? 40 then cons_char 40 (literal (S depth) r)
      else if c =? 92 then
        match r with
        | [] => None
        | c1 :: r1 =>
            if c1 =? 10 then literal depth r1
            else if c1 =? 13 then
              match r1 with
              | c2 :: r2 => if c2 =? 10 then literal depth r2 else literal depth r1
              | [] => None
              end
            else if octal c1 then
              match r1 with
              | c2 :: r2 =>
                  if octal c2 then
                    match r2 with
                    | c3 :: r3 =>
                        if octal c3 then cons_char (((c1 - 48) * 64 + (c2 - 48) * 8 + (c3 - 48)) mod 256) (literal depth r3)
                        else cons_char ((c1 - 48) * 8 + (c2 - 48)) (literal depth r2)
                    | [] => None
                    end
                  else cons_char (c1 - 48) (literal depth r1)
              | [] => None
              end
            else cons_char (escape c1) (literal depth r1)
        end
      else if c =? 13 then
        match r with
        | c1 :: r1 => if c1 =? 10 then cons_char 10 (literal depth r1) else cons_char 10 (literal depth r)
        | [] => None
        end
      else cons_char c (literal depth r)
  end.
