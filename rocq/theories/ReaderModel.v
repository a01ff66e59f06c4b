(** Model of pyx/reader.py (l.27-173).

    Bytes are integers from 0 to 255; the state of a reader or tokenizer is the list
    of what has not been read yet (the data from the current position on).  Exceptions
    (struct.error, TypeError, IndexError, AssertionError, ValueError) are [None]. *)
From Coq Require Import ZArith List Bool.
Import ListNotations.
Open Scope Z_scope.

(** self.file.read(n): at most n bytes *)
Definition fread (n : nat) (file : list Z) : list Z * list Z := (firstn n file, skipn n file).

(** readint, l.41-51; ord of nothing is a TypeError *)
Fixpoint readint_loop (bytes : nat) (signed first : bool) (result : Z) (file : list Z) : option (Z * list Z) :=
  match bytes with
  | O => Some (result, file)
  | S bytes' =>
      match file with
      | [] => None
      | value :: file' =>
          let value := if first && signed && (127 <? value) then value - 256 else value in
          readint_loop bytes' signed false (256 * result + value) file'
      end
  end.
Definition readint (bytes : nat) (signed : bool) (file : list Z) : option (Z * list Z) :=
  readint_loop bytes signed true 0 file.

(** struct.unpack for the formats ">L", ">l", ">H", ">h", "B" and "b" *)
Definition unpack_L (b : list Z) : option Z :=
  match b with [b0; b1; b2; b3] => Some (b0 * 16777216 + b1 * 65536 + b2 * 256 + b3) | _ => None end.
Definition unpack_l (b : list Z) : option Z :=
  match unpack_L b with Some v => Some (if v <? 2147483648 then v else v - 4294967296) | None => None end.
Definition unpack_H (b : list Z) : option Z := match b with [b0; b1] => Some (b0 * 256 + b1) | _ => None end.
Definition unpack_h (b : list Z) : option Z :=
  match unpack_H b with Some v => Some (if v <? 32768 then v else v - 65536) | None => None end.
Definition unpack_B (b : list Z) : option Z := match b with [b0] => Some b0 | _ => None end.
Definition unpack_b (b : list Z) : option Z :=
  match b with [b0] => Some (if b0 <? 128 then b0 else b0 - 256) | _ => None end.

Definition unpacked (unpack : list Z -> option Z) (n : nat) (before : list Z) (file : list Z) : option (Z * list Z) :=
  let '(b, file') := fread n file in
  match unpack (before ++ b) with Some v => Some (v, file') | None => None end.
(** l.53-75 *)
Definition readint32 := unpacked unpack_l 4 [].
Definition readuint32 := unpacked unpack_L 4 [].
Definition readint24 := unpacked unpack_l 3 [0].
Definition readuint24 := unpacked unpack_L 3 [0].
Definition readint16 := unpacked unpack_h 2 [].
Definition readuint16 := unpacked unpack_H 2 [].
Definition readchar := unpacked unpack_b 1 [].
Definition readuchar := unpacked unpack_B 1 [].

(** readstring, l.77-80, for bytes at least one *)
Definition readstring (bytes : nat) (file : list Z) : option (list Z * list Z) :=
  match readuchar file with
  | None => None
  | Some (l, file') =>
      if l <=? Z.of_nat bytes - 1 then
        let '(s, file'') := fread (bytes - 1) file' in Some (firstn (Z.to_nat l) s, file'')
      else None
  end.

(** ** PStokenizer *)

(** The characters are those of a type with the four classes of l.101-103.  For
    PSbytes_tokenizer (l.166-173) data[pos] is an integer, which is never equal to the
    commentchar b"%", so [is_comment] is never true there. *)
Record tokenclasses (C : Type) := mkclasses {
  is_sep : C -> bool; is_start : C -> bool; is_comment : C -> bool; is_newline : C -> bool }.
Arguments is_sep {C}. Arguments is_start {C}. Arguments is_comment {C}. Arguments is_newline {C}.

Definition ps_str : tokenclasses Z :=
  mkclasses Z (fun c => existsb (Z.eqb c) [32; 9; 13; 10]) (fun c => existsb (Z.eqb c) [40; 41; 60; 62; 91; 93; 123; 125; 47; 37])
    (fun c => c =? 37) (fun c => existsb (Z.eqb c) [13; 10]).
Definition ps_bytes : tokenclasses Z :=
  mkclasses Z (is_sep ps_str) (is_start ps_str) (fun c => false) (is_newline ps_str).

Section Tokenizer.
  Context {C : Type} (k : tokenclasses C) (eqc : C -> C -> bool).

  (** while data[pos] in tokenseps, l.135-136 and 141-142; an IndexError at the end *)
  Fixpoint skip_seps (d : list C) : option (list C) :=
    match d with [] => None | c :: d' => if is_sep k c then skip_seps d' else Some d end.
  (** l.139-140 *)
  Fixpoint skip_line (d : list C) : option (list C) :=
    match d with [] => None | c :: d' => if is_newline k c then Some d else skip_line d' end.
  (** l.138-142; every round consumes characters *)
  Fixpoint skip_comments (fuel : nat) (d : list C) : option (list C) :=
    match fuel with
    | O => None
    | S f =>
        match d with
        | [] => None
        | c :: _ =>
            if is_comment k c then
              match skip_line d with
              | Some d1 => match skip_seps d1 with Some d2 => skip_comments f d2 | None => None end
              | None => None
              end
            else Some d
        end
    end.
  (** l.144-148: the token and the rest; [first] is pos = startpos *)
  Fixpoint token_chars (first : bool) (d : list C) : option (list C * list C) :=
    match d with
    | [] => None
    | c :: d' =>
        if is_sep k c then Some ([], d)
        else if negb first && is_start k c then Some ([], d)
        else match token_chars false d' with Some (t, r) => Some (c :: t, r) | None => None end
    end.
  (** gettoken, l.130-152 *)
  Definition gettoken (d : list C) : option (list C * list C) :=
    match skip_seps d with
    | None => None
    | Some d1 =>
        match skip_comments (S (length d1)) d1 with
        | None => None
        | Some d2 =>
            match token_chars true d2 with
            | None => None
            | Some (t, []) => None
            | Some (t, c :: d3) => Some (t, if is_sep k c then d3 else c :: d3)
            end
        end
    end.
  (** getbytes, l.158-162 *)
  Definition getbytes (count : nat) (d : list C) : list C * list C := (firstn count d, skipn count d).

  (** data.index(startstring), l.117: the data behind the first occurrence *)
  Fixpoint after_prefix (s d : list C) : option (list C) :=
    match s, d with
    | [], _ => Some d
    | a :: s', c :: d' => if eqc a c then after_prefix s' d' else None
    | _ :: _, [] => None
    end.
  Fixpoint after_first (s d : list C) : option (list C) :=
    match after_prefix s d with
    | Some r => Some r
    | None => match d with [] => None | _ :: d' => after_first s d' end
    end.
  (** the constructor, l.101-128 *)
  Definition new_tokenizer (data : list C) (startstring : option (list C)) (eattokensep : bool) : option (list C) :=
    match (match startstring with Some s => after_first s data | None => Some data end) with
    | None => None
    | Some d =>
        if eattokensep then
          match d with
          | [] => None
          | c :: d' => if is_start k c then Some d else if is_sep k c then Some d' else None
          end
        else Some d
    end.

  (** n calls of gettoken *)
  Fixpoint gettokens (n : nat) (d : list C) : option (list (list C) * list C) :=
    match n with
    | O => Some ([], d)
    | S n' => match gettoken d with
              | Some (t, d') => match gettokens n' d' with Some (ts, r) => Some (t :: ts, r) | None => None end
              | None => None
              end
    end.
End Tokenizer.
