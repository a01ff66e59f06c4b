(** Model of the files of Type 1 fonts: pyx/font/t1file.py, l.644-666, 684-707 and 1090-1239, with writer (pyx/writer.py, l.23-36).
    Bytes and texts are lists of integers, the bytes and the code points.  The search for /FontName and /FontMatrix in the constructor
    (l.663-666) is not modelled, it changes nothing but the attributes name and fontmatrix. *)
From Coq Require Import ZArith List Bool.
From Verif Require Import ReaderModel.
Import ListNotations.
Open Scope Z_scope.

(** what functions are called with: a text or bytes *)
Inductive pyval := Str (l : list Z) | Bytes (l : list Z).
(** exceptions *)
Inductive error := FontFormatError | ValueError | TypeError | UnicodeEncodeError | AttributeError | IndexError | AssertionError.
Inductive res (A : Type) := Ok (a : A) | Exn (e : error).
Arguments Ok {A}. Arguments Exn {A}.
Definition bind {A B} (r : res A) (f : A -> res B) : res B := match r with Ok a => f a | Exn e => Exn e end.

(** decode("ascii", errors="surrogateescape") and encode of the same arguments *)
Definition decode (b : list Z) : list Z := map (fun c => if c <? 128 then c else 56320 + c) b.
Fixpoint encode (s : list Z) : res (list Z) :=
  match s with
  | [] => Ok []
  | c :: r => if (0 <=? c) && (c <? 128) then bind (encode r) (fun b => Ok (c :: b))
              else if (56448 <=? c) && (c <=? 56575) then bind (encode r) (fun b => Ok (c - 56320 :: b))
              else Exn UnicodeEncodeError
  end.

(** the attributes which are set in l.650-652; _data2 is not decoded, so getdata2eexec gives back the value *)
Record t1file := mkt1 { data1 : list Z; data2eexec : list Z; data3 : list Z }.

(** ** reading *)
Fixpoint eqb (a b : list Z) : bool := match a, b with [], [] => true | x :: a', y :: b' => (x =? y) && eqb a' b' | _, _ => false end.
(** consumer, l.1195-1202 *)
Definition consume (n : nat) (b : list Z) : list Z * list Z := (firstn n b, skipn n b).
(** pfblength, l.1188-1194 *)
Definition pfblength (s : list Z) : res nat :=
  match s with [a; b; c; d] => Ok (Z.to_nat (a + b * 256 + c * 256 * 256 + d * 256 * 256 * 256)) | _ => Exn ValueError end.
(** l.1213-1215: each round takes at least four bytes, [fuel] is a bound for their number *)
Fixpoint binary (fuel : nat) (data mark b : list Z) : res (list Z * list Z * list Z) :=
  if eqb mark [128; 2] then
    match fuel with
    | O => Exn FontFormatError
    | S f => let (l, b) := consume 4 b in bind (pfblength l) (fun n =>
             let (d, b) := consume n b in let (mark, b) := consume 2 b in binary f (data ++ d) mark b)
    end
  else Ok (data, mark, b).
(** from_PFB_bytes, l.1184-1224 *)
Definition from_pfb (b0 : list Z) : res t1file :=
  let (mark, b) := consume 2 b0 in
  if negb (eqb mark [128; 1]) then Exn FontFormatError else
  let (l, b) := consume 4 b in bind (pfblength l) (fun n =>
  let (d1, b) := consume n b in
  let (mark, b) := consume 2 b in
  if negb (eqb mark [128; 2]) then Exn FontFormatError else
  bind (binary (length b0) [] mark b) (fun '(d2, mark, b) =>
  if negb (eqb mark [128; 1]) then Exn FontFormatError else
  let (l, b) := consume 4 b in bind (pfblength l) (fun n =>
  let (d3, b) := consume n b in
  let (mark, b) := consume 2 b in
  if negb (eqb mark [128; 3]) then Exn FontFormatError else
  let (x, b) := consume 1 b in
  match x with [] => Ok (mkt1 (decode d1) d2 (decode d3)) | _ => Exn FontFormatError end))).
(** bytes.index; a text as argument is a TypeError *)
Fixpoint starts (p b : list Z) : bool := match p, b with [], _ => true | x :: p', y :: b' => (x =? y) && starts p' b' | _, [] => false end.
Fixpoint position (p b : list Z) : option nat :=
  if starts p b then Some O else match b with [] => None | _ :: b' => option_map S (position p b') end.
Definition bytes_index (b : list Z) (p : pyval) : res nat :=
  match p with Str _ => Exn TypeError | Bytes p => match position p b with Some k => Ok k | None => Exn ValueError end end.
(** bytes.replace(old, new) with an empty new value *)
Definition bytes_remove (b : list Z) (c : pyval) : res (list Z) :=
  match c with Str _ => Exn TypeError | Bytes c => Ok (filter (fun x => negb (existsb (Z.eqb x) c)) b) end.
(** binascii.a2b_hex *)
Definition nibble (c : Z) : option Z :=
  if (48 <=? c) && (c <=? 57) then Some (c - 48) else if (97 <=? c) && (c <=? 102) then Some (c - 87)
  else if (65 <=? c) && (c <=? 70) then Some (c - 55) else None.
Fixpoint a2b_hex (s : list Z) : res (list Z) :=
  match s with
  | [] => Ok []
  | [_] => Exn ValueError
  | a :: b :: r => match nibble a, nibble b with Some x, Some y => bind (a2b_hex r) (fun l => Ok (16 * x + y :: l)) | _, _ => Exn ValueError end
  end.
(** eexec and the zeros *)
Definition eexec : list Z := [101; 101; 120; 101; 99].
Definition cleartomark : list Z := [99; 108; 101; 97; 114; 116; 111; 109; 97; 114; 107].
(** from_PFA_bytes, l.1163-1174 *)
Definition from_pfa (b : list Z) : res t1file :=
  match bind (bytes_index b (Str eexec)) (fun m1 => bind (bytes_index b (Str (repeat 48 40))) (fun m2 => Ok (m1 + 6, m2)%nat)) with
  | Exn ValueError => Exn FontFormatError
  | Exn e => Exn e
  | Ok (m1, m2) =>
      bind (bytes_remove (skipn m1 (firstn m2 b)) (Str [32])) (fun h => bind (bytes_remove h (Str [13])) (fun h => bind (bytes_remove h (Str [10])) (fun h =>
      bind (a2b_hex h) (fun d2 => Ok (mkt1 (decode (firstn m1 b)) d2 (decode (skipn m2 b)))))))
  end.
(** from_PF_bytes, l.1234-1239 *)
Definition from_pf (b : list Z) : res t1file := match from_pfb b with Exn FontFormatError => from_pfa b | r => r end.

(** ** writing *)
(** writer.write and writer.write_bytes, writer.py l.30-34: what is in the file afterwards; bytes have no method encode *)
Definition write (file : list Z) (v : pyval) : res (list Z) :=
  match v with Str s => bind (encode s) (fun b => Ok (file ++ b)) | Bytes _ => Exn AttributeError end.
Definition write_bytes (file b : list Z) : list Z := file ++ b.
(** binascii.b2a_hex *)
Definition digit (x : Z) : Z := if x <? 10 then 48 + x else 87 + x.
Definition b2a_hex (b : list Z) : list Z := flat_map (fun c => [digit (c / 16); digit (c mod 16)]) b.
(** outputPFA, l.1090-1109, with remove_UniqueID_lookup=False *)
Definition output_pfa (t : t1file) (file : list Z) : res (list Z) :=
  bind (write file (Str (data1 t))) (fun file =>
  let hex := b2a_hex (data2eexec t) in
  bind (fold_left (fun file i => bind file (fun file => write (write_bytes file (firstn 64 (skipn (i * 64) hex))) (Str [10])))
          (seq 0 (Z.to_nat ((Z.of_nat (length hex) - 1) / 64 + 1))) (Ok file)) (fun file =>
  write file (Str (data3 t)))).
(** outputPFB, l.1111-1129 *)
Definition pfb_length (n : nat) : list Z :=
  let l := Z.of_nat n in [l mod 256; l / 256 mod 256; l / 256 / 256 mod 256; l / 256 / 256 / 256].
Definition output_pfb (t : t1file) (file : list Z) : res (list Z) :=
  fold_left (fun file v => bind file (fun file => write file v))
    [Str [128; 1]; Str (pfb_length (length (data1 t))); Str (data1 t); Str [128; 2]; Str (pfb_length (length (data2eexec t))); Bytes (data2eexec t);
     Str [128; 1]; Str (pfb_length (length (data3 t))); Str (data3 t); Str [128; 3]] (Ok file).
(** outputPDF, l.1135-1160: the numbers /Length, /Length1, /Length2 and /Length3 and the stream; [compress] is zlib.compress, if the writer
    compresses *)
Definition output_pdf (compress : option (list Z -> list Z)) (t : t1file) : res (nat * nat * nat * nat * list Z) :=
  let d3 := if eqb (filter (fun c => negb (existsb (Z.eqb c) [10; 13; 9; 32])) (data3 t)) (repeat 48 512 ++ cleartomark) then [] else data3 t in
  bind (encode (data1 t)) (fun b1 => bind (encode d3) (fun b3 =>
  let data := b1 ++ data2eexec t ++ b3 in
  let data := match compress with Some c => c data | None => data end in
  Ok (length data, length (data1 t), length (data2eexec t), length d3, data))).

(** ** the encoding, l.684-707 *)
Section Encoding.
Variable int : list Z -> option Z.
Definition get (d : list Z) : res (list Z * list Z) := match gettoken ps_str d with Some p => Ok p | None => Exn IndexError end.
Definition dup : list Z := [100; 117; 112].
Definition put : list Z := [112; 117; 116].
Definition def : list Z := [100; 101; 102].
Definition readonly : list Z := [114; 101; 97; 100; 111; 110; 108; 121].
Definition standard : list Z := [83; 116; 97; 110; 100; 97; 114; 100; 69; 110; 99; 111; 100; 105; 110; 103].
Definition encoding_key : list Z := [47; 69; 110; 99; 111; 100; 105; 110; 103].
(** l.693-696; [fuel] bounds the number of tokens *)
Fixpoint skip_to_dup (fuel : nat) (d : list Z) : res (list Z) :=
  match fuel with
  | O => Exn IndexError
  | S f => bind (get d) (fun '(t, d) => if eqb t dup then Ok d else skip_to_dup f d)
  end.
(** assignment to an element of the list *)
Fixpoint assign {A} (i : nat) (x : A) (l : list A) : list A :=
  match i, l with O, _ :: r => x :: r | S i', y :: r => y :: assign i' x r | _, [] => [] end.
(** l.697-707 *)
Fixpoint entries (fuel : nat) (enc : list (option (list Z))) (d : list Z) : res (list (option (list Z))) :=
  match fuel with
  | O => Exn IndexError
  | S f =>
      bind (get d) (fun '(t, d) =>
      match int t with
      | None => Exn ValueError
      | Some i =>
          bind (get d) (fun '(glyph, d) =>
          let enc := if (0 <=? i) && (i <? 256) then assign (Z.to_nat i) (Some (tl glyph)) enc else enc in
          bind (get d) (fun '(t, d) =>
          if negb (eqb t put) then Exn AssertionError else
          bind (get d) (fun '(t, d) =>
          if eqb t readonly || eqb t def then Ok enc
          else if eqb t dup then entries f enc d else Exn AssertionError)))
      end)
  end.
(** None for the standard encoding; [fuel] bounds the number of tokens *)
Definition encoding (fuel : nat) (data : list Z) : res (option (list (option (list Z)))) :=
  match new_tokenizer ps_str Z.eqb data (Some encoding_key) true with
  | None => Exn ValueError
  | Some d =>
      bind (get d) (fun '(t1, d) => bind (get d) (fun '(t2, d) =>
      if eqb t1 standard && eqb t2 def then Ok None
      else bind (skip_to_dup fuel d) (fun d => bind (entries fuel (repeat None 256) d) (fun e => Ok (Some e)))))
  end.
End Encoding.
