(** Model of pyx/font/t1code.py (the whole module, l.22-42).

    Bytes are integers; array("B").append raises OverflowError for values
    outside 0..255, which is the [None] result.  *)
From Coq Require Import ZArith Bool List.
Import ListNotations.
Open Scope Z_scope.

Definition c1 := 52845.                      (* l.24 *)
Definition c1_16 := c1 / 256.                (* l.25 *)
Definition c1_8 := c1 mod 256.               (* l.25 *)
Definition c2 := 22719.                      (* l.26 *)

(** the key update of l.33 and l.41 *)
Definition next_key (x r : Z) : Z :=
  Z.land (Z.land ((x + r) * c1_16) 255 * 256 + (x + r) * c1_8 + c2) 65535.

(** array.array("B").append, l.31 and l.39 *)
Definition append_byte (v : Z) (rest : option (list Z)) : option (list Z) :=
  if (0 <=? v) && (v <? 256) then option_map (cons v) rest else None.

(** the loop of decoder, l.28-33 *)
Fixpoint decode_loop (code : list Z) (r : Z) : option (list Z) :=
  match code with
  | [] => Some []
  | x :: code' => append_byte (Z.lxor x (Z.shiftr r 8)) (decode_loop code' (next_key x r))
  end.

(** decoder, l.28-34 *)
Definition decoder (code : list Z) (r : Z) (n : nat) : option (list Z) :=
  option_map (skipn n) (decode_loop code r).

(** the loop of encoder, l.38-41 *)
Fixpoint encode_loop (data : list Z) (r : Z) : option (list Z) :=
  match data with
  | [] => Some []
  | x :: data' => let c := Z.lxor x (Z.shiftr r 8) in
                  append_byte c (encode_loop data' (next_key c r))
  end.

(** encoder, l.36-42 *)
Definition encoder (data : list Z) (r : Z) (random : list Z) : option (list Z) :=
  encode_loop (random ++ data) r.
