(** Charstrings: what T1File writes for a list of commands is read back as the same commands. *)
From Coq Require Import ZArith Bool Ascii String List Lia ZifyBool.
From Verif Require Import T1codeModel T1codeProofs T1codeProps T1Model.
Import ListNotations.
Open Scope Z_scope.

(** The numbers of charstrings have 32 bits. *)
Definition writable (t : tok) : Prop := match t with Num v => -2147483648 < v < 2147483648 | Cmd _ => True end.

Lemma tok_bytes_ok t : writable t -> Forall isbyte (tok_bytes t).
Proof.
  unfold isbyte. destruct t as [v|c]; cbn [writable tok_bytes].
  - intros H. destruct ((-107 <=? v) && (v <=? 107)) eqn:E1; [repeat (apply Forall_cons || apply Forall_nil); lia|].
    destruct ((108 <=? v) && (v <=? 1131)) eqn:E2.
    { repeat (apply Forall_cons || apply Forall_nil); [|apply Z.mod_pos_bound; lia]. assert (0 <= (v - 108) / 256 < 4) by (split; [apply Z.div_pos; lia|apply Z.div_lt_upper_bound; lia]). lia. }
    destruct ((-1131 <=? v) && (v <=? -108)) eqn:E3.
    { repeat (apply Forall_cons || apply Forall_nil); [|apply Z.mod_pos_bound; lia]. assert (0 <= (- v - 108) / 256 < 4) by (split; [apply Z.div_pos; lia|apply Z.div_lt_upper_bound; lia]). lia. }
    set (w := if v <? 0 then v + 4294967296 else v). assert (0 <= w < 4294967296) as W by (subst w; destruct (v <? 0) eqn:E; lia).
    repeat (apply Forall_cons || apply Forall_nil); try (apply Z.mod_pos_bound; lia); [lia|].
    rewrite !Z.div_div by lia. split; [apply Z.div_pos; lia|apply Z.div_lt_upper_bound; lia].
  - intros _. destruct c; cbn; repeat (apply Forall_cons || apply Forall_nil); lia.
Qed.

Lemma bytes_of_ok l : Forall isbyte l -> bytes_of l = Some l.
Proof. induction 1 as [|x l H _ IH]; [reflexivity|]. cbn. change (fold_right append_byte (Some []) l) with (bytes_of l). rewrite IH. now apply append_byte_ok. Qed.

Lemma cmds_loop_step f x rest : cmds_loop (S f) (x :: rest) =
      if x =? 12 then match rest with y :: code => let* c := cmd_of true y in let* r := cmds_loop f code in Some (Cmd c :: r) | [] => None end
      else if (0 <=? x) && (x <? 32) then let* c := cmd_of false x in let* r := cmds_loop f rest in Some (Cmd c :: r)
      else if (32 <=? x) && (x <=? 246) then let* r := cmds_loop f rest in Some (Num (x - 139) :: r)
      else if (247 <=? x) && (x <=? 250) then
        match rest with y :: code => let* r := cmds_loop f code in Some (Num ((x - 247) * 256 + y + 108) :: r) | [] => None end
      else if (251 <=? x) && (x <=? 254) then
        match rest with y :: code => let* r := cmds_loop f code in Some (Num (- ((x - 251) * 256) - y - 108) :: r) | [] => None end
      else match rest with
           | a :: b :: c :: d :: code =>
               let y := ((a * 256 + b) * 256 + c) * 256 + d in
               let* r := cmds_loop f code in Some (Num (if 2147483648 <? y then y - 4294967296 else y) :: r)
           | _ => None
           end.
Proof. reflexivity. Qed.

Lemma word_parts w : 0 <= w -> ((w / 256 / 256 / 256 * 256 + w / 256 / 256 mod 256) * 256 + w / 256 mod 256) * 256 + w mod 256 = w.
Proof.
  intros H. pose proof (Z.div_mod w 256 ltac:(lia)). pose proof (Z.div_mod (w / 256) 256 ltac:(lia)). pose proof (Z.div_mod (w / 256 / 256) 256 ltac:(lia)). lia.
Qed.

Ltac is_bool e b := let Q := fresh in assert (e = b) as Q by lia; rewrite Q; clear Q.
Lemma read_tok t f rest : writable t -> cmds_loop (S f) (tok_bytes t ++ rest) = let* r := cmds_loop f rest in Some (t :: r).
Proof.
  destruct t as [v|c]; intros H; cbn [writable] in H.
  - cbn [tok_bytes]. destruct ((-107 <=? v) && (v <=? 107)) eqn:E1.
    { cbn [app]. rewrite cmds_loop_step. is_bool (v + 139 =? 12) false. is_bool ((0 <=? v + 139) && (v + 139 <? 32)) false. is_bool ((32 <=? v + 139) && (v + 139 <=? 246)) true. cbn [app]. replace (v + 139 - 139) with v by lia. reflexivity. }
    destruct ((108 <=? v) && (v <=? 1131)) eqn:E2.
    { assert (0 <= (v - 108) / 256 < 4) by (split; [apply Z.div_pos; lia|apply Z.div_lt_upper_bound; lia]). pose proof (Z.div_mod (v - 108) 256 ltac:(lia)) as D.
      set (q := (v - 108) / 256) in *. set (r := (v - 108) mod 256) in *. cbn [app]. rewrite cmds_loop_step.
      is_bool (q + 247 =? 12) false. is_bool ((0 <=? q + 247) && (q + 247 <? 32)) false. is_bool ((32 <=? q + 247) && (q + 247 <=? 246)) false. is_bool ((247 <=? q + 247) && (q + 247 <=? 250)) true.
      replace ((q + 247 - 247) * 256 + r + 108) with v by lia. reflexivity. }
    destruct ((-1131 <=? v) && (v <=? -108)) eqn:E3.
    { assert (0 <= (- v - 108) / 256 < 4) by (split; [apply Z.div_pos; lia|apply Z.div_lt_upper_bound; lia]). pose proof (Z.div_mod (- v - 108) 256 ltac:(lia)) as D.
      set (q := (- v - 108) / 256) in *. set (r := (- v - 108) mod 256) in *. cbn [app]. rewrite cmds_loop_step.
      is_bool (q + 251 =? 12) false. is_bool ((0 <=? q + 251) && (q + 251 <? 32)) false. is_bool ((32 <=? q + 251) && (q + 251 <=? 246)) false. is_bool ((247 <=? q + 251) && (q + 251 <=? 250)) false. is_bool ((251 <=? q + 251) && (q + 251 <=? 254)) true.
      replace (- ((q + 251 - 251) * 256) - r - 108) with v by lia. reflexivity. }
    set (w := if v <? 0 then v + 4294967296 else v). cbn [app]. rewrite cmds_loop_step.
    change (255 =? 12) with false. change ((0 <=? 255) && (255 <? 32)) with false. change ((32 <=? 255) && (255 <=? 246)) with false. change ((247 <=? 255) && (255 <=? 250)) with false. change ((251 <=? 255) && (255 <=? 254)) with false. cbn iota.
    rewrite word_parts by (subst w; destruct (v <? 0) eqn:E; lia). cbv zeta.
    replace (if 2147483648 <? w then w - 4294967296 else w) with v; [reflexivity|]. subst w. destruct (v <? 0) eqn:E.
    + is_bool (2147483648 <? v + 4294967296) true. lia.
    + is_bool (2147483648 <? v) false. reflexivity.
  - destruct c; reflexivity.
Qed.

Lemma tok_bytes_length t : (1 <= length (tok_bytes t))%nat.
Proof. destruct t as [v|c]; cbn; [|destruct c; cbn; lia]. destruct (_ && _); [cbn; lia|]. destruct (_ && _); [cbn; lia|]. destruct (_ && _); cbn; lia. Qed.
Lemma read_toks l : Forall writable l -> forall f, (length l <= f)%nat -> cmds_loop f (flat_map tok_bytes l) = Some l.
Proof.
  induction 1 as [|t l H _ IH]; intros f L; [destruct f; reflexivity|]. destruct f as [|f]; cbn in L; [lia|]. cbn [flat_map]. rewrite read_tok by exact H. rewrite IH by lia. reflexivity.
Qed.
Lemma toks_length l : (length l <= length (flat_map tok_bytes l))%nat.
Proof. induction l as [|t l IH]; [cbn; lia|]. cbn. rewrite app_length. pose proof (tok_bytes_length t). lia. Qed.

Lemma pyx_bytes_ok n : Forall isbyte (firstn n pyx_bytes).
Proof. assert (Forall isbyte pyx_bytes) as H by (unfold pyx_bytes, isbyte; repeat (apply Forall_cons || apply Forall_nil); lia). rewrite <- (firstn_skipn n) in H. apply Forall_app in H. apply H. Qed.
Lemma flat_bytes l : Forall writable l -> Forall isbyte (flat_map tok_bytes l).
Proof. induction 1; [constructor|]. cbn. apply Forall_app. split; [now apply tok_bytes_ok|assumption]. Qed.
Lemma charstringr_key : iskey charstringr. Proof. unfold iskey, charstringr. lia. Qed.

(** C91 *)
(** For every list of commands and numbers (of 32 bits), with up to four random bytes before.  Missing: the least number, and more
    random bytes, see below. *)
Theorem charstring_roundtrip_partial lenIV l : (lenIV <= 4)%nat -> Forall writable l -> exists c, code lenIV l = Some c /\ cmds lenIV c = Some l.
Proof.
  intros L H. unfold code, cmds, plain_code. rewrite bytes_of_ok by now apply flat_bytes. cbn [bind]. unfold charstringencode, charstringdecode.
  eexists. split; [apply encoder_is_type1; [apply charstringr_key|now apply flat_bytes|apply pyx_bytes_ok]|].
  assert (length (firstn lenIV pyx_bytes) = lenIV) as Le by (rewrite firstn_length; cbn; lia).
  rewrite <- Le at 2. erewrite t1_roundtrip; [|apply charstringr_key| | |apply encoder_is_type1; [apply charstringr_key| |]]; try apply pyx_bytes_ok; try (now apply flat_bytes).
  cbn [bind]. unfold plain_cmds. apply read_toks; [exact H|apply toks_length].
Qed.
Print Assumptions charstring_roundtrip_partial.

Example charstring_roundtrip_example :
  let l := [Num 50; Num 600; Cmd Hsbw; Num (-108); Num 1132; Cmd Rmoveto; Num (-1131); Cmd Vlineto; Num 70000; Num (-3); Cmd Div; Cmd Hlineto; Cmd Closepath; Cmd Endchar] in
  plain_code l = Some [189; 248; 236; 13; 251; 0; 255; 0; 0; 4; 108; 21; 254; 255; 7; 255; 0; 1; 17; 112; 136; 12; 12; 6; 9; 14] /\
  (exists c, code 4 l = Some c /\ length c = 30%nat /\ cmds 4 c = Some l).
Proof. cbv zeta. split; [reflexivity|]. eexists. split; [vm_compute; reflexivity|]. split; reflexivity. Qed.

(** The standard's encoding, stated on its own: a byte between 32 and 246 is a number, 247 to 250 and 251 to 254 begin numbers
    of two bytes, 255 one of four bytes in two's complement.  Every number has its shortest form. *)
Definition number (b : list Z) : option Z :=
  match b with
  | [v] => if (32 <=? v) && (v <=? 246) then Some (v - 139) else None
  | [v; w] => if (247 <=? v) && (v <=? 250) then Some ((v - 247) * 256 + w + 108) else if (251 <=? v) && (v <=? 254) then Some (- ((v - 251) * 256) - w - 108) else None
  | [v; a; b; c; d] => let u := a * 2 ^ 24 + b * 2 ^ 16 + c * 2 ^ 8 + d in if v =? 255 then Some (if u <? 2 ^ 31 then u else u - 2 ^ 32) else None
  | _ => None
  end.
Theorem numbers_are_type1 v : -2 ^ 31 <= v < 2 ^ 31 -> number (tok_bytes (Num v)) = Some v /\
  forall b, Forall isbyte b -> number b = Some v -> (length (tok_bytes (Num v)) <= length b)%nat.
Proof.
  change (2 ^ 31) with 2147483648. intros H. cbn [tok_bytes].
  assert (forall b, Forall isbyte b -> number b = Some v -> length b = 1%nat /\ -107 <= v <= 107 \/ length b = 2%nat /\ (108 <= v <= 1131 \/ -1131 <= v <= -108) \/ length b = 5%nat) as K.
  { intros b B N. destruct b as [|x [|y [|z [|s [|t [|u ?]]]]]]; try discriminate.
    - left. split; [reflexivity|]. cbn [number] in N. destruct ((32 <=? x) && (x <=? 246)) eqn:E; [|discriminate]. assert (x - 139 = v) by congruence. lia.
    - right. left. split; [reflexivity|]. inversion B as [|? ? Bx By]. inversion By as [|? ? By' _]. unfold isbyte in *. cbn [number] in N. destruct ((247 <=? x) && (x <=? 250)) eqn:E.
      + assert ((x - 247) * 256 + y + 108 = v) by congruence. lia.
      + destruct ((251 <=? x) && (x <=? 254)) eqn:E'; [|discriminate]. assert (- ((x - 251) * 256) - y - 108 = v) by congruence. lia.
    - right. right. reflexivity. }
  destruct ((-107 <=? v) && (v <=? 107)) eqn:E1.
  { split. - cbn [number]. is_bool ((32 <=? v + 139) && (v + 139 <=? 246)) true. f_equal. lia. - intros b B N. cbn [length]. destruct (K b B N) as [[Q _]|[[Q _]|Q]]; lia. }
  destruct ((108 <=? v) && (v <=? 1131)) eqn:E2.
  { assert (0 <= (v - 108) / 256 < 4) by (split; [apply Z.div_pos; lia|apply Z.div_lt_upper_bound; lia]). pose proof (Z.div_mod (v - 108) 256 ltac:(lia)) as D.
    set (q := (v - 108) / 256) in *. set (r := (v - 108) mod 256) in *. split.
    - cbn [number]. is_bool ((247 <=? q + 247) && (q + 247 <=? 250)) true. f_equal. lia.
    - intros b B N. cbn [length]. destruct (K b B N) as [[Q ?]|[[Q _]|Q]]; lia. }
  destruct ((-1131 <=? v) && (v <=? -108)) eqn:E3.
  { assert (0 <= (- v - 108) / 256 < 4) by (split; [apply Z.div_pos; lia|apply Z.div_lt_upper_bound; lia]). pose proof (Z.div_mod (- v - 108) 256 ltac:(lia)) as D.
    set (q := (- v - 108) / 256) in *. set (r := (- v - 108) mod 256) in *. split.
    - cbn [number]. is_bool ((247 <=? q + 251) && (q + 251 <=? 250)) false. is_bool ((251 <=? q + 251) && (q + 251 <=? 254)) true. f_equal. lia.
    - intros b B N. cbn [length]. destruct (K b B N) as [[Q ?]|[[Q _]|Q]]; lia. }
  split.
  - set (w := if v <? 0 then v + 4294967296 else v). assert (0 <= w) by (subst w; destruct (v <? 0) eqn:E; lia). cbn [number]. change (255 =? 255) with true. cbn iota. pose proof (word_parts w ltac:(lia)) as Wp.
    change (2 ^ 24) with 16777216. change (2 ^ 16) with 65536. change (2 ^ 8) with 256. change (2 ^ 31) with 2147483648. change (2 ^ 32) with 4294967296.
    set (x1 := w / 256 / 256 / 256) in *. set (x2 := w / 256 / 256 mod 256) in *. set (x3 := w / 256 mod 256) in *. set (x4 := w mod 256) in *.
    replace (x1 * 16777216 + x2 * 65536 + x3 * 256 + x4) with w by lia. cbv zeta. f_equal. subst w. destruct (v <? 0) eqn:E.
    + is_bool (v + 4294967296 <? 2147483648) false. lia.
    + is_bool (v <? 2147483648) true. reflexivity.
  - intros b B N. cbn [length]. destruct (K b B N) as [[Q ?]|[[Q ?]|Q]]; lia.
Qed.
Print Assumptions numbers_are_type1.
Example numbers_example : number (tok_bytes (Num (-2147483648))) = Some (-2147483648) /\ tok_bytes (Num 1132) = [255; 0; 0; 4; 108].
Proof. split; reflexivity. Qed.

(** The commands in the order of their codes, as in the standard's table of command values *)
Definition adobe_codes : list (list Z * cmd) :=
  [([1], Hstem); ([3], Vstem); ([4], Vmoveto); ([5], Rlineto); ([6], Hlineto); ([7], Vlineto); ([8], Rrcurveto); ([9], Closepath); ([10], Callsubr);
   ([11], Return); ([12; 0], Dotsection); ([12; 1], Vstem3); ([12; 2], Hstem3); ([12; 6], Seac); ([12; 7], Sbw); ([12; 12], Div); ([12; 16], Callothersubr);
   ([12; 17], Pop); ([12; 33], Setcurrentpoint); ([13], Hsbw); ([14], Endchar); ([21], Rmoveto); ([22], Hmoveto); ([30], Vhcurveto); ([31], Hvcurveto)].
Theorem commands_are_type1 c b : Forall isbyte b -> (In (b, c) adobe_codes <-> tok_bytes (Cmd c) = b) /\ (tok_bytes (Cmd c) = b -> plain_cmds b = Some [Cmd c]).
Proof.
  intros _. split; [split|].
  - intros H. cbn in H. repeat (destruct H as [H|H]; [injection H as <- <-; reflexivity|]). destruct H.
  - intros <-. destruct c; cbn; tauto.
  - intros <-. destruct c; reflexivity.
Qed.
Print Assumptions commands_are_type1.
Example commands_example : plain_cmds [12; 6; 31; 12; 33] = Some [Cmd Seac; Cmd Hvcurveto; Cmd Setcurrentpoint]. Proof. reflexivity. Qed.

(** The least number is written as the standard says, but read as its negative: l.808 asks for y > 1 << 31 instead of >=. *)
Theorem least_number_refuted : exists v c, -2 ^ 31 <= v < 2 ^ 31 /\ number (tok_bytes (Num v)) = Some v /\
  code 4 [Num v] = Some c /\ cmds 4 c = Some [Num (- v)] /\ v <> - v.
Proof. exists (-2147483648). eexists. split; [lia|]. split; [reflexivity|]. split; [vm_compute; reflexivity|]. split; [reflexivity|lia]. Qed.
Print Assumptions least_number_refuted.

(** With lenIV above 4 (any number is allowed) too few random bytes are written, and commands get lost: b"PyX!"[:lenIV] has at
    most four bytes (l.681). *)
Theorem long_lenIV_refuted : exists lenIV l c, Forall writable l /\ code lenIV l = Some c /\ cmds lenIV c <> Some l.
Proof. exists 5%nat, [Cmd Endchar; Cmd Return]. eexists. split; [repeat constructor|]. split; [vm_compute; reflexivity|]. vm_compute. discriminate. Qed.
Print Assumptions long_lenIV_refuted.

(** Whatever is read is written as a string which is read as the same, and which is not longer. *)
Lemma cmd_of_code s k c : cmd_of s k = Some c -> code_of c = (s, k).
Proof. intros H. apply find_some in H as [_ H]. apply andb_prop in H as [E1 E2]. destruct (code_of c) as [a b]. apply Bool.eqb_prop in E1. apply Z.eqb_eq in E2. cbn in *. congruence. Qed.
Lemma read_writable f : forall d l, Forall isbyte d -> cmds_loop f d = Some l ->
  Forall (fun t => match t with Num v => -2147483648 < v <= 2147483648 | Cmd _ => True end) l /\ (length (flat_map tok_bytes l) <= length d)%nat.
Proof.
  assert (forall v, length (tok_bytes (Num v)) = 1%nat \/ length (tok_bytes (Num v)) = 2%nat /\ (v < -107 \/ 107 < v) \/ length (tok_bytes (Num v)) = 5%nat /\ (v < -1131 \/ 1131 < v)) as K.
  { intros v. cbn [tok_bytes]. destruct ((-107 <=? v) && (v <=? 107)) eqn:E1; [left; reflexivity|]. destruct ((108 <=? v) && (v <=? 1131)) eqn:E2; [right; left; split; [reflexivity|lia]|]. destruct ((-1131 <=? v) && (v <=? -108)) eqn:E3; right; [left|right]; (split; [reflexivity|lia]). }
  induction f as [|f IH]; intros d l B H.
  { destruct d; [|discriminate]. injection H as <-. split; [constructor|cbn; lia]. }
  destruct d as [|x d]; [injection H as <-; split; [constructor|cbn; lia]|].
  rewrite cmds_loop_step in H. inversion B as [|? ? Bx Bd]; subst. unfold isbyte in Bx.
  assert (forall c t r0, Forall isbyte d -> (let* r := cmds_loop f c in Some (t :: r)) = Some r0 -> Forall isbyte c -> exists r, cmds_loop f c = Some r /\ r0 = t :: r /\ Forall (fun t => match t with Num v => -2147483648 < v <= 2147483648 | Cmd _ => True end) r /\ (length (flat_map tok_bytes r) <= length c)%nat) as G.
  { intros c t r0 _ E Bc. destruct (cmds_loop f c) as [r|] eqn:Er; cbn in E; [|discriminate]. injection E as <-. exists r. split; [reflexivity|]. split; [reflexivity|]. exact (IH c r Bc Er). }
  destruct (Z.eqb_spec x 12) as [->|N12].
  { destruct d as [|y d]; [discriminate|]. destruct (cmd_of true y) as [c|] eqn:Ec; [|discriminate]. cbn [bind] in H. inversion Bd; subst. destruct (G d (Cmd c) l Bd H) as (r & _ & -> & Fr & Lr); [assumption|].
    split; [constructor; [exact I|exact Fr]|]. apply cmd_of_code in Ec. cbn [flat_map tok_bytes]. rewrite Ec, app_length. cbn. lia. }
  destruct ((0 <=? x) && (x <? 32)) eqn:E0.
  { destruct (cmd_of false x) as [c|] eqn:Ec; [|discriminate]. cbn [bind] in H. destruct (G d (Cmd c) l Bd H Bd) as (r & _ & -> & Fr & Lr).
    split; [constructor; [exact I|exact Fr]|]. apply cmd_of_code in Ec. cbn [flat_map tok_bytes]. rewrite Ec, app_length. cbn. lia. }
  destruct ((32 <=? x) && (x <=? 246)) eqn:E1.
  { destruct (G d _ l Bd H Bd) as (r & _ & -> & Fr & Lr). split; [constructor; [lia|exact Fr]|]. cbn [flat_map]. rewrite app_length. destruct (K (x - 139)) as [Q|[[Q ?]|[Q ?]]]; rewrite Q; cbn [length]; lia. }
  destruct ((247 <=? x) && (x <=? 250)) eqn:E2.
  { destruct d as [|y d]; [discriminate|]. inversion Bd as [|? ? By Bd']; subst. unfold isbyte in By. destruct (G d _ l Bd H Bd') as (r & _ & -> & Fr & Lr). split; [constructor; [lia|exact Fr]|]. cbn [flat_map]. rewrite app_length. destruct (K ((x - 247) * 256 + y + 108)) as [Q|[[Q ?]|[Q ?]]]; rewrite Q; cbn [length]; lia. }
  destruct ((251 <=? x) && (x <=? 254)) eqn:E3.
  { destruct d as [|y d]; [discriminate|]. inversion Bd as [|? ? By Bd']; subst. unfold isbyte in By. destruct (G d _ l Bd H Bd') as (r & _ & -> & Fr & Lr). split; [constructor; [lia|exact Fr]|]. cbn [flat_map]. rewrite app_length. destruct (K (- ((x - 251) * 256) - y - 108)) as [Q|[[Q ?]|[Q ?]]]; rewrite Q; cbn [length]; lia. }
  destruct d as [|a [|b [|c [|e d]]]]; try discriminate. inversion Bd as [|? ? Ba B1]; subst. inversion B1 as [|? ? Bb B2]; subst. inversion B2 as [|? ? Bc B3]; subst. inversion B3 as [|? ? Be B4]; subst. unfold isbyte in Ba, Bb, Bc, Be.
  destruct (G d _ l Bd H B4) as (r & _ & -> & Fr & Lr).
  split; [constructor; [destruct (2147483648 <? ((a * 256 + b) * 256 + c) * 256 + e) eqn:E; lia|exact Fr]|]. cbn [flat_map]. rewrite app_length.
  match goal with |- context [tok_bytes (Num ?v)] => destruct (K v) as [Q|[[Q ?]|[Q ?]]]; rewrite Q; cbn [length]; lia end.
Qed.

Theorem read_then_written d l : Forall isbyte d -> plain_cmds d = Some l -> ~ In (Num 2147483648) l ->
  exists d', plain_code l = Some d' /\ plain_cmds d' = Some l /\ (length d' <= length d)%nat.
Proof.
  intros B H N. destruct (read_writable _ d l B H) as [W L].
  assert (Forall writable l) as W'.
  { apply Forall_forall. intros t Ht. pose proof (proj1 (Forall_forall _ _) W t Ht) as Q. destruct t as [v|c]; [|exact I]. cbn in *. assert (v <> 2147483648) by (intros ->; auto). lia. }
  exists (flat_map tok_bytes l). split; [unfold plain_code; apply bytes_of_ok, flat_bytes, W'|]. split; [|exact L]. unfold plain_cmds. apply read_toks; [exact W'|apply toks_length].
Qed.
Print Assumptions read_then_written.
Example read_then_written_example : (* 1000 and -5 in five bytes each become shorter *)
  plain_cmds [255; 0; 0; 3; 232; 255; 255; 255; 255; 251; 5] = Some [Num 1000; Num (-5); Cmd Rlineto] /\ plain_code [Num 1000; Num (-5); Cmd Rlineto] = Some [250; 124; 134; 5].
Proof. split; reflexivity. Qed.
