From Coq Require Import ZArith List Lia.
From Verif Require Import T1codeModel.
Import ListNotations.
Open Scope Z_scope.

Definition isbyte (b : Z) := 0 <= b < 256.
Definition iskey (r : Z) := 0 <= r < 65536.

(** Adobe Type 1 Font Format, chapter 7: the encryption as specified. *)
Fixpoint spec_encrypt (R : Z) (plain : list Z) : list Z :=
  match plain with
  | [] => []
  | p :: ps => let c := Z.lxor p (R / 256) in c :: spec_encrypt (((c + R) * 52845 + 22719) mod 65536) ps
  end.

Lemma next_key_spec x r : next_key x r = ((x + r) * 52845 + 22719) mod 65536.
Proof.
  unfold next_key. change 255 with (Z.ones 8). change 65535 with (Z.ones 16).
  rewrite !Z.land_ones by lia. change (2 ^ 8) with 256. change (2 ^ 16) with 65536.
  change c1_16 with 206. change c1_8 with 109. change c2 with 22719.
  pose proof (Z.div_mod ((x + r) * 206) 256 ltac:(lia)) as E.
  set (q := (x + r) * 206 / 256) in *. set (m := ((x + r) * 206) mod 256) in *.
  replace (m * 256 + (x + r) * 109 + 22719) with ((x + r) * 52845 + 22719 + (- q) * 65536) by lia.
  now rewrite Z.mod_add by lia.
Qed.

Lemma next_key_range x r : iskey (next_key x r).
Proof. rewrite next_key_spec. unfold iskey. apply Z.mod_pos_bound. lia. Qed.

Lemma lxor_byte a b : isbyte a -> isbyte b -> isbyte (Z.lxor a b).
Proof.
  unfold isbyte. intros Ha Hb. split.
  - apply Z.lxor_nonneg. lia.
  - destruct (Z.eq_dec (Z.lxor a b) 0) as [->|N]; [lia|].
    assert (0 <= Z.lxor a b) by (apply Z.lxor_nonneg; lia).
    change 256 with (2 ^ 8). apply Z.log2_lt_pow2; [lia|].
    pose proof (Z.log2_lxor a b ltac:(lia) ltac:(lia)).
    assert (Z.log2 a < 8 /\ Z.log2 b < 8) as (? & ?); [|lia].
    split; (destruct (Z.eq_dec a 0); destruct (Z.eq_dec b 0)); subst; simpl; try lia;
      apply Z.log2_lt_pow2; lia.
Qed.

Lemma key_byte r : iskey r -> isbyte (Z.shiftr r 8).
Proof.
  unfold iskey, isbyte. rewrite Z.shiftr_div_pow2 by lia. change (2 ^ 8) with 256.
  intros. split; [apply Z.div_pos; lia|apply Z.div_lt_upper_bound; lia].
Qed.

Lemma append_byte_ok v l : isbyte v -> append_byte v (Some l) = Some (v :: l).
Proof.
  unfold isbyte, append_byte. intros (H1 & H2).
  apply Z.leb_le in H1. apply Z.ltb_lt in H2. now rewrite H1, H2.
Qed.

Lemma encode_loop_spec data r : iskey r -> Forall isbyte data ->
  encode_loop data r = Some (spec_encrypt r data) /\ Forall isbyte (spec_encrypt r data).
Proof.
  intros Hr Hd. revert r Hr. induction Hd as [|x data Hx Hd IH]; intros r Hr; simpl; auto.
  pose proof (lxor_byte _ _ Hx (key_byte _ Hr)) as Hc.
  assert (Z.shiftr r 8 = r / 256) as Es by (rewrite Z.shiftr_div_pow2 by lia; reflexivity).
  destruct (IH (next_key (Z.lxor x (Z.shiftr r 8)) r) (next_key_range _ _)) as (E & F).
  rewrite E, append_byte_ok by auto. rewrite next_key_spec in *. rewrite Es in *. split; auto.
Qed.

Lemma lxor_involutive x k : Z.lxor (Z.lxor x k) k = x.
Proof. now rewrite Z.lxor_assoc, Z.lxor_nilpotent, Z.lxor_0_r. Qed.

Lemma decode_encode_loop data r : iskey r -> Forall isbyte data ->
  forall code, encode_loop data r = Some code -> decode_loop code r = Some data.
Proof.
  intros Hr Hd. revert r Hr. induction Hd as [|x data Hx Hd IH]; intros r Hr code; simpl.
  - intros [= <-]. reflexivity.
  - destruct (encode_loop_spec data _ (next_key_range (Z.lxor x (Z.shiftr r 8)) r) Hd) as (E & _).
    rewrite E, append_byte_ok by (apply lxor_byte; auto; now apply key_byte).
    intros [= <-]. simpl. rewrite lxor_involutive.
    rewrite (IH _ (next_key_range _ _) _ E). now apply append_byte_ok.
Qed.

Lemma encode_decode_loop code r : iskey r -> Forall isbyte code ->
  exists data, decode_loop code r = Some data /\ encode_loop data r = Some code /\ Forall isbyte data.
Proof.
  intros Hr Hd. revert r Hr. induction Hd as [|x code Hx Hd IH]; intros r Hr; simpl.
  - exists []. auto.
  - destruct (IH (next_key x r) (next_key_range _ _)) as (data & E1 & E2 & F).
    pose proof (lxor_byte _ _ Hx (key_byte _ Hr)) as Hc.
    exists (Z.lxor x (Z.shiftr r 8) :: data). rewrite E1, append_byte_ok by auto.
    repeat split; auto. simpl. rewrite lxor_involutive, E2. now apply append_byte_ok.
Qed.

Lemma skipn_app_exact {A} (l1 l2 : list A) : skipn (length l1) (l1 ++ l2) = l2.
Proof. induction l1; simpl; auto. Qed.
