(** Type 1 font encryption (C36). *)
From Coq Require Import ZArith List Lia.
From Verif Require Import T1codeModel T1codeProofs.
Import ListNotations.
Open Scope Z_scope.

(** Encryption never fails for 16 bit keys and is the one of the Type 1 specification. *)
Theorem encoder_is_type1 : forall data r random, iskey r -> Forall isbyte data -> Forall isbyte random ->
  encoder data r random = Some (spec_encrypt r (random ++ data)).
Proof.
  intros. unfold encoder. apply encode_loop_spec; auto. apply Forall_app; auto.
Qed.
Print Assumptions encoder_is_type1.

(** C36: decrypting gives the data back, whatever the random bytes. *)
Theorem t1_roundtrip : forall data r random code, iskey r -> Forall isbyte data -> Forall isbyte random ->
  encoder data r random = Some code -> decoder code r (length random) = Some data.
Proof.
  intros data r random code Hr Hd Hra E. unfold encoder in E. unfold decoder.
  erewrite decode_encode_loop; [|exact Hr| |exact E]; [|apply Forall_app; auto].
  simpl. now rewrite skipn_app_exact.
Qed.
Print Assumptions t1_roundtrip.

(** Conversely every byte string is the encryption of its decryption. *)
Theorem t1_roundtrip_code : forall code r, iskey r -> Forall isbyte code ->
  exists data, decoder code r 0 = Some data /\ encoder data r [] = Some code.
Proof.
  intros code r Hr Hc. destruct (encode_decode_loop code r Hr Hc) as (data & E1 & E2 & F).
  exists data. unfold decoder, encoder. rewrite E1. auto.
Qed.
Print Assumptions t1_roundtrip_code.

(** The length of the code is the number of random bytes plus that of the data. *)
Theorem t1_length : forall data r random code, iskey r -> Forall isbyte data -> Forall isbyte random ->
  encoder data r random = Some code -> length code = (length random + length data)%nat.
Proof.
  intros data r random code Hr Hd Hra E. rewrite encoder_is_type1 in E by auto. injection E as <-.
  rewrite <- app_length. generalize (random ++ data) as l. clear. intros l. revert r.
  induction l as [|x l IH]; intros r; simpl; auto.
Qed.
Print Assumptions t1_length.

(** eexec key 55665 with four random bytes *)
Example t1_ex : encoder [104; 105] 55665 [1; 2; 3; 4] = Some [216; 5; 77; 168; 25; 230]
  /\ decoder [216; 5; 77; 168; 25; 230] 55665 4 = Some [104; 105].
Proof. split; vm_compute; reflexivity. Qed.
