(** What is read from encoding files. *)
From Coq Require Import ZArith List Bool Lia ZifyBool.
From Verif Require Import ReaderModel ReaderSpec ReaderProps MapModel MapSpec MapProps.
Import ListNotations.
Open Scope Z_scope.

(** the tokens of an encoding file: 91 and 93 are the brackets, 47 the slash, then comes def *)
Definition enc_tokens (name : text) (vector : list text) : list text := (47 :: name) :: [91] :: map (cons 47) vector ++ [[93]; [100; 101; 102]].

Lemma gettokens_app : forall ts1 ts2 d r, gettokens ps_str (length (ts1 ++ ts2)) d = Some (ts1 ++ ts2, r) ->
  exists d', gettokens ps_str (length ts1) d = Some (ts1, d') /\ gettokens ps_str (length ts2) d' = Some (ts2, r).
Proof.
  induction ts1 as [|t ts1 IH]; intros ts2 d r H; [exists d; split; [reflexivity|exact H]|]. cbn [app length gettokens] in *.
  destruct (gettoken ps_str d) as [[t' d1]|]; [|discriminate]. destruct (gettokens ps_str (length (ts1 ++ ts2)) d1) as [[ts r']|] eqn:E; [|discriminate].
  injection H as -> -> ->. destruct (IH ts2 d1 r E) as (d' & H1 & H2). exists d'. rewrite H1. split; [reflexivity|exact H2].
Qed.
Lemma gettokens_one : forall t d r, gettokens ps_str 1 d = Some ([t], r) -> gettoken ps_str d = Some (t, r).
Proof. intros t d r H. cbn in H. destruct (gettoken ps_str d) as [[t' d1]|]; [|discriminate]. injection H as -> ->. reflexivity. Qed.
Lemma expect_one : forall t d r t', gettokens ps_str 1 d = Some ([t], r) -> expect t' d = if chars_eqb t' t then Some r else None.
Proof. intros t d r t' H. unfold expect. rewrite (gettokens_one _ _ _ H). reflexivity. Qed.
Lemma names_read : forall vector ts d r n, (length vector < n)%nat -> gettokens ps_str (length (map (cons 47) vector ++ [93] :: ts)) d = Some (map (cons 47) vector ++ [93] :: ts, r) ->
  read_names n d = None.
Proof.
  induction vector as [|v vector IH]; intros ts d r n L H; (destruct n as [|n]; [cbn in L; lia|]); cbn [map app length gettokens] in H; cbn [read_names];
    (destruct (gettoken ps_str d) as [[t d1]|]; [|discriminate]).
  - destruct (gettokens ps_str (length ts) d1) as [[ts' r']|]; [|discriminate]. injection H as -> _ _. reflexivity.
  - destruct (gettokens ps_str (length (map (cons 47) vector ++ [93] :: ts)) d1) as [[ts' r']|] eqn:E; [|discriminate]. injection H as -> -> ->.
    cbn. rewrite (IH ts d1 r n); [reflexivity|cbn in L; lia|exact E].
Qed.
Lemma names_read_all : forall vector d r, gettokens ps_str (length (map (cons 47) vector)) d = Some (map (cons 47) vector, r) -> read_names (length vector) d = Some (vector, r).
Proof.
  induction vector as [|v vector IH]; intros d r H; cbn [map length gettokens read_names] in *; [injection H as ->; reflexivity|].
  destruct (gettoken ps_str d) as [[t d1]|]; [|discriminate]. destruct (gettokens ps_str (length (map (cons 47) vector)) d1) as [[ts' r']|] eqn:E; [|discriminate].
  injection H as -> -> ->. cbn. rewrite (IH d1 r E). reflexivity.
Qed.

(** the first character may be left out by the constructor, but this does not change the tokens *)
Lemma start_tokens : forall n d t ts c r, gettokens ps_str (S n) d = Some (t :: ts, r) -> d = c :: tl d -> is_start ps_str c = true \/ is_sep ps_str c = true ->
  exists d0, new_tokenizer ps_str Z.eqb d (Some []) true = Some d0 /\ gettokens ps_str (S n) d0 = Some (t :: ts, r).
Proof.
  intros n d t ts c r H D K. unfold new_tokenizer.
  assert (A : after_first Z.eqb [] d = Some d) by (destruct d; reflexivity). rewrite A, D. destruct (is_start ps_str c) eqn:S.
  - rewrite <- D. exists d. auto.
  - destruct K as [K|K]; [discriminate|]. rewrite K. exists (tl d). split; [reflexivity|]. rewrite D in H. cbn [gettokens] in *. unfold gettoken in *.
    cbn [skip_seps] in H. rewrite K in H. exact H.
Qed.

(** C124: an encoding file, with any white space and any comments, is read just if it has 256 names, and then with its name and with these names. *)
Theorem encoding_read : forall name vector d c rest, written (enc_tokens name vector) d -> white c \/ delimiter c ->
  encfile (d ++ c :: rest) = if Nat.eqb (length vector) 256 then Some (47 :: name, vector) else None.
Proof.
  intros name vector d c rest W C. destruct (tokens_read_back _ _ c rest W C ltac:(discriminate)) as (r & H & _).
  assert (Hd : exists c0, d ++ c :: rest = c0 :: tl (d ++ c :: rest) /\ (is_start ps_str c0 = true \/ is_sep ps_str c0 = true)).
  { inversion W as [|g t ts d' G T W' Sp Eq]; subst. clear H W' Sp. inversion G as [|c1 g' C1 G'|tx e g' N El G']; subst; cbn [app tl].
    - exists 47. split; [reflexivity|]. left. reflexivity.
    - exists c1. split; [reflexivity|]. right. apply sep_white. exact C1.
    - exists 37. split; [reflexivity|]. left. reflexivity. }
  destruct Hd as (c0 & D0 & K). unfold enc_tokens in H. cbn [length] in H.
  destruct (start_tokens _ _ _ _ c0 r H D0 K) as (d0 & Nt & H0). unfold encfile. rewrite Nt. clear H Nt D0 K c0.
  change ((47 :: name) :: [91] :: map (cons 47) vector ++ [[93]; [100; 101; 102]]) with ([47 :: name] ++ [[91]] ++ map (cons 47) vector ++ [[93]; [100; 101; 102]]) in H0.
  assert (H : gettokens ps_str (length ([47 :: name] ++ [[91]] ++ map (cons 47) vector ++ [[93]; [100; 101; 102]])) d0 = Some ([47 :: name] ++ [[91]] ++ map (cons 47) vector ++ [[93]; [100; 101; 102]], r)) by exact H0.
  apply gettokens_app in H as (d1 & H1 & H). rewrite (gettokens_one _ _ _ H1). apply gettokens_app in H as (d2 & H2 & H). rewrite (expect_one _ _ _ _ H2). cbn [chars_eqb Z.eqb Pos.eqb andb].
  destruct (Nat.eqb (length vector) 256) eqn:L.
  - apply Nat.eqb_eq in L. apply gettokens_app in H as (d3 & H3 & H). apply names_read_all in H3. unfold text, chars in *. rewrite L in H3. rewrite H3.
    change [[93]; [100; 101; 102]] with ([[93]] ++ [[100; 101; 102]]) in H. apply gettokens_app in H as (d4 & H4 & H). rewrite (expect_one _ _ _ _ H4). cbn [chars_eqb Z.eqb Pos.eqb andb].
    rewrite (expect_one _ _ _ _ H). reflexivity.
  - apply Nat.eqb_neq in L. destruct (Nat.lt_ge_cases (length vector) 256) as [Lt|Ge].
    + rewrite (names_read vector _ _ _ 256 Lt H). reflexivity.
    + unfold text, chars in *. rewrite <- (firstn_skipn 256 vector) in H. rewrite map_app, <- app_assoc in H. apply gettokens_app in H as (d3 & H3 & H). apply names_read_all in H3. unfold text, chars in *.
      rewrite firstn_length_le in H3 by exact Ge. rewrite H3. destruct (skipn 256 vector) as [|v vs] eqn:Sk.
      * exfalso. apply (f_equal (@length text)) in Sk. rewrite skipn_length in Sk. cbn in Sk. lia.
      * cbn [map app length gettokens] in H. unfold expect. destruct (gettoken ps_str d3) as [[t d4]|]; [|reflexivity].
        destruct (gettokens ps_str (length (map (cons 47) vs ++ [[93]; [100; 101; 102]])) d4) as [[? ?]|]; [|discriminate]. injection H as -> _ _.
        reflexivity.
Qed.
Print Assumptions encoding_read.
(** a percent sign and a newline, then the tokens with nothing between them where nothing is needed; 256 times the name .notdef would be long, so a is used.  (A space is needed between the closing bracket and def, which would be one token without it, unlike in PostScript.) *)
Example encoding_ex : encfile ([37; 10; 47; 120; 91] ++ concat (repeat [47; 97] 256) ++ [93; 32; 100; 101; 102; 10]) = Some ([47; 120], repeat [97] 256).
Proof. vm_compute. reflexivity. Qed.
