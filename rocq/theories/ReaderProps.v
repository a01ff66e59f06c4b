(** Binary integers (C42) and the PostScript tokenizer (C43). *)
From Coq Require Import ZArith List Lia Bool ZifyBool.
From Verif Require Import ReaderModel ReaderSpec.
Import ListNotations.
Open Scope Z_scope.
Ltac Zify.zify_post_hook ::= Z.div_mod_to_equations.

Lemma firstn_exact {A} (a b : list A) : firstn (length a) (a ++ b) = a.
Proof. induction a; simpl; congruence. Qed.
Lemma skipn_exact {A} (a b : list A) : skipn (length a) (a ++ b) = b.
Proof. induction a; simpl; congruence. Qed.

(** ** C42 *)
Lemma bigendian_length n v : length (bigendian n v) = n.
Proof. induction n; simpl; auto. Qed.
Lemma bigendian_bytes n v : Forall isbyte (bigendian n v).
Proof. induction n; simpl; constructor; auto. unfold isbyte. lia. Qed.
Lemma pow_pos n : 0 < 256 ^ Z.of_nat n. Proof. apply Z.pow_pos_nonneg; lia. Qed.
Lemma pow_S n : 256 ^ Z.of_nat (S n) = 256 * 256 ^ Z.of_nat n.
Proof. rewrite Nat2Z.inj_succ, Z.pow_succ_r; lia. Qed.
Lemma bigendian_mod n v w : v mod 256 ^ Z.of_nat n = w mod 256 ^ Z.of_nat n -> bigendian n v = bigendian n w.
Proof.
  revert v w. induction n as [|n IH]; intros v w H; simpl bigendian; auto. pose proof (pow_pos n) as P. rewrite pow_S in H. set (m := 256 ^ Z.of_nat n) in *.
  assert (forall x, x mod (256 * m) = x mod m + m * ((x / m) mod 256)) as F.
  { intros x. rewrite (Z.mul_comm 256 m). now rewrite Z.rem_mul_r by lia. }
  rewrite !F in H. pose proof (Z.mod_pos_bound v m P). pose proof (Z.mod_pos_bound w m P).
  pose proof (Z.mod_pos_bound (v / m) 256 ltac:(lia)). pose proof (Z.mod_pos_bound (w / m) 256 ltac:(lia)).
  assert ((v / m) mod 256 = (w / m) mod 256) as E by nia. assert (v mod m = w mod m) by nia. f_equal; auto.
Qed.

Lemma loop_unsigned n : forall signed r v rest, 
  readint_loop n signed false r (bigendian n v ++ rest) = Some (256 ^ Z.of_nat n * r + v mod 256 ^ Z.of_nat n, rest).
Proof.
  induction n as [|n IH]; intros signed r v rest; cbn [readint_loop bigendian app].
  - f_equal. f_equal. change (256 ^ Z.of_nat 0) with 1. lia.
  - cbn [andb]. rewrite IH. f_equal. f_equal. pose proof (pow_pos n). rewrite pow_S. set (m := 256 ^ Z.of_nat n) in *.
    rewrite (Z.mul_comm 256 m), Z.rem_mul_r by lia. ring.
Qed.

(** C42: readint returns the number of which the bytes are the big-endian (two's
    complement if signed) representation. *)
Theorem readint_decodes : forall n signed v rest, inrange signed n v ->
  readint n signed (bigendian n v ++ rest) = Some (v, rest).
Proof.
  intros n signed v rest H. unfold readint. destruct n as [|n].
  - simpl. f_equal. f_equal. unfold inrange in H. change (256 ^ Z.of_nat 0) with 1 in H. destruct signed; lia.
  - cbn [readint_loop bigendian app]. rewrite loop_unsigned. f_equal. f_equal. unfold inrange in H. rewrite pow_S in H. pose proof (pow_pos n) as P.
    set (m := 256 ^ Z.of_nat n) in *. pose proof (Z.div_mod v m ltac:(lia)) as E. pose proof (Z.mod_pos_bound v m P) as B.
    set (q := v / m) in *. set (s := v mod m) in *. clearbody q s m. destruct signed; cbn [andb].
    + assert (- 128 <= q < 128) as Q by nia. assert (q mod 256 = if q <? 0 then q + 256 else q) as -> by (destruct (q <? 0) eqn:G; lia).
      destruct (q <? 0) eqn:G; [assert ((127 <? q + 256) = true) as -> by lia|assert ((127 <? q) = false) as -> by lia]; lia.
    + assert (0 <= q < 256) as Q by nia. rewrite (Z.mod_small q 256) by lia. nia.
Qed.
Print Assumptions readint_decodes.

(** every byte pattern represents exactly one number, so this covers all inputs *)
Fixpoint value (bs : list Z) : Z := match bs with [] => 0 | b :: bs' => b * 256 ^ Z.of_nat (length bs') + value bs' end.
Lemma value_range bs : Forall isbyte bs -> 0 <= value bs < 256 ^ Z.of_nat (length bs).
Proof.
  induction 1 as [|b bs Hb F IH]; cbn [value length]; [simpl; lia|]. rewrite pow_S. pose proof (pow_pos (length bs)). unfold isbyte in Hb. nia.
Qed.
Lemma value_bigendian bs : Forall isbyte bs -> bigendian (length bs) (value bs) = bs.
Proof.
  induction 1 as [|b bs Hb F IH]; cbn [value length bigendian]; auto. pose proof (pow_pos (length bs)) as P. pose proof (value_range bs F) as R.
  set (m := 256 ^ Z.of_nat (length bs)) in *. unfold isbyte in Hb. f_equal.
  - rewrite Z.div_add_l by lia. rewrite (Z.div_small (value bs)) by lia. lia.
  - transitivity (bigendian (length bs) (value bs)); [|exact IH]. apply bigendian_mod. fold m. rewrite Z.add_comm. apply Z_mod_plus_full.
Qed.
Lemma represents signed bs : Forall isbyte bs -> exists v, inrange signed (length bs) v /\ bigendian (length bs) v = bs.
Proof.
  intros F. pose proof (value_range bs F) as R. pose proof (value_bigendian bs F) as E. pose proof (pow_pos (length bs)) as P. set (m := 256 ^ Z.of_nat (length bs)) in *.
  destruct signed; [|exists (value bs); split; [exact R|exact E]].
  destruct (Z_lt_le_dec (2 * value bs) m) as [L|L].
  - exists (value bs). split; [unfold inrange; fold m; lia|exact E].
  - exists (value bs - m). split; [unfold inrange; fold m; lia|]. transitivity (bigendian (length bs) (value bs)); [|exact E]. apply bigendian_mod. fold m.
    replace (value bs - m) with (value bs + (-1) * m) by ring. apply Z_mod_plus_full.
Qed.
Theorem readint_total : forall n signed file, Forall isbyte file ->
  match readint n signed file with
  | None => (length file < n)%nat
  | Some (v, rest) => inrange signed n v /\ file = bigendian n v ++ rest
  end.
Proof.
  intros n signed file F. destruct (Nat.ltb_spec (length file) n) as [L|L].
  - assert (forall first r, readint_loop n signed first r file = None) as G.
    { revert file F L. induction n as [|n IH]; intros file F L first r; [lia|]. simpl. destruct file as [|b file]; auto. simpl in L.
      apply IH; [now inversion F|lia]. }
    unfold readint. now rewrite G.
  - rewrite <- (firstn_skipn n file). assert (length (firstn n file) = n) as E by (apply firstn_length_le; lia).
    destruct (represents signed (firstn n file)) as (v & R & B).
    { rewrite Forall_forall in *. intros x Hx. apply F. rewrite <- (firstn_skipn n file). apply in_or_app. auto. }
    rewrite E in R, B. rewrite <- B. rewrite readint_decodes by exact R. auto.
Qed.
Print Assumptions readint_total.
Example readint_ex : readint 3 true [255; 255; 254; 7] = Some (-2, [7]) /\ readint 3 false [255; 255; 254; 7] = Some (16777214, [7]).
Proof. split; reflexivity. Qed.

(** C42: the fixed size readers; readint24 is treated below. *)
Theorem fixed_size_readers : forall file, Forall isbyte file ->
  readint32 file = readint 4 true file /\ readuint32 file = readint 4 false file /\
  readint16 file = readint 2 true file /\ readuint16 file = readint 2 false file /\
  readchar file = readint 1 true file /\ readuchar file = readint 1 false file /\
  readuint24 file = readint 3 false file.
Proof.
  intros file F.
  destruct file as [|b0 [|b1 [|b2 [|b3 rest]]]]; repeat match goal with H : Forall _ (_ :: _) |- _ => inversion_clear H end;
    unfold isbyte in *; repeat split;
    unfold readint32, readuint32, readint16, readuint16, readchar, readuchar, readuint24, unpacked, unpack_l, unpack_h, unpack_b, unpack_L, unpack_H, unpack_B, readint;
    cbn -[Z.mul Z.add Z.ltb Z.sub]; auto; try (f_equal; f_equal; lia);
    repeat match goal with |- context [if ?c then _ else _] => destruct c eqn:? end; f_equal; f_equal; lia.
Qed.
Print Assumptions fixed_size_readers.

(** C42: readint24 never returns a negative number. *)
Theorem readint24_refuted : ~ (forall file, Forall isbyte file -> readint24 file = readint 3 true file).
Proof. intros H. specialize (H [255; 255; 255] ltac:(repeat constructor; unfold isbyte; lia)). discriminate. Qed.
Print Assumptions readint24_refuted.
Theorem readint24_partial : forall v rest, 0 <= v < 8388608 -> readint24 (bigendian 3 v ++ rest) = Some (v, rest).
Proof.
  intros v rest H. unfold readint24, unpacked. cbn [bigendian app fread firstn skipn unpack_l unpack_L].
  change (256 ^ Z.of_nat 2) with 65536. change (256 ^ Z.of_nat 1) with 256. change (256 ^ Z.of_nat 0) with 1.
  destruct (_ <? 2147483648) eqn:E; f_equal; f_equal; lia.
Qed.
Print Assumptions readint24_partial.

(** C42: a string field of fixed size: length byte, string, filling. *)
Theorem readstring_field : forall s filling rest, (length s < 256)%nat ->
  readstring (S (length s + length filling)) (Z.of_nat (length s) :: s ++ filling ++ rest) = Some (s, rest).
Proof.
  intros s filling rest L. unfold readstring, readuchar, unpacked, fread. simpl firstn. simpl skipn. cbn [app unpack_B].
  destruct (_ <=? _) eqn:E; [|lia]. replace (length s + length filling - 0)%nat with (length (s ++ filling)) by (rewrite app_length; lia).
  rewrite app_assoc, firstn_exact, skipn_exact, Nat2Z.id. now rewrite firstn_exact.
Qed.
Print Assumptions readstring_field.
Theorem readstring_too_long : forall l bytes file, isbyte l -> Z.of_nat bytes <= l -> readstring bytes (l :: file) = None.
Proof. intros l bytes file Hl H. unfold readstring, readuchar, unpacked, fread. simpl. destruct (_ <=? _) eqn:E; [lia|reflexivity]. Qed.
Print Assumptions readstring_too_long.
Example readstring_ex : readstring 5 [2; 65; 66; 0; 0; 9] = Some ([65; 66], [9]).
Proof. reflexivity. Qed.

(** ** C43 *)
Lemma sep_white c : is_sep ps_str c = true <-> white c.
Proof. unfold white. simpl. lia. Qed.
Lemma start_delim c : is_start ps_str c = true <-> delimiter c.
Proof. unfold delimiter. simpl. split; intros H; lia. Qed.
Lemma newline_eol c : is_newline ps_str c = true <-> eol c.
Proof. unfold eol. simpl. lia. Qed.
Lemma nsep c : ~ white c -> is_sep ps_str c = false.
Proof. intros H. destruct (is_sep ps_str c) eqn:E; auto. now apply sep_white in E. Qed.
Lemma nnewline c : ~ eol c -> is_newline ps_str c = false.
Proof. intros H. destruct (is_newline ps_str c) eqn:E; auto. now apply newline_eol in E. Qed.

Section Generic.
  Variable k : tokenclasses Z.
  Hypothesis sepk : is_sep k = is_sep ps_str.
  Hypothesis startk : is_start k = is_start ps_str.

  Lemma skip_seps_app ws c d : Forall white ws -> ~ white c -> skip_seps k (ws ++ c :: d) = Some (c :: d).
  Proof.
    intros F N. induction F as [|w ws H F IH]; simpl; rewrite sepk.
    - now rewrite nsep.
    - apply sep_white in H. now rewrite H.
  Qed.
  Lemma token_chars_app t c d first : (forall x, In x t -> ~ white x /\ ~ delimiter x) -> white c \/ delimiter c -> (t = [] -> first = false) ->
    token_chars k first (t ++ c :: d) = Some (t, c :: d).
  Proof.
    revert first. induction t as [|x t IH]; intros first F S N.
    - simpl. rewrite sepk, startk. rewrite N by auto. destruct S as [S|S]; [apply sep_white in S; now rewrite S|].
      apply start_delim in S. rewrite S. destruct (is_sep ps_str c); reflexivity.
    - simpl. rewrite sepk, startk. destruct (F x ltac:(simpl; auto)) as [F1 F2]. rewrite (nsep x F1).
      assert (is_start ps_str x = false) as -> by (destruct (is_start ps_str x) eqn:E; auto; now apply start_delim in E).
      rewrite andb_false_r. rewrite IH; auto. intros y Hy. apply F. simpl. auto.
  Qed.
  Lemma token_chars_token t c d : token t -> white c \/ delimiter c -> token_chars k true (t ++ c :: d) = Some (t, c :: d).
  Proof.
    intros (x & t' & -> & _ & N & F) S. simpl. rewrite sepk, (nsep x N). simpl. rewrite token_chars_app; auto.
  Qed.
End Generic.

(** white space, then comments, each followed by white space *)
Lemma gap_split g : gap g -> exists ws, Forall white ws /\ exists g', g = ws ++ g' /\ gap g' /\ (g' = [] \/ exists g'', g' = 37 :: g'').
Proof.
  induction 1 as [|c g W G (ws & F & g' & E & G' & D)|text e g N El G _].
  - exists []. split; [constructor|]. exists []. repeat split; auto. constructor.
  - exists (c :: ws). split; [now constructor|]. exists g'. subst. auto.
  - exists []. split; [constructor|]. exists (37 :: text ++ e :: g). split; auto. split; [now constructor|]. right. eauto.
Qed.
Lemma skip_line_app text e d : (forall c, In c text -> ~ eol c) -> eol e -> skip_line ps_str (text ++ e :: d) = Some (e :: d).
Proof.
  intros F E. induction text as [|c text IH].
  - change (skip_line ps_str (e :: d) = Some (e :: d)). cbn [skip_line]. apply newline_eol in E. now rewrite E.
  - cbn [app skip_line]. rewrite nnewline by (apply F; simpl; auto). apply IH. intros x Hx. apply F. simpl. auto.
Qed.

Lemma comments_skipped fuel g c d : gap g -> (g = [] \/ exists g', g = 37 :: g') -> ~ white c -> c <> 37 -> (length g < fuel)%nat ->
  skip_comments ps_str fuel (g ++ c :: d) = Some (c :: d).
Proof.
  intros G. revert fuel. remember (length g) as n eqn:En. revert g G En. induction n as [n IH] using lt_wf_ind. intros g G En fuel D N1 N2 L.
  destruct fuel as [|f]; [lia|]. destruct D as [->|(g' & ->)].
  - cbn [app skip_comments]. simpl is_comment. destruct (c =? 37) eqn:E; [lia|reflexivity].
  - inversion G as [|c0 g0 W G0|text e g0 F E G0]; subst.
    + exfalso. unfold white in W. lia.
    + cbn [app]. cbn [skip_comments]. simpl is_comment. cbn [skip_line]. simpl is_newline. cbv iota.
      rewrite <- app_assoc. cbn [app]. rewrite skip_line_app by auto.
      destruct (gap_split g0 G0) as (ws & Fw & g' & -> & G' & D').
      assert (white e) as We by (unfold white, eol in *; lia).
      assert (exists h tl, g' ++ c :: d = h :: tl /\ ~ white h) as (h & tl & Eh & Nh).
      { destruct D' as [->|(g'' & ->)]; simpl; eauto. eexists _, _. split; [reflexivity|]. unfold white. lia. }
      rewrite <- app_assoc. replace (e :: ws ++ g' ++ c :: d) with ((e :: ws) ++ h :: tl) by (simpl; now rewrite Eh).
      rewrite skip_seps_app; auto. rewrite <- Eh. apply (IH (length g')); auto; simpl in *; repeat (rewrite app_length in *; simpl in *); lia.
Qed.

(** one token *)
Lemma gettoken_one g t c d : gap g -> token t -> white c \/ delimiter c ->
  gettoken ps_str (g ++ t ++ c :: d) = Some (t, if is_sep ps_str c then d else c :: d).
Proof.
  intros G T S. unfold gettoken. destruct (gap_split g G) as (ws & F & g' & -> & G' & D).
  pose proof T as (x & t' & Et & N & Nw & _).
  assert (exists h tl, g' ++ t ++ c :: d = h :: tl /\ ~ white h) as (h & tl & Eh & Nh).
  { destruct D as [->|(g'' & ->)]; rewrite Et; simpl; eauto. eexists _, _. split; [reflexivity|]. unfold white. lia. }
  rewrite <- app_assoc, Eh, skip_seps_app, <- Eh by auto.
  assert (t ++ c :: d = x :: (t' ++ c :: d)) as Ex by now rewrite Et.
  rewrite Ex, comments_skipped; auto.
  - rewrite <- Ex, token_chars_token by auto. reflexivity.
  - rewrite app_length. simpl. lia.
Qed.

(** C43: tokens written with arbitrary white space and comments are read back; what
    follows them is left, without one white space character. *)
Theorem tokens_read_back : forall ts d c rest, written ts d -> (white c \/ delimiter c) ->
  ts <> [] ->
  exists r, gettokens ps_str (length ts) (d ++ c :: rest) = Some (ts, r) /\
    r = if is_sep ps_str c then rest else c :: rest.
Proof.
  intros ts d c rest W S. induction W as [|g t ts d G T W IH Sep]; [congruence|]. intros _.
  cbn [length gettokens]. rewrite <- !app_assoc. destruct ts as [|t2 ts].
  - inversion Sep; subst. cbn [app]. rewrite gettoken_one by auto. eexists. split; reflexivity.
  - inversion Sep as [|? ? c2 d2 H2]; subst. cbn [app].
    rewrite gettoken_one by auto. destruct (is_sep ps_str c2) eqn:E2.
    + (* the white space character is consumed with the first token *)
      inversion W as [|g2 ? ? d3 G2 T2 W2 Sep2]; subst.
      destruct IH as (r & E & Er); [discriminate|]. exists r. split; auto.
      assert (gettokens ps_str (length (t2 :: ts)) (d2 ++ c :: rest) = gettokens ps_str (length (t2 :: ts)) (c2 :: d2 ++ c :: rest)) as EQ.
      { cbn [length gettokens]. unfold gettoken. assert (skip_seps ps_str (c2 :: d2 ++ c :: rest) = skip_seps ps_str (d2 ++ c :: rest)) as -> by (cbn [skip_seps]; now rewrite E2). reflexivity. }
      rewrite EQ. cbn [app] in E. now rewrite E.
    + destruct IH as (r & E & Er); [discriminate|]. exists r. split; auto. cbn [app] in E. now rewrite E.
Qed.
Print Assumptions tokens_read_back.

Local Ltac bl := repeat constructor; unfold white, eol; auto 10.
(** the text of the tokens /a and [ with a comment between them *)
Example tokens_ex : written [[47; 97]; [91]] [32; 47; 97; 37; 120; 10; 91] /\
  gettokens ps_str 2 ([32; 47; 97; 37; 120; 10; 91] ++ [32; 55]) = Some ([[47; 97]; [91]], [55]).
Proof.
  split; [|reflexivity].
  apply (written_cons [32] [47; 97] [[91]] [37; 120; 10; 91]).
  - bl.
  - exists 47, [97]. split; auto. split; [lia|]. split; [unfold white; lia|]. intros x [<-|[]]. unfold white, delimiter. simpl. lia.
  - apply (written_cons [37; 120; 10] [91] [] []); [apply (gap_comment [120] 10 []); [intros c [<-|[]]; unfold eol; lia|unfold eol; auto|constructor]| |constructor|constructor].
    exists 91, []. split; auto. split; [lia|]. split; [unfold white; lia|]. intros x [].
  - constructor. right. unfold delimiter. simpl. auto 12.
Qed.

(** C43: exactly one character separates a token from binary data, whatever the data. *)
Theorem token_then_bytes : forall g t c data rest, gap g -> token t -> white c ->
  exists d, gettoken ps_str (g ++ t ++ c :: data ++ rest) = Some (t, d) /\ getbytes (length data) d = (data, rest).
Proof.
  intros g t c data rest G T W. exists (data ++ rest). rewrite gettoken_one by auto. apply sep_white in W. rewrite W. split; auto.
  unfold getbytes. now rewrite firstn_exact, skipn_exact.
Qed.
Print Assumptions token_then_bytes.
Example token_then_bytes_ex : gettoken ps_str [49; 32; 32; 37; 10; 7] = Some ([49], [32; 37; 10; 7]) /\ getbytes 3 [32; 37; 10; 7] = ([32; 37; 10], [7]).
Proof. split; reflexivity. Qed.

(** C43: the constructor continues behind the first occurrence of the start string. *)
Lemma after_prefix_spec s d r : after_prefix Z.eqb s d = Some r <-> d = s ++ r.
Proof.
  revert d. induction s as [|a s IH]; intros d; simpl; [split; congruence|].
  destruct d as [|c d]; [split; discriminate|]. destruct (a =? c) eqn:E; [|split; [discriminate|intros [= -> _]; lia]].
  apply Z.eqb_eq in E. subst c. rewrite IH. split; [now intros ->|now intros [= ->]].
Qed.
Theorem start_behind_first : forall s data r, new_tokenizer ps_str Z.eqb data (Some s) false = Some r <->
  exists before, data = before ++ s ++ r /\ forall b' r', data = b' ++ s ++ r' -> (length before <= length b')%nat.
Proof.
  intros s data r. unfold new_tokenizer.
  assert (forall data r, after_first Z.eqb s data = Some r <-> exists before, data = before ++ s ++ r /\ forall b' r', data = b' ++ s ++ r' -> (length before <= length b')%nat) as G.
  { clear data r. induction data as [|c data IH]; intros r; cbn [after_first]; destruct (after_prefix Z.eqb s _) as [r0|] eqn:E.
    - apply after_prefix_spec in E. split.
      + intros [= ->]. exists []. split; [exact E|]. intros; simpl; lia.
      + intros (before & E1 & M). specialize (M [] r0 E). destruct before; simpl in M; [|lia]. simpl in E1. rewrite E1 in E. apply app_inv_head in E. now subst.
    - split; [discriminate|]. intros (before & E1 & _). destruct before; [|discriminate]. symmetry in E1. simpl in E1.
      exfalso. assert (after_prefix Z.eqb s [] = Some r) by now apply after_prefix_spec. congruence.
    - apply after_prefix_spec in E. split.
      + intros [= ->]. exists []. split; [exact E|]. intros; simpl; lia.
      + intros (before & E1 & M). specialize (M [] r0 E). destruct before; simpl in M; [|lia]. simpl in E1. rewrite E1 in E. apply app_inv_head in E. now subst.
    - rewrite IH. split.
      + intros (before & E1 & M). exists (c :: before). split; [now rewrite E1|]. intros b' r' Eb. destruct b' as [|x b'].
        * exfalso. assert (after_prefix Z.eqb s (c :: data) = Some r') by now apply after_prefix_spec. congruence.
        * simpl in Eb. injection Eb as -> Eb. simpl. apply le_n_S. now apply (M b' r').
      + intros (before & E1 & M). destruct before as [|x before].
        * exfalso. assert (after_prefix Z.eqb s (c :: data) = Some r) by now apply after_prefix_spec. congruence.
        * simpl in E1. injection E1 as -> E1. exists before. split; auto. intros b' r' Eb. specialize (M (x :: b') r'). simpl in M. rewrite Eb in M. specialize (M eq_refl). lia. }
  rewrite <- G. destruct (after_first Z.eqb s data); split; congruence.
Qed.
Print Assumptions start_behind_first.
Example start_ex : new_tokenizer ps_str Z.eqb [1; 2; 9; 2; 9; 32; 5] (Some [2; 9]) true = None /\
  new_tokenizer ps_str Z.eqb [1; 2; 9; 32; 5] (Some [2; 9]) true = Some [5].
Proof. split; reflexivity. Qed.

(** C43: with eattokensep the character behind the start string must be white space, which
    is consumed, or a delimiter, which is kept for the first token. *)
Theorem start_separator : forall start data r, new_tokenizer ps_str Z.eqb data start true = Some r <->
  exists c d, new_tokenizer ps_str Z.eqb data start false = Some (c :: d) /\ ((delimiter c /\ r = c :: d) \/ (white c /\ r = d)).
Proof.
  intros start data r. unfold new_tokenizer. destruct (match start with Some s => after_first Z.eqb s data | None => Some data end) as [[|c d]|].
  - split; [discriminate|]. intros (c & d & H & _). discriminate.
  - assert (W : is_sep ps_str c = true <-> white c) by (simpl; unfold white; lia).
    assert (D : is_start ps_str c = true <-> delimiter c) by (simpl; unfold delimiter; simpl; lia).
    assert (N : white c -> delimiter c -> False) by (unfold white, delimiter; simpl; lia).
    split.
    + destruct (is_start ps_str c); [intros [= <-]; exists c, d; split; auto; left; split; auto; now apply D|].
      destruct (is_sep ps_str c); [|discriminate]. intros [= <-]. exists c, d. split; auto. right. split; auto. now apply W.
    + intros (c0 & d0 & H & K). injection H as <- <-. destruct K as [[K ->]|[K ->]].
      * apply D in K. now rewrite K.
      * pose proof K as K'. apply W in K'. rewrite K'. destruct (is_start ps_str c); auto. exfalso. apply N; auto. now apply D.
  - split; [discriminate|]. intros (c & d & H & _). discriminate.
Qed.
Print Assumptions start_separator.
Example start_separator_ex : new_tokenizer ps_str Z.eqb [1; 2; 9; 47; 5] (Some [2; 9]) true = Some [47; 5].
Proof. reflexivity. Qed.

(** C43: the tokenizer for bytes does not skip comments. *)
Theorem bytes_comments_refuted : ~ (forall g t c d, gap g -> token t -> white c ->
  gettoken ps_bytes (g ++ t ++ c :: d) = Some (t, d)).
Proof.
  intros H. specialize (H [37; 120; 10] [49] 32 []). vm_compute in H. assert (Some ([37; 120], [49; 32]) = Some ([49], @nil Z)) as E.
  { apply H; [|exists 49, []; repeat split; auto; try lia; intros E; decompose [or] E; discriminate|tauto].
    apply (gap_comment [120] 10 []); [|right; reflexivity|constructor]. intros c [<-|[]] [E|E]; discriminate. }
  discriminate.
Qed.
Print Assumptions bytes_comments_refuted.
(** with white space only it works *)
Theorem bytes_tokens_partial : forall ws t c d, Forall white ws -> token t -> white c \/ delimiter c ->
  gettoken ps_bytes (ws ++ t ++ c :: d) = Some (t, if is_sep ps_bytes c then d else c :: d).
Proof.
  intros ws t c d F T S. unfold gettoken. pose proof T as (x & t' & Et & _ & Nw & _).
  assert (t ++ c :: d = x :: (t' ++ c :: d)) as Ex by now rewrite Et. rewrite Ex, skip_seps_app by auto.
  cbn [length skip_comments]. simpl is_comment. cbv iota. rewrite <- Ex, (token_chars_token ps_bytes) by auto. reflexivity.
Qed.
Print Assumptions bytes_tokens_partial.
(** C43: a token at the very end of the data is an IndexError. *)
Theorem token_at_end_refuted : ~ (forall t, token t -> exists r, gettoken ps_str t = Some (t, r)).
Proof.
  intros H. destruct (H [49]) as (r & E); [|discriminate]. exists 49, []. split; auto. split; [lia|]. split; [unfold white; lia|]. intros d [].
Qed.
Print Assumptions token_at_end_refuted.
