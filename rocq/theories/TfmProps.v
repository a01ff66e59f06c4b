(** Properties of TfmModel.v: C72 and C88. *)
From Coq Require Import ZArith Ascii String List Bool Lia ZifyBool.
From Verif Require Import ReaderModel ReaderSpec ReaderProps TfmModel TfmSpec.
Import ListNotations.
Open Scope Z_scope.

(** ** The char info words *)
Lemma field word n k : 0 <= n -> 0 <= k -> Z.shiftr (Z.land word (Z.shiftl (Z.ones n) k)) k = (word / 2 ^ k) mod 2 ^ n.
Proof.
  intros N K. rewrite Z.shiftr_land, Z.shiftr_shiftl_l by lia. replace (k - k) with 0 by lia. rewrite Z.shiftl_0_r, Z.land_ones by lia.
  now rewrite Z.shiftr_div_pow2 by lia.
Qed.
Lemma info_known w : info_of w = mkinfo ((w / 16777216) mod 256) ((w / 1048576) mod 16) ((w / 65536) mod 16) ((w / 1024) mod 64) ((w / 256) mod 4) (w mod 256).
Proof.
  unfold info_of. f_equal.
  - exact (field w 8 24 ltac:(lia) ltac:(lia)).
  - exact (field w 4 20 ltac:(lia) ltac:(lia)).
  - exact (field w 4 16 ltac:(lia) ltac:(lia)).
  - exact (field w 6 10 ltac:(lia) ltac:(lia)).
  - exact (field w 2 8 ltac:(lia) ltac:(lia)).
  - exact (Z.land_ones w 8 ltac:(lia)).
Qed.
(** The fields are in their ranges and give back the four bytes of the word, whatever its sign is. *)
Theorem char_info_fields : forall w, inrange true 4 w ->
  let i := info_of w in
  0 <= width_index i < 256 /\ 0 <= height_index i < 16 /\ 0 <= depth_index i < 16 /\ 0 <= italic_index i < 64 /\ 0 <= tag i < 4 /\
  0 <= remainder i < 256 /\
  bigendian 4 w = [width_index i; 16 * height_index i + depth_index i; 4 * italic_index i + tag i; remainder i].
Proof.
  intros w R i. subst i. rewrite info_known. cbn [width_index height_index depth_index italic_index tag remainder].
  repeat split; try lia. unfold bigendian. change (256 ^ Z.of_nat 3) with 16777216. change (256 ^ Z.of_nat 2) with 65536.
  change (256 ^ Z.of_nat 1) with 256. change (256 ^ Z.of_nat 0) with 1. f_equal. f_equal; [|f_equal]; [lia|lia|f_equal; lia].
Qed.
Print Assumptions char_info_fields.
Example char_info_ex : info_of (-1) = mkinfo 255 15 15 63 3 255 /\ info_of 0x12345678 = mkinfo 0x12 3 4 21 2 0x78.
Proof. split; reflexivity. Qed.

(** the face byte: weight, slope and expansion *)
Theorem face_letters : forall w s e, 0 <= w < 3 -> 0 <= s < 2 -> 0 <= e < 3 ->
  face_of (6 * e + 2 * w + s) =
    Some (String (nth (Z.to_nat w) ["M"; "B"; "L"]%char "?"%char) (String (nth (Z.to_nat s) ["R"; "I"]%char "?"%char)
      (String (nth (Z.to_nat e) ["R"; "C"; "E"]%char "?"%char) ""))).
Proof.
  intros w s e W S E. assert (w = 0 \/ w = 1 \/ w = 2) as D1 by lia. assert (s = 0 \/ s = 1) as D2 by lia. assert (e = 0 \/ e = 1 \/ e = 2) as D3 by lia.
  destruct D1 as [-> | [-> | ->]], D2 as [-> | ->], D3 as [-> | [-> | ->]]; reflexivity.
Qed.
Print Assumptions face_letters.
Example face_ex : face_of 3 = Some "BIR"%string /\ face_of 18 = None. Proof. split; reflexivity. Qed.

(** ** Reading *)
Definition took (n : Z) (file rest : list Z) : Prop := exists b, file = b ++ rest /\ Z.of_nat (List.length b) = n.
Lemma took_app n m a b c : took n a b -> took m b c -> took (n + m) a c.
Proof. intros (x & -> & X) (y & -> & Y). exists (x ++ y). rewrite app_assoc, app_length. split; auto. lia. Qed.
Lemma took_refl a : took 0 a a. Proof. exists []. auto. Qed.
Lemma took_skip n a b : took n a b -> b = skipn (Z.to_nat n) a.
Proof. intros (x & -> & L). replace (Z.to_nat n) with (List.length x) by lia. now rewrite skipn_exact. Qed.
Lemma took_bytes n a b : took n a b -> Forall isbyte a -> Forall isbyte b.
Proof. intros (x & -> & L) F. apply Forall_app in F. tauto. Qed.
Lemma took_pos n a b : took n a b -> 0 <= n. Proof. intros (x & _ & L). lia. Qed.
Lemma took_split n a : 0 <= n <= Z.of_nat (List.length a) -> took n a (skipn (Z.to_nat n) a).
Proof. intros H. exists (firstn (Z.to_nat n) a). split; [now rewrite firstn_skipn|]. rewrite firstn_length. lia. Qed.

Lemma int32_known file v rest : Forall isbyte file -> readint32 file = Some (v, rest) -> inrange true 4 v /\ file = bigendian 4 v ++ rest.
Proof.
  intros F E. rewrite (proj1 (fixed_size_readers file F)) in E. pose proof (readint_total 4 true file F) as T. rewrite E in T. exact T.
Qed.
Lemma int16_known file v rest : Forall isbyte file -> readint16 file = Some (v, rest) -> inrange true 2 v /\ file = bigendian 2 v ++ rest.
Proof.
  intros F E. rewrite (proj1 (proj2 (proj2 (fixed_size_readers file F)))) in E. pose proof (readint_total 2 true file F) as T. rewrite E in T. exact T.
Qed.
Lemma int32_took file v rest : Forall isbyte file -> readint32 file = Some (v, rest) -> took 4 file rest.
Proof. intros F E. apply int32_known in E as [_ ->]; auto. exists (bigendian 4 v). split; auto. Qed.
Lemma int16_took file v rest : Forall isbyte file -> readint16 file = Some (v, rest) -> took 2 file rest.
Proof. intros F E. apply int16_known in E as [_ ->]; auto. exists (bigendian 2 v). split; auto. Qed.
Lemma uchar_took file v rest : readuchar file = Some (v, rest) -> took 1 file rest.
Proof. destruct file as [|b f]; unfold readuchar, unpacked, fread; simpl; intros E; [discriminate|]. injection E as <- <-. exists [b]. auto. Qed.

Lemma word_known file f v rest k : Forall isbyte file -> took (4 * k) file f -> readint32 f = Some (v, rest) -> word file k v.
Proof.
  intros F T E. apply int32_known in E as [R E]; [|eapply took_bytes; eauto]. split; auto. rewrite <- (took_skip _ _ _ T), E.
  exact (firstn_exact (bigendian 4 v) rest).
Qed.
Lemma read32s_words n : forall file k f tbl rest, Forall isbyte file -> took (4 * k) file f -> read32s n f = Some (tbl, rest) ->
  List.length tbl = n /\ words file k tbl /\ took (4 * (k + Z.of_nat n)) file rest.
Proof.
  induction n as [|n IH]; intros file k f tbl rest F T E; cbn [read32s] in E.
  - injection E as <- <-. split; [reflexivity|]. split; [intros i v N; destruct i; discriminate|]. replace (4 * (k + Z.of_nat 0)) with (4 * k) by lia. exact T.
  - destruct (readint32 f) as [[v f1]|] eqn:E1; [|discriminate]. cbn [bind] in E. destruct (read32s n f1) as [[vs f2]|] eqn:E2; [|discriminate].
    cbn [bind] in E. injection E as <- <-. assert (took (4 * (k + 1)) file f1) as T1.
    { replace (4 * (k + 1)) with (4 * k + 4) by lia. eapply took_app; eauto. eapply int32_took; eauto. eapply took_bytes; eauto. }
    destruct (IH file (k + 1) f1 vs f2 F T1 E2) as (L & W & T2). split; [simpl; congruence|]. split.
    + intros [|i] w N; simpl in N.
      * injection N as <-. replace (k + Z.of_nat 0) with k by lia. eapply word_known; eauto.
      * replace (k + Z.of_nat (S i)) with (k + 1 + Z.of_nat i) by lia. auto.
    + replace (k + Z.of_nat (S n)) with (k + 1 + Z.of_nat n) by lia. exact T2.
Qed.
Lemma read16s_words n : forall file k f tbl rest, Forall isbyte file -> took (2 * k) file f -> read16s n f = Some (tbl, rest) ->
  List.length tbl = n /\ (forall i v, nth_error tbl i = Some v -> halfword file (k + Z.of_nat i) v) /\ took (2 * (k + Z.of_nat n)) file rest.
Proof.
  induction n as [|n IH]; intros file k f tbl rest F T E; cbn [read16s] in E.
  - injection E as <- <-. split; [reflexivity|]. split; [intros i v N; destruct i; discriminate|]. replace (2 * (k + Z.of_nat 0)) with (2 * k) by lia. exact T.
  - destruct (readint16 f) as [[v f1]|] eqn:E1; [|discriminate]. cbn [bind] in E. destruct (read16s n f1) as [[vs f2]|] eqn:E2; [|discriminate].
    cbn [bind] in E. injection E as <- <-. pose proof (took_bytes _ _ _ T F) as Ff. assert (took (2 * (k + 1)) file f1) as T1.
    { replace (2 * (k + 1)) with (2 * k + 2) by lia. eapply took_app; eauto. eapply int16_took; eauto. }
    destruct (IH file (k + 1) f1 vs f2 F T1 E2) as (L & W & T2). split; [simpl; congruence|]. split.
    + intros [|i] w N; simpl in N.
      * injection N as <-. replace (k + Z.of_nat 0) with k by lia. apply int16_known in E1 as [R E1]; auto. split; auto.
        rewrite <- (took_skip _ _ _ T), E1. exact (firstn_exact (bigendian 2 v) f1).
      * replace (k + Z.of_nat (S i)) with (k + 1 + Z.of_nat i) by lia. auto.
    + replace (k + Z.of_nat (S n)) with (k + 1 + Z.of_nat n) by lia. exact T2.
Qed.

Lemma setnth_some {A} (l : list A) n v : (n < List.length l)%nat -> exists l', setnth l n v = Some l' /\ List.length l' = List.length l /\
  nth_error l' n = Some v /\ forall m, m <> n -> nth_error l' m = nth_error l m.
Proof.
  revert n. induction l as [|a l IH]; intros n H; simpl in H; [lia|]. destruct n as [|n]; simpl.
  - exists (v :: l). repeat split. intros [|m] N; [lia|reflexivity].
  - destruct (IH n ltac:(lia)) as (l' & -> & L & E & O). exists (a :: l'). repeat split; auto; [simpl; lia|]. intros [|m] N; [reflexivity|]. simpl. apply O. lia.
Qed.
Lemma setitem_some {A} (l : list A) i v : 0 <= i < Z.of_nat (List.length l) -> exists l', setitem l i v = Some l' /\ List.length l' = List.length l /\
  nth_error l' (Z.to_nat i) = Some v /\ forall m, m <> Z.to_nat i -> nth_error l' m = nth_error l m.
Proof. intros H. unfold setitem. destruct (0 <=? i) eqn:E; [|lia]. apply setnth_some. lia. Qed.

(** the entry for a character, from its word *)
Definition entry (w : Z) : option char_info_word := if w / 16777216 mod 256 =? 0 then None else Some (info_of w).
Lemma read_infos_words n : forall file k f c l ci rest, Forall isbyte file -> took (4 * k) file f -> 0 <= c -> c + Z.of_nat n <= Z.of_nat (List.length l) ->
  read_infos n c l f = Some (ci, rest) ->
  took (4 * (k + Z.of_nat n)) file rest /\ List.length ci = List.length l /\
  (forall i, (i < n)%nat -> exists w, word file (k + Z.of_nat i) w /\ nth_error ci (Z.to_nat c + i) = Some (entry w)) /\
  (forall m, (m < Z.to_nat c \/ Z.to_nat c + n <= m)%nat -> nth_error ci m = nth_error l m).
Proof.
  induction n as [|n IH]; intros file k f c l ci rest F T C L E; cbn [read_infos] in E.
  - injection E as <- <-. replace (k + Z.of_nat 0) with k by lia. split; [exact T|]. split; auto. split; [lia|auto].
  - destruct (readint32 f) as [[v f1]|] eqn:E1; [|discriminate]. cbn [bind] in E.
    destruct (setitem_some l c (if width_index (info_of v) =? 0 then None else Some (info_of v)) ltac:(lia)) as (l1 & S1 & L1 & N1 & O1). rewrite S1 in E.
    assert (took (4 * (k + 1)) file f1) as T1.
    { replace (4 * (k + 1)) with (4 * k + 4) by lia. eapply took_app; eauto. eapply int32_took; eauto. eapply took_bytes; eauto. }
    destruct (IH file (k + 1) f1 (c + 1) l1 ci rest F T1 ltac:(lia) ltac:(lia) E) as (T2 & L2 & W & O).
    split; [replace (k + Z.of_nat (S n)) with (k + 1 + Z.of_nat n) by lia; exact T2|]. split; [lia|]. split.
    + intros [|i] H.
      * exists v. split; [replace (k + Z.of_nat 0) with k by lia; eapply word_known; eauto|]. rewrite O by lia. rewrite Nat.add_0_r, N1. f_equal.
        unfold entry. rewrite info_known. reflexivity.
      * destruct (W i ltac:(lia)) as (w & Ww & Nw). exists w. replace (k + Z.of_nat (S i)) with (k + 1 + Z.of_nat i) by lia. split; auto.
        rewrite <- Nw. f_equal. lia.
    + intros m H. rewrite O by lia. apply O1. lia.
Qed.

Lemma readstring_took n file s rest : (0 < n)%nat -> readstring n file = Some (s, rest) -> (n <= List.length file)%nat -> took (Z.of_nat n) file rest.
Proof.
  intros P E L. unfold readstring in E. destruct file as [|b f]; [simpl in L; lia|]. unfold readuchar, unpacked, fread in E. cbn [firstn skipn app unpack_B] in E.
  destruct (b <=? _); [|discriminate]. injection E as <- <-. exists (b :: firstn (n - 1) f). simpl in L. split.
  - simpl. now rewrite firstn_skipn.
  - simpl length. rewrite firstn_length. lia.
Qed.

(** everything is read from where it should be *)
Record laid_out (file : list Z) (t : tfm) : Prop := {
  halves : forall i v, nth_error [lf (pre t); lh (pre t); bc (pre t); ec (pre t); nw (pre t); nh (pre t); nd (pre t); ni (pre t); nl (pre t); nk (pre t); ne (pre t); np (pre t)] i = Some v ->
    halfword file (Z.of_nat i) v;
  head : word file 6 (checksum t) /\ word file 7 (designsize t);
  infos : List.length (char_info t) = Z.to_nat (ec (pre t) + 1) /\
    forall c, 0 <= c <= ec (pre t) ->
      if c <? bc (pre t) then nth_error (char_info t) (Z.to_nat c) = Some None
      else exists w, word file (6 + lh (pre t) + (c - bc (pre t))) w /\ nth_error (char_info t) (Z.to_nat c) = Some (entry w);
  tables : exists o, o = 6 + lh (pre t) + (ec (pre t) - bc (pre t) + 1) /\
    let a := nw (pre t) in let b := a + nh (pre t) in let c := b + nd (pre t) in let d := c + ni (pre t) in let e := d + nl (pre t) in
    let f := e + nk (pre t) in let g := f + ne (pre t) in
    words file o (width t) /\ words file (o + a) (height t) /\ words file (o + b) (depth t) /\ words file (o + c) (italic t) /\
    words file (o + d) (lig_kern t) /\ words file (o + e) (kern t) /\ words file (o + f) (exten t) /\ words file (o + g) (param t);
  lengths : List.length (width t) = Z.to_nat (nw (pre t)) /\ List.length (height t) = Z.to_nat (nh (pre t)) /\ List.length (depth t) = Z.to_nat (nd (pre t)) /\
    List.length (italic t) = Z.to_nat (ni (pre t)) /\ List.length (lig_kern t) = Z.to_nat (nl (pre t)) /\ List.length (kern t) = Z.to_nat (nk (pre t)) /\
    List.length (exten t) = Z.to_nat (ne (pre t)) /\ List.length (param t) = Z.to_nat (np (pre t)) }.

Definition sensible (p : preheader) : Prop :=
  2 <= lh p /\ 0 <= bc p /\ 0 <= nw p /\ 0 <= nh p /\ 0 <= nd p /\ 0 <= ni p /\ 0 <= nl p /\ 0 <= nk p /\ 0 <= ne p /\ 0 <= np p.

Lemma pre_known file p rest : Forall isbyte file -> read_pre file = Some (p, rest) ->
  took 24 file rest /\ pre_ok p = true /\
  forall i v, nth_error [lf p; lh p; bc p; ec p; nw p; nh p; nd p; ni p; nl p; nk p; ne p; np p] i = Some v -> halfword file (Z.of_nat i) v.
Proof.
  intros F E. unfold read_pre in E. destruct (read16s 12 file) as [[vs f]|] eqn:E1; [|discriminate]. cbn [bind] in E.
  destruct (read16s_words 12 file 0 file vs f F (took_refl _) E1) as (L & W & T).
  do 12 (destruct vs as [|? vs]; [discriminate|]). destruct vs; [|discriminate].
  destruct (pre_ok _) eqn:P; [|discriminate]. injection E as <- <-. split; [exact T|]. split; [exact P|]. intros i v N. exact (W i v N).
Qed.

Lemma pre_sane p : pre_ok p = true -> bc p - 1 <= ec p /\ ec p <= 255 /\ ne p <= 256 /\
  lf p = 6 + lh p + (ec p - bc p + 1) + nw p + nh p + nd p + ni p + nl p + nk p + ne p + np p.
Proof. unfold pre_ok. lia. Qed.
Lemma words_at file k k' tbl : words file k tbl -> k = k' -> words file k' tbl. Proof. now intros W <-. Qed.
Ltac peel E := match type of E with bind ?a _ = _ => let e := fresh "R" in destruct a as [[? ?]|] eqn:e; [|discriminate E]; cbn [bind] in E end.

Theorem tfm_tables : forall file t rest, Forall isbyte file -> read_tfm file = Some (t, rest) -> sensible (pre t) ->
  4 * (6 + lh (pre t)) <= Z.of_nat (List.length file) ->
  laid_out file t /\ rest = skipn (Z.to_nat (4 * lf (pre t))) file.
Proof.
  intros file t rest F E S Len. unfold read_tfm in E. peel E. rename p into p0. destruct (pre_known _ _ _ F R) as (T0 & P & H). clear R.
  peel E. peel E. destruct (0 <? z0) eqn:Ds; [|discriminate]. peel E. peel E. peel E.
  match type of E with context [read_infos ?a ?b ?c ?d] => set (f6 := d) in * end.
  peel E. peel E. peel E. peel E. peel E. peel E. peel E. peel E. peel E. injection E as <- <-. cbn [pre] in S, Len |- *.
  destruct S as (S1 & S2 & S3 & S4 & S5 & S6 & S7 & S8 & S9 & S10).
  change 24 with (4 * 6) in T0.
  assert (took (4 * 7) file l0) as T1. { change (4 * 7) with (4 * 6 + 4). eapply took_app; [exact T0|]. eapply int32_took; eauto. eapply took_bytes; eauto. }
  assert (took (4 * 8) file l1) as T2. { change (4 * 8) with (4 * 7 + 4). eapply took_app; [exact T1|]. eapply int32_took; eauto. eapply took_bytes; eauto. }
  assert (took (4 * (6 + lh p0)) file f6) as T6.
  { unfold read_field in R1, R2. unfold read_face in R3. unfold f6, skip_rest. pose proof (took_skip _ _ _ T2) as K2.
    assert (Z.of_nat (List.length l1) = Z.of_nat (List.length file) - 32) as L1 by (destruct T2 as (b & -> & B); rewrite app_length; lia).
    destruct (2 <? lh p0) eqn:C1.
    - destruct (11 <? lh p0) eqn:C2; [|discriminate]. destruct (readstring 40 l1) as [[s1 f1]|] eqn:Rs1; [|discriminate]. cbn [bind] in R1. injection R1 as <- <-.
      apply readstring_took in Rs1; [|lia|lia]. pose proof (took_app _ _ _ _ _ T2 Rs1) as T3.
      assert (Z.of_nat (List.length f1) = Z.of_nat (List.length file) - 72) as L2 by (destruct T3 as (b & -> & B); rewrite app_length; lia).
      destruct (12 <? lh p0) eqn:C3.
      + destruct (16 <? lh p0) eqn:C4; [|discriminate]. destruct (readstring 20 f1) as [[s2 f2]|] eqn:Rs2; [|discriminate]. cbn [bind] in R2. injection R2 as <- <-.
        apply readstring_took in Rs2; [|lia|lia]. pose proof (took_app _ _ _ _ _ T3 Rs2) as T4.
        assert (Z.of_nat (List.length f2) = Z.of_nat (List.length file) - 92) as L3 by (destruct T4 as (b & -> & B); rewrite app_length; lia).
        destruct (17 <? lh p0) eqn:C5.
        * peel R3. peel R3. peel R3. injection R3 as <- <-. apply uchar_took in R1. apply uchar_took in R13.
          pose proof (took_app _ _ _ _ _ T4 R1) as T5. apply int16_took in R2; [|exact (took_bytes _ _ _ T5 F)]. pose proof (took_app _ _ _ _ _ T5 R2) as T5'. pose proof (took_app _ _ _ _ _ T5' R13) as T5''.
          destruct (18 <? lh p0) eqn:C6.
          -- unfold fread. cbn [snd]. replace (4 * (6 + lh p0)) with (4 * 8 + Z.of_nat 40 + Z.of_nat 20 + 1 + 2 + 1 + (lh p0 - 18) * 4) by lia. eapply took_app; [exact T5''|].
             apply took_split. destruct T5'' as (b & -> & B). rewrite app_length in Len. lia.
          -- replace (4 * (6 + lh p0)) with (4 * 8 + Z.of_nat 40 + Z.of_nat 20 + 1 + 2 + 1) by lia. exact T5''.
        * injection R3 as <- <-. destruct (18 <? lh p0) eqn:C6; [lia|]. replace (4 * (6 + lh p0)) with (4 * 8 + Z.of_nat 40 + Z.of_nat 20) by lia. exact T4.
      + injection R2 as <- <-. destruct (17 <? lh p0) eqn:C5; [lia|]. injection R3 as <- <-. destruct (18 <? lh p0) eqn:C6; [lia|].
        replace (4 * (6 + lh p0)) with (4 * 8 + Z.of_nat 40) by lia. exact T3.
    - injection R1 as <- <-. destruct (12 <? lh p0) eqn:C3; [lia|]. injection R2 as <- <-. destruct (17 <? lh p0) eqn:C5; [lia|]. injection R3 as <- <-.
      destruct (18 <? lh p0) eqn:C6; [lia|]. replace (4 * (6 + lh p0)) with (4 * 8) by lia. exact T2. }
  apply pre_sane in P as (P1 & P2 & P3 & P4). assert (0 <= ec p0 + 1 - bc p0) as S0 by (clear - P1; lia).
  pose proof (repeat_length (@None char_info_word) (Z.to_nat (ec p0 + 1))) as RL.
  assert (bc p0 + Z.of_nat (Z.to_nat (ec p0 + 1 - bc p0)) <= Z.of_nat (List.length (repeat (@None char_info_word) (Z.to_nat (ec p0 + 1))))) as LL by (rewrite RL; clear - S0 S2; lia).
  destruct (read_infos_words _ file (6 + lh p0) f6 (bc p0) _ _ _ F T6 S2 LL R4) as (T7 & LI & WI & OI). rewrite Z2Nat.id in T7 by lia.
  unfold table in *.
  destruct (read32s_words _ file _ _ _ _ F T7 R5) as (G1 & W1 & T8). rewrite Z2Nat.id in T8 by lia.
  destruct (read32s_words _ file _ _ _ _ F T8 R6) as (G2 & W2 & T9). rewrite Z2Nat.id in T9 by lia.
  destruct (read32s_words _ file _ _ _ _ F T9 R7) as (G3 & W3 & T10). rewrite Z2Nat.id in T10 by lia.
  destruct (read32s_words _ file _ _ _ _ F T10 R8) as (G4 & W4 & T11). rewrite Z2Nat.id in T11 by lia.
  destruct (read32s_words _ file _ _ _ _ F T11 R9) as (G5 & W5 & T12). rewrite Z2Nat.id in T12 by lia.
  destruct (read32s_words _ file _ _ _ _ F T12 R10) as (G6 & W6 & T13). rewrite Z2Nat.id in T13 by lia.
  destruct (read32s_words _ file _ _ _ _ F T13 R11) as (G7 & W7 & T14). rewrite Z2Nat.id in T14 by lia.
  destruct (read32s_words _ file _ _ _ _ F T14 R12) as (G8 & W8 & T15). rewrite Z2Nat.id in T15 by lia.
  split.
  - constructor; cbn [pre checksum designsize char_info width height depth italic lig_kern kern exten param].
    + exact H.
    + split; [exact (word_known _ _ _ _ 6 F T0 R)|exact (word_known _ _ _ _ 7 F T1 R0)].
    + split; [lia|]. intros c C. destruct (c <? bc p0) eqn:B.
      * rewrite OI by lia. apply nth_error_repeat. lia.
      * destruct (WI (Z.to_nat (c - bc p0)) ltac:(lia)) as (w & Ww & Nw). exists w. rewrite Z2Nat.id in Ww by lia. split; auto. rewrite <- Nw. f_equal. lia.
    + eexists. split; [reflexivity|]. cbv zeta.
      split; [eapply words_at; [exact W1|lia]|]. split; [eapply words_at; [exact W2|lia]|]. split; [eapply words_at; [exact W3|lia]|].
      split; [eapply words_at; [exact W4|lia]|]. split; [eapply words_at; [exact W5|lia]|]. split; [eapply words_at; [exact W6|lia]|].
      split; [eapply words_at; [exact W7|lia]|eapply words_at; [exact W8|lia]].
    + auto 10.
  - apply took_skip. match type of T15 with took ?n _ _ => replace (4 * lf p0) with n by lia end. exact T15.
Qed.
Print Assumptions tfm_tables.

(** ** Which files are read *)
Lemma int32_some file : Forall isbyte file -> 4 <= Z.of_nat (List.length file) -> exists v rest, readint32 file = Some (v, rest) /\ took 4 file rest.
Proof.
  intros F L. pose proof (readint_total 4 true file F) as T. rewrite <- (proj1 (fixed_size_readers file F)) in T. destruct (readint32 file) as [[v rest]|] eqn:E; [|lia].
  exists v, rest. split; auto. eapply int32_took; eauto.
Qed.
Lemma int16_some file : Forall isbyte file -> 2 <= Z.of_nat (List.length file) -> exists v rest, readint16 file = Some (v, rest) /\ took 2 file rest.
Proof.
  intros F L. pose proof (readint_total 2 true file F) as T. rewrite <- (proj1 (proj2 (proj2 (fixed_size_readers file F)))) in T.
  destruct (readint16 file) as [[v rest]|] eqn:E; [|lia]. exists v, rest. split; auto. eapply int16_took; eauto.
Qed.
Lemma uchar_some file : 1 <= Z.of_nat (List.length file) -> exists v rest, readuchar file = Some (v, rest) /\ took 1 file rest.
Proof. destruct file as [|b f]; [simpl; lia|]. intros _. exists b, f. split; [reflexivity|]. exists [b]. auto. Qed.
Lemma took_length n file rest : took n file rest -> Z.of_nat (List.length rest) = Z.of_nat (List.length file) - n.
Proof. intros (b & -> & L). rewrite app_length. lia. Qed.
Lemma read32s_some n : forall file, Forall isbyte file -> 4 * Z.of_nat n <= Z.of_nat (List.length file) ->
  exists tbl rest, read32s n file = Some (tbl, rest) /\ took (4 * Z.of_nat n) file rest.
Proof.
  induction n as [|n IH]; intros file F L.
  - exists [], file. split; [reflexivity|]. apply took_refl.
  - destruct (int32_some file F ltac:(lia)) as (v & r1 & E1 & T1). pose proof (took_length _ _ _ T1) as L1.
    destruct (IH r1 (took_bytes _ _ _ T1 F) ltac:(lia)) as (vs & r2 & E2 & T2). exists (v :: vs), r2. cbn [read32s]. rewrite E1. cbn [bind]. rewrite E2. split; [reflexivity|].
    replace (4 * Z.of_nat (S n)) with (4 + 4 * Z.of_nat n) by lia. eapply took_app; eauto.
Qed.
Lemma table_some n file : 0 <= n -> Forall isbyte file -> 4 * n <= Z.of_nat (List.length file) -> exists tbl rest, table n file = Some (tbl, rest) /\ took (4 * n) file rest.
Proof. intros N F L. destruct (read32s_some (Z.to_nat n) file F ltac:(lia)) as (tbl & rest & E & T). exists tbl, rest. split; [exact E|]. rewrite Z2Nat.id in T by lia. exact T. Qed.
Lemma read_infos_some n : forall c l file, Forall isbyte file -> 0 <= c -> c + Z.of_nat n <= Z.of_nat (List.length l) -> 4 * Z.of_nat n <= Z.of_nat (List.length file) ->
  exists ci rest, read_infos n c l file = Some (ci, rest) /\ took (4 * Z.of_nat n) file rest.
Proof.
  induction n as [|n IH]; intros c l file F C Ll L.
  - exists l, file. split; [reflexivity|]. apply took_refl.
  - destruct (int32_some file F ltac:(lia)) as (v & r1 & E1 & T1). pose proof (took_length _ _ _ T1) as L1. cbn [read_infos]. rewrite E1. cbn [bind].
    destruct (setitem_some l c (if width_index (info_of v) =? 0 then None else Some (info_of v)) ltac:(lia)) as (l1 & -> & Ln & _ & _).
    destruct (IH (c + 1) l1 r1 (took_bytes _ _ _ T1 F) ltac:(lia) ltac:(lia) ltac:(lia)) as (ci & r2 & E2 & T2). exists ci, r2. split; [exact E2|].
    replace (4 * Z.of_nat (S n)) with (4 + 4 * Z.of_nat n) by lia. eapply took_app; eauto.
Qed.
Lemma readstring_some n file : (0 < n)%nat -> (n <= List.length file)%nat -> nth 0 file 0 < Z.of_nat n -> exists s rest, readstring n file = Some (s, rest) /\ took (Z.of_nat n) file rest.
Proof.
  intros P L B. destruct file as [|b f]; [simpl in L; lia|]. simpl in B. destruct (readstring n (b :: f)) as [[s rest]|] eqn:E.
  - exists s, rest. split; auto. eapply readstring_took; eauto.
  - unfold readstring, readuchar, unpacked, fread in E. cbn [firstn skipn app unpack_B] in E. destruct (b <=? _) eqn:C; [discriminate|lia].
Qed.

(** Every file whose pre header is consistent, whose design size is positive and whose header texts are not longer
    than their fields is read. *)
Theorem tfm_accepts : forall file p f ds, Forall isbyte file -> read_pre file = Some (p, f) -> sensible p -> 4 * lf p <= Z.of_nat (List.length file) ->
  word file 7 ds -> 0 < ds ->
  lh p = 2 \/ (lh p = 12 \/ 17 <= lh p) /\ nth 32 file 0 < 40 /\ (17 <= lh p -> nth 72 file 0 < 20) ->
  exists t rest, read_tfm file = Some (t, rest) /\ pre t = p /\ designsize t = ds.
Proof.
  intros file p f ds F Rp S Len Wd Pd H. unfold read_tfm. rewrite Rp. cbn [bind]. destruct (pre_known _ _ _ F Rp) as (T0 & P & _). apply pre_sane in P as (P1 & P2 & P3 & P4).
  destruct S as (S1 & S2 & S3 & S4 & S5 & S6 & S7 & S8 & S9 & S10). pose proof (took_bytes _ _ _ T0 F) as F0. pose proof (took_length _ _ _ T0) as L0.
  destruct (int32_some f F0 ltac:(lia)) as (cs & f1 & -> & T1). cbn [bind]. pose proof (took_app _ _ _ _ _ T0 T1) as T1'. pose proof (took_bytes _ _ _ T1' F) as F1. pose proof (took_length _ _ _ T1') as L1.
  destruct (int32_some f1 F1 ltac:(lia)) as (ds' & f2 & E2 & T2). pose proof (took_app _ _ _ _ _ T1' T2) as T2'. pose proof (took_bytes _ _ _ T2' F) as F2. pose proof (took_length _ _ _ T2') as L2.
  assert (ds' = ds) as ->.
  { assert (word file 7 ds') as W' by exact (word_known file f1 ds' f2 7 F T1' E2). destruct Wd as [Ra Ea], W' as [Rb Eb]. rewrite Ea in Eb.
    pose proof (readint_decodes 4 true ds [] Ra) as Da. pose proof (readint_decodes 4 true ds' [] Rb) as Db. rewrite Eb in Da. congruence. }
  rewrite E2. cbn [bind]. destruct (0 <? ds) eqn:D; [|lia].
  assert (forall q a b, took q file a -> 0 <= q -> nth b a 0 = nth (Z.to_nat q + b) file 0) as Nth.
  { intros q a b (x & -> & Lx) Q. rewrite app_nth2 by lia. f_equal. lia. }
  assert (exists cc f3 ff f4 sf f5, read_field (lh p) 2 11 40 f2 = Some (cc, f3) /\ read_field (lh p) 12 16 20 f3 = Some (ff, f4) /\ read_face (lh p) f4 = Some (sf, f5) /\
    took (4 * (6 + lh p)) file (skip_rest (lh p) f5)) as (cc & f3 & ff & f4 & sf & f5 & E3 & E4 & E5 & T5).
  { unfold read_field, read_face, skip_rest. destruct H as [H|(H & N1 & N2)].
    - rewrite H. cbn [Z.ltb Z.compare Pos.compare Pos.compare_cont]. do 6 eexists. repeat split. exact T2'.
    - destruct (2 <? lh p) eqn:C1; [|lia]. destruct (11 <? lh p) eqn:C2; [|lia].
      destruct (readstring_some 40 f2 ltac:(lia) ltac:(lia)) as (s1 & f3 & E3 & T3). { rewrite (Nth _ _ _ T2') by lia. exact N1. } rewrite E3. cbn [bind].
      pose proof (took_app _ _ _ _ _ T2' T3) as T3'. pose proof (took_length _ _ _ T3') as L3.
      destruct (12 <? lh p) eqn:C3.
      + destruct (16 <? lh p) eqn:C4; [|lia].
        destruct (readstring_some 20 f3 ltac:(lia) ltac:(lia)) as (s2 & f4 & E4 & T4). { rewrite (Nth _ _ _ T3') by lia. apply N2. lia. }
        pose proof (took_app _ _ _ _ _ T3' T4) as T4'. pose proof (took_length _ _ _ T4') as L4.
        destruct (17 <? lh p) eqn:C5.
        * destruct (uchar_some f4 ltac:(lia)) as (u1 & f5 & E5 & T5). pose proof (took_app _ _ _ _ _ T4' T5) as T5'. pose proof (took_length _ _ _ T5') as L5.
          destruct (int16_some f5 (took_bytes _ _ _ T5' F) ltac:(lia)) as (u2 & f6 & E6 & T6). pose proof (took_app _ _ _ _ _ T5' T6) as T6'. pose proof (took_length _ _ _ T6') as L6.
          destruct (uchar_some f6 ltac:(lia)) as (u3 & f7 & E7 & T7). pose proof (took_app _ _ _ _ _ T6' T7) as T7'. pose proof (took_length _ _ _ T7') as L7.
          do 6 eexists. split; [reflexivity|]. split; [rewrite E4; reflexivity|]. split; [rewrite E5; cbn [bind]; rewrite E6; cbn [bind]; rewrite E7; reflexivity|].
          destruct (18 <? lh p) eqn:C6.
          -- unfold fread. cbn [snd]. replace (4 * (6 + lh p)) with (24 + 4 + 4 + Z.of_nat 40 + Z.of_nat 20 + 1 + 2 + 1 + (lh p - 18) * 4) by lia. eapply took_app; [exact T7'|].
             apply took_split. lia.
          -- replace (4 * (6 + lh p)) with (24 + 4 + 4 + Z.of_nat 40 + Z.of_nat 20 + 1 + 2 + 1) by lia. exact T7'.
        * do 6 eexists. split; [reflexivity|]. split; [rewrite E4; reflexivity|]. split; [reflexivity|]. destruct (18 <? lh p) eqn:C6; [lia|].
          replace (4 * (6 + lh p)) with (24 + 4 + 4 + Z.of_nat 40 + Z.of_nat 20) by lia. exact T4'.
      + destruct (17 <? lh p) eqn:C5; [lia|]. destruct (18 <? lh p) eqn:C6; [lia|]. do 6 eexists. repeat split. replace (4 * (6 + lh p)) with (24 + 4 + 4 + Z.of_nat 40) by lia. exact T3'. }
  rewrite E3. cbn [bind]. rewrite E4. cbn [bind]. rewrite E5. cbn [bind].
  pose proof (took_bytes _ _ _ T5 F) as F5. pose proof (took_length _ _ _ T5) as L5. pose proof (repeat_length (@None char_info_word) (Z.to_nat (ec p + 1))) as RL.
  set (f6 := skip_rest (lh p) f5) in *. assert (0 <= ec p + 1 - bc p) as S0 by lia.
  assert (bc p + Z.of_nat (Z.to_nat (ec p + 1 - bc p)) <= Z.of_nat (List.length (repeat (@None char_info_word) (Z.to_nat (ec p + 1))))) as LL by (rewrite RL; lia).
  destruct (read_infos_some (Z.to_nat (ec p + 1 - bc p)) (bc p) _ f6 F5 S2 LL ltac:(lia)) as (ci & f7 & E7 & T7). rewrite E7. cbn [bind]. rewrite Z2Nat.id in T7 by lia.
  pose proof (took_bytes _ _ _ T7 F5) as F7. pose proof (took_length _ _ _ T7) as L7.
  destruct (table_some (nw p) f7 ltac:(lia) F7 ltac:(lia)) as (? & f8 & -> & T8). cbn [bind]. pose proof (took_bytes _ _ _ T8 F7) as F8. pose proof (took_length _ _ _ T8) as L8.
  destruct (table_some (nh p) f8 ltac:(lia) F8 ltac:(lia)) as (? & f9 & -> & T9). cbn [bind]. pose proof (took_bytes _ _ _ T9 F8) as F9. pose proof (took_length _ _ _ T9) as L9.
  destruct (table_some (nd p) f9 ltac:(lia) F9 ltac:(lia)) as (? & f10 & -> & T10). cbn [bind]. pose proof (took_bytes _ _ _ T10 F9) as F10. pose proof (took_length _ _ _ T10) as L10.
  destruct (table_some (ni p) f10 ltac:(lia) F10 ltac:(lia)) as (? & f11 & -> & T11). cbn [bind]. pose proof (took_bytes _ _ _ T11 F10) as F11. pose proof (took_length _ _ _ T11) as L11.
  destruct (table_some (nl p) f11 ltac:(lia) F11 ltac:(lia)) as (? & f12 & -> & T12). cbn [bind]. pose proof (took_bytes _ _ _ T12 F11) as F12. pose proof (took_length _ _ _ T12) as L12.
  destruct (table_some (nk p) f12 ltac:(lia) F12 ltac:(lia)) as (? & f13 & -> & T13). cbn [bind]. pose proof (took_bytes _ _ _ T13 F12) as F13. pose proof (took_length _ _ _ T13) as L13.
  destruct (table_some (ne p) f13 ltac:(lia) F13 ltac:(lia)) as (? & f14 & -> & T14). cbn [bind]. pose proof (took_bytes _ _ _ T14 F13) as F14. pose proof (took_length _ _ _ T14) as L14.
  destruct (table_some (np p) f14 ltac:(lia) F14 ltac:(lia)) as (? & f15 & -> & T15). cbn [bind].
  do 2 eexists. split; [reflexivity|]. split; reflexivity.
Qed.
Print Assumptions tfm_accepts.

(** an example file: one character, with code 65, of width -1/2 * 2 ** 20 (which no font has) *)
Definition small_tfm : list Z :=
  [0; 13; 0; 2; 0; 65; 0; 65; 0; 2; 0; 1; 0; 1; 0; 0; 0; 0; 0; 0; 0; 0; 0; 0] ++ [1; 2; 3; 4; 0; 160; 0; 0] ++ [1; 0; 0; 0] ++
  [0; 0; 0; 0; 255; 248; 0; 0] ++ [0; 0; 0; 0] ++ [0; 0; 0; 0].
Example tfm_tables_ex : exists t, read_tfm small_tfm = Some (t, []) /\ width t = [0; -524288] /\ designsize t = 10485760 /\
  nth_error (char_info t) 65 = Some (Some (mkinfo 1 0 0 0 0 0)) /\ getwidth_dvi 655360 t 65 = Some (-327680) /\ sensible (pre t).
Proof. eexists. split; [vm_compute; reflexivity|]. do 4 (split; [vm_compute; reflexivity|]). unfold sensible. cbn. lia. Qed.
Example tfm_accepts_ex : exists t rest, read_tfm small_tfm = Some (t, rest) /\ designsize t = 10485760.
Proof.
  destruct (tfm_accepts small_tfm (mkpre 13 2 65 65 2 1 1 0 0 0 0 0) (skipn 24 small_tfm) 10485760) as (t & r & E & _ & D); [| | | | | | |eauto].
  - unfold small_tfm, isbyte. repeat (apply Forall_cons; [lia|]). constructor.
  - reflexivity.
  - unfold sensible. cbn. lia.
  - vm_compute. discriminate.
  - split; [unfold inrange; change (256 ^ Z.of_nat 4) with 4294967296; lia|reflexivity].
  - lia.
  - left. reflexivity.
Qed.

(** Header lengths below two pass the check of the pre header, but two words are read in any case: here everything
    after the pre header is read from the wrong place. *)
Theorem tfm_short_header_refuted : ~ (forall file t rest, Forall isbyte file -> read_tfm file = Some (t, rest) ->
  rest = skipn (Z.to_nat (4 * lf (pre t))) file).
Proof.
  intros H. set (file := [0; 7; 0; 0; 0; 1; 0; 0; 0; 1; 0; 0; 0; 0; 0; 0; 0; 0; 0; 0; 0; 0; 0; 0] ++ [0; 0; 0; 9; 0; 0; 0; 1; 0; 0; 0; 5]).
  destruct (read_tfm file) as [[t rest]|] eqn:E; [|vm_compute in E; discriminate]. specialize (H file t rest). vm_compute in E. injection E as <- <-.
  assert (Forall isbyte file) as F. { unfold file, isbyte. repeat (apply Forall_cons; [lia|]). constructor. }
  specialize (H F eq_refl). vm_compute in H. discriminate.
Qed.
Print Assumptions tfm_short_header_refuted.

(** ** C88 *)
Lemma halve_start fuel : forall z k, 0 <= z -> 0 <= k -> exists m, 0 <= m <= Z.of_nat fuel /\ halve fuel z (20 - k) = (z / 2 ^ m, 20 - k - m) /\ tex_start fuel z (16 * 2 ^ k) = (z / 2 ^ m, 16 * 2 ^ (k + m)).
Proof.
  induction fuel as [|f IH]; intros z k Z0 K; cbn [halve tex_start].
  - exists 0. split; [lia|]. rewrite Z.pow_0_r, Z.div_1_r, Z.sub_0_r, Z.add_0_r. auto.
  - destruct (8388608 <=? z) eqn:C; destruct (z <? 8388608) eqn:C'; try lia.
    + destruct (IH (z / 2) (k + 1)) as (m & M & E1 & E2); [apply Z.div_pos; lia|lia|]. exists (m + 1). split; [lia|].
      rewrite (Z.pow_add_r 2 m 1) by lia. rewrite (Z.mul_comm (2 ^ m)), <- Z.div_div by (change (2 ^ 1) with 2; lia). change (2 ^ 1) with 2.
      rewrite Z.shiftr_div_pow2 by lia. change (2 ^ 1) with 2. replace (20 - k - 1) with (20 - (k + 1)) by lia.
      replace (16 * 2 ^ k + 16 * 2 ^ k) with (16 * 2 ^ (k + 1)) by (rewrite Z.pow_add_r by lia; lia). rewrite E1, E2. split; f_equal; try lia. do 2 f_equal. lia.
    + exists 0. split; [lia|]. rewrite Z.pow_0_r, Z.div_1_r, Z.sub_0_r, Z.add_0_r. auto.
Qed.
Lemma halve_small z : 0 <= z < 134217728 -> exists m, 0 <= m <= 4 /\ halve 5 z 20 = (z / 2 ^ m, 20 - m) /\ tex_start 5 z 16 = (z / 2 ^ m, 16 * 2 ^ m).
Proof.
  intros R.
  destruct (Z_lt_le_dec z 8388608) as [A|A].
  { exists 0. split; [lia|]. rewrite Z.pow_0_r, Z.div_1_r, Z.sub_0_r. cbn [halve tex_start]. destruct (8388608 <=? z) eqn:C; [lia|]. destruct (z <? 8388608) eqn:C'; [auto|lia]. }
  assert (forall fuel x k, 0 <= x -> 0 <= k -> x < 8388608 -> halve fuel x (20 - k) = (x, 20 - k) /\ tex_start fuel x (16 * 2 ^ k) = (x, 16 * 2 ^ k)) as Stop.
  { intros [|f] x k X K L; cbn [halve tex_start]; auto. destruct (8388608 <=? x) eqn:C; [lia|]. destruct (x <? 8388608) eqn:C'; [auto|lia]. }
  assert (forall fuel x k, 0 <= k -> 8388608 <= x -> halve (S fuel) x (20 - k) = halve fuel (x / 2) (20 - (k + 1)) /\
    tex_start (S fuel) x (16 * 2 ^ k) = tex_start fuel (x / 2) (16 * 2 ^ (k + 1))) as Go.
  { intros f x k K L. cbn [halve tex_start]. destruct (8388608 <=? x) eqn:C; [|lia]. destruct (x <? 8388608) eqn:C'; [lia|].
    rewrite Z.shiftr_div_pow2 by lia. change (2 ^ 1) with 2. replace (20 - k - 1) with (20 - (k + 1)) by lia.
    replace (16 * 2 ^ k + 16 * 2 ^ k) with (16 * 2 ^ (k + 1)) by (rewrite Z.pow_add_r by lia; lia). auto. }
  destruct (Go 4%nat z 0 ltac:(lia) A) as [G1 G2]. change (20 - 0) with 20 in G1. change (16 * 2 ^ 0) with 16 in G2. rewrite G1, G2. clear G1 G2.
  change (0 + 1) with 1. change (z / 2) with (z / 2 ^ 1). assert (forall a, 0 <= a -> z / 2 ^ a / 2 = z / 2 ^ (a + 1)) as Half.
  { intros a Ha. rewrite Z.pow_add_r by lia. change (2 ^ 1) with 2. rewrite Z.div_div by (try apply Z.pow_nonzero; try apply Z.pow_pos_nonneg; lia). reflexivity. }
  assert (0 <= z / 2 ^ 1) as Q1 by (apply Z.div_pos; lia). assert (0 <= z / 2 ^ 2) as Q2 by (apply Z.div_pos; lia). assert (0 <= z / 2 ^ 3) as Q3 by (apply Z.div_pos; lia).
  assert (0 <= z / 2 ^ 4) as Q4 by (apply Z.div_pos; lia).
  destruct (Z_lt_le_dec (z / 2 ^ 1) 8388608) as [B|B]; [exists 1; split; [lia|]; apply (Stop 4%nat); lia|].
  destruct (Go 3%nat _ 1 ltac:(lia) B) as [G1 G2]. rewrite G1, G2, Half by lia. change (1 + 1) with 2. clear G1 G2.
  destruct (Z_lt_le_dec (z / 2 ^ 2) 8388608) as [C|C]; [exists 2; split; [lia|]; apply (Stop 3%nat); lia|].
  destruct (Go 2%nat _ 2 ltac:(lia) C) as [G1 G2]. rewrite G1, G2, Half by lia. change (2 + 1) with 3. clear G1 G2.
  destruct (Z_lt_le_dec (z / 2 ^ 3) 8388608) as [D|D]; [exists 3; split; [lia|]; apply (Stop 2%nat); lia|].
  destruct (Go 1%nat _ 3 ltac:(lia) D) as [G1 G2]. rewrite G1, G2, Half by lia. change (3 + 1) with 4. clear G1 G2.
  assert (z / 2 ^ 4 < 8388608) as L by (change (2 ^ 4) with 16; apply Z.div_lt_upper_bound; lia). exists 4. split; [lia|]. apply (Stop 1%nat); lia.
Qed.

(** A TFM length (b0, b1, b2, b3 are its bytes) becomes the number of DVI units which TeX computes in 32 bit arithmetic. *)
Theorem tfm_scaled_as_tex : forall z length b0 b1 b2 b3, 0 <= z < 134217728 -> inrange true 4 length -> bigendian 4 length = [b0; b1; b2; b3] -> b0 = 0 \/ b0 = 255 ->
  tfm_to_dvi z length = Some (tex_scaled z b0 b1 b2 b3).
Proof.
  intros z length b0 b1 b2 b3 Z0 R E B. unfold bigendian in E. change (256 ^ Z.of_nat 3) with 16777216 in E. change (256 ^ Z.of_nat 2) with 65536 in E.
  change (256 ^ Z.of_nat 1) with 256 in E. change (256 ^ Z.of_nat 0) with 1 in E. unfold inrange in R. change (256 ^ Z.of_nat 4) with 4294967296 in R.
  assert (b0 = length / 16777216 mod 256 /\ b1 = length / 65536 mod 256 /\ b2 = length / 256 mod 256 /\ b3 = length / 1 mod 256) as (E0 & E1 & E2 & E3)
    by (repeat split; congruence). clear E.
  assert (length = b1 * 65536 + b2 * 256 + b3 - (if b0 =? 0 then 0 else 16777216)) as El by (destruct (b0 =? 0) eqn:C; lia).
  unfold tfm_to_dvi, tex_scaled. assert ((-16777216 <=? length) && (length <? 16777216) && (z <? 134217728) = true) as -> by (destruct (b0 =? 0) eqn:C; lia).
  destruct (halve_small z Z0) as (m & M & -> & ->). f_equal. set (y := z / 2 ^ m). rewrite Z.shiftr_div_pow2 by lia.
  assert (0 < 2 ^ m) as Pm by (apply Z.pow_pos_nonneg; lia).
  assert (256 / (16 * 2 ^ m) = 2 ^ (4 - m)) as ->.
  { change 256 with (16 * 16). rewrite Z.div_mul_cancel_l by lia. change 16 with (2 ^ 4). rewrite <- Z.pow_sub_r by lia. reflexivity. }
  assert (0 < 2 ^ (4 - m)) as P4 by (apply Z.pow_pos_nonneg; lia).
  assert (2 ^ (20 - m) = 65536 * 2 ^ (4 - m)) as Ep. { replace (20 - m) with (16 + (4 - m)) by lia. rewrite Z.pow_add_r by lia. reflexivity. }
  assert ((b3 * y / 256 + b2 * y) / 256 + b1 * y = (b1 * 65536 + b2 * 256 + b3) * y / 65536) as Ei.
  { replace ((b1 * 65536 + b2 * 256 + b3) * y) with (b3 * y + (b2 * y) * 256 + (b1 * y) * 65536) by ring. rewrite Z.div_add by lia.
    change 65536 with (256 * 256) at 1. rewrite <- Z.div_div by lia. rewrite (Z.div_add (b3 * y)) by lia. reflexivity. }
  rewrite Ei, Z.div_div by lia. rewrite El, Ep. destruct (b0 =? 0).
  - now rewrite Z.sub_0_r.
  - replace ((b1 * 65536 + b2 * 256 + b3 - 16777216) * y) with ((b1 * 65536 + b2 * 256 + b3) * y + (- (16 * 2 ^ m * y)) * (65536 * 2 ^ (4 - m))).
    + rewrite Z.div_add by lia. lia.
    + assert (2 ^ m * 2 ^ (4 - m) = 16) as Em by (rewrite <- Z.pow_add_r by lia; replace (m + (4 - m)) with 4 by lia; reflexivity).
      replace (- (16 * 2 ^ m * y) * (65536 * 2 ^ (4 - m))) with (- (16 * 65536 * y * (2 ^ m * 2 ^ (4 - m)))) by ring. rewrite Em. ring.
Qed.
Print Assumptions tfm_scaled_as_tex.
Example tfm_scaled_ex : tfm_to_dvi 655360 0x8E391 = Some (tex_scaled 655360 0 8 0xE3 0x91) /\ tex_scaled 655360 0 8 0xE3 0x91 = 364090 /\
  tfm_to_dvi 100000000 (-5) = Some (tex_scaled 100000000 255 255 255 251) /\ tfm_to_dvi 100000000 (-5) = Some (-477).
Proof. repeat split. Qed.

(** Without rounding it would be length * z / 2 ** 20: the result is below by less than 1 plus
    length / 2 ** 16, because of the halvings of z. *)
Theorem tfm_scaled_close : forall z length, 0 <= z < 134217728 -> 0 <= length < 16777216 -> exists r, tfm_to_dvi z length = Some r /\
  r * 1048576 <= length * z < (r + 1) * 1048576 + 16 * length.
Proof.
  intros z length Z0 L. unfold tfm_to_dvi. assert ((-16777216 <=? length) && (length <? 16777216) && (z <? 134217728) = true) as -> by lia.
  destruct (halve_small z Z0) as (m & M & -> & _). eexists. split; [reflexivity|]. rewrite Z.shiftr_div_pow2 by lia.
  assert (0 < 2 ^ m) as Pm by (apply Z.pow_pos_nonneg; lia). assert (0 < 2 ^ (20 - m)) as P2 by (apply Z.pow_pos_nonneg; lia).
  assert (2 ^ m * 2 ^ (20 - m) = 1048576) as Em by (rewrite <- Z.pow_add_r by lia; replace (m + (20 - m)) with 20 by lia; reflexivity).
  assert (2 ^ m <= 16) as Pm' by (change 16 with (2 ^ 4); apply Z.pow_le_mono_r; lia).
  set (y := z / 2 ^ m). set (a := 2 ^ m) in *. set (b := 2 ^ (20 - m)) in *.
  pose proof (Z.mul_div_le z a Pm) as D1. pose proof (Z.mul_succ_div_gt z a Pm) as D2. fold y in D1, D2. set (r := length * y / b).
  pose proof (Z.mul_div_le (length * y) b P2) as D3. pose proof (Z.mul_succ_div_gt (length * y) b P2) as D4. fold r in D3, D4.
  split.
  - rewrite <- Em. replace (r * (a * b)) with (a * (b * r)) by ring. apply Z.le_trans with (a * (length * y)); [apply Z.mul_le_mono_nonneg_l; lia|].
    replace (a * (length * y)) with (length * (a * y)) by ring. apply Z.mul_le_mono_nonneg_l; lia.
  - rewrite <- Em. assert (a * (length * y) < a * (b * Z.succ r)) as H1 by (apply Z.mul_lt_mono_pos_l; lia).
    assert (length * z <= length * (a * Z.succ y)) as H2 by (apply Z.mul_le_mono_nonneg_l; lia).
    assert (length * a <= 16 * length) as H3 by nia.
    replace (length * (a * Z.succ y)) with (a * (length * y) + length * a) in H2 by (unfold Z.succ; ring).
    replace (a * (b * Z.succ r)) with ((r + 1) * (a * b)) in H1 by (unfold Z.succ; ring). lia.
Qed.
Print Assumptions tfm_scaled_close.
Example tfm_scaled_close_ex : tfm_to_dvi 100000001 10000001 = Some 953674411 /\ 10000001 * 100000001 / 1048576 = 953674421.
Proof. split; reflexivity. Qed.
