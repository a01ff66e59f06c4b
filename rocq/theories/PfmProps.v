(** Properties of the PFM files read by pyx/font/pfmfile.py: the numbers are those at the offsets of the PFM file format. *)
From Coq Require Import ZArith List Bool String Ascii Lia ZifyBool.
From Verif Require Import PfmModel.
Import ListNotations.
Open Scope Z_scope.

(** ** The file format: unsigned and signed little endian numbers at offsets *)
Definition u8 (f : list Z) (i : nat) : Z := nth i f 0.
Definition u16 (f : list Z) (i : nat) : Z := u8 f i + 256 * u8 f (i + 1).
Definition u32 (f : list Z) (i : nat) : Z := u16 f i + 65536 * u16 f (i + 2).
Definition i16 (f : list Z) (i : nat) : Z := if u16 f i <? 32768 then u16 f i else u16 f i - 65536.

Lemma nth_skip : forall A (l : list A) n i d, nth i (skipn n l) d = nth (n + i) l d.
Proof. induction l as [|a l IH]; intros [|n] i d; cbn; try reflexivity. - now destruct i. - apply IH. Qed.
Lemma nth_first : forall A (l : list A) n i d, (i < n)%nat -> nth i (firstn n l) d = nth i l d.
Proof. induction l as [|a l IH]; intros [|n] [|i] d H; cbn; try reflexivity; try lia. apply IH; lia. Qed.
Lemma le2 : forall l n, le (firstn 2 (skipn n l)) = u16 l n.
Proof.
  intros l n. unfold u16, u8. replace n with (n + 0)%nat at 2 by lia. rewrite <- !nth_skip. generalize (skipn n l). intros [|a [|b r]]; cbn [le firstn nth]; lia.
Qed.
Lemma le1 : forall l n, le (firstn 1 (skipn n l)) = u8 l n.
Proof. intros l n. unfold u8. replace n with (n + 0)%nat at 2 by lia. rewrite <- nth_skip. generalize (skipn n l). intros [|a r]; cbn [le firstn nth]; lia. Qed.
Lemma le4 : forall l n, le (firstn 4 (skipn n l)) = u32 l n.
Proof.
  intros l n. unfold u32, u16, u8. replace n with (n + 0)%nat at 2 by lia. replace (n + 2 + 1)%nat with (n + 3)%nat by lia. rewrite <- !nth_skip. generalize (skipn n l).
  intros [|a [|b [|c [|d r]]]]; cbn [le firstn nth]; lia.
Qed.
(** the number of a format at an offset *)
Definition number (f : fmt) (l : list Z) (n : nat) : Z := match f with FB => u8 l n | FH => u16 l n | Fh => i16 l n | FL => u32 l n | Fs _ => 0 end.
Lemma value_number : forall f l n, value f (firstn (fsize f) (skipn n l)) = number f l n.
Proof. intros [] l n0; unfold value, fsize, number, i16; rewrite ?le1, ?le2, ?le4; reflexivity. Qed.
Definition offset (k : nat) (fs : list fmt) : nat := fold_right (fun f n => (fsize f + n)%nat) O (firstn k fs).
Lemma skip_skip : forall A (l : list A) a b, skipn a (skipn b l) = skipn (b + a) l.
Proof. induction l as [|x l IH]; intros a [|b]; cbn; try reflexivity. - now rewrite skipn_nil. - apply IH. Qed.
Lemma unpack_nth : forall fs l vs k f, unpack fs l = Some vs -> nth_error fs k = Some f -> nth k vs 0 = number f l (offset k fs).
Proof.
  induction fs as [|g fs IH]; intros l vs k f E K; [destruct k; discriminate|].
  cbn [unpack] in E. destruct (Nat.ltb (List.length l) (fsize g)); [discriminate|].
  destruct (unpack fs (skipn (fsize g) l)) as [ws|] eqn:U; [|discriminate]. injection E as <-.
  destruct k as [|k]; cbn [nth_error] in K.
  - injection K as <-. cbn [nth]. rewrite <- value_number. reflexivity.
  - cbn [nth]. rewrite (IH _ _ _ _ U K), <- !value_number, skip_skip. reflexivity.
Qed.
Lemma unpack_length : forall fs l vs, unpack fs l = Some vs -> List.length vs = List.length fs /\ List.length l = fold_right (fun f n => (fsize f + n)%nat) O fs.
Proof.
  induction fs as [|g fs IH]; intros l vs E; cbn [unpack] in E.
  - destruct l; [injection E as <-; split; reflexivity|discriminate].
  - destruct (Nat.ltb (List.length l) (fsize g)) eqn:B; [discriminate|]. destruct (unpack fs (skipn (fsize g) l)) as [ws|] eqn:U; [|discriminate]. injection E as <-.
    destruct (IH _ _ U) as [A C]. rewrite skipn_length in C. apply Nat.ltb_ge in B. cbn [List.length fold_right]. split; lia.
Qed.
Lemma number_part : forall f l n m pos, (n + fsize f <= m)%nat -> number f (firstn m (skipn pos l)) n = number f l (pos + n).
Proof.
  intros [] l n0 m pos H; cbn [fsize] in H; unfold number, i16, u32, u16, u8; rewrite ?nth_first, ?nth_skip by lia; rewrite ?Nat.add_assoc; reflexivity.
Qed.
Lemma size_app : forall a b : list fmt, fold_right (fun f n => (fsize f + n)%nat) O (a ++ b) =
  (fold_right (fun f n => (fsize f + n)%nat) O a + fold_right (fun f n => (fsize f + n)%nat) O b)%nat.
Proof. induction a as [|x a IH]; intros b; cbn [app fold_right]; [reflexivity|rewrite IH; lia]. Qed.
Lemma offset_le : forall fs k f, nth_error fs k = Some f -> (offset k fs + fsize f <= fold_right (fun f n => (fsize f + n)%nat) O fs)%nat.
Proof.
  induction fs as [|g fs IH]; intros [|k] f K; cbn [nth_error] in K; try discriminate.
  - injection K as <-. unfold offset. cbn [firstn fold_right]. lia.
  - specialize (IH _ _ K). unfold offset in *. cbn [firstn fold_right]. lia.
Qed.
Lemma read_nth : forall file pos fs vs k f, read_at file pos fs = Some vs -> nth_error fs k = Some f -> nth k vs 0 = number f file (Z.to_nat pos + offset k fs).
Proof.
  intros file pos fs vs k f E K. unfold read_at in E. rewrite (unpack_nth _ _ _ _ _ E K). apply number_part. apply offset_le, K.
Qed.
Lemma read_inside : forall file pos fs vs, read_at file pos fs = Some vs -> (0 < List.length fs)%nat ->
  fold_right (fun f n => (fsize f + n)%nat) O fs = O \/ (Z.to_nat pos + fold_right (fun f n => (fsize f + n)%nat) O fs <= List.length file)%nat.
Proof.
  intros file pos fs vs E H. destruct (unpack_length _ _ _ E) as [_ L]. rewrite firstn_length, skipn_length in L. lia.
Qed.

Lemma bind_some : forall A B (o : option A) (f : A -> option B) b, bind o f = Some b -> exists a, o = Some a /\ f a = Some b.
Proof. intros A B [a|] f b H; [now exists a|discriminate]. Qed.
Lemma eqb_list_eq : forall a b, eqb_list a b = true -> a = b.
Proof. induction a as [|x a IH]; intros [|y b] H; cbn in H; try discriminate; try reflexivity. apply andb_true_iff in H. destruct H as [E H]. apply Z.eqb_eq in E. now rewrite E, (IH b). Qed.

Ltac number E k := rewrite (unpack_nth _ _ _ k _ E eq_refl).

(** what a successful reading has found, in terms of the format *)
Lemma read_inv : forall enc file p, read_pfm enc file = Some p ->
  exists m widths pairs tracks,
    read_at file (u32 file 119) metrics = Some m /\
    read_at file (u32 file 123) (repeat FH (Z.to_nat (u8 file 96 - u8 file 95 + 1))) = Some widths /\
    kernpairs file (u32 file 131) (nth 24 m 0) = Some pairs /\ trackkerns file (u32 file 135) (nth 25 m 0) = Some tracks /\
    0 <= u8 file 96 - u8 file 95 + 1 /\
    (u16 file 0 = 256 /\ u16 file 66 = 129 /\ map lower (null_string file (u32 file 101)) = postscript /\
     u32 file 101 <> 0 /\ u32 file 105 <> 0 /\ u32 file 119 <> 0 /\ u32 file 123 <> 0 /\ u32 file 127 = 0 /\ u32 file 139 <> 0 /\ (147 <= List.length file)%nat) /\
    p = mkpfm (u8 file 95) (u8 file 96) widths pairs tracks (u8 file 85) (u16 file 74) (u8 file 80) (u16 file 83) (u16 file 91) (u16 file 93)
          (nth 10 m 0) (nth 7 m 0) (nth 11 m 0) (if u8 file 85 =? 0 then ansiglyphs else encoded 0 enc).
Proof.
  intros enc file p R. unfold read_pfm in R.
  apply bind_some in R. destruct R as (h & H & R). apply bind_some in R. destruct R as (x & X & R).
  assert (HN : forall k f, nth_error header k = Some f -> nth k h 0 = number f file (offset k header)).
  { intros k f K. rewrite (unpack_nth _ _ _ _ _ H K). pose proof (number_part f file (offset k header) 117 0) as N. cbn [skipn Nat.add] in N. apply N.
    apply (offset_le header k f K). }
  assert (XN : forall k f, nth_error extension k = Some f -> nth k x 0 = number f file (117 + offset k extension)).
  { intros k f K. rewrite (unpack_nth _ _ _ _ _ X K). apply number_part. apply (offset_le extension k f K). }
  pose proof (HN 0%nat _ eq_refl) as H0. pose proof (HN 3%nat _ eq_refl) as H3. pose proof (HN 7%nat _ eq_refl) as H7. pose proof (HN 10%nat _ eq_refl) as H10.
  pose proof (HN 13%nat _ eq_refl) as H13. pose proof (HN 14%nat _ eq_refl) as H14. pose proof (HN 18%nat _ eq_refl) as H18. pose proof (HN 19%nat _ eq_refl) as H19.
  pose proof (HN 20%nat _ eq_refl) as H20. pose proof (HN 21%nat _ eq_refl) as H21. pose proof (HN 25%nat _ eq_refl) as H25. pose proof (HN 26%nat _ eq_refl) as H26.
  pose proof (XN 1%nat _ eq_refl) as X1. pose proof (XN 2%nat _ eq_refl) as X2. pose proof (XN 3%nat _ eq_refl) as X3. pose proof (XN 4%nat _ eq_refl) as X4.
  pose proof (XN 5%nat _ eq_refl) as X5. pose proof (XN 6%nat _ eq_refl) as X6.
  change (offset 0 header) with 0%nat in H0. change (offset 3 header) with 66%nat in H3. change (offset 7 header) with 74%nat in H7. change (offset 10 header) with 80%nat in H10.
  change (offset 13 header) with 83%nat in H13. change (offset 14 header) with 85%nat in H14. change (offset 18 header) with 91%nat in H18. change (offset 19 header) with 93%nat in H19.
  change (offset 20 header) with 95%nat in H20. change (offset 21 header) with 96%nat in H21. change (offset 25 header) with 101%nat in H25. change (offset 26 header) with 105%nat in H26.
  change (117 + offset 1 extension)%nat with 119%nat in X1. change (117 + offset 2 extension)%nat with 123%nat in X2. change (117 + offset 3 extension)%nat with 127%nat in X3.
  change (117 + offset 4 extension)%nat with 131%nat in X4. change (117 + offset 5 extension)%nat with 135%nat in X5. change (117 + offset 6 extension)%nat with 139%nat in X6.
  cbn [number] in *. cbv zeta in R. rewrite H0, H3, H7, H10, H13, H14, H18, H19, H20, H21, H25, H26, X1, X2, X3, X4, X5, X6 in R.
  assert (L : (147 <= List.length file)%nat).
  { destruct (unpack_length _ _ _ X) as [_ L]. rewrite firstn_length, skipn_length in L. change (fold_right (fun f n => (fsize f + n)%nat) O extension) with 30%nat in L. lia. }
  clear HN XN H0 H3 H7 H10 H13 H14 H18 H19 H20 H21 H25 H26 X1 X2 X3 X4 X5 X6 H X h x.
  destruct (u32 file 101 =? 0) eqn:B1; [discriminate|]. destruct (eqb_list _ postscript) eqn:B2; [|discriminate]. cbn [negb] in R.
  destruct (u16 file 0 =? 256) eqn:B3; [|discriminate]. destruct (u16 file 66 =? 129) eqn:B4; [|discriminate]. cbn [negb] in R.
  destruct (u32 file 105 =? 0) eqn:B5; [discriminate|]. destruct (u32 file 119 =? 0) eqn:B6; [discriminate|]. destruct (u32 file 123 =? 0) eqn:B7; [discriminate|].
  destruct (u32 file 127 =? 0) eqn:B8; [|discriminate]. cbn [negb] in R. destruct (u32 file 139 =? 0) eqn:B9; [discriminate|].
  apply bind_some in R. destruct R as (m & M & R).
  destruct (u8 file 96 - u8 file 95 + 1 <? 0) eqn:B10; [discriminate|].
  apply bind_some in R. destruct R as (widths & W & R). apply bind_some in R. destruct R as (pairs & P & R). apply bind_some in R. destruct R as (tracks & T & R).
  exists m, widths, pairs, tracks. apply eqb_list_eq in B2.
  repeat split; try assumption; try lia. congruence.
Qed.

Lemma repeat_nth : forall (f : fmt) n k, (k < n)%nat -> nth_error (repeat f n) k = Some f.
Proof. induction n as [|n IH]; intros [|k] H; cbn; try lia; [reflexivity|apply IH; lia]. Qed.
Lemma repeat_size : forall f n, fold_right (fun f n => (fsize f + n)%nat) O (repeat f n) = (n * fsize f)%nat.
Proof. induction n as [|n IH]; cbn [repeat fold_right]; [reflexivity|rewrite IH; lia]. Qed.
Lemma repeat_firstn : forall (f : fmt) n k, (k <= n)%nat -> firstn k (repeat f n) = repeat f k.
Proof. induction n as [|n IH]; intros [|k] H; cbn; try reflexivity; try lia. rewrite IH by lia. reflexivity. Qed.
Lemma repeat_offset : forall f n k, (k <= n)%nat -> offset k (repeat f n) = (k * fsize f)%nat.
Proof. intros. unfold offset. rewrite repeat_firstn by assumption. apply repeat_size. Qed.

Lemma triples_read : forall n l vs, unpack (copies n [FB; FB; Fh]) l = Some vs ->
  List.length (triples vs) = n /\ forall i, (i < n)%nat -> nth_error (triples vs) i = Some (u8 l (4 * i), u8 l (4 * i + 1), i16 l (4 * i + 2)).
Proof.
  induction n as [|n IH]; intros l vs E.
  - cbn [copies unpack] in E. destruct l; [|discriminate]. injection E as <-. split; [reflexivity|]. intros; lia.
  - change (copies (S n) [FB; FB; Fh]) with (FB :: FB :: Fh :: copies n [FB; FB; Fh]) in E.
    pose proof (unpack_nth _ _ _ 0%nat _ E eq_refl) as E0. pose proof (unpack_nth _ _ _ 1%nat _ E eq_refl) as E1. pose proof (unpack_nth _ _ _ 2%nat _ E eq_refl) as E2.
    change (offset 0 _) with 0%nat in E0. change (offset 1 _) with 1%nat in E1. change (offset 2 _) with 2%nat in E2. cbn [number] in *.
    cbn [unpack] in E. repeat match type of E with context [Nat.ltb ?a ?b] => destruct (Nat.ltb a b); [discriminate|] end.
    rewrite !skip_skip in E. cbn [fsize Nat.add] in E.
    destruct (unpack (copies n [FB; FB; Fh]) (skipn 4 l)) as [ws|] eqn:U; [|discriminate]. injection E as <-. cbn [nth] in E0, E1, E2.
    destruct (IH _ _ U) as [L N]. cbn [triples List.length]. split; [congruence|].
    intros [|i] H; cbn [nth_error].
    + rewrite E0, E1, E2. reflexivity.
    + rewrite N by lia. unfold i16, u16, u8. rewrite !nth_skip.
      replace (4 + 4 * i)%nat with (4 * S i)%nat by lia. replace (4 + (4 * i + 1))%nat with (4 * S i + 1)%nat by lia. replace (4 + (4 * i + 2))%nat with (4 * S i + 2)%nat by lia.
      replace (4 + (4 * i + 2 + 1))%nat with (4 * S i + 2 + 1)%nat by lia. reflexivity.
Qed.
Lemma fives_read : forall n l vs, unpack (copies n (repeat Fh 5)) l = Some vs ->
  List.length (fives n vs) = n /\ forall i, (i < n)%nat -> nth_error (fives n vs) i =
    Some [i16 l (10 * i); i16 l (10 * i + 2); i16 l (10 * i + 4); i16 l (10 * i + 6); i16 l (10 * i + 8)].
Proof.
  induction n as [|n IH]; intros l vs E; [split; [reflexivity|intros; lia]|].
  change (copies (S n) (repeat Fh 5)) with (Fh :: Fh :: Fh :: Fh :: Fh :: copies n (repeat Fh 5)) in E.
  pose proof (unpack_nth _ _ _ 0%nat _ E eq_refl) as E0. pose proof (unpack_nth _ _ _ 1%nat _ E eq_refl) as E1. pose proof (unpack_nth _ _ _ 2%nat _ E eq_refl) as E2.
  pose proof (unpack_nth _ _ _ 3%nat _ E eq_refl) as E3. pose proof (unpack_nth _ _ _ 4%nat _ E eq_refl) as E4.
  change (offset 0 _) with 0%nat in E0. change (offset 1 _) with 2%nat in E1. change (offset 2 _) with 4%nat in E2. change (offset 3 _) with 6%nat in E3.
  change (offset 4 _) with 8%nat in E4. cbn [number] in *.
  cbn [unpack] in E. repeat match type of E with context [Nat.ltb ?a ?b] => destruct (Nat.ltb a b); [discriminate|] end.
  rewrite !skip_skip in E. cbn [fsize Nat.add] in E.
  destruct (unpack (copies n (repeat Fh 5)) (skipn 10 l)) as [ws|] eqn:U; [|discriminate]. injection E as <-. cbn [nth] in E0, E1, E2, E3, E4.
  destruct (IH _ _ U) as [L N]. cbn [fives skipn firstn List.length]. split; [congruence|].
  intros [|i] H; cbn [nth_error].
  - rewrite E0, E1, E2, E3, E4. reflexivity.
  - rewrite N by lia. unfold i16, u16, u8. rewrite !nth_skip.
    repeat match goal with |- context [nth (10 + ?t) l 0] => let e := fresh in
      first [ replace (10 + t)%nat with (10 * S i)%nat by lia | replace (10 + t)%nat with (10 * S i + 1)%nat by lia | replace (10 + t)%nat with (10 * S i + 2)%nat by lia
            | replace (10 + t)%nat with (10 * S i + 2 + 1)%nat by lia | replace (10 + t)%nat with (10 * S i + 4)%nat by lia | replace (10 + t)%nat with (10 * S i + 4 + 1)%nat by lia
            | replace (10 + t)%nat with (10 * S i + 6)%nat by lia | replace (10 + t)%nat with (10 * S i + 6 + 1)%nat by lia
            | replace (10 + t)%nat with (10 * S i + 8)%nat by lia | replace (10 + t)%nat with (10 * S i + 8 + 1)%nat by lia ] end.
    reflexivity.
Qed.

(** ** C139: the numbers of a PFM file *)
(** everything the reader keeps is the number at its offset of the file format, and the file is one of a Type1 font *)
Theorem pfm_header : forall enc file p, read_pfm enc file = Some p ->
  (u16 file 0 = 256 /\ u16 file 66 = 129 /\ map lower (null_string file (u32 file 101)) = postscript /\ u32 file 127 = 0) /\
  p_first p = u8 file 95 /\ p_last p = u8 file 96 /\ p_charset p = u8 file 85 /\ p_ascent p = u16 file 74 /\ p_italic p = u8 file 80 /\
  p_weight p = u16 file 83 /\ p_avgwidth p = u16 file 91 /\ p_maxwidth p = u16 file 93 /\
  (let etm := Z.to_nat (u32 file 119) in
   p_capheight p = i16 file (etm + 14) /\ p_lowercasedescent p = i16 file (etm + 20) /\ p_slant p = i16 file (etm + 22)).
Proof.
  intros enc file p R. destruct (read_inv _ _ _ R) as (m & widths & pairs & tracks & M & W & P & T & N & (A & B & C & D) & ->). cbn [p_first p_last p_charset p_ascent p_italic
    p_weight p_avgwidth p_maxwidth p_capheight p_lowercasedescent p_slant].
  rewrite (read_nth _ _ _ _ 7%nat _ M eq_refl), (read_nth _ _ _ _ 10%nat _ M eq_refl), (read_nth _ _ _ _ 11%nat _ M eq_refl). cbv zeta. repeat split; try tauto.
Qed.
Print Assumptions pfm_header.

(** the widths, kerning pairs and track kernings are those of the tables *)
Theorem pfm_tables : forall enc file p, Forall (fun b => 0 <= b < 256) file -> read_pfm enc file = Some p ->
  (List.length (p_widths p) = Z.to_nat (p_last p - p_first p + 1) /\
   forall i, (i < List.length (p_widths p))%nat -> nth_error (p_widths p) i = Some (u16 file (Z.to_nat (u32 file 123) + 2 * i))) /\
  (let table := Z.to_nat (u32 file 131) in
   (table = O -> p_kernpairs p = []) /\
   (table <> O -> Z.of_nat (List.length (p_kernpairs p)) = u16 file table /\ u16 file table = u16 file (Z.to_nat (u32 file 119) + 48) /\
      forall i, (i < List.length (p_kernpairs p))%nat ->
        nth_error (p_kernpairs p) i = Some (u8 file (table + 2 + 4 * i), u8 file (table + 3 + 4 * i), i16 file (table + 4 + 4 * i)))) /\
  (let table := Z.to_nat (u32 file 135) in
   (table = O -> p_trackkerns p = []) /\
   (table <> O -> Z.of_nat (List.length (p_trackkerns p)) = u16 file table /\ u16 file table = u16 file (Z.to_nat (u32 file 119) + 50) /\
      forall i, (i < List.length (p_trackkerns p))%nat ->
        nth_error (p_trackkerns p) i = Some (map (fun k => i16 file (table + 2 + 10 * i + 2 * k)) (seq 0 5)))).
Proof.
  intros enc file p BY R. destruct (read_inv _ _ _ R) as (m & widths & pairs & tracks & M & W & P & T & N & _ & ->).
  cbn [p_first p_last p_widths p_kernpairs p_trackkerns].
  assert (U8 : forall i, 0 <= u8 file i < 256).
  { intros i. unfold u8. destruct (Nat.lt_ge_cases i (List.length file)) as [L|L]; [|rewrite nth_overflow by assumption; lia].
    rewrite Forall_forall in BY. apply BY. apply nth_In, L. }
  assert (U16 : forall i, 0 <= u16 file i < 65536) by (intros i; unfold u16; pose proof (U8 i); pose proof (U8 (i + 1)%nat); lia).
  assert (U32 : forall i, 0 <= u32 file i) by (intros i; unfold u32; pose proof (U16 i); pose proof (U16 (i + 2)%nat); lia).
  rewrite (read_nth _ _ _ _ 24%nat _ M eq_refl) in P. rewrite (read_nth _ _ _ _ 25%nat _ M eq_refl) in T.
  change (offset 24 metrics) with 48%nat in P. change (offset 25 metrics) with 50%nat in T. cbn [number] in P, T.
  split; [|split].
  - destruct (unpack_length _ _ _ W) as [L _]. rewrite repeat_length in L. split; [exact L|]. intros i H.
    assert (K : nth_error (repeat FH (Z.to_nat (u8 file 96 - u8 file 95 + 1))) i = Some FH) by (apply repeat_nth; lia).
    rewrite (nth_error_nth' _ 0) by assumption. rewrite (read_nth _ _ _ _ i _ W K), repeat_offset by lia. cbn [number fsize]. f_equal. f_equal. lia.
  - cbv zeta. unfold kernpairs in P. pose proof (U32 131%nat). destruct (u32 file 131 =? 0) eqn:Z0.
    + split; [intros _; congruence|intros; lia].
    + split; [intros; lia|]. intros _. apply bind_some in P. destruct P as (c & C & P).
      rewrite (read_nth _ _ _ _ 0%nat _ C eq_refl) in P. change (offset 0 [FH]) with 0%nat in P. rewrite Nat.add_0_r in P. cbn [number] in P.
      destruct (u16 file (Z.to_nat (u32 file 131)) =? u16 file (Z.to_nat (u32 file 119) + 48)) eqn:Q; [|discriminate]. cbn [negb] in P. apply Z.eqb_eq in Q.
      apply bind_some in P. destruct P as (l & K & P). injection P as <-. pose proof (U16 (Z.to_nat (u32 file 131))).
      unfold read_at in K. destruct (triples_read _ _ _ K) as [L I]. rewrite L, Q. split; [lia|split; [reflexivity|]]. intros i H1. rewrite I by assumption.
      rewrite <- (proj2 (unpack_length _ _ _ K)). destruct (unpack_length _ _ _ K) as [_ LL]. clear K I.
      assert (SZ : forall n, fold_right (fun f n => (fsize f + n)%nat) O (copies n [FB; FB; Fh]) = (4 * n)%nat).
      { induction n as [|n IH]; [reflexivity|]. cbn [copies]. rewrite size_app, IH. cbn [fold_right fsize]. lia. }
      rewrite LL. rewrite SZ in *.
      pose proof (number_part FB file (4 * i) (4 * Z.to_nat (u16 file (Z.to_nat (u32 file 119) + 48))) (Z.to_nat (u32 file 131 + 2)) ltac:(cbn [fsize]; lia)) as N1.
      pose proof (number_part FB file (4 * i + 1) (4 * Z.to_nat (u16 file (Z.to_nat (u32 file 119) + 48))) (Z.to_nat (u32 file 131 + 2)) ltac:(cbn [fsize]; lia)) as N2.
      pose proof (number_part Fh file (4 * i + 2) (4 * Z.to_nat (u16 file (Z.to_nat (u32 file 119) + 48))) (Z.to_nat (u32 file 131 + 2)) ltac:(cbn [fsize]; lia)) as N3.
      cbn [number] in N1, N2, N3. rewrite N1, N2, N3.
      replace (Z.to_nat (u32 file 131 + 2)) with (Z.to_nat (u32 file 131) + 2)%nat by lia.
      replace (Z.to_nat (u32 file 131) + 2 + (4 * i + 1))%nat with (Z.to_nat (u32 file 131) + 3 + 4 * i)%nat by lia.
      replace (Z.to_nat (u32 file 131) + 2 + (4 * i + 2))%nat with (Z.to_nat (u32 file 131) + 4 + 4 * i)%nat by lia. reflexivity.
  - cbv zeta. unfold trackkerns in T. pose proof (U32 135%nat). destruct (u32 file 135 =? 0) eqn:Z0.
    + split; [intros _; congruence|intros; lia].
    + split; [intros; lia|]. intros _. apply bind_some in T. destruct T as (c & C & T).
      rewrite (read_nth _ _ _ _ 0%nat _ C eq_refl) in T. change (offset 0 [FH]) with 0%nat in T. rewrite Nat.add_0_r in T. cbn [number] in T.
      destruct (u16 file (Z.to_nat (u32 file 135)) =? u16 file (Z.to_nat (u32 file 119) + 50)) eqn:Q; [|discriminate]. cbn [negb] in T. apply Z.eqb_eq in Q.
      apply bind_some in T. destruct T as (l & K & T). apply (f_equal (fun o => match o with Some t => t | None => [] end)) in T. rewrite <- T. pose proof (U16 (Z.to_nat (u32 file 135))).
      unfold read_at in K. destruct (fives_read _ _ _ K) as [L I]. rewrite L, Q. split; [lia|split; [reflexivity|]]. intros i H1. rewrite I by assumption.
      assert (SZ : forall n, fold_right (fun f n => (fsize f + n)%nat) O (copies n (repeat Fh 5)) = (10 * n)%nat).
      { induction n as [|n IH]; [reflexivity|]. cbn [copies]. rewrite size_app, IH. cbn [fold_right repeat fsize]. lia. }
      rewrite SZ in *. clear K I T L.
      assert (NN : forall k, (k < 5)%nat -> i16 (firstn (10 * Z.to_nat (u16 file (Z.to_nat (u32 file 119) + 50))) (skipn (Z.to_nat (u32 file 135 + 2)) file)) (10 * i + 2 * k) =
        i16 file (Z.to_nat (u32 file 135) + 2 + 10 * i + 2 * k)).
      { intros k Hk. pose proof (number_part Fh file (10 * i + 2 * k) (10 * Z.to_nat (u16 file (Z.to_nat (u32 file 119) + 50))) (Z.to_nat (u32 file 135 + 2)) ltac:(cbn [fsize]; lia)) as N1.
        cbn [number] in N1. rewrite N1. f_equal. lia. }
      pose proof (NN 0%nat ltac:(lia)) as K0. pose proof (NN 1%nat ltac:(lia)) as K1. pose proof (NN 2%nat ltac:(lia)) as K2. pose proof (NN 3%nat ltac:(lia)) as K3.
      pose proof (NN 4%nat ltac:(lia)) as K4. change (2 * 0)%nat with 0%nat in K0. rewrite !Nat.add_0_r in K0.
      change (2 * 1)%nat with 2%nat in K1. change (2 * 2)%nat with 4%nat in K2. change (2 * 3)%nat with 6%nat in K3. change (2 * 4)%nat with 8%nat in K4.
      cbn [map seq]. change (2 * 0)%nat with 0%nat. rewrite K0, K1, K2, K3, K4, Nat.add_0_r. reflexivity.
Qed.
Print Assumptions pfm_tables.

(** ** widths of glyphs *)
Lemma dict_get_last : forall l g c, dict_get l g = Some c <-> exists l1 l2, l = l1 ++ (g, c) :: l2 /\ ~ In g (map fst l2).
Proof.
  induction l as [|[k v] l IH]; intros g c.
  - split; [discriminate|]. intros (l1 & l2 & E & _). now destruct l1.
  - assert (NONE : dict_get l g = None <-> ~ In g (map fst l)).
    { clear. induction l as [|[k v] l IH]; cbn [dict_get map fst In]; [tauto|]. destruct (dict_get l g).
      - split; [discriminate|]. intros H. assert (D : ~ In g (map fst l)) by tauto. apply IH in D. discriminate.
      - destruct (String.eqb_spec k g) as [->|D]; [split; [discriminate|tauto]|]. split; [|reflexivity]. intros _ [E|E]; [congruence|]. revert E. now apply IH. }
    cbn [dict_get]. destruct (dict_get l g) as [w|] eqn:D.
    + split.
      * intros E. injection E as ->. destruct (proj1 (IH g c) D) as (l1 & l2 & -> & N). now exists ((k, v) :: l1), l2.
      * intros (l1 & l2 & E & N). destruct l1 as [|x l1].
        -- cbn in E. injection E as <- <- <-. apply NONE in N. congruence.
        -- cbn in E. injection E as <- ->. rewrite <- D. apply IH. now exists l1, l2.
    + destruct (String.eqb_spec k g) as [->|K].
      * split.
        -- intros E. injection E as ->. exists [], l. split; [reflexivity|]. exact (proj1 NONE eq_refl).
        -- intros (l1 & l2 & E & N). destruct l1 as [|x l1]; [cbn in E; injection E as ->; reflexivity|]. cbn in E. injection E as <- ->. exfalso.
           apply (proj1 NONE eq_refl). rewrite map_app. apply in_or_app. right. left. reflexivity.
      * split; [discriminate|]. intros (l1 & l2 & E & N). destruct l1 as [|x l1]; cbn in E; [injection E as -> _ _; congruence|]. injection E as <- ->. exfalso.
        apply (proj1 NONE eq_refl). rewrite map_app. apply in_or_app. right. left. reflexivity.
Qed.
Lemma encoded_nth : forall enc i g c, In (g, c) (encoded i enc) <-> exists n, nth_error enc n = Some (Some g) /\ c = i + Z.of_nat n.
Proof.
  induction enc as [|[h|] enc IH]; intros i g c; cbn [encoded In].
  - split; [tauto|]. intros ([|n] & E & _); discriminate.
  - rewrite IH. split.
    + intros [E|(n & E & ->)]; [injection E as <- <-; exists 0%nat; cbn; split; [reflexivity|lia]|]. exists (S n). cbn [nth_error]. split; [exact E|lia].
    + intros ([|n] & E & ->); cbn [nth_error] in E; [left; injection E as ->; f_equal; lia|]. right. exists n. split; [exact E|lia].
  - rewrite IH. split.
    + intros (n & E & ->). exists (S n). cbn [nth_error]. split; [exact E|lia].
    + intros ([|n] & E & ->); cbn [nth_error] in E; [discriminate|]. exists n. split; [exact E|lia].
Qed.
Lemma encoded_get : forall enc i g, NoDup (filter (fun o => match o with Some _ => true | None => false end) enc) ->
  forall c, dict_get (encoded i enc) g = Some c <-> exists n, nth_error enc n = Some (Some g) /\ c = i + Z.of_nat n.
Proof.
  intros enc i g ND c. split.
  - intros D. apply dict_get_last in D. destruct D as (l1 & l2 & E & _). apply encoded_nth. rewrite E. apply in_or_app. right. left. reflexivity.
  - revert i c. induction enc as [|[h|] enc IH]; intros i c (n & E & ->).
    + destruct n; discriminate.
    + cbn [filter] in ND. apply NoDup_cons_iff in ND. destruct ND as [NI ND]. destruct n as [|n]; cbn [nth_error] in E.
      * injection E as ->. cbn [encoded dict_get]. destruct (dict_get (encoded (i + 1) enc) g) as [w|] eqn:D.
        -- exfalso. apply dict_get_last in D. destruct D as (l1 & l2 & E & _). assert (I : In (g, w) (encoded (i + 1) enc)) by (rewrite E; apply in_or_app; right; left; reflexivity).
           apply encoded_nth in I. destruct I as (n & K & _). apply NI. apply filter_In. split; [|reflexivity]. eapply nth_error_In; exact K.
        -- rewrite String.eqb_refl. f_equal. lia.
      * cbn [encoded dict_get]. rewrite (IH ND (i + 1) (i + Z.of_nat (S n))); [reflexivity|]. exists n. split; [exact E|lia].
    + cbn [filter] in ND. destruct n as [|n]; cbn [nth_error] in E; [discriminate|]. cbn [encoded]. apply (IH ND). exists n. split; [exact E|lia].
Qed.

(** a font with its own encoding, in which each glyph occurs once: the glyph at a code between the first and the last one has the width found for this code in the table *)
Theorem pfm_widths_encoded : forall enc file p g n, Forall (fun b => 0 <= b < 256) file -> read_pfm enc file = Some p ->
  u8 file 85 <> 0 -> NoDup (filter (fun o => match o with Some _ => true | None => false end) enc) ->
  nth_error enc n = Some (Some g) -> u8 file 95 <= Z.of_nat n <= u8 file 96 ->
  width_ds p g = Some (u16 file (Z.to_nat (u32 file 123) + 2 * (n - Z.to_nat (u8 file 95)))).
Proof.
  intros enc file p g n BY R CS ND G RG. destruct (pfm_tables _ _ _ BY R) as [[L W] _]. destruct (pfm_header _ _ _ R) as (_ & F & LA & _).
  unfold width_ds.
  assert (PG : p_glyphs p = encoded 0 enc).
  { destruct (read_inv _ _ _ R) as (m & widths & pairs & tracks & _ & _ & _ & _ & _ & _ & ->). cbn [p_glyphs]. apply Z.eqb_neq in CS. rewrite CS. reflexivity. }
  rewrite PG. rewrite (proj2 (encoded_get enc 0 g ND (Z.of_nat n)) ltac:(exists n; split; [exact G|lia])). cbn [bind].
  assert (0 <= u8 file 95) by (unfold u8; destruct (Nat.lt_ge_cases 95 (List.length file)); [rewrite Forall_forall in BY; apply BY, nth_In; assumption|rewrite nth_overflow by assumption; lia]).
  unfold py_index. destruct (0 <=? Z.of_nat n - p_first p) eqn:B; [|lia]. rewrite W by lia. f_equal. f_equal. lia.
Qed.
Print Assumptions pfm_widths_encoded.

(** a font with the Windows encoding: the same for all the glyphs of the dictionary which occur once in it, at their codes *)
Theorem pfm_widths_ansi_partial : forall enc file p g c, Forall (fun b => 0 <= b < 256) file -> read_pfm enc file = Some p ->
  u8 file 85 = 0 -> In (g, c) ansiglyphs -> ~ In g ["space"; "hyphen"; "bullet"]%string -> u8 file 95 <= c <= u8 file 96 ->
  width_ds p g = Some (u16 file (Z.to_nat (u32 file 123 + 2 * (c - u8 file 95)))).
Proof.
  intros enc file p g c BY R CS G NR RG. destruct (pfm_tables _ _ _ BY R) as [[L W] _]. destruct (pfm_header _ _ _ R) as (_ & F & LA & _).
  unfold width_ds.
  assert (PG : p_glyphs p = ansiglyphs).
  { destruct (read_inv _ _ _ R) as (m & widths & pairs & tracks & _ & _ & _ & _ & _ & _ & ->). cbn [p_glyphs]. apply Z.eqb_eq in CS. rewrite CS. reflexivity. }
  rewrite PG.
  assert (U8 : forall i, 0 <= u8 file i < 256).
  { intros i. unfold u8. destruct (Nat.lt_ge_cases i (List.length file)) as [K|K]; [|rewrite nth_overflow by assumption; lia].
    rewrite Forall_forall in BY. apply BY. apply nth_In, K. }
  assert (DG : dict_get ansiglyphs g = Some c).
  { assert (A : Forall (fun gc => In (fst gc) ["space"; "hyphen"; "bullet"]%string \/ dict_get ansiglyphs (fst gc) = Some (snd gc)) ansiglyphs).
    { apply Forall_forall. intros [k v] I.
      assert (B : forallb (fun gc => existsb (String.eqb (fst gc)) ["space"; "hyphen"; "bullet"]%string ||
        match dict_get ansiglyphs (fst gc) with Some w => w =? snd gc | None => false end) ansiglyphs = true) by (vm_compute; reflexivity).
      rewrite forallb_forall in B. specialize (B _ I). apply orb_true_iff in B. destruct B as [B|B].
      - left. apply existsb_exists in B. destruct B as (y & Y & E). apply String.eqb_eq in E. rewrite E. exact Y.
      - right. destruct (dict_get ansiglyphs (fst (k, v))); [|discriminate]. apply Z.eqb_eq in B. now rewrite B. }
    rewrite Forall_forall in A. specialize (A _ G). cbn [fst snd] in A. tauto. }
  rewrite DG. cbn [bind].
  assert (0 <= u32 file 123) by (unfold u32, u16; pose proof (U8 123%nat); pose proof (U8 (123 + 1)%nat); pose proof (U8 (123 + 2)%nat); pose proof (U8 (123 + 2 + 1)%nat); lia).
  pose proof (U8 95%nat). unfold py_index. destruct (0 <=? c - p_first p) eqn:B; [|lia]. rewrite W by lia. f_equal. f_equal. lia.
Qed.
Print Assumptions pfm_widths_ansi_partial.

(** ** kernings *)
Lemma kern_last : forall l a b k, kern l a b = Some k <-> exists l1 l2, l = l1 ++ (a, b, k) :: l2 /\ forall k', ~ In (a, b, k') l2.
Proof.
  assert (NONE : forall l a b, kern l a b = None <-> forall k, ~ In (a, b, k) l).
  { induction l as [|[[x y] k] l IH]; intros a b; cbn [kern In]; [split; auto|]. destruct (kern l a b) as [v|] eqn:K.
    - split; [discriminate|]. intros H. assert (D : kern l a b = None) by (apply IH; intros k' I; apply (H k'); right; exact I). congruence.
    - destruct ((x =? a) && (y =? b)) eqn:E.
      + split; [discriminate|]. intros H. exfalso. apply (H k). left. assert (x = a /\ y = b) as [-> ->] by lia. reflexivity.
      + split; [|reflexivity]. intros _ k' [I|I]; [injection I as -> -> _; lia|]. revert I. now apply IH. }
  induction l as [|[[x y] v] l IH]; intros a b k.
  - split; [discriminate|]. intros (l1 & l2 & E & _). now destruct l1.
  - cbn [kern]. destruct (kern l a b) as [w|] eqn:D.
    + split.
      * intros E. injection E as ->. destruct (proj1 (IH a b k) D) as (l1 & l2 & -> & N). now exists ((x, y, v) :: l1), l2.
      * intros (l1 & l2 & E & N). destruct l1 as [|z l1].
        -- cbn in E. injection E as <- <- <- <-. assert (Q : kern l x y = None) by (apply NONE; exact N). congruence.
        -- cbn in E. injection E as <- ->. rewrite <- D. apply IH. now exists l1, l2.
    + destruct ((x =? a) && (y =? b)) eqn:XY.
      * assert (x = a /\ y = b) as [-> ->] by lia. split.
        -- intros E. injection E as ->. exists [], l. split; [reflexivity|]. now apply NONE.
        -- intros (l1 & l2 & E & N). destruct l1 as [|z l1]; [cbn in E; injection E as -> _; reflexivity|]. cbn in E. injection E as <- ->. exfalso.
           apply (proj1 (NONE _ _ _) D k). apply in_or_app. right. left. reflexivity.
      * split; [discriminate|]. intros (l1 & l2 & E & N). destruct l1 as [|z l1]; cbn in E; [injection E as -> -> _ _; lia|]. injection E as <- ->. exfalso.
        apply (proj1 (NONE _ _ _) D k). apply in_or_app. right. left. reflexivity.
Qed.

(** between two glyphs there is the amount of the last kerning pair for their codes, unless there is none or it is 0 *)
Theorem pfm_kernings : forall p gs ks, resolvekernings p gs = Some ks ->
  List.length ks = (List.length gs - 1)%nat /\
  forall i a b, nth_error gs i = Some a -> nth_error gs (i + 1) = Some b ->
  exists ca cb, dict_get (p_glyphs p) a = Some ca /\ dict_get (p_glyphs p) b = Some cb /\
  forall k, nth_error ks i = Some (Some k) <-> k <> 0 /\ exists l1 l2, p_kernpairs p = l1 ++ (ca, cb, k) :: l2 /\ forall k', ~ In (ca, cb, k') l2.
Proof.
  assert (G : forall p gs b ks, resolve p (Some b) gs = Some ks -> List.length ks = List.length gs /\
    forall i c, nth_error gs i = Some c -> exists cc, dict_get (p_glyphs p) c = Some cc /\
    forall cb, (match i with O => Some b | S j => match nth_error gs j with Some h => dict_get (p_glyphs p) h | None => None end end) = Some cb ->
    nth_error ks i = Some (match kern (p_kernpairs p) cb cc with Some k => if k =? 0 then None else Some k | None => None end)).
  { intros p gs. induction gs as [|g gs IH]; intros b ks E; cbn [resolve] in E.
    - injection E as <-. split; [reflexivity|]. intros [|i] c K; discriminate.
    - apply bind_some in E. destruct E as (cg & CG & E). apply bind_some in E. destruct E as (rest & RE & E). injection E as <-.
      destruct (IH _ _ RE) as [L N]. split; [cbn [List.length]; congruence|]. intros [|i] c K; cbn [nth_error] in K.
      + injection K as <-. exists cg. split; [exact CG|]. intros cb B. injection B as <-. reflexivity.
      + destruct (N _ _ K) as (cc & CC & V). exists cc. split; [exact CC|]. intros cb B. cbn [nth_error]. apply V. destruct i as [|i]; cbn [nth_error] in B; [congruence|exact B]. }
  intros p gs ks E. unfold resolvekernings in E. destruct gs as [|g [|h r]].
  - injection E as <-. split; [reflexivity|]. intros [|i]; discriminate.
  - cbn in E. injection E as <-. split; [reflexivity|]. intros [|[|i]] a b K1 K2; cbn in K1, K2; try discriminate.
  - change (bind (dict_get (p_glyphs p) g) (fun c => resolve p (Some c) (h :: r)) = Some ks) in E. apply bind_some in E. destruct E as (cg & CG & E).
    destruct (G _ _ _ _ E) as [L N]. split; [cbn [List.length] in *; lia|]. intros i a b A B. rewrite Nat.add_1_r in B. cbn [nth_error] in B.
    destruct (N _ _ B) as (cb & CB & V).
    assert (exists ca, dict_get (p_glyphs p) a = Some ca) as [ca CA].
    { destruct i as [|i]; cbn [nth_error] in A; [injection A as <-; now exists cg|]. destruct (N _ _ A) as (cc & CC & _). now exists cc. }
    exists ca, cb. split; [exact CA|split; [exact CB|]]. intros k. rewrite (V ca).
    + rewrite <- kern_last. destruct (kern (p_kernpairs p) ca cb) as [v|].
      * destruct (v =? 0) eqn:V0; split.
        -- discriminate.
        -- intros [K H]. injection H as ->. lia.
        -- intros H. injection H as ->. split; [lia|reflexivity].
        -- intros [K H]. congruence.
      * split; [discriminate|]. intros [_ H]. discriminate.
    + destruct i as [|i]; cbn [nth_error] in A; [congruence|]. rewrite A. exact CA.
Qed.
Print Assumptions pfm_kernings.

(** ** flags: the bits of the PDF font descriptor flags (numbered from 0): 0 fixed pitch, 1 serif, 2 symbolic, 5 nonsymbolic, 6 italic, and no others *)
Theorem pfm_flags : forall p serif symbol n, 0 <= n ->
  Z.testbit (flags p serif symbol) n =
  ((n =? 0) && (p_avgwidth p =? p_maxwidth p) || (n =? 1) && serif || (n =? 2) && symbol || (n =? 5) && negb symbol || (n =? 6) && negb (p_italic p =? 0)).
Proof.
  intros p serif symbol n N. unfold flags. rewrite (Z.eqb_sym (p_avgwidth p)).
  destruct (p_maxwidth p =? p_avgwidth p), serif, symbol, (p_italic p =? 0); cbn [negb Z.shiftl Pos.iter Z.mul Z.add Pos.mul Pos.add Pos.succ];
    destruct (Z.lt_ge_cases n 8) as [L|L];
    try (rewrite Z.bits_above_log2; [lia|lia|change 8 with (7 + 1) in L; cbn; lia]);
    assert (n = 0 \/ n = 1 \/ n = 2 \/ n = 3 \/ n = 4 \/ n = 5 \/ n = 6 \/ n = 7) as [-> | [-> | [-> | [-> | [-> | [-> | [-> | ->]]]]]]] by lia; reflexivity.
Qed.
Print Assumptions pfm_flags.

(** ** examples and what is wrong *)
Definition b2 (n : Z) : list Z := [n mod 256; n / 256].
Definition b4 (n : Z) : list Z := b2 (n mod 65536) ++ b2 (n / 65536).
(** a file: 147 bytes of header, the device name at 147, the face name at 158, the driver info at 160, the metrics at 162, the widths at 214 and the kerning pairs after them *)
Definition small_file (charset first last : Z) (widths : list Z) (pairs : list (Z * Z * Z)) : list Z :=
  b2 256 ++ b4 500 ++ repeat 0 60 ++ b2 129 ++ b2 10 ++ b2 300 ++ b2 300 ++ b2 683 ++ b2 0 ++ b2 0 ++ [1; 0; 0] ++ b2 400 ++ [charset] ++ b2 0 ++ b2 0 ++ [0] ++ b2 500 ++ b2 1000 ++
  [first; last; 0; 0] ++ b2 0 ++ b4 147 ++ b4 158 ++ b4 0 ++ b4 0 ++
  b2 30 ++ b4 162 ++ b4 214 ++ b4 0 ++ b4 (214 + 2 * Z.of_nat (List.length widths)) ++ b4 0 ++ b4 160 ++ b4 0 ++
  [80; 111; 115; 116; 83; 99; 114; 105; 112; 116; 0] ++ [70; 0] ++ [68; 0] ++
  flat_map b2 ([52; 0; 0; 0; 0; 0; 0; 662; 450; 683; 217; 65380] ++ repeat 0 12 ++ [Z.of_nat (List.length pairs); 0]) ++
  flat_map b2 widths ++ b2 (Z.of_nat (List.length pairs)) ++ flat_map (fun '(a, b, k) => [a; b] ++ b2 (k mod 65536)) pairs.

Example pfm_ex : exists p, read_pfm [] (small_file 0 65 67 [722; 667; 660] [(65, 66, -40); (66, 67, 15); (65, 66, -55)]) = Some p /\
  p_widths p = [722; 667; 660] /\ p_kernpairs p = [(65, 66, -40); (66, 67, 15); (65, 66, -55)] /\ p_ascent p = 683 /\ p_capheight p = 662 /\ p_lowercasedescent p = 217 /\
  p_slant p = -156 /\ width_ds p "B" = Some 667 /\ resolvekernings p ["A"; "B"; "C"; "A"]%string = Some [Some (-55); Some 15; None] /\ flags p true false = 98.
Proof. eexists. split; [vm_compute; reflexivity|]. repeat split; vm_compute; reflexivity. Qed.
Example pfm_encoded_ex : exists p, read_pfm [None; Some "alpha"; None; Some "beta"]%string (small_file 2 1 3 [631; 0; 549] []) = Some p /\
  width_ds p "alpha" = Some 631 /\ width_ds p "beta" = Some 549 /\ width_ds p "A" = None.
Proof. eexists. split; [vm_compute; reflexivity|]. repeat split; vm_compute; reflexivity. Qed.
(** files of another version, cut files and negative numbers of characters are refused *)
Example pfm_errors_ex : read_pfm [] (skipn 1 (small_file 0 65 67 [722; 667; 660] [])) = None /\ read_pfm [] (firstn 216 (small_file 0 65 67 [722; 667; 660] [])) = None /\
  read_pfm [] (small_file 0 67 60 [722] []) = None.
Proof. repeat split; vm_compute; reflexivity. Qed.

(** the names space, hyphen and bullet are repeated in the dictionary ansiglyphs: the space at 32 and the hyphen at 45, which all texts use, are replaced by those
    at 160 and 173.  With a table which ends before them the width of a space is an IndexError though it is in the table, and kerning pairs with a space are never used. *)
Theorem pfm_space_refuted :
  dict_get ansiglyphs "space" = Some 160 /\ dict_get ansiglyphs "hyphen" = Some 173 /\ dict_get ansiglyphs "bullet" = Some 157 /\
  exists p, read_pfm [] (small_file 0 32 65 (250 :: repeat 500 33) [(32, 65, -55)]) = Some p /\ p_first p = 32 /\ nth_error (p_widths p) 0 = Some 250 /\
  p_kernpairs p = [(32, 65, -55)] /\ width_ds p "space" = None /\ resolvekernings p ["space"; "A"]%string = Some [None].
Proof. repeat split; [vm_compute; reflexivity ..|]. eexists. split; [vm_compute; reflexivity|]. repeat split; vm_compute; reflexivity. Qed.
Print Assumptions pfm_space_refuted.

(** a glyph whose code is below the first one of the table gets the width of another glyph, as a negative index counts from the end *)
Theorem pfm_negative_index_refuted : exists p, read_pfm [] (small_file 0 66 68 [667; 660; 722] []) = Some p /\ p_first p = 66 /\
  dict_get (p_glyphs p) "A" = Some 65 /\ width_ds p "A" = Some 722 /\ width_ds p "D" = Some 722 /\ width_ds p "E" = None.
Proof. eexists. split; [vm_compute; reflexivity|]. repeat split; vm_compute; reflexivity. Qed.
Print Assumptions pfm_negative_index_refuted.
