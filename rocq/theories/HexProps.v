(** C65: bytes and hexadecimal strings of colors *)
From Coq Require Import ZArith Floats.SpecFloat Ascii String List Bool Lia.
From Verif Require Import HexModel.
Import ListNotations.
Open Scope Z_scope.

Definition byte (v : Z) : Prop := 0 <= v <= 255.
(** the color of three bytes *)
Definition of_bytes (r g b : Z) : rgb := {| red := fdiv (flt r) (flt 255); green := fdiv (flt g) (flt 255); blue := fdiv (flt b) (flt 255) |}.
Definition bytes256 : list Z := map Z.of_nat (seq 0 256).
Lemma byte_in v : byte v -> In v bytes256.
Proof. intros H. unfold byte in H. apply in_map_iff. exists (Z.to_nat v). split; [lia|]. apply in_seq. lia. Qed.
Lemma byte_float v : byte v -> byte_of (fdiv (flt v) (flt 255)) = Some v /\ in_range (fdiv (flt v) (flt 255)) = true.
Proof.
  intros H. assert (forallb (fun v => (match byte_of (fdiv (flt v) (flt 255)) with Some w => Z.eqb w v | None => false end) && in_range (fdiv (flt v) (flt 255))) bytes256 = true) as A by (vm_compute; reflexivity).
  rewrite forallb_forall in A. specialize (A v (byte_in v H)). apply andb_true_iff in A as [A B]. split; auto.
  destruct (byte_of (fdiv (flt v) (flt 255))); [|discriminate]. apply Z.eqb_eq in A. now subst.
Qed.
Lemma digits v : byte v -> hexvalue (hexdigit (v / 16)) = Some (v / 16) /\ hexvalue (hexdigit (v mod 16)) = Some (v mod 16) /\
  is_space (hexdigit (v / 16)) = false /\ is_space (hexdigit (v mod 16)) = false /\ Ascii.eqb "#" (hexdigit (v / 16)) = false.
Proof.
  intros H. assert (forallb (fun v => (match hexvalue (hexdigit (v / 16)), hexvalue (hexdigit (v mod 16)) with Some a, Some b => Z.eqb a (v / 16) && Z.eqb b (v mod 16) | _, _ => false end)
     && negb (is_space (hexdigit (v / 16))) && negb (is_space (hexdigit (v mod 16))) && negb (Ascii.eqb "#" (hexdigit (v / 16)))) bytes256 = true) as A by (vm_compute; reflexivity).
  rewrite forallb_forall in A. specialize (A v (byte_in v H)). rewrite !andb_true_iff, !negb_true_iff in A. destruct A as [[[A B] C] D].
  destruct (hexvalue (hexdigit (v / 16))); [|discriminate]. destruct (hexvalue (hexdigit (v mod 16))); [|discriminate].
  apply andb_true_iff in A as [A1 A2]. apply Z.eqb_eq in A1, A2. subst. auto.
Qed.
Lemma new_of_bytes r g b : byte r -> byte g -> byte b -> new_rgb (fdiv (flt r) (flt 255)) (fdiv (flt g) (flt 255)) (fdiv (flt b) (flt 255)) = Some (of_bytes r g b).
Proof. intros R G B. unfold new_rgb. now rewrite (proj2 (byte_float r R)), (proj2 (byte_float g G)), (proj2 (byte_float b B)). Qed.
Lemma to_bytes r g b : byte r -> byte g -> byte b -> to8bitbytes (of_bytes r g b) = Some [r; g; b].
Proof. intros R G B. unfold to8bitbytes, of_bytes. cbn [red green blue]. now rewrite (proj1 (byte_float r R)), (proj1 (byte_float g G)), (proj1 (byte_float b B)). Qed.
Lemma drop_last {A} (p : A -> bool) (l : list A) x : p x = false -> rev (drop_while p (rev (l ++ [x]))) = l ++ [x].
Proof. intros H. rewrite rev_app_distr. cbn. rewrite H. cbn. rewrite rev_involutive. reflexivity. Qed.
(** text of 3 or 6 characters between hashes and white space *)
Lemma strip_core (l : list ascii) x y : is_space x = false -> is_space y = false -> strip (x :: l ++ [y]) = x :: l ++ [y].
Proof. intros X Y. unfold strip. cbn [drop_while]. rewrite X. apply (drop_last is_space (x :: l) y Y). Qed.

(** C65: the string of a color made from bytes gives the color back, in every form *)
Theorem hexstring_roundtrip : forall r g b cssstrip addhash, byte r -> byte g -> byte b ->
  exists s, tohexstring (of_bytes r g b) cssstrip addhash = Some s /\ rgbfromhexstring s = Some (of_bytes r g b).
Proof.
  intros r g b cssstrip addhash R G B.
  destruct (digits r R) as (R1 & R2 & R3 & R4 & R5). destruct (digits g G) as (G1 & G2 & G3 & G4 & G5). destruct (digits b B) as (B1 & B2 & B3 & B4 & B5).
  assert (forall v, v = 16 * (v / 16) + v mod 16) as DM by (intros; apply Z.div_mod; lia).
  unfold tohexstring. rewrite to_bytes by auto. cbn [b2a_hex flat_map app nth].
  set (h0 := hexdigit (r / 16)) in *. set (h1 := hexdigit (r mod 16)) in *. set (h2 := hexdigit (g / 16)) in *. set (h3 := hexdigit (g mod 16)) in *.
  set (h4 := hexdigit (b / 16)) in *. set (h5 := hexdigit (b mod 16)) in *.
  destruct (cssstrip && Ascii.eqb h0 h1 && Ascii.eqb h2 h3 && Ascii.eqb h4 h5) eqn:E.
  - rewrite !andb_true_iff in E. destruct E as [[[_ E1] E2] E3]. apply Ascii.eqb_eq in E1, E2, E3.
    assert (rgbfromhexstring [h0; h2; h4] = Some (of_bytes r g b)) as K.
    { unfold rgbfromhexstring. change [h0; h2; h4] with (h0 :: [h2] ++ [h4]). rewrite strip_core by auto. cbn [app drop_while]. rewrite R5. cbn [List.length Nat.eqb nth a2b_hex].
      rewrite R1, G1, B1. assert (hexvalue h0 = Some (r mod 16)) as X1 by (rewrite E1; auto). assert (hexvalue h2 = Some (g mod 16)) as X2 by (rewrite E2; auto). assert (hexvalue h4 = Some (b mod 16)) as X3 by (rewrite E3; auto).
      assert (r / 16 = r mod 16) as Y1 by congruence. assert (g / 16 = g mod 16) as Y2 by congruence. assert (b / 16 = b mod 16) as Y3 by congruence.
      replace (16 * (r / 16) + r / 16) with r by (rewrite (DM r) at 1; lia). replace (16 * (g / 16) + g / 16) with g by (rewrite (DM g) at 1; lia). replace (16 * (b / 16) + b / 16) with b by (rewrite (DM b) at 1; lia).
      now apply new_of_bytes. }
    eexists. split; [reflexivity|]. destruct addhash; auto.
    unfold rgbfromhexstring in *. change ("#"%char :: [h0; h2; h4]) with ("#"%char :: [h0; h2] ++ [h4]). rewrite strip_core by auto.
    change [h0; h2; h4] with (h0 :: [h2] ++ [h4]) in K. rewrite strip_core in K by auto. exact K.
  - assert (rgbfromhexstring [h0; h1; h2; h3; h4; h5] = Some (of_bytes r g b)) as K.
    { unfold rgbfromhexstring. change [h0; h1; h2; h3; h4; h5] with (h0 :: [h1; h2; h3; h4] ++ [h5]). rewrite strip_core by auto. cbn [app drop_while]. rewrite R5. cbn [List.length Nat.eqb nth a2b_hex].
      rewrite R1, R2, G1, G2, B1, B2, <- !DM. now apply new_of_bytes. }
    eexists. split; [reflexivity|]. destruct addhash; auto.
    unfold rgbfromhexstring in *. change ("#"%char :: [h0; h1; h2; h3; h4; h5]) with ("#"%char :: [h0; h1; h2; h3; h4] ++ [h5]). rewrite strip_core by auto.
    change [h0; h1; h2; h3; h4; h5] with (h0 :: [h1; h2; h3; h4] ++ [h5]) in K. rewrite strip_core in K by auto. exact K.
Qed.
Print Assumptions hexstring_roundtrip.

(** lower case of a hexadecimal digit *)
Definition lower (c : ascii) : ascii := let n := nat_of_ascii c in if Nat.leb 65 n && Nat.leb n 70 then ascii_of_nat (n + 32) else c.
Definition is_hex (c : ascii) : Prop := exists v, 0 <= v <= 15 /\ (c = nth (Z.to_nat v) (list_ascii_of_string "0123456789abcdef") Ascii.zero \/ c = nth (Z.to_nat v) (list_ascii_of_string "0123456789ABCDEF") Ascii.zero).
Lemma all_ascii (P : ascii -> bool) : forallb (fun n => P (ascii_of_nat n)) (seq 0 256) = true -> forall c, P c = true.
Proof.
  intros A c. rewrite forallb_forall in A. rewrite <- (ascii_nat_embedding c). apply A. apply in_seq. pose proof (nat_ascii_bounded c). lia.
Qed.
Lemma hex_facts c : (match hexvalue c with Some v => (0 <=? v) && (v <=? 15) && Ascii.eqb (hexdigit v) (lower c) && negb (is_space c) && negb (Ascii.eqb "#" c) &&
   (Ascii.eqb c (nth (Z.to_nat v) (list_ascii_of_string "0123456789abcdef") Ascii.zero) || Ascii.eqb c (nth (Z.to_nat v) (list_ascii_of_string "0123456789ABCDEF") Ascii.zero)) | None => true end) = true.
Proof. revert c. apply all_ascii. vm_compute. reflexivity. Qed.
Lemma hex_value c : is_hex c <-> exists v, hexvalue c = Some v.
Proof.
  split.
  - intros (v & V & E). assert (In v (map Z.of_nat (seq 0 16))) as I by (apply in_map_iff; exists (Z.to_nat v); split; [lia|apply in_seq; lia]).
    cbn in I. repeat (destruct I as [<-|I]; [destruct E as [-> | ->]; eexists; reflexivity|]). destruct I.
  - intros [v E]. pose proof (hex_facts c) as F. rewrite E in F. rewrite !andb_true_iff, orb_true_iff in F. destruct F as [[[[[F1 F2] F3] F4] F5] F6].
    exists v. split; [lia|]. rewrite !Ascii.eqb_eq in F6. exact F6.
Qed.
Lemma hex_value_facts c v : hexvalue c = Some v -> 0 <= v <= 15 /\ hexdigit v = lower c /\ is_space c = false /\ Ascii.eqb "#" c = false.
Proof.
  intros E. pose proof (hex_facts c) as F. rewrite E in F. rewrite !andb_true_iff, !negb_true_iff in F. destruct F as [[[[[F1 F2] F3] F4] F5] F6].
  rewrite Ascii.eqb_eq in F3. repeat split; auto; lia.
Qed.

Lemma drop_split {A} (p : A -> bool) l : exists w, l = w ++ drop_while p l /\ Forall (fun a => p a = true) w.
Proof.
  induction l as [|a l (w & E & F)]; [exists []; auto|]. cbn. destruct (p a) eqn:P; [|exists []; auto].
  exists (a :: w). cbn. split; [congruence|]. constructor; auto.
Qed.
Lemma drop_prefix {A} (p : A -> bool) w l : Forall (fun a => p a = true) w -> drop_while p (w ++ l) = drop_while p l.
Proof. intros F. induction F as [|a w P F IH]; auto. cbn. now rewrite P. Qed.
Lemma strip_split s : exists w1 w2, s = w1 ++ strip s ++ w2 /\ Forall (fun a => is_space a = true) w1 /\ Forall (fun a => is_space a = true) w2.
Proof.
  destruct (drop_split is_space s) as (w1 & E1 & F1). destruct (drop_split is_space (rev (drop_while is_space s))) as (w2 & E2 & F2).
  exists w1, (rev w2). split; [|split; auto; apply Forall_rev; auto]. unfold strip. rewrite <- rev_app_distr, <- E2, rev_involutive. exact E1.
Qed.
Lemma strip_between w1 w2 x l y : Forall (fun a => is_space a = true) w1 -> Forall (fun a => is_space a = true) w2 -> is_space x = false -> is_space y = false ->
  strip (w1 ++ (x :: l ++ [y]) ++ w2) = x :: l ++ [y].
Proof.
  intros F1 F2 X Y. unfold strip. rewrite drop_prefix by auto. cbn [app drop_while]. rewrite X. cbn [rev]. rewrite !rev_app_distr. rewrite <- app_assoc.
  rewrite drop_prefix by now apply Forall_rev. cbn. rewrite Y. cbn. rewrite rev_app_distr. cbn. now rewrite rev_involutive.
Qed.

Lemma accepted_core : forall s, (exists c, rgbfromhexstring s = Some c) <->
  (let h := drop_while (Ascii.eqb "#") (strip s) in (List.length h = 3 \/ List.length h = 6)%nat /\ Forall is_hex h).
Proof.
  intros s. unfold rgbfromhexstring. set (h := drop_while _ _). clearbody h. cbv zeta.
  assert (forall a b c d e f, (exists col, match a2b_hex [a; b; c; d; e; f] with Some [r; g; bl] => new_rgb (fdiv (flt r) (flt 255)) (fdiv (flt g) (flt 255)) (fdiv (flt bl) (flt 255)) | _ => None end = Some col)
     <-> Forall is_hex [a; b; c; d; e; f]) as K.
  { intros a b c d e f. cbn [a2b_hex]. rewrite !Forall_cons_iff, !hex_value. split.
    - intros [col E]. destruct (hexvalue a), (hexvalue b), (hexvalue c), (hexvalue d), (hexvalue e), (hexvalue f); try discriminate. repeat split; eauto.
    - intros ([v0 A] & [v1 B] & [v2 C] & [v3 D] & [v4 E] & [v5 F] & _). rewrite A, B, C, D, E, F.
      destruct (hex_value_facts _ _ A) as [? _], (hex_value_facts _ _ B) as [? _], (hex_value_facts _ _ C) as [? _], (hex_value_facts _ _ D) as [? _], (hex_value_facts _ _ E) as [? _], (hex_value_facts _ _ F) as [? _].
      eexists. apply new_of_bytes; unfold byte; lia. }
  destruct h as [|a [|b [|c [|d [|e [|f [|g h]]]]]]]; cbn [List.length Nat.eqb nth]; try (split; [intros [? Q]; discriminate|intros [[Q|Q] _]; discriminate]).
  - rewrite K. rewrite !Forall_cons_iff. intuition.
  - rewrite K. intuition.
Qed.
(** C65: text is accepted exactly if it is 3 or 6 hexadecimal digits behind any number of hashes, with white space around *)
Theorem hexstring_accepted : forall s, (exists c, rgbfromhexstring s = Some c) <->
  exists w1 n h w2, s = w1 ++ repeat "#"%char n ++ h ++ w2 /\ (List.length h = 3 \/ List.length h = 6)%nat /\ Forall is_hex h /\
    Forall (fun a => is_space a = true) w1 /\ Forall (fun a => is_space a = true) w2.
Proof.
  intros s. rewrite accepted_core. cbv zeta. split.
  - intros [L H]. destruct (strip_split s) as (w1 & w2 & E & F1 & F2). destruct (drop_split (Ascii.eqb "#") (strip s)) as (m & Em & Fm).
    exists w1, (List.length m), (drop_while (Ascii.eqb "#") (strip s)), w2. split; [|auto].
    assert (repeat "#"%char (List.length m) = m) as ->.
    { clear - Fm. induction Fm as [|a m P F IH]; auto. cbn. apply Ascii.eqb_eq in P. rewrite IH. congruence. }
    rewrite E at 1. rewrite Em at 1. now rewrite <- app_assoc.
  - intros (w1 & n & h & w2 & -> & L & H & F1 & F2).
    assert (exists h1 y, h = h1 ++ [y] /\ is_space y = false) as (h1 & y & Eh & Y).
    { destruct h as [|x h] using rev_ind; [destruct L; discriminate|]. exists h, x. split; auto. apply Forall_app in H as [_ H]. inversion H as [|? ? Hx _]; subst.
      apply hex_value in Hx as [v Hv]. apply (hex_value_facts _ _ Hv). }
    assert (strip (w1 ++ repeat "#"%char n ++ h ++ w2) = repeat "#"%char n ++ h) as ->.
    { destruct n as [|n].
      - cbn [repeat app]. destruct h1 as [|x h1]; [subst h; destruct L; discriminate|]. subst h. cbn [app]. apply (strip_between w1 w2 x h1 y); auto.
        inversion H as [|? ? Hx _]; subst. apply hex_value in Hx as [v Hv]. apply (hex_value_facts _ _ Hv).
      - subst h. cbn [repeat app]. replace (w1 ++ "#"%char :: repeat "#"%char n ++ (h1 ++ [y]) ++ w2) with (w1 ++ ("#"%char :: (repeat "#"%char n ++ h1) ++ [y]) ++ w2) by (cbn; now rewrite <- !app_assoc).
        rewrite strip_between by auto. now rewrite <- !app_assoc. }
    rewrite drop_prefix by (apply Forall_forall; intros a I; apply repeat_spec in I as ->; reflexivity).
    assert (drop_while (Ascii.eqb "#") h = h) as ->; [|auto].
    destruct h as [|x h]; auto. inversion H as [|? ? Hx _]; subst. apply hex_value in Hx as [v Hv]. cbn [drop_while]. now rewrite (proj2 (proj2 (proj2 (hex_value_facts _ _ Hv)))).
Qed.
Print Assumptions hexstring_accepted.
(** C65: writing a color read from digits gives them back in lower case *)
Theorem hexstring_normalised : forall a b c d e f, Forall is_hex [a; b; c; d; e; f] ->
  (exists col, rgbfromhexstring [a; b; c; d; e; f] = Some col /\ tohexstring col false false = Some (map lower [a; b; c; d; e; f])) /\
  (exists col, rgbfromhexstring [a; b; c] = Some col /\ tohexstring col true false = Some (map lower [a; b; c])).
Proof.
  intros a b c d e f H. rewrite !Forall_cons_iff, !hex_value in H. destruct H as ([v0 A] & [v1 B] & [v2 C] & [v3 D] & [v4 E] & [v5 F] & _).
  destruct (hex_value_facts _ _ A) as (A1 & A2 & A3 & A4), (hex_value_facts _ _ B) as (B1 & B2 & B3 & B4), (hex_value_facts _ _ C) as (C1 & C2 & C3 & C4),
    (hex_value_facts _ _ D) as (D1 & D2 & D3 & D4), (hex_value_facts _ _ E) as (E1 & E2 & E3 & E4), (hex_value_facts _ _ F) as (F1 & F2 & F3 & F4).
  assert (forall x y, 0 <= x <= 15 -> 0 <= y <= 15 -> (16 * x + y) / 16 = x /\ (16 * x + y) mod 16 = y) as DM.
  { intros x y X Y. replace (16 * x + y) with (y + x * 16) by ring. rewrite Z.div_add, Z.mod_add by lia. rewrite Z.div_small, Z.mod_small by lia. lia. }
  split.
  - exists (of_bytes (16 * v0 + v1) (16 * v2 + v3) (16 * v4 + v5)). split.
    + unfold rgbfromhexstring. change [a; b; c; d; e; f] with (a :: [b; c; d; e] ++ [f]). rewrite strip_core by auto. cbn [app drop_while]. rewrite A4. cbn [List.length Nat.eqb a2b_hex].
      rewrite A, B, C, D, E, F. apply new_of_bytes; unfold byte; lia.
    + unfold tohexstring. rewrite to_bytes by (unfold byte; lia). cbn [andb b2a_hex flat_map app map].
      destruct (DM v0 v1) as [-> ->]; auto. destruct (DM v2 v3) as [-> ->]; auto. destruct (DM v4 v5) as [-> ->]; auto. rewrite A2, B2, C2, D2, E2, F2. reflexivity.
  - exists (of_bytes (16 * v0 + v0) (16 * v1 + v1) (16 * v2 + v2)). split.
    + unfold rgbfromhexstring. change [a; b; c] with (a :: [b] ++ [c]). rewrite strip_core by auto. cbn [app drop_while]. rewrite A4. cbn [List.length Nat.eqb nth a2b_hex].
      rewrite A, B, C. apply new_of_bytes; unfold byte; lia.
    + unfold tohexstring. rewrite to_bytes by (unfold byte; lia). cbn [andb b2a_hex flat_map app map nth].
      destruct (DM v0 v0) as [-> ->]; auto. destruct (DM v1 v1) as [-> ->]; auto. destruct (DM v2 v2) as [-> ->]; auto. rewrite A2, B2, C2. now rewrite !Ascii.eqb_refl.
Qed.
Print Assumptions hexstring_normalised.
(** truncation: the gray value of white is 0.9999999999999999 and is written as the byte 254 *)
Theorem white_gray_refuted : exists c, new_rgb (flt 1) (flt 1) (flt 1) = Some c /\ to8bitbytes c = Some [255; 255; 255] /\ byte_of (gray_value c) = Some 254.
Proof. eexists. split; [reflexivity|]. split; vm_compute; reflexivity. Qed.
Print Assumptions white_gray_refuted.
Example hexstrings_ex : (exists c, rgbfromhexstring (list_ascii_of_string " #F0a ") = Some c /\ tohexstring c true true = Some (list_ascii_of_string "#f0a") /\ tohexstring c false true = Some (list_ascii_of_string "#ff00aa"))
  /\ rgbfromhexstring (list_ascii_of_string "#12345") = None /\ rgbfromhexstring (list_ascii_of_string "12345g") = None.
Proof. split; [eexists; split; [vm_compute; reflexivity|split; vm_compute; reflexivity]|split; reflexivity]. Qed.
