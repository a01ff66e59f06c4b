(** The bounding box of EPS files: the first one of the header is found, and it is never found at the end of the file
    (pyx/epsfile.py, l.136-224). *)
From Coq Require Import ZArith Ascii String List Bool Lia.
From Verif Require Import EpsModel EpsProps.
Import ListNotations.
Open Scope nat_scope.

(** ** Specification *)
(** decimal numerals: an optional sign and digits *)
Definition positional (ds : list nat) : Z := fold_right (fun d z => z + Z.of_nat (fst d) * 10 ^ Z.of_nat (snd d))%Z 0%Z (combine ds (rev (seq 0 (length ds)))).
Definition figures (ds : list nat) : bytes := map (fun d => ascii_of_nat (48 + d)) ds.
Definition numeral (z : Z) (w : bytes) : Prop :=
  exists ds, ds <> [] /\ Forall (fun d => d < 10) ds /\
    (w = figures ds /\ z = positional ds \/ w = "+"%char :: figures ds /\ z = positional ds \/ w = "-"%char :: figures ds /\ z = (- positional ds)%Z).
(** spaces, tabs and line breaks *)
Definition space (c : ascii) : Prop := In (nat_of_ascii c) [32; 9; 10; 11; 12; 13].
Definition gap (l : bytes) : Prop := l <> [] /\ Forall space l.
(** a line with four numbers *)
Definition four_values (line : bytes) (a b c d : Z) : Prop :=
  exists s0 w1 s1 w2 s2 w3 s3 w4 s4, line = lit "%%BoundingBox:" ++ s0 ++ w1 ++ s1 ++ w2 ++ s2 ++ w3 ++ s3 ++ w4 ++ s4 /\
    Forall space s0 /\ gap s1 /\ gap s2 /\ gap s3 /\ Forall space s4 /\ numeral a w1 /\ numeral b w2 /\ numeral c w3 /\ numeral d w4.
Definition begins (p l : bytes) : Prop := exists r, l = p ++ r.
(** a line of the header which neither gives the bounding box nor ends the header *)
Definition comment_line (l : bytes) : Prop :=
  begins (lit "%") l /\ ~ begins (lit "%%BoundingBox:") l /\ ~ exists s, l = lit "%%EndComments" ++ s /\ Forall space s.

(** ** Proofs *)
Lemma starts_begins p : forall l, starts p l = true <-> begins p l.
Proof.
  induction p as [|x p IH]; intros l.
  - split; [intros _; exists l; reflexivity|reflexivity].
  - destruct l as [|y l]; cbn; [split; [discriminate|intros [r E]; discriminate]|].
    rewrite andb_true_iff, IH, Ascii.eqb_eq. split.
    + intros [-> [r ->]]. exists r. reflexivity.
    + intros [r E]. injection E as -> ->. split; [reflexivity|exists r; reflexivity].
Qed.
Lemma white_space c : white c = true <-> space c.
Proof.
  unfold white, space. rewrite orb_true_iff, andb_true_iff, Nat.eqb_eq, !Nat.leb_le. cbn. lia.
Qed.
Lemma white_space_not c : white c = false <-> ~ space c.
Proof. rewrite <- white_space. destruct (white c); split; congruence. Qed.

Lemma split_space : forall s l, Forall space s -> split [] (s ++ l) = split [] l.
Proof. induction s as [|c s IH]; intros l H; [reflexivity|]. inversion H; subst. cbn. rewrite (proj2 (white_space c)); auto. Qed.
Definition word (w : bytes) : Prop := w <> [] /\ Forall (fun c => ~ space c) w.
Lemma split_word : forall w acc l, Forall (fun c => ~ space c) w -> split acc (w ++ l) = split (rev w ++ acc) l.
Proof.
  induction w as [|c w IH]; intros acc l H; [reflexivity|]. inversion H; subst. cbn. rewrite (proj2 (white_space_not c)) by auto.
  rewrite IH by auto. rewrite <- app_assoc. reflexivity.
Qed.
Lemma split_step w s l : word w -> gap s -> split [] (w ++ s ++ l) = w :: split [] l.
Proof.
  intros [N W] [G S]. rewrite split_word by auto. rewrite app_nil_r. destruct s as [|c s]; [congruence|]. inversion S; subst.
  cbn [app split]. rewrite (proj2 (white_space c)) by auto.
  destruct (rev w) as [|x r] eqn:E; [destruct w; [congruence|cbn in E; destruct (rev w); discriminate]|].
  rewrite split_space by auto. rewrite <- E, rev_involutive. reflexivity.
Qed.
Lemma split_end w s : word w -> Forall space s -> split [] (w ++ s) = [w].
Proof.
  intros W S. destruct s as [|c s].
  - rewrite split_word by apply W. rewrite app_nil_r. cbn. destruct W as [N W].
    destruct (rev w) as [|x r] eqn:E; [destruct w; [congruence|cbn in E; destruct (rev w); discriminate]|]. rewrite <- E, rev_involutive. reflexivity.
  - rewrite <- (app_nil_r (c :: s)), split_step; auto. split; [discriminate|auto].
Qed.

Lemma nat_of_figure d : d < 10 -> nat_of_ascii (ascii_of_nat (48 + d)) = 48 + d.
Proof. intros H. apply nat_ascii_embedding. lia. Qed.
Lemma digit_figure d : d < 10 -> digit (ascii_of_nat (48 + d)) = Some (Z.of_nat d).
Proof.
  intros H. unfold digit. rewrite nat_of_figure by auto.
  rewrite (proj2 (Nat.leb_le 48 _)), (proj2 (Nat.leb_le _ 57)) by lia. cbn [andb]. f_equal. lia.
Qed.
Lemma digits_figures : forall ds acc, Forall (fun d => d < 10) ds ->
  digits acc (figures ds) = Some (acc * 10 ^ Z.of_nat (length ds) + positional ds)%Z.
Proof.
  induction ds as [|d ds IH]; intros acc H.
  - cbn. f_equal. unfold positional. cbn. lia.
  - inversion H; subst. cbn [figures map digits]. rewrite digit_figure by auto. fold (figures ds). rewrite IH by auto. f_equal.
    unfold positional. cbn [length]. rewrite seq_S, rev_app_distr. cbn [rev app combine fold_right fst snd Nat.add].
    rewrite (Nat2Z.inj_succ (length ds)), Z.pow_succ_r by lia. ring.
Qed.
Lemma figure_not_space d : d < 10 -> ~ space (ascii_of_nat (48 + d)).
Proof. intros H. unfold space. rewrite nat_of_figure by auto. cbn. lia. Qed.
Lemma figures_word ds : ds <> [] -> Forall (fun d => d < 10) ds -> word (figures ds).
Proof.
  intros N H. split; [destruct ds; [congruence|discriminate]|]. induction H; cbn; constructor; auto; [apply figure_not_space; auto|].
  fold (figures l). destruct l; [constructor|apply IHForall; discriminate].
Qed.
Lemma numeral_word z w : numeral z w -> word w.
Proof.
  intros (ds & N & D & [[-> _]|[[-> _]|[-> _]]]); [apply figures_word; auto| |];
    (split; [discriminate|]; constructor; [unfold space; cbn; lia|apply figures_word; auto]).
Qed.
Lemma numeral_int z w : numeral z w -> int w = Some z.
Proof.
  intros (ds & N & D & [[-> ->]|[[-> ->]|[-> ->]]]); destruct ds as [|d ds]; try congruence.
  - pose proof (digits_figures (d :: ds) 0%Z D) as E. rewrite Z.mul_0_l, Z.add_0_l in E. inversion D as [|? ? D1 D2]; subst.
    unfold int. cbn [figures map]. fold (figures ds).
    destruct (Ascii.eqb _ "-") eqn:E1; [apply Ascii.eqb_eq, (f_equal nat_of_ascii) in E1; rewrite nat_of_figure in E1 by auto; cbn in E1; lia|].
    destruct (Ascii.eqb _ "+") eqn:E2; [apply Ascii.eqb_eq, (f_equal nat_of_ascii) in E2; rewrite nat_of_figure in E2 by auto; cbn in E2; lia|].
    exact E.
  - pose proof (digits_figures (d :: ds) 0%Z D) as E. rewrite Z.mul_0_l, Z.add_0_l in E. exact E.
  - pose proof (digits_figures (d :: ds) 0%Z D) as E. rewrite Z.mul_0_l, Z.add_0_l in E.
    unfold int. cbn [Ascii.eqb Bool.eqb]. cbn [figures map] in *. rewrite E. reflexivity.
Qed.
Lemma skipn_bbox l : skipn 14 (lit "%%BoundingBox:" ++ l) = l.
Proof. reflexivity. Qed.
Lemma four_values_line line a b c d : four_values line a b c d -> bbox_line line = Some (a, b, c, d).
Proof.
  intros (s0 & w1 & s1 & w2 & s2 & w3 & s3 & w4 & s4 & -> & S0 & S1 & S2 & S3 & S4 & W1 & W2 & W3 & W4).
  unfold bbox_line. rewrite skipn_bbox, split_space by auto.
  rewrite !split_step by (eauto using numeral_word). rewrite split_end by (eauto using numeral_word). cbn [map].
  rewrite !(numeral_int _ _ W1), (numeral_int _ _ W2), (numeral_int _ _ W3), (numeral_int _ _ W4). reflexivity.
Qed.

Lemma lstrip_app : forall s, exists p, Forall space p /\ s = p ++ lstrip s.
Proof.
  induction s as [|c s IH]; [exists []; split; [constructor|reflexivity]|]. cbn. destruct (white c) eqn:W.
  - destruct IH as (p & P & E). exists (c :: p). split; [constructor; [apply white_space|]; auto|cbn; congruence].
  - exists []. split; [constructor|reflexivity].
Qed.
Lemma rstrip_app l : exists s, Forall space s /\ l = rstrip l ++ s.
Proof.
  destruct (lstrip_app (rev l)) as (p & P & E). exists (rev p). split; [apply Forall_rev; auto|].
  unfold rstrip. rewrite <- rev_app_distr, <- E, rev_involutive. reflexivity.
Qed.
Lemma comment_goes_on l : comment_line l -> starts (lit "%%BoundingBox:") l = false /\ ends_comments l = false.
Proof.
  intros (P & B & E). split.
  - destruct (starts _ l) eqn:S; [apply starts_begins in S; contradiction|reflexivity].
  - unfold ends_comments. apply orb_false_iff. split.
    + destruct (list_eq_dec ascii_dec (rstrip l) (lit "%%EndComments")) as [R|R]; [|reflexivity].
      exfalso. apply E. destruct (rstrip_app l) as (s & S & Q). exists s. rewrite <- R. auto.
    + destruct P as (r & ->). cbn. destruct r; reflexivity.
Qed.

Lemma next_line n r l ls : n > 0 -> lines_of (buffer r ++ file r) (l :: ls) ->
  exists r', readline n r = Some (l, r') /\ lines_of (buffer r' ++ file r') ls /\ length (buffer r' ++ file r') < length (buffer r ++ file r).
Proof.
  intros H L. pose proof (readline_spec n r H) as S. remember (buffer r ++ file r) as c eqn:C.
  inversion L as [|l' rest ls' I K E]; subst l' ls'. destruct (readline n r) as [[l' r']|].
  - destruct S as (I' & E' & N). rewrite <- E in E'. pose proof (line_unique _ _ _ _ I' I E') as ->.
    apply app_inv_head in E'. subst rest. exists r'. split; [reflexivity|]. split; [exact K|].
    rewrite (app_length l). destruct l; [congruence|cbn [length]; lia].
  - rewrite S in E. apply app_eq_nil in E as [-> _]. exfalso.
    inversion I as [b r' N Q|b r' N Q|b r' N M Q|b N M Q]; try (apply (f_equal (@length ascii)) in Q; rewrite app_length in Q; cbn in Q; lia). congruence.
Qed.

Lemma header_comments n : n > 0 -> forall hdr fuel r ls, Forall comment_line hdr -> lines_of (buffer r ++ file r) (hdr ++ ls) -> length (buffer r ++ file r) <= fuel ->
  exists r' fuel', header_loop fuel n r = header_loop fuel' n r' /\ lines_of (buffer r' ++ file r') ls /\ length (buffer r' ++ file r') <= fuel'.
Proof.
  intros H. induction hdr as [|l hdr IH]; intros fuel r ls C L F.
  - exists r, fuel. auto.
  - inversion C; subst. destruct (next_line n r l (hdr ++ ls) H L) as (r1 & E & L1 & S).
    destruct fuel as [|fuel]; [lia|]. destruct (IH fuel r1 ls) as (r' & fuel' & E' & P); [auto|auto|lia|].
    exists r', fuel'. split; [|exact P]. rewrite <- E'. cbn [header_loop]. rewrite E.
    destruct (comment_goes_on l) as [-> ->]; auto.
Qed.
Lemma after_header n f l0 hdr l rest : n > 0 -> lines_of f (l0 :: hdr ++ l :: rest) -> begins (lit "%!") l0 -> Forall comment_line hdr ->
  begins (lit "%%BoundingBox:") l -> readbbox n f = bbox_line l.
Proof.
  intros H L B C S. destruct (next_line n (mkr [] f) l0 (hdr ++ l :: rest) H L) as (r1 & E & L1 & S1). cbn [buffer file app] in S1.
  unfold readbbox. rewrite E, (proj2 (starts_begins _ _) B).
  destruct (header_comments n H hdr (length f) r1 (l :: rest) C L1) as (r' & fuel' & E' & L' & F'); [lia|]. rewrite E'.
  destruct (next_line n r' l rest H L') as (r2 & E2 & _ & S2). destruct fuel' as [|fuel']; [lia|]. cbn [header_loop]. rewrite E2.
  rewrite (proj2 (starts_begins _ _) S). reflexivity.
Qed.

(** The first bounding box of the header is the result, for all line separators, any space between the values and any size of the pieces in which
    the file is read. *)
Theorem bbox_first : forall n f l0 hdr line rest a b c d, n > 0 -> lines_of f (l0 :: hdr ++ line :: rest) -> begins (lit "%!") l0 ->
  Forall comment_line hdr -> four_values line a b c d -> readbbox n f = Some (a, b, c, d).
Proof.
  intros n f l0 hdr line rest a b c d H L B C V. rewrite <- (four_values_line _ _ _ _ _ V). apply (after_header n f l0 hdr line rest); auto.
  destruct V as (s0 & w1 & s1 & w2 & s2 & w3 & s3 & w4 & s4 & -> & _). eexists. reflexivity.
Qed.
Print Assumptions bbox_first.

(** Files whose header announces the bounding box at the end of the file are refused, contrary to the code for the trailer: the comparison with
    the text (atend) never succeeds. *)
Theorem bbox_at_end_refuted : forall n f l0 hdr s0 s1 rest, n > 0 ->
  lines_of f (l0 :: hdr ++ (lit "%%BoundingBox:" ++ s0 ++ lit "(atend)" ++ s1) :: rest) -> begins (lit "%!") l0 ->
  Forall comment_line hdr -> Forall space s0 -> Forall space s1 -> readbbox n f = None.
Proof.
  intros n f l0 hdr s0 s1 rest H L B C S0 S1. rewrite (after_header n f l0 hdr _ rest H L B C); [|eexists; reflexivity].
  unfold bbox_line. rewrite skipn_bbox, split_space by auto. rewrite split_end; [reflexivity| |auto].
  split; [discriminate|]. repeat (constructor; [unfold space; cbn; lia|]). constructor.
Qed.
Print Assumptions bbox_at_end_refuted.

Lemma digit_some c d : digit c = Some d -> exists k, k < 10 /\ c = ascii_of_nat (48 + k) /\ d = Z.of_nat k.
Proof.
  unfold digit. destruct (Nat.leb 48 (nat_of_ascii c) && Nat.leb (nat_of_ascii c) 57) eqn:E; [|discriminate]. intros [= <-].
  apply andb_true_iff in E as [A B]. apply Nat.leb_le in A, B. exists (nat_of_ascii c - 48). split; [lia|]. split; [|reflexivity].
  replace (48 + (nat_of_ascii c - 48)) with (nat_of_ascii c) by lia. symmetry. apply ascii_nat_embedding.
Qed.
Lemma digits_some : forall l acc z, digits acc l = Some z -> exists ds, Forall (fun d => d < 10) ds /\ l = figures ds.
Proof.
  induction l as [|c l IH]; intros acc z E.
  - exists []. split; [constructor|reflexivity].
  - cbn in E. destruct (digit c) as [d|] eqn:D; [|discriminate]. destruct (digit_some _ _ D) as (k & K & -> & ->).
    destruct (IH _ _ E) as (ds & F & ->). exists (k :: ds). split; [constructor; auto|reflexivity].
Qed.
Lemma digits_value l z : digits 0 l = Some z -> exists ds, Forall (fun d => d < 10) ds /\ l = figures ds /\ z = positional ds.
Proof.
  intros E. destruct (digits_some _ _ _ E) as (ds & F & ->). exists ds. repeat split; auto. rewrite digits_figures in E by auto. injection E as <-. lia.
Qed.
Lemma int_numeral w z : int w = Some z -> numeral z w.
Proof.
  destruct w as [|c w]; [discriminate|]. unfold int.
  destruct (Ascii.eqb c "-") eqn:E1; [|destruct (Ascii.eqb c "+") eqn:E2].
  - apply Ascii.eqb_eq in E1. subst. destruct w as [|x w]; [discriminate|]. intros E. destruct (digits 0 (x :: w)) as [y|] eqn:D; [|discriminate].
    injection E as <-. destruct (digits_value _ _ D) as (ds & F & W & ->). exists ds. split; [destruct ds; [discriminate|congruence]|].
    split; [auto|]. right. right. rewrite W. auto.
  - apply Ascii.eqb_eq in E2. subst. destruct w as [|x w]; [discriminate|]. intros E.
    destruct (digits_value _ _ E) as (ds & F & W & ->). exists ds. split; [destruct ds; [discriminate|congruence]|].
    split; [auto|]. right. left. rewrite W. auto.
  - intros E. destruct (digits_value _ _ E) as (ds & F & W & ->). exists ds. split; [destruct ds; [discriminate|congruence]|]. split; auto.
Qed.
(** words and gaps of a text *)
Lemma split_inv : forall l acc ws, split acc l = ws ->
  match ws with
  | [] => acc = [] /\ Forall space l
  | w :: ws' => exists p w0 s r, l = p ++ w0 ++ s ++ r /\ Forall space p /\ (acc <> [] -> p = []) /\ w = rev acc ++ w0 /\ Forall space s /\
      split [] r = ws' /\ (s = [] -> r = [])
  end.
Proof.
  induction l as [|c l IH]; intros acc ws E.
  - cbn in E. destruct acc as [|x acc]; subst ws; [split; auto|].
    exists [], [], [], []. cbn [app]. repeat split; auto. rewrite app_nil_r. reflexivity.
  - cbn in E. destruct (white c) eqn:W.
    + apply white_space in W. destruct acc as [|x acc].
      * apply IH in E. destruct ws as [|w ws'].
        -- destruct E as [_ E]. split; auto.
        -- destruct E as (p & w0 & s & r & -> & P & _ & R). exists (c :: p), w0, s, r. cbn [app]. repeat split; try apply R; auto. congruence.
      * subst ws. exists [], [], [c], l. cbn [app]. rewrite app_nil_r. repeat split; auto. discriminate.
    + apply IH in E. destruct ws as [|w ws'].
      * destruct E as [E _]. discriminate.
      * destruct E as (p & w0 & s & r & -> & P & N & -> & S & R & Q). rewrite N by discriminate. exists [], (c :: w0), s, r.
        cbn [app rev]. rewrite <- app_assoc. repeat split; auto.
Qed.
Lemma bbox_line_values line a b c d : begins (lit "%%BoundingBox:") line -> bbox_line line = Some (a, b, c, d) -> four_values line a b c d.
Proof.
  intros [l ->]. unfold bbox_line. rewrite skipn_bbox. intros E.
  destruct (split [] l) as [|v1 [|v2 [|v3 [|v4 [|v5 vs]]]]] eqn:S; cbn [map] in E; try discriminate.
  - destruct (int v1); discriminate.
  - destruct (int v1), (int v2); discriminate.
  - destruct (int v1), (int v2), (int v3); discriminate.
  - destruct (int v1) as [z1|] eqn:I1; [|discriminate]. destruct (int v2) as [z2|] eqn:I2; [|discriminate].
    destruct (int v3) as [z3|] eqn:I3; [|discriminate]. destruct (int v4) as [z4|] eqn:I4; [|discriminate]. injection E as -> -> -> ->.
    apply int_numeral in I1, I2, I3, I4.
    apply split_inv in S. destruct S as (p1 & w1 & s1 & r1 & -> & P1 & _ & V1 & S1 & R1 & Q1). cbn in V1. subst v1.
    apply split_inv in R1. destruct R1 as (p2 & w2 & s2 & r2 & -> & P2 & _ & V2 & S2 & R2 & Q2). cbn in V2. subst v2.
    apply split_inv in R2. destruct R2 as (p3 & w3 & s3 & r3 & -> & P3 & _ & V3 & S3 & R3 & Q3). cbn in V3. subst v3.
    apply split_inv in R3. destruct R3 as (p4 & w4 & s4 & r4 & -> & P4 & _ & V4 & S4 & R4 & Q4). cbn in V4. subst v4.
    apply split_inv in R4 as [_ R4].
    pose proof (proj1 (numeral_word _ _ I2)) as N2. pose proof (proj1 (numeral_word _ _ I3)) as N3. pose proof (proj1 (numeral_word _ _ I4)) as N4.
    assert (G : forall s p w r : bytes, (s = [] -> p ++ w ++ r = []) -> Forall space s -> Forall space p -> w <> [] -> gap (s ++ p)).
    { intros s p w r Q A B N. split; [|apply Forall_app; auto]. intros Z. apply app_eq_nil in Z as [-> ->].
      specialize (Q eq_refl). cbn in Q. apply app_eq_nil in Q as [Q _]. contradiction. }
    exists p1, w1, (s1 ++ p2), w2, (s2 ++ p3), w3, (s3 ++ p4), w4, (s4 ++ r4). split; [rewrite <- !app_assoc; reflexivity|].
    split; [exact P1|]. split; [eapply G; eauto|]. split; [eapply G; eauto|]. split; [eapply G; eauto|]. split; [apply Forall_app; auto|]. auto.
  - destruct (int v1), (int v2), (int v3), (int v4), (int v5); discriminate.
Qed.

(** Whatever is found is what the first bounding box comment of the header says. *)
Theorem bbox_found : forall n f a b c d, n > 0 -> readbbox n f = Some (a, b, c, d) ->
  exists l0 hdr line rest, lines_of f (l0 :: hdr ++ line :: rest) /\ begins (lit "%!") l0 /\
    Forall (fun l => ~ begins (lit "%%BoundingBox:") l) hdr /\ four_values line a b c d.
Proof.
  intros n f a b c d H E. unfold readbbox in E.
  pose proof (readline_spec n (mkr [] f) H) as S. destruct (readline n (mkr [] f)) as [[l0 r]|]; [|discriminate].
  destruct S as (I & Q & _). cbn [buffer file app] in Q. destruct (starts (lit "%!") l0) eqn:B; [|discriminate]. apply starts_begins in B.
  assert (P : forall fuel r, header_loop fuel n r = Some (a, b, c, d) -> exists hdr line rest, lines_of (buffer r ++ file r) (hdr ++ line :: rest) /\
    Forall (fun l => ~ begins (lit "%%BoundingBox:") l) hdr /\ four_values line a b c d).
  { clear r l0 I Q B E. induction fuel as [|fuel IH]; intros r E; [discriminate|]. cbn [header_loop] in E.
    pose proof (readline_spec n r H) as S. destruct (readline n r) as [[l r']|]; [|discriminate]. destruct S as (I & Q & N).
    destruct (starts (lit "%%BoundingBox:") l) eqn:T.
    - apply starts_begins in T. exists [], l, (lines_loop (length (buffer r' ++ file r')) n r'). rewrite <- Q. repeat split; auto.
      + constructor; [exact I|]. apply lines_loop_spec; auto.
      + apply bbox_line_values; auto.
    - destruct (ends_comments l); [discriminate|]. destruct (IH r' E) as (hdr & line & rest & L & F & V).
      exists (l :: hdr), line, rest. rewrite <- Q. repeat split; auto.
      + constructor; auto.
      + constructor; [|auto]. rewrite <- starts_begins, T. discriminate. }
  destruct (P _ _ E) as (hdr & line & rest & L & F & V). exists l0, hdr, line, rest. rewrite <- Q. repeat split; auto. constructor; auto.
Qed.
Print Assumptions bbox_found.

(** A header with the separators \r\n and \r, and one with the bounding box at the end. *)
Example ex_bbox : readbbox 257 (lit "%!PS-Adobe-3.0 EPSF-3.0" ++ [CR; LF] ++ lit "%%Title: x" ++ [CR] ++ lit "%%BoundingBox: -12  7 +300 0450 " ++ [LF] ++
  lit "%%BoundingBox: 1 2 3 4" ++ [LF]) = Some (-12, 7, 300, 450)%Z.
Proof. reflexivity. Qed.
Example ex_bbox_end : readbbox 257 (lit "%!PS-Adobe-3.0" ++ [LF] ++ lit "%%BoundingBox: (atend)" ++ [LF] ++ lit "%%EndComments" ++ [LF] ++ lit "%%Trailer" ++ [LF] ++
  lit "%%BoundingBox: 1 2 3 4" ++ [LF]) = None.
Proof. reflexivity. Qed.
