(** C153: PFB and PFA files; C154: writing fonts; C155: encoding vectors. *)
From Coq Require Import ZArith List Bool Lia ZifyBool Arith.
From Verif Require Import ReaderModel ReaderSpec ReaderProps T1FileModel T1FileSpec.
Import ListNotations.
Open Scope Z_scope.
Ltac Zify.zify_post_hook ::= Z.to_euclidean_division_equations.

Lemma eqb_eq : forall a b, eqb a b = true <-> a = b.
Proof.
  induction a as [|x a IH]; intros [|y b]; cbn [eqb]; split; intros H; try discriminate; auto.
  - apply andb_prop in H as [H1 H2]. apply IH in H2. f_equal; [lia|auto].
  - inversion H; subst. rewrite Z.eqb_refl. now apply IH.
Qed.
Lemma eqb_refl a : eqb a a = true. Proof. now apply eqb_eq. Qed.
Lemma four_length n : length (four n) = 4%nat. Proof. reflexivity. Qed.
Lemma four_read : forall d, fits d -> pfblength (four (Z.of_nat (length d))) = Ok (length d).
Proof. intros d F. unfold fits in F. unfold four, pfblength. f_equal. lia. Qed.
Lemma read_four : forall l n, Forall isbyte l -> pfblength l = Ok n -> l = four (Z.of_nat n) /\ Z.of_nat n < 4294967296.
Proof.
  intros l n F H. destruct l as [|a [|b [|c [|d [|]]]]]; try discriminate. cbn [pfblength] in H. injection H as <-.
  inversion F as [|? ? Fa F1]; subst. inversion F1 as [|? ? Fb F2]; subst. inversion F2 as [|? ? Fc F3]; subst. inversion F3 as [|? ? Fd F4]; subst. unfold isbyte in *.
  rewrite Z2Nat.id by lia. split; [|lia]. unfold four. repeat (apply f_equal2; [lia|]). reflexivity.
Qed.
Lemma split2 : forall n (b : list Z) x y, consume n b = (x, y) -> b = x ++ y /\ (length x <= n)%nat /\ ((length x < n)%nat -> y = []).
Proof.
  intros n b x y H. unfold consume in H. assert (E1 : firstn n b = x) by congruence. assert (E2 : skipn n b = y) by congruence. subst. rewrite firstn_skipn. split; auto.
  rewrite firstn_length. split; [lia|]. intros L. apply length_zero_iff_nil. rewrite skipn_length. lia.
Qed.
Lemma consume_app : forall a b : list Z, consume (length a) (a ++ b) = (a, b).
Proof. intros a b. unfold consume. now rewrite firstn_exact, skipn_exact. Qed.

Lemma binary_read : forall ds fuel data mark b, (length ds <= fuel)%nat -> Forall fits ds -> eqb mark [128; 2] = false ->
  length mark = 2%nat ->
  match ds with
  | [] => binary fuel data mark b = Ok (data, mark, b)
  | d :: ds' => binary fuel data [128; 2] (four (Z.of_nat (length d)) ++ d ++ flat_map (segment 2) ds' ++ mark ++ b) = Ok (data ++ concat ds, mark, b)
  end.
Proof.
  induction ds as [|d ds IH]; intros fuel data mark b L F N Lm.
  - destruct fuel; cbn [binary]; rewrite N; reflexivity.
  - destruct fuel as [|f]; [cbn in L; lia|]. inversion F as [|? ? Fd F']; subst. cbn [binary]. change (eqb [128; 2] [128; 2]) with true. cbn iota.
    change 4%nat with (length (four (Z.of_nat (length d)))). rewrite consume_app. rewrite (four_read d Fd). cbn [bind]. rewrite consume_app.
    specialize (IH f (data ++ d) mark b). destruct ds as [|d2 ds].
    + cbn [flat_map app]. rewrite <- Lm. rewrite consume_app. rewrite IH; auto; [|cbn; lia]. cbn [concat]. now rewrite app_nil_r.
    + cbn [flat_map]. unfold segment at 1. cbn [app]. change (consume 2 (128 :: 2 :: ?x)) with ([128; 2], x).
      change (consume 2 (128 :: 2 :: ((four (Z.of_nat (length d2)) ++ d2) ++ flat_map (segment 2) ds) ++ mark ++ b)) with
        ([128; 2], ((four (Z.of_nat (length d2)) ++ d2) ++ flat_map (segment 2) ds) ++ mark ++ b).
      rewrite <- !app_assoc. rewrite IH; auto; [|cbn in *; lia]. cbn [concat]. now rewrite !app_assoc.
Qed.
Lemma flat_length : forall ds, (length ds <= length (flat_map (segment 2) ds))%nat.
Proof. induction ds as [|d ds IH]; cbn [flat_map length]; [lia|]. rewrite app_length. assert (1 <= length (segment 2 d))%nat by (unfold segment; cbn [length]; lia). lia. Qed.
Lemma pfb_complete : forall d1 ds d3, ds <> [] -> fits d1 -> Forall fits ds -> fits d3 ->
  from_pfb (pfb d1 ds d3) = Ok (mkt1 (decode d1) (concat ds) (decode d3)).
Proof.
  intros d1 ds d3 N F1 F2 F3. unfold from_pfb. destruct ds as [|d ds]; [congruence|].
  set (n := length (pfb d1 (d :: ds) d3)).
  assert (Ln : (length (d :: ds) <= n)%nat).
  { unfold n, pfb. rewrite !app_length. pose proof (flat_length (d :: ds)). lia. }
  clearbody n. unfold pfb. unfold segment at 1. cbn [app].
  change (consume 2 (128 :: 1 :: ?x)) with ([128; 1], x).
  cbn iota.
  change (negb (eqb [128; 1] [128; 1])) with false. cbn iota. rewrite <- !app_assoc.
  change 4%nat with (length (four (Z.of_nat (length d1)))) at 1. rewrite consume_app, (four_read d1 F1). cbn [bind]. rewrite consume_app.
  cbn [flat_map]. unfold segment at 1. cbn [app].
  match goal with |- (let (_, _) := consume 2 (128 :: 2 :: ?x) in _) = _ => change (consume 2 (128 :: 2 :: x)) with ([128; 2], x) end. cbn iota.
  change (negb (eqb [128; 2] [128; 2])) with false. cbn iota.
  unfold segment at 2. cbn [app]. rewrite <- !app_assoc.
  change (128 :: 1 :: four (Z.of_nat (length d3)) ++ d3 ++ [128; 3]) with ([128; 1] ++ four (Z.of_nat (length d3)) ++ d3 ++ [128; 3]).
  rewrite (binary_read (d :: ds) n [] [128; 1] (four (Z.of_nat (length d3)) ++ d3 ++ [128; 3])) by auto.
  cbn [bind app]. change (negb (eqb [128; 1] [128; 1])) with false. cbn iota.
  change 4%nat with (length (four (Z.of_nat (length d3)))) at 1. rewrite consume_app, (four_read d3 F3). cbn [bind]. rewrite consume_app.
  reflexivity.
Qed.
Lemma binary_inv : forall fuel data b d2 m r, Forall isbyte b -> binary fuel data [128; 2] b = Ok (d2, m, r) -> eqb m [128; 1] = true ->
  exists d ds, d2 = data ++ concat (d :: ds) /\ b = four (Z.of_nat (length d)) ++ d ++ flat_map (segment 2) ds ++ m ++ r /\ Forall fits (d :: ds) /\ Forall isbyte r.
Proof.
  induction fuel as [|f IH]; intros data b d2 m r B H M; [discriminate|]. cbn [binary] in H. change (eqb [128; 2] [128; 2]) with true in H. cbn iota in H.
  destruct (consume 4 b) as [l b1] eqn:C1. apply split2 in C1 as (-> & L1 & _). apply Forall_app in B as [Bl B1].
  destruct (pfblength l) as [n|] eqn:P; [|discriminate]. cbn [bind] in H. destruct (read_four l n Bl P) as [-> Ln]. clear P.
  destruct (consume n b1) as [d b2] eqn:C2. apply split2 in C2 as (-> & L2 & S2). apply Forall_app in B1 as [Bd B2].
  destruct (consume 2 b2) as [mark b3] eqn:C3. apply split2 in C3 as (-> & L3 & S3). apply Forall_app in B2 as [Bm B3].
  assert (E : length mark = 2%nat -> length d = n).
  { intros Lm. destruct (Nat.lt_ge_cases (length d) n) as [Q|Q]; [|lia]. apply S2 in Q. apply app_eq_nil in Q as [-> _]. discriminate. }
  destruct (eqb mark [128; 2]) eqn:Em.
  - apply eqb_eq in Em. subst mark. destruct (IH _ _ _ _ _ B3 H M) as (d' & ds & -> & -> & F & Br). exists d, (d' :: ds).
    rewrite <- (E eq_refl) in *. split; [cbn [concat]; now rewrite <- !app_assoc|]. split.
    + cbn [flat_map]. unfold segment at 1. cbn [app]. now rewrite <- !app_assoc.
    + split; [constructor; auto|auto].
  - assert (X : binary f (data ++ d) mark b3 = Ok (data ++ d, mark, b3)) by (destruct f; cbn [binary]; rewrite Em; reflexivity). rewrite X in H. injection H as <- <- <-.
    apply eqb_eq in M. subst mark. rewrite <- (E eq_refl) in *. exists d, []. cbn [concat flat_map app]. rewrite app_nil_r. auto.
Qed.

(** C153: a PFB file is read exactly if it consists of a segment of clear text, of at least one binary segment, of a segment of clear text and the end mark; the font
    has the data of the segments *)
Theorem pfb_read : forall b f, Forall isbyte b ->
  (from_pfb b = Ok f <-> exists d1 ds d3, b = pfb d1 ds d3 /\ ds <> [] /\ fits d1 /\ Forall fits ds /\ fits d3 /\ f = mkt1 (decode d1) (concat ds) (decode d3)).
Proof.
  intros b f B. split; [|intros (d1 & ds & d3 & -> & N & F1 & F2 & F3 & ->); now apply pfb_complete].
  unfold from_pfb. destruct (consume 2 b) as [mark b1] eqn:C1. apply split2 in C1 as (E1 & _). destruct (eqb mark [128; 1]) eqn:M1; [|discriminate]. cbn [negb].
  apply eqb_eq in M1. subst mark. generalize (length b). intros fuel. subst b. apply Forall_app in B as [_ B].
  destruct (consume 4 b1) as [l b2] eqn:C2. apply split2 in C2 as (-> & _). apply Forall_app in B as [Bl B].
  destruct (pfblength l) as [n|] eqn:P; [|discriminate]. cbn [bind]. destruct (read_four l n Bl P) as [-> Ln]. clear P Bl.
  destruct (consume n b2) as [d1 b3] eqn:C3. apply split2 in C3 as (-> & L3 & S3). apply Forall_app in B as [_ B].
  destruct (consume 2 b3) as [mark b4] eqn:C4. apply split2 in C4 as (-> & _). apply Forall_app in B as [_ B].
  destruct (eqb mark [128; 2]) eqn:M2; [|discriminate]. cbn [negb]. apply eqb_eq in M2. subst mark.
  assert (En : length d1 = n) by (destruct (Nat.lt_ge_cases (length d1) n) as [Q|Q]; [apply S3 in Q; discriminate|lia]). subst n. clear L3 S3.
  destruct (binary fuel [] [128; 2] b4) as [[[d2 m] r]|] eqn:Bi; [|discriminate]. cbn [bind].
  destruct (eqb m [128; 1]) eqn:M3; [|discriminate]. cbn [negb]. destruct (binary_inv _ _ _ _ _ _ B Bi M3) as (d & ds & -> & -> & Fd & Br). clear Bi B.
  apply eqb_eq in M3. subst m.
  destruct (consume 4 r) as [l b5] eqn:C5. apply split2 in C5 as (-> & _). apply Forall_app in Br as [Bl B].
  destruct (pfblength l) as [n|] eqn:P; [|discriminate]. cbn [bind]. destruct (read_four l n Bl P) as [-> Ln3]. clear P Bl.
  destruct (consume n b5) as [d3 b6] eqn:C6. apply split2 in C6 as (-> & L6 & S6). apply Forall_app in B as [_ B].
  destruct (consume 2 b6) as [mark b7] eqn:C7. apply split2 in C7 as (-> & _).
  destruct (eqb mark [128; 3]) eqn:M4; [|discriminate]. cbn [negb]. apply eqb_eq in M4. subst mark.
  assert (En : length d3 = n) by (destruct (Nat.lt_ge_cases (length d3) n) as [Q|Q]; [apply S6 in Q; discriminate|lia]). subst n. clear L6 S6.
  destruct b7 as [|x b7]; [|discriminate]. intros H. cbn in H. injection H as <-. exists d1, (d :: ds), d3.
  split; [|split; [discriminate|split; [exact Ln|split; [exact Fd|split; [exact Ln3|reflexivity]]]]].
  unfold pfb. cbn [flat_map]. unfold segment at 1 2 4. cbn [app]. rewrite <- !app_assoc. reflexivity.
Qed.
Print Assumptions pfb_read.
Example pfb_read_ex : from_pfb ([128; 1; 2; 0; 0; 0; 37; 33] ++ [128; 2; 1; 0; 0; 0; 200] ++ [128; 2; 2; 0; 0; 0; 7; 8] ++ [128; 1; 1; 0; 0; 0; 48] ++ [128; 3]) =
  Ok (mkt1 [37; 33] [200; 7; 8] [48]) /\
  from_pfb ([128; 1; 2; 0; 0; 0; 37; 33] ++ [128; 2; 9; 0; 0; 0; 200] ++ [128; 1; 1; 0; 0; 0; 48] ++ [128; 3]) = Exn FontFormatError.
Proof. split; reflexivity. Qed.
(** false: clear text in several segments, which the format allows, is refused, and then as a PFA file is an error *)
Theorem pfb_segments_refuted : exists a1 a2 d2 d3, let b := segment 1 a1 ++ segment 1 a2 ++ segment 2 d2 ++ segment 1 d3 ++ [128; 3] in
  from_pfb b = Exn FontFormatError /\ from_pf b = Exn TypeError.
Proof. exists [37], [33], [200], [48]. split; reflexivity. Qed.
Print Assumptions pfb_segments_refuted.
(** false: no PFA file can be read *)
Theorem pfa_read_refuted : forall b, from_pfa b = Exn TypeError /\ (firstn 1 b <> [128] -> from_pf b = Exn TypeError).
Proof.
  intros b. split; [reflexivity|]. intros N. unfold from_pf, from_pfb, consume. destruct (eqb (firstn 2 b) [128; 1]) eqn:E; [|reflexivity].
  apply eqb_eq in E. exfalso. apply N. destruct b as [|x [|y b]]; cbn in *; try discriminate. now inversion E.
Qed.
Print Assumptions pfa_read_refuted.

(** ** C154 *)
Lemma encode_decode : forall b, Forall isbyte b -> encode (decode b) = Ok b.
Proof.
  induction 1 as [|c b H F IH]; [reflexivity|]. unfold isbyte in H. cbn [decode map encode]. fold (decode b). rewrite IH. cbn [bind].
  destruct (c <? 128) eqn:E; [destruct ((0 <=? c) && (c <? 128)) eqn:E2; [reflexivity|lia]|].
  destruct ((0 <=? 56320 + c) && (56320 + c <? 128)) eqn:E2; [lia|]. destruct ((56448 <=? 56320 + c) && (56320 + c <=? 56575)) eqn:E3; [|lia].
  f_equal. f_equal. lia.
Qed.
Lemma decode_length : forall b, length (decode b) = length b. Proof. intros. apply map_length. Qed.
Lemma hex_written : forall b, Forall isbyte b -> hex_of (b2a_hex b) b.
Proof.
  induction 1 as [|c b H F IH]; [exact I|]. unfold isbyte in H. cbn [b2a_hex flat_map app hex_of]. fold (b2a_hex b). split; [|exact IH].
  exists (c / 16), (c mod 16). split; [lia|]. split; [lia|]. split; [lia|].
  assert (D : forall x, 0 <= x < 16 -> nth_error [48; 49; 50; 51; 52; 53; 54; 55; 56; 57; 97; 98; 99; 100; 101; 102] (Z.to_nat x) = Some (digit x)).
  { intros x X. assert (x = 0 \/ x = 1 \/ x = 2 \/ x = 3 \/ x = 4 \/ x = 5 \/ x = 6 \/ x = 7 \/ x = 8 \/ x = 9 \/ x = 10 \/ x = 11 \/ x = 12 \/ x = 13 \/ x = 14 \/ x = 15) as C by lia.
    repeat (destruct C as [->|C]; [reflexivity|]). subst. reflexivity. }
  split; apply D; lia.
Qed.
(** lines of a text: at most 64 characters each *)
Lemma lines_written : forall n hex file, (length hex <= n * 64)%nat -> ((n - 1) * 64 < length hex \/ n = 0)%nat ->
  exists ls, fold_left (fun file i => bind file (fun file => write (write_bytes file (firstn 64 (skipn (i * 64) hex))) (Str [10]))) (seq 0 n) (Ok file) =
    Ok (file ++ flat_map (fun l => l ++ [10]) ls) /\ concat ls = hex /\ Forall (fun l => l <> [] /\ (length l <= 64)%nat) ls.
Proof.
  assert (G : forall n k hex file, (length hex <= (k + n) * 64)%nat -> ((k + n - 1) * 64 < length hex \/ n = 0)%nat -> 
    exists ls, fold_left (fun file i => bind file (fun file => write (write_bytes file (firstn 64 (skipn (i * 64) hex))) (Str [10]))) (seq k n) (Ok file) =
    Ok (file ++ flat_map (fun l => l ++ [10]) ls) /\ concat ls = skipn (k * 64) hex /\ Forall (fun l => l <> [] /\ (length l <= 64)%nat) ls).
  { induction n as [|n IH]; intros k hex file L1 L2; cbn [seq fold_left].
    - exists []. cbn. rewrite app_nil_r. split; auto. split; auto. symmetry. apply skipn_all2. lia.
    - change (bind (Ok file) (fun file => write (write_bytes file (firstn 64 (skipn (k * 64) hex))) (Str [10]))) with (Ok (write_bytes file (firstn 64 (skipn (k * 64) hex)) ++ [10])).

      destruct (IH (S k) hex (write_bytes file (firstn 64 (skipn (k * 64) hex)) ++ [10])) as (ls & E & C & F); [lia|lia|].
      exists (firstn 64 (skipn (k * 64) hex) :: ls). split; [|split].
      + rewrite E. f_equal. cbn [flat_map]. unfold write_bytes. now rewrite <- !app_assoc.
      + cbn [concat]. rewrite C. rewrite <- (firstn_skipn 64 (skipn (k * 64) hex)) at 2. f_equal. clear. 
        assert (S : forall a c (l : list Z), skipn a (skipn c l) = skipn (c + a) l) by (intros a c; induction c as [|c IH]; intros [|x l]; cbn; auto; destruct a; auto).
        rewrite S. f_equal. lia.
      + constructor; auto. split.
        * intros Q. apply (f_equal (@length Z)) in Q. rewrite firstn_length, skipn_length in Q. cbn [length] in Q. lia.
        * rewrite firstn_length. lia. }
  intros n hex file L1 L2. destruct (G n 0%nat hex file) as (ls & H); [lia|lia|]. exists ls. exact H.
Qed.
(** C154: written as PFA, a font consists of its first part, of the hexadecimal digits of the binary part in lines of at most 64 characters, and of its third part *)
Theorem pfa_written : forall d1 d2 d3 file, Forall isbyte d1 -> Forall isbyte d2 -> Forall isbyte d3 ->
  exists ls, output_pfa (mkt1 (decode d1) d2 (decode d3)) file = Ok (file ++ d1 ++ flat_map (fun l => l ++ [10]) ls ++ d3) /\
  hex_of (concat ls) d2 /\ Forall (fun l => l <> [] /\ (length l <= 64)%nat) ls.
Proof.
  intros d1 d2 d3 file B1 B2 B3. unfold output_pfa. cbn [data1 data2eexec data3]. unfold write at 1. rewrite encode_decode by auto. cbn [bind].
  set (hex := b2a_hex d2). set (n := Z.to_nat ((Z.of_nat (length hex) - 1) / 64 + 1)).
  destruct (lines_written n hex (file ++ d1)) as (ls & E & C & F); [unfold n; lia|unfold n; lia|].
  exists ls. rewrite E. cbn [bind]. unfold write. rewrite encode_decode by auto. cbn [bind]. rewrite <- !app_assoc. split; auto. split; auto. rewrite C. now apply hex_written.
Qed.
Print Assumptions pfa_written.
Example pfa_written_ex : output_pfa (mkt1 [37; 33; 10] (repeat 171 33) [48; 48]) [] = Ok ([37; 33; 10] ++ flat_map (fun _ => [97; 98]) (seq 0 32) ++ [10; 97; 98; 10; 48; 48]).
Proof. reflexivity. Qed.
(** false: nothing can be written as PFB *)
Theorem pfb_output_refuted : forall t file, output_pfb t file = Exn UnicodeEncodeError.
Proof. reflexivity. Qed.
Print Assumptions pfb_output_refuted.
(** C154: in PDF files the stream contains the three parts one after the other, with the lengths given for them; the third part is missing only if it consists
    of 512 zeros and cleartomark between white space *)
Theorem pdf_font_parts : forall compress decompress d1 d2 d3, Forall isbyte d1 -> Forall isbyte d2 -> Forall isbyte d3 ->
  (forall c b, compress = Some c -> decompress (c b) = b) -> (forall b, compress = None -> decompress b = b) ->
  exists l l1 l2 l3 stream d3', output_pdf compress (mkt1 (decode d1) d2 (decode d3)) = Ok (l, l1, l2, l3, stream) /\
  l = length stream /\ decompress stream = d1 ++ d2 ++ d3' /\ l1 = length d1 /\ l2 = length d2 /\ l3 = length d3' /\
  (d3' = d3 \/ (d3' = [] /\ filter (fun c => negb (existsb (Z.eqb c) [10; 13; 9; 32])) d3 = repeat 48 512 ++ cleartomark)).
Proof.
  intros compress decompress d1 d2 d3 B1 B2 B3 D1 D2. unfold output_pdf. cbn [data1 data2eexec data3].
  assert (X : forall b, decompress (match compress with Some c => c b | None => b end) = b) by (intros b; destruct compress; auto).
  destruct (eqb (filter _ (decode d3)) _) eqn:E.
  - apply eqb_eq in E. rewrite encode_decode by auto. cbn [bind encode].
    eexists _, _, _, _, _, []. split; [reflexivity|]. split; [reflexivity|]. split; [apply X|]. split; [apply decode_length|]. split; [reflexivity|]. split; [reflexivity|].
    right. split; auto.
    assert (G : forall d rest, Forall isbyte d -> filter (fun c => negb (existsb (Z.eqb c) [10; 13; 9; 32])) (decode d) = rest -> Forall (fun c => c < 128) rest ->
      filter (fun c => negb (existsb (Z.eqb c) [10; 13; 9; 32])) d = rest).
    { clear. induction d as [|c d IH]; intros rest B H L; [exact H|]. inversion B as [|? ? Bc B']; subst. unfold isbyte in Bc. cbn [decode map filter] in *. fold (decode d) in *.
      destruct (c <? 128) eqn:Ec.
      - destruct (negb (existsb (Z.eqb c) [10; 13; 9; 32])); [inversion L; subst; apply (f_equal (cons c))|]; apply IH; auto.
      - assert (X1 : existsb (Z.eqb (56320 + c)) [10; 13; 9; 32] = false) by (cbn [existsb]; lia). rewrite X1 in L. cbn [negb] in L. apply Forall_inv in L. cbv beta in L. lia. }
    apply (G d3); auto. apply Forall_app. split; [apply Forall_forall; intros x Hx; apply repeat_spec in Hx; lia|repeat constructor; lia].
  - rewrite encode_decode by auto. cbn [bind]. rewrite encode_decode by auto. cbn [bind].
    eexists _, _, _, _, _, d3. split; [reflexivity|]. split; [reflexivity|]. split; [apply X|]. split; [apply decode_length|]. split; [reflexivity|]. split; [apply decode_length|]. auto.
Qed.
Print Assumptions pdf_font_parts.
Example pdf_font_ex : output_pdf None (mkt1 [37; 33] [200; 201; 202] (repeat 48 512 ++ [10] ++ cleartomark ++ [10])) = Ok (5%nat, 2%nat, 3%nat, 0%nat, [37; 33; 200; 201; 202]) /\
  output_pdf None (mkt1 [37; 33] [200; 201; 202] [48; 10]) = Ok (7%nat, 2%nat, 3%nat, 2%nat, [37; 33; 200; 201; 202; 48; 10]).
Proof. split; reflexivity. Qed.

(** ** C155 *)
Section EncodingProps.
Variable int : list Z -> option Z.
Lemma tokens_cons : forall t ts d r, gettokens ps_str (length (t :: ts)) d = Some (t :: ts, r) -> exists d', get d = Ok (t, d') /\ gettokens ps_str (length ts) d' = Some (ts, r).
Proof.
  intros t ts d r H. cbn [length gettokens] in H. unfold get. destruct (gettoken ps_str d) as [[t' d']|]; [|discriminate].
  destruct (gettokens ps_str (length ts) d') as [[ts' r']|] eqn:E; [|discriminate]. injection H as -> -> ->. exists d'. auto.
Qed.
Lemma assign_nth : forall {A} i (x : A) l j, nth_error (assign i x l) j = if Nat.eqb i j then (if Nat.ltb i (length l) then Some x else None) else nth_error l j.
Proof.
  intros A. induction i as [|i IH]; intros x [|y l] [|j]; cbn [assign nth_error Nat.eqb length]; auto.
  - now destruct (Nat.eqb i j).
  - rewrite IH. destruct (Nat.eqb i j); auto.
Qed.
Lemma assign_length : forall {A} i (x : A) l, length (assign i x l) = length l.
Proof. intros A. induction i as [|i IH]; intros x [|y l]; cbn; auto. Qed.
(** the tokens of the entries: code, name, put, and dup before the next one *)
Fixpoint entry_tokens (l : list (list Z * list Z)) (end_ : list Z) : list (list Z) :=
  match l with
  | [] => []
  | [(c, n)] => [c; 47 :: n; put; end_]
  | (c, n) :: l' => [c; 47 :: n; put; dup] ++ entry_tokens l' end_
  end.
Definition values (l : list (list Z * list Z)) (vs : list (Z * list Z)) : Prop := Forall2 (fun cn v => int (fst cn) = Some (fst v) /\ snd cn = snd v) l vs.
Lemma entries_read : forall l vs end_ fuel enc d r, l <> [] -> values l vs -> end_ = readonly \/ end_ = def -> (length l <= fuel)%nat -> length enc = 256%nat ->
  gettokens ps_str (length (entry_tokens l end_)) d = Some (entry_tokens l end_, r) ->
  exists e, entries int fuel enc d = Ok e /\ length e = 256%nat /\
  forall i, 0 <= i < 256 -> nth_error e (Z.to_nat i) = match last_entry vs i with Some n => Some (Some n) | None => nth_error enc (Z.to_nat i) end.
Proof.
  induction l as [|[c n] l IH]; intros vs end_ fuel enc d r N V En Lf Le G; [congruence|].
  inversion V as [|? [j m] ? vs' [Vi Vn] V']; subst. cbn [fst snd] in Vi, Vn. subst m.
  destruct fuel as [|f]; [cbn in Lf; lia|].
  assert (T : entry_tokens ((c, n) :: l) end_ = c :: (47 :: n) :: put :: (match l with [] => end_ | _ => dup end) :: match l with [] => [] | _ => entry_tokens l end_ end) by (destruct l; reflexivity).
  rewrite T in G. clear T.
  apply tokens_cons in G as (d1 & G1 & G). apply tokens_cons in G as (d2 & G2 & G). apply tokens_cons in G as (d3 & G3 & G). apply tokens_cons in G as (d4 & G4 & G).
  cbn [entries]. rewrite G1. cbn [bind]. rewrite Vi, G2. cbn [bind]. rewrite G3. cbn [bind]. rewrite (eqb_refl put). cbn [negb]. rewrite G4. cbn [bind tl].
  set (enc' := if (0 <=? j) && (j <? 256) then assign (Z.to_nat j) (Some n) enc else enc).
  assert (Le' : length enc' = 256%nat) by (unfold enc'; destruct ((0 <=? j) && (j <? 256)); [rewrite assign_length|]; auto).
  assert (Q : forall i, 0 <= i < 256 -> nth_error enc' (Z.to_nat i) = if j =? i then Some (Some n) else nth_error enc (Z.to_nat i)).
  { intros i I. unfold enc'. destruct ((0 <=? j) && (j <? 256)) eqn:E.
    - rewrite assign_nth, Le. destruct (Nat.eqb (Z.to_nat j) (Z.to_nat i)) eqn:E1; destruct (j =? i) eqn:E2; try lia; auto.
      destruct (Nat.ltb (Z.to_nat j) 256) eqn:E3; auto. lia.
    - destruct (j =? i) eqn:E2; auto. lia. }
  destruct l as [|[c2 n2] l].
  - assert (X : eqb end_ readonly || eqb end_ def = true) by (destruct En as [-> | ->]; reflexivity). rewrite X. exists enc'. split; auto. split; auto.
    intros i I. inversion V'; subst. cbn [last_entry]. rewrite (Q i I). now destruct (j =? i).
  - change (eqb dup readonly || eqb dup def) with false. change (eqb dup dup) with true. cbn iota.
    destruct (IH vs' end_ f enc' d4 r) as (e & E & L & H); auto; [discriminate|cbn in *; lia|]. exists e. split; auto. split; auto.
    intros i I. rewrite (H i I), (Q i I). cbn [last_entry]. destruct (last_entry vs' i); auto. now destruct (j =? i).
Qed.
Lemma skip_read : forall pre fuel ts d r, ~ In dup pre -> (length pre < fuel)%nat -> gettokens ps_str (length (pre ++ dup :: ts)) d = Some (pre ++ dup :: ts, r) ->
  exists d', skip_to_dup fuel d = Ok d' /\ gettokens ps_str (length ts) d' = Some (ts, r).
Proof.
  induction pre as [|t pre IH]; intros fuel ts d r N L G; (destruct fuel as [|f]; [cbn in L; lia|]); cbn [app] in G; apply tokens_cons in G as (d1 & G1 & G); cbn [skip_to_dup]; rewrite G1; cbn [bind].
  - rewrite (eqb_refl dup). eauto.
  - destruct (eqb t dup) eqn:E; [exfalso; apply N; left; now apply eqb_eq|]. apply IH; auto; [intros I; apply N; now right|cbn in L; lia].
Qed.
(** C155: the encoding of a font is read from the text behind /Encoding, whatever white space and comments are between the words: it is the standard encoding if this is
    said, otherwise the code i has the name of the last entry for i, and none if there is no entry *)
Theorem encoding_read : forall before c0 data c rest pre l end_ vs t1 t2 fuel,
  (forall b' r', before ++ encoding_key ++ c0 :: data ++ c :: rest = b' ++ encoding_key ++ r' -> (length before <= length b')%nat) -> white c0 -> white c \/ delimiter c ->
  written (t1 :: t2 :: pre ++ dup :: entry_tokens l end_) data -> ~ (t1 = standard /\ t2 = def) -> ~ In dup pre -> l <> [] -> values l vs -> end_ = readonly \/ end_ = def ->
  (length pre + length l < fuel)%nat ->
  exists e, encoding int fuel (before ++ encoding_key ++ c0 :: data ++ c :: rest) = Ok (Some e) /\ length e = 256%nat /\
  forall i, 0 <= i < 256 -> nth_error e (Z.to_nat i) = Some (last_entry vs i).
Proof.
  intros before c0 data c rest pre l end_ vs t1 t2 fuel Fi W0 Wc Wr Ns Np Nl V En Lf.
  assert (K : new_tokenizer ps_str Z.eqb (before ++ encoding_key ++ c0 :: data ++ c :: rest) (Some encoding_key) true = Some (data ++ c :: rest)).
  { apply start_separator. exists c0, (data ++ c :: rest). split; [|right; auto]. apply start_behind_first. exists before. split; [reflexivity|exact Fi]. }
  unfold encoding. rewrite K. destruct (tokens_read_back _ data c rest Wr Wc ltac:(discriminate)) as (r & G & _).
  apply tokens_cons in G as (d1 & G1 & G). apply tokens_cons in G as (d2 & G2 & G). rewrite G1. cbn [bind]. rewrite G2. cbn [bind].
  destruct (eqb t1 standard && eqb t2 def) eqn:E; [exfalso; apply Ns; apply andb_prop in E as [E1 E2]; split; now apply eqb_eq|].
  destruct (skip_read pre fuel _ _ _ Np ltac:(lia) G) as (d3 & E3 & G3). rewrite E3. cbn [bind].
  destruct (entries_read l vs end_ fuel (repeat None 256) d3 r Nl V En ltac:(lia) (repeat_length _ _) G3) as (e & E4 & Le & H). rewrite E4. cbn [bind].
  exists e. split; auto. split; auto. intros i I. rewrite (H i I). destruct (last_entry vs i) as [m|]; auto.
  assert (X : nth_error (repeat (@None (list Z)) 256) (Z.to_nat i) <> None) by (apply nth_error_Some; rewrite repeat_length; lia).
  destruct (nth_error (repeat None 256) (Z.to_nat i)) as [o|] eqn:Eo; [|congruence]. apply nth_error_In in Eo. apply repeat_spec in Eo. now subst.
Qed.
End EncodingProps.
Print Assumptions encoding_read.
(** /Encoding 256 array 0 1 ... dup 65 /A put, a comment, dup 66/B put, dup 300 /C put, dup 65 /Q put readonly *)
Definition number (s : list Z) : option Z := if forallb (fun c => (48 <=? c) && (c <=? 57)) s then Some (fold_left (fun n c => 10 * n + (c - 48)) s 0) else None.
Example encoding_ex : match encoding number 20 ([47; 88; 32] ++ encoding_key ++ [32; 50; 53; 54; 32; 97; 114; 114; 97; 121; 10; 48; 32; 49; 10] ++
    dup ++ [32; 54; 53; 32; 47; 65; 32] ++ put ++ [37; 120; 10] ++ dup ++ [32; 54; 54; 47; 66; 32] ++ put ++ [10] ++ dup ++ [32; 51; 48; 48; 47; 67; 32] ++ put ++ [10] ++
    dup ++ [32; 54; 53; 32; 47; 81; 32] ++ put ++ [10] ++ readonly ++ [32]) with
  | Ok (Some e) => (nth_error e 65, nth_error e 66, nth_error e 67, length e) = (Some (Some [81]), Some (Some [66]), Some None, 256%nat)
  | _ => False end.
Proof. vm_compute. reflexivity. Qed.
(** the standard encoding *)
Theorem encoding_standard : forall int before c0 data c rest fuel,
  (forall b' r', before ++ encoding_key ++ c0 :: data ++ c :: rest = b' ++ encoding_key ++ r' -> (length before <= length b')%nat) -> white c0 -> white c \/ delimiter c ->
  written [standard; def] data -> encoding int fuel (before ++ encoding_key ++ c0 :: data ++ c :: rest) = Ok None.
Proof.
  intros int before c0 data c rest fuel Fi W0 Wc Wr.
  assert (K : new_tokenizer ps_str Z.eqb (before ++ encoding_key ++ c0 :: data ++ c :: rest) (Some encoding_key) true = Some (data ++ c :: rest)).
  { apply start_separator. exists c0, (data ++ c :: rest). split; [|right; auto]. apply start_behind_first. exists before. split; [reflexivity|exact Fi]. }
  unfold encoding. rewrite K. destruct (tokens_read_back _ data c rest Wr Wc ltac:(discriminate)) as (r & G & _).
  apply tokens_cons in G as (d1 & G1 & G). apply tokens_cons in G as (d2 & G2 & G). rewrite G1. cbn [bind]. rewrite G2. cbn [bind]. now rewrite !eqb_refl.
Qed.
Print Assumptions encoding_standard.
