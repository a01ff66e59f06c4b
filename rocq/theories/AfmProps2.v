(** C145, C146: examples of AFM files, what is read wrongly, and the font information for PDF *)
From Coq Require Import Ascii String ZArith QArith List Bool Lia.
From Verif Require Import MapModel MapSpec MapProps AfmModel AfmSpec AfmProps.
Import ListNotations.
Open Scope Z_scope.

(** ** an example: decimal integers with a sign are numbers *)
Fixpoint digits (acc : Z) (s : text) : option Z := match s with [] => Some acc | c :: r => if (48 <=? c) && (c <=? 57) then digits (10 * acc + (c - 48)) r else None end.
Definition dec (s : text) : option Z := match s with [] => None | 45 :: r => option_map Z.opp (digits 0 r) | _ => digits 0 s end.
Definition fdec (s : text) : option Q := option_map inject_Z (dec s).
Definition ln (s : string) : text := key s ++ [10].
Definition sample : list text := map ln [
  "StartFontMetrics 4.1"; "Comment a font"; "FontName Test"; "FontBBox -10 -20 900 800"; "ItalicAngle 0"; "IsFixedPitch false"; "Ascender 700"; "StartCharMetrics 3";
  "C 102 ; WX 278 ; N f ; B 14 0 262 728 ; L i fi ; L l fl ;"; "C 65 ; WX 667 ; N A ; B 14 0 654 718 ;"; "C -1 ; W 500 20 ; N fi"; "EndCharMetrics";
  "StartKernData"; "StartKernPairs 2"; "KPX A f -20"; "KP f A 10 5"; "EndKernPairs"; "EndKernData"; "EndFontMetrics"]%string.
Example afm_ex : exists a, parse fdec dec dec sample = Some a /\ get_attr a (key "FontName") = Some (VStr (key "Test")) /\ get_attr a (key "FontBBox") = Some (VNums [-10#1; -20#1; 900#1; 800#1]%Q) /\
  get_dirattr a 0 (key "IsFixedPitch") = Some (VBool false) /\
  get_char a (key "f") = Some (mkchar 102 (Some (278#1, 0)%Q) None None (Some (key "f")) (Some [14#1; 0; 262#1; 728#1]%Q) [(key "i", key "fi"); (key "l", key "fl")]) /\
  width_pt a [key "f"; key "A"] (10#1) = Some (((0 + (278#1) + (667#1)) * (10#1)) / 1000)%Q /\ kerning a (key "A") (key "f") None = Some (-20#1)%Q /\ get_pair a (ByName (key "A")) (ByName (key "A")) = None.
Proof. eexists. split; [vm_compute; reflexivity|]. repeat split; vm_compute; reflexivity. Qed.
(** a character line of the example is one of the format *)
Example char_line_ex : char_line fdec dec dec (65, [Width false (667#1, 0)%Q; Named (key "A"); Box [14#1; 0; 654#1; 718#1]%Q]) (ln "C 65 ; WX 667 ; N A ; B 14 0 654 718 ;").
Proof.
  assert (SP : Forall space [32]) by (repeat constructor; unfold space; lia).
  assert (PL : forall s, forallb (fun c => negb (isspace c)) s = true -> plain s) by (intros s E; apply Forall_forall; intros c I C; rewrite forallb_forall in E; specialize (E c I); apply space_iff in C; rewrite C in E; discriminate).
  assert (NS : forall c, isspace c = false -> ~ space c) by (intros c E C; apply space_iff in C; congruence).
  assert (KA : forall k args : text, k <> [] -> plain k -> trimmed args -> keyed k args (k ++ [32] ++ args)) by (intros; apply keyed_args; auto; discriminate).
  assert (PA : forall (k args pre post : text), Forall space pre -> Forall space post -> k <> [] -> plain k -> trimmed args -> ~ In 59 (pre ++ (k ++ [32] ++ args) ++ post) -> part_of (pre ++ (k ++ [32] ++ args) ++ post) k args).
  { intros k args pre post A B C D E F. split; [exact F|]. split; [destruct E as [E _]; destruct args; [destruct E|discriminate]|]. exists pre, (k ++ [32] ++ args), post. split; [exact A|]. split; [exact B|]. split; [apply KA; assumption|reflexivity]. }
  assert (TR : forall args : text, match args with [] => false | c :: _ => negb (isspace c) end = true -> isspace (last args 0) = false -> trimmed args).
  { intros args A B. split; [destruct args as [|c r]; [discriminate|]; apply NS; now destruct (isspace c)|now apply NS]. }
  exists (key "C"), (key "65"), (key "C 65 "), [key " WX 667 "; key " N A "; key " B 14 0 654 718 "; []].
  split; [apply (PA (key "C") (key "65") [] [32]); [constructor|exact SP|discriminate|now apply PL|now apply TR|vm_compute; intuition discriminate]|].
  split; [constructor; reflexivity|]. split; [|split; [apply TR; reflexivity|exists [], []; repeat split; auto]].
  apply parts_item with (k := key "WX") (args := key "667"); [apply (PA (key "WX") (key "667") [32] [32]); [exact SP|exact SP|discriminate|now apply PL|now apply TR|vm_compute; intuition discriminate]|constructor; [left; reflexivity|reflexivity]|].
  apply parts_item with (k := key "N") (args := key "A"); [apply (PA (key "N") (key "A") [32] [32]); [exact SP|exact SP|discriminate|now apply PL|now apply TR|vm_compute; intuition discriminate]|constructor|].
  apply parts_item with (k := key "B") (args := key "14 0 654 718"); [apply (PA (key "B") (key "14 0 654 718") [32] [32]); [exact SP|exact SP|discriminate|now apply PL|now apply TR|vm_compute; intuition discriminate]| |].
  - constructor; [|reflexivity]. exists [key "14"; key "0"; key "654"; key "718"]. split; [|repeat constructor].
    apply (spaced_cons [] (key "14") _ (key " 0 654 718")); [exact (Forall_nil space)|discriminate|now apply PL| |right; eexists _, _; split; [reflexivity|now apply space_iff]].
    apply (spaced_cons [32] (key "0") _ (key " 654 718")); [exact SP|discriminate|now apply PL| |right; eexists _, _; split; [reflexivity|now apply space_iff]].
    apply (spaced_cons [32] (key "654") _ (key " 718")); [exact SP|discriminate|now apply PL| |right; eexists _, _; split; [reflexivity|now apply space_iff]].
    apply (spaced_cons [32] (key "718") _ []); [exact SP|discriminate|now apply PL|repeat constructor|left; reflexivity].
  - constructor; constructor.
Qed.

(** the conditions of [afm_read] hold of a file with a name, the character and a kerning *)
Example afm_read_ex : exists a, parse fdec dec dec (map ln ["StartFontMetrics 4.1"; "FontName Test"; "StartCharMetrics 1"; "C 65 ; WX 667 ; N A ; B 14 0 654 718 ;"; "EndCharMetrics"; "StartKernData"; "StartKernPairs 1"; "KPX A A -20"; "EndKernPairs"; "EndKernData"; "EndFontMetrics"]%string) = Some a /\
  get_attr a (key "FontName") = Some (VStr (key "Test")) /\ option_map width0 (get_char a (key "A")) = Some (Some (667#1, 0)%Q) /\ option_map kx (get_pair a (ByName (key "A")) (ByName (key "A"))) = Some (-20#1)%Q.
Proof.
  assert (SP : Forall space [32]) by (constructor; [now apply space_iff|constructor]).
  assert (PL : forall s, forallb (fun c => negb (isspace c)) s = true -> plain s) by (intros s E; apply Forall_forall; intros c I C; rewrite forallb_forall in E; specialize (E c I); apply space_iff in C; rewrite C in E; discriminate).
  assert (TR : forall args : text, match args with [] => false | c :: _ => negb (isspace c) end = true -> isspace (last args 0) = false -> trimmed args).
  { intros args A B. split; [destruct args as [|c r]; [discriminate|]; intros C; apply space_iff in C; rewrite C in A; discriminate|intros C; apply space_iff in C; congruence]. }
  assert (KA : forall k args : text, k <> [] -> plain k -> trimmed args -> keyed k args (k ++ [32] ++ args)) by (intros; apply keyed_args; auto; discriminate).
  assert (PD : forall s, padded (key s) (ln s)) by (intros s; exists [], []; split; [exact (Forall_nil space)|split; [exact (Forall_nil space)|reflexivity]]).
  destruct (afm_read fdec dec dec (ln "StartFontMetrics 4.1") [Attr "FontName" (VStr (key "Test"))] [ln "FontName Test"] (ln "StartCharMetrics 1") [(65, [Width false (667#1, 0)%Q; Named (key "A"); Box [14#1; 0; 654#1; 718#1]%Q])] [ln "C 65 ; WX 667 ; N A ; B 14 0 654 718 ;"]
    (ln "EndCharMetrics") (ln "StartKernData") (ln "StartKernPairs 1") [mkpair (ByName (key "A")) (ByName (key "A")) (-20#1) 0] [ln "KPX A A -20"] (ln "EndKernPairs") (ln "EndKernData") (ln "EndFontMetrics")) as (a & P & A1 & _ & _ & _ & A2 & A3); try apply PD.
  - exists (key "4"), (key "1"), 4, 1, (key "StartFontMetrics 4.1"). repeat split; try (vm_compute; intuition discriminate); [|apply PD]. apply (KA (key "StartFontMetrics") (key "4.1")); [discriminate|now apply PL|now apply TR].
  - constructor; [|constructor]. apply header_keyed with (k := key "FontName") (args := key "Test") (t := key "FontName Test"); [constructor; [left; reflexivity|discriminate]| |apply PD]. apply (KA (key "FontName") (key "Test")); [discriminate|now apply PL|now apply TR].
  - exists (key "1"), (key "StartCharMetrics 1"), 1. repeat split; try discriminate; [|apply PD]. apply (KA (key "StartCharMetrics") (key "1")); [discriminate|now apply PL|now apply TR].
  - constructor; [exact char_line_ex|constructor].
  - exists (key "1"), (key "StartKernPairs 1"), 1. repeat split; try discriminate; [|apply PD]. apply (KA (key "StartKernPairs") (key "1")); [discriminate|now apply PL|now apply TR].
  - constructor; [|constructor]. exists (key "KPX"), (key "A A -20"), (key "KPX A A -20"), [key "A"; key "A"; key "-20"].
    split; [apply (KA (key "KPX") (key "A A -20")); [discriminate|now apply PL|now apply TR]|]. split; [discriminate|]. split; [|split; [constructor; reflexivity|apply PD]].
    apply (spaced_cons [] (key "A") _ (key " A -20")); [exact (Forall_nil space)|discriminate|now apply PL| |right; eexists _, _; split; [reflexivity|now apply space_iff]].
    apply (spaced_cons [32] (key "A") _ (key " -20")); [exact SP|discriminate|now apply PL| |right; eexists _, _; split; [reflexivity|now apply space_iff]].
    apply (spaced_cons [32] (key "-20") _ []); [exact SP|discriminate|now apply PL|repeat constructor|left; reflexivity].
  - exists a. split; [exact P|]. split; [rewrite (A1 "FontName"%string); reflexivity|]. rewrite A2, A3. split; reflexivity.
Qed.

(** ** what is read wrongly *)
(** C145: files with a MetricsSets line cannot be read *)
Theorem metricssets_refuted : forall fl int hex, parse fl int hex (map ln ["StartFontMetrics 4.1"; "MetricsSets 0"; "EndFontMetrics"]%string) = None.
Proof.
  intros fl int hex. unfold parse. cbn [map parselines].
  destruct (parseline fl int hex emptyafm Start (ln "StartFontMetrics 4.1")) as [[a st]|] eqn:E; [|reflexivity]. cbn [bind].
  assert (st = Main) as ->. { unfold parseline, processline_start in E. destruct (split1 _) as [[k [args|]]|]; try discriminate. destruct (is k _); [|discriminate]. destruct (sequence _); [|discriminate]. cbn in E. congruence. }
  reflexivity.
Qed.
Print Assumptions metricssets_refuted.
(** C145: a comment within the section of the second direction ends it, so what follows is taken for the first direction *)
Theorem direction_comment_refuted : exists a, parse fdec dec dec (map ln ["StartFontMetrics 4.1"; "StartDirection 1"; "Comment for vertical writing"; "ItalicAngle 12"; "EndDirection"; "EndFontMetrics"]%string) = Some a /\
  get_dirattr a 1 (key "ItalicAngle") = None /\ get_dirattr a 0 (key "ItalicAngle") = Some (VNum 12).
Proof. eexists. split; [vm_compute; reflexivity|]. split; reflexivity. Qed.
Print Assumptions direction_comment_refuted.
(** C145: a comment among the character metrics is an error *)
Theorem chars_comment_refuted : parse fdec dec dec (map ln ["StartFontMetrics 4.1"; "StartCharMetrics 1"; "Comment letters"; "C 65 ; WX 667 ; N A"; "EndCharMetrics"; "EndFontMetrics"]%string) = None /\
  exists a, parse fdec dec dec (map ln ["StartFontMetrics 4.1"; "StartCharMetrics 1"; "C 65 ; WX 667 ; N A"; "EndCharMetrics"; "EndFontMetrics"]%string) = Some a.
Proof. split; [vm_compute; reflexivity|eexists; vm_compute; reflexivity]. Qed.
Print Assumptions chars_comment_refuted.

(** ** the font information for PDF *)
(** C146: the flags of a font: fixed pitch, serif, symbolic or nonsymbolic, italic *)
Theorem pdf_flags : forall a serif symbol,
  (Z.testbit (flags a serif symbol) 0 = true <-> get_dirattr a 0 (key "IsFixedPitch") = Some (VBool true)) /\
  Z.testbit (flags a serif symbol) 1 = serif /\ Z.testbit (flags a serif symbol) 2 = symbol /\ Z.testbit (flags a serif symbol) 5 = negb symbol /\
  (Z.testbit (flags a serif symbol) 6 = true <-> exists q, get_dirattr a 0 (key "ItalicAngle") = Some (VNum q) /\ ~ (q == 0)%Q) /\
  (forall n, 0 <= n -> ~ In n [0; 1; 2; 5; 6] -> Z.testbit (flags a serif symbol) n = false).
Proof.
  intros a serif symbol. unfold flags. change (kw "IsFixedPitch") with (key "IsFixedPitch"). change (kw "ItalicAngle") with (key "ItalicAngle").
  assert (exists f : bool, match get_dirattr a 0 (key "IsFixedPitch") with Some (VBool true) => 1 | _ => 0 end = (if f then 1 else 0) /\ (f = true <-> get_dirattr a 0 (key "IsFixedPitch") = Some (VBool true))) as (f & -> & F).
  { destruct (get_dirattr a 0 (key "IsFixedPitch")) as [[| | | |[|]]|]; first [exists true; split; [reflexivity|tauto]|exists false; split; [reflexivity|split; intros; congruence]]. }
  assert (exists i : bool, match get_dirattr a 0 (key "ItalicAngle") with Some (VNum q) => if Qeq_bool q 0 then 0 else 64 | _ => 0 end = (if i then 64 else 0) /\
    (i = true <-> exists q, get_dirattr a 0 (key "ItalicAngle") = Some (VNum q) /\ ~ (q == 0)%Q)) as (i & -> & I).
  { destruct (get_dirattr a 0 (key "ItalicAngle")) as [[| |q| |]|]; try (exists false; split; [reflexivity|split; [discriminate|intros (q' & E & _); congruence]]).
    destruct (Qeq_bool q 0) eqn:E; [exists false|exists true]; (split; [reflexivity|]); split; try discriminate; try reflexivity.
    - intros (q' & E1 & N). injection E1 as ->. apply Qeq_bool_iff in E. contradiction.
    - intros _. exists q. split; [reflexivity|]. intros C. apply Qeq_bool_iff in C. congruence. }
  rewrite <- F, <- I. clear F I.
  assert (B : forall n, 0 <= n -> ~ In n [0; 1; 2; 5; 6] -> n = 3 \/ n = 4 \/ 7 <= n) by (intros n P N; cbn in N; lia).
  assert (H7 : forall v n, 0 <= v < 128 -> 7 <= n -> Z.testbit v n = false).
  { intros v n V N. destruct (Z.eq_dec v 0) as [->|NZ]; [apply Z.bits_0|]. apply Z.bits_above_log2; [lia|]. apply Z.lt_le_trans with 7; [|exact N]. apply Z.log2_lt_pow2; lia. }
  destruct f, serif, symbol, i; (split; [split; intros E; try reflexivity; discriminate|]); (split; [reflexivity|]); (split; [reflexivity|]); (split; [reflexivity|]);
    (split; [split; intros E; try reflexivity; discriminate|]); intros n P N; destruct (B n P N) as [-> | [-> | G]]; try reflexivity; (apply H7; [lia|exact G]).
Qed.
Print Assumptions pdf_flags.
Example pdf_flags_ex : exists a, parse fdec dec dec (map ln ["StartFontMetrics 4.1"; "ItalicAngle -12"; "IsFixedPitch true"; "EndFontMetrics"]%string) = Some a /\ flags a false true = 69.
Proof. eexists. split; vm_compute; reflexivity. Qed.
(** C146: without a descender the descent is the top of the bounding box of the font *)
Theorem pdf_descent_refuted : exists a, parse fdec dec dec (map ln ["StartFontMetrics 4.1"; "FontBBox -10 -200 1000 800"; "EndFontMetrics"]%string) = Some a /\ pdf_ascent a = 800 /\ pdf_descent a = 800.
Proof. eexists. split; [vm_compute; reflexivity|]. split; reflexivity. Qed.
Print Assumptions pdf_descent_refuted.
(** C146: ascent and descent are those of the file, in whole units towards zero *)
Theorem pdf_heights : forall a q, (get_attr a (key "Ascender") = Some (VNum q) -> exists r : Q, (q == inject_Z (pdf_ascent a) + r)%Q /\ (-1 < r < 1)%Q /\ (0 <= q -> 0 <= r)%Q /\ (q <= 0 -> r <= 0)%Q) /\
  (get_attr a (key "Descender") = Some (VNum q) -> exists r : Q, (q == inject_Z (pdf_descent a) + r)%Q /\ (-1 < r < 1)%Q /\ (0 <= q -> 0 <= r)%Q /\ (q <= 0 -> r <= 0)%Q).
Proof.
  assert (T : forall q : Q, exists r : Q, (q == inject_Z (trunc q) + r)%Q /\ (-1 < r < 1)%Q /\ (0 <= q -> 0 <= r)%Q /\ (q <= 0 -> r <= 0)%Q).
  { intros [n d]. unfold trunc. cbn [Qnum Qden]. exists (Z.rem n (Z.pos d) # d). pose proof (Z.quot_rem' n (Z.pos d)) as E. pose proof (Z.rem_bound_abs n (Z.pos d) ltac:(lia)) as B.
    split; [|split; [|split]].
    - unfold Qeq, Qplus, inject_Z. cbn [Qnum Qden]. rewrite !Pos2Z.inj_mul. rewrite E at 1. ring.
    - unfold Qlt. cbn [Qnum Qden]. split; lia.
    - unfold Qle. cbn [Qnum Qden]. intros P. pose proof (Z.rem_nonneg n (Z.pos d)). lia.
    - unfold Qle. cbn [Qnum Qden]. intros P. pose proof (Z.rem_nonpos n (Z.pos d)). lia. }
  intros a q. split; intros E; [unfold pdf_ascent|unfold pdf_descent]; [change (kw "Ascender") with (key "Ascender")|change (kw "Descender") with (key "Descender")]; rewrite E; apply T.
Qed.
Print Assumptions pdf_heights.
Example pdf_heights_ex : pdf_descent (set_attr (key "Descender") (VNum (-2075#10)) emptyafm) = -207.
Proof. reflexivity. Qed.
