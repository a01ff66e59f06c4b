(** * The sizes of a character come from its place in each table of the TFM file (C88) *)
From Coq Require Import ZArith Ascii String List Bool Lia ZifyBool.
From Verif Require Import ReaderModel ReaderSpec ReaderProps TfmModel TfmSpec TfmProps.
Import ListNotations.
Open Scope Z_scope.

Lemma word_unique file k v w : word file k v -> word file k w -> v = w.
Proof.
  intros [R1 E1] [R2 E2]. rewrite E1 in E2. pose proof (readint_decodes 4 true v [] R1) as H1. pose proof (readint_decodes 4 true w [] R2) as H2.
  rewrite E2 in H1. congruence.
Qed.
Lemma get_dvi_at index tbl z t c i v : 0 <= c -> nth_error (char_info t) (Z.to_nat c) = Some (Some i) -> 0 <= index i ->
  nth_error (tbl t) (Z.to_nat (index i)) = Some v -> get_dvi index tbl z t c = tfm_to_dvi z v.
Proof.
  intros C E I V. unfold get_dvi, getitem. destruct (0 <=? c) eqn:C'; [|lia]. rewrite E. destruct (0 <=? index i) eqn:I'; [|lia]. rewrite V. reflexivity.
Qed.
Lemma in_table (l : list Z) file k n j v : List.length l = Z.to_nat n -> words file k l -> 0 <= j < n -> word file (k + j) v -> nth_error l (Z.to_nat j) = Some v.
Proof.
  intros L W J V. destruct (nth_error l (Z.to_nat j)) as [u|] eqn:E.
  - f_equal. apply W in E. rewrite Z2Nat.id in E by lia. eapply word_unique; eassumption.
  - apply nth_error_None in E. lia.
Qed.

(** The four bytes of a character say which words of the tables of widths, heights, depths and italic corrections are scaled for it *)
Theorem tfm_char_sizes : forall file t rest z c b0 h d i g r vw vh vd vi, Forall isbyte file -> read_tfm file = Some (t, rest) -> sensible (pre t) ->
  4 * (6 + lh (pre t)) <= Z.of_nat (List.length file) -> bc (pre t) <= c <= ec (pre t) ->
  firstn 4 (skipn (Z.to_nat (4 * (6 + lh (pre t) + (c - bc (pre t))))) file) = [b0; 16 * h + d; 4 * i + g; r] ->
  0 < b0 < nw (pre t) -> 0 <= h < 16 -> h < nh (pre t) -> 0 <= d < 16 -> d < nd (pre t) -> 0 <= i < 64 -> i < ni (pre t) -> 0 <= g < 4 ->
  let o := 6 + lh (pre t) + (ec (pre t) - bc (pre t) + 1) in
  word file (o + b0) vw -> word file (o + nw (pre t) + h) vh -> word file (o + nw (pre t) + nh (pre t) + d) vd -> word file (o + nw (pre t) + nh (pre t) + nd (pre t) + i) vi ->
  getwidth_dvi z t c = tfm_to_dvi z vw /\ getheight_dvi z t c = tfm_to_dvi z vh /\ getdepth_dvi z t c = tfm_to_dvi z vd /\ getitalic_dvi z t c = tfm_to_dvi z vi.
Proof.
  intros file t rest z c b0 h d i g r vw vh vd vi F E S Len C B B0 H H' D D' I I' G o VW VH VD VI.
  destruct (tfm_tables file t rest F E S Len) as [LO _]. destruct LO as [_ _ [IL IF] (o' & O & TB) LE]. cbv zeta in TB. fold o in O. subst o'.
  destruct TB as (TW & TH & TD & TI & _). destruct LE as (LW & LH & LD & LI & _). destruct S as (S1 & S2 & _).
  specialize (IF c ltac:(lia)). destruct (c <? bc (pre t)) eqn:CB; [lia|]. destruct IF as (w & [WR WB] & N). rewrite B in WB.
  destruct (char_info_fields w WR) as (F1 & F2 & F3 & F4 & F5 & F6 & FB). rewrite FB in WB.
  pose proof (f_equal (fun l => nth 0 l 0) WB) as W1. pose proof (f_equal (fun l => nth 1 l 0) WB) as W2. pose proof (f_equal (fun l => nth 2 l 0) WB) as W3. cbn [nth] in W1, W2, W3. clear WB FB.
  assert (HD : height_index (info_of w) = h /\ depth_index (info_of w) = d /\ italic_index (info_of w) = i) by lia. destruct HD as (HE & DE & IE).
  assert (EN : entry w = Some (info_of w)).
  { unfold entry. rewrite info_known in W1. cbn [width_index] in W1. destruct (_ =? 0) eqn:Z0; [lia|reflexivity]. }
  rewrite EN in N. clear EN.
  split; [|split; [|split]].
  - apply (get_dvi_at width_index width z t c (info_of w)); [lia|exact N|lia|]. rewrite <- W1. eapply in_table; [exact LW|exact TW|lia|exact VW].
  - apply (get_dvi_at height_index height z t c (info_of w)); [lia|exact N|lia|]. rewrite HE. eapply in_table; [exact LH|exact TH|lia|exact VH].
  - apply (get_dvi_at depth_index depth z t c (info_of w)); [lia|exact N|lia|]. rewrite DE. eapply in_table; [exact LD|exact TD|lia|].
    replace (o + (nw (pre t) + nh (pre t)) + d) with (o + nw (pre t) + nh (pre t) + d) by lia. exact VD.
  - apply (get_dvi_at italic_index italic z t c (info_of w)); [lia|exact N|lia|]. rewrite IE. eapply in_table; [exact LI|exact TI|lia|].
    replace (o + (nw (pre t) + nh (pre t) + nd (pre t)) + i) with (o + nw (pre t) + nh (pre t) + nd (pre t) + i) by lia. exact VI.
Qed.
Print Assumptions tfm_char_sizes.

(** one character with four different sizes *)
Definition four_sizes : list Z :=
  [0; 18; 0; 2; 0; 65; 0; 65; 0; 2; 0; 2; 0; 3; 0; 2; 0; 0; 0; 0; 0; 0; 0; 0] ++ [1; 2; 3; 4; 0; 160; 0; 0] ++ [1; 18; 4; 0] ++
  [0; 0; 0; 0; 0; 8; 0; 0] ++ [0; 0; 0; 0; 0; 4; 0; 0] ++ [0; 0; 0; 0; 0; 0; 0; 0; 0; 2; 0; 0] ++ [0; 0; 0; 0; 0; 1; 0; 0].
Example tfm_char_sizes_ex : exists t, read_tfm four_sizes = Some (t, []) /\ sensible (pre t) /\
  firstn 4 (skipn (Z.to_nat (4 * (6 + lh (pre t) + (65 - bc (pre t))))) four_sizes) = [1; 16 * 1 + 2; 4 * 1 + 0; 0] /\
  getwidth_dvi 655360 t 65 = Some 327680 /\ getheight_dvi 655360 t 65 = Some 163840 /\ getdepth_dvi 655360 t 65 = Some 81920 /\ getitalic_dvi 655360 t 65 = Some 40960.
Proof. eexists. split; [vm_compute; reflexivity|]. split; [unfold sensible; cbn; lia|]. repeat split; vm_compute; reflexivity. Qed.
