(** Virtual fonts are read as they are written. *)
From Coq Require Import ZArith List Bool Lia ZifyBool.
From Verif Require Import ReaderModel ReaderSpec ReaderProps VfModel.
Import ListNotations.
Open Scope Z_scope.

(** ** VF files as described in the documentation of VFtoVP *)
(** font definitions with numbers of 1 to 4 bytes (the last ones signed), checksum, size and design size, area and name; packets of characters with
    code, TFM width and DVI program, in the short and in the long form *)
Inductive item :=
| FontDef (n : nat) (num c s d : Z) (area name : list Z)
| Short (cc tfm : Z) (dvi : list Z)
| Long (cc tfm : Z) (dvi : list Z).
Definition len (l : list Z) : Z := Z.of_nat (length l).
Definition written (i : item) : list Z :=
  match i with
  | FontDef n num c s d area name => [242 + Z.of_nat n] ++ bigendian n num ++ bigendian 4 c ++ bigendian 4 s ++ bigendian 4 d ++ [len area; len name] ++ area ++ name
  | Short cc tfm dvi => [len dvi; cc] ++ bigendian 3 tfm ++ dvi
  | Long cc tfm dvi => [242] ++ bigendian 4 (len dvi) ++ bigendian 4 cc ++ bigendian 4 tfm ++ dvi
  end.
(** the fields fit to their sizes *)
Definition fits (i : item) : Prop :=
  match i with
  | FontDef n num c s d area name =>
      (1 <= n <= 4)%nat /\ inrange (Nat.eqb n 4) n num /\ inrange true 4 c /\ inrange true 4 s /\ inrange true 4 d /\
      len area < 256 /\ len name < 256 /\ Forall isbyte area /\ Forall isbyte name
  | Short cc tfm dvi => isbyte cc /\ inrange false 3 tfm /\ len dvi < 242 /\ Forall isbyte dvi
  | Long cc tfm dvi => inrange true 4 cc /\ inrange true 4 tfm /\ len dvi < 4294967296 /\ Forall isbyte dvi
  end.
Definition short (i : item) : Prop := match i with Long _ _ _ => False | _ => True end.
(** the file: preamble, items, postamble *)
Definition vf_file (comment : list Z) (c d : Z) (items : list item) (post : list Z) : list Z :=
  [247; 202; len comment] ++ comment ++ bigendian 4 c ++ bigendian 4 d ++ flat_map written items ++ [248] ++ post.

(** the last element with a property *)
Definition is_last {A} (P : A -> Prop) (l : list A) (a : A) : Prop := P a /\ exists l1 l2, l = l1 ++ a :: l2 /\ Forall (fun b => ~ P b) l2.
Definition is_none {A} (P : A -> Prop) (l : list A) : Prop := Forall (fun b => ~ P b) l.
Definition defines_font (num : Z) (i : item) : Prop := match i with FontDef _ k _ _ _ _ _ => k = num | _ => False end.
Definition defines_char (cc : Z) (i : item) : Prop := match i with Short k _ _ | Long k _ _ => k = cc | _ => False end.

(** ** Reading the fields *)
Lemma readint_bigendian : forall signed n v rest, inrange signed n v -> readint n signed (bigendian n v ++ rest) = Some (v, rest).
Proof. intros. apply readint_decodes. auto. Qed.
Lemma bigendian_bytes : forall n v, Forall isbyte (bigendian n v).
Proof. induction n; cbn [bigendian]; intros v; constructor; auto. unfold isbyte. apply Z.mod_pos_bound. lia. Qed.
Lemma fread_app : forall l rest, fread (length l) (l ++ rest) = (l, rest).
Proof. intros l rest. unfold fread. rewrite firstn_app, Nat.sub_diag, firstn_all, skipn_app, Nat.sub_diag, skipn_all. cbn. now rewrite app_nil_r. Qed.
Lemma uchar_byte : forall b rest, readuchar (b :: rest) = Some (b, rest).
Proof. intros. unfold readuchar, unpacked. reflexivity. Qed.
Lemma len_nat : forall l, Z.to_nat (len l) = length l.
Proof. intros. unfold len. lia. Qed.
Lemma len_byte : forall l, len l < 256 -> isbyte (len l).
Proof. intros. unfold isbyte, len in *. lia. Qed.

Section Reading.
  Variable rescale : Z -> Z -> Z.

  (** what a short item adds *)
  Definition add (v : vf) (i : item) : vf :=
    match i with
    | FontDef _ num c s d area name => mkvf (cs v) (ds v) ((num, mkvfont (area ++ name) c (rescale (ds v) s) d) :: fonts v) (widths v) (chardefs v)
    | Short cc tfm dvi | Long cc tfm dvi => mkvf (cs v) (ds v) (fonts v) ((cc, tfm) :: widths v) ((cc, dvi) :: chardefs v)
    end.

  Lemma command_short : forall v i rest, short i -> fits i -> Forall isbyte rest -> command rescale v (written i ++ rest) = Some (true, add v i, rest).
  Proof.
    intros v i rest S F R. destruct i as [n num c s d area name|cc tfm dvi|]; [| |contradiction]; cbn [fits written add] in *.
    - destruct F as (N & NR & C & SS & D & A & L & BA & BN). unfold command. rewrite <- app_assoc. cbn [app]. rewrite uchar_byte. cbn [bind].
      replace (243 <=? 242 + Z.of_nat n) with true by lia. replace (242 + Z.of_nat n <? 247) with true by lia. cbn [andb].
      repeat (rewrite <- app_assoc; cbn [app]).
      assert (Q : readnum (242 + Z.of_nat n) (bigendian n num ++ bigendian 4 c ++ bigendian 4 s ++ bigendian 4 d ++ len area :: len name :: area ++ name ++ rest)
        = Some (num, bigendian 4 c ++ bigendian 4 s ++ bigendian 4 d ++ len area :: len name :: area ++ name ++ rest)).
      { assert (Fb : Forall isbyte (bigendian n num ++ bigendian 4 c ++ bigendian 4 s ++ bigendian 4 d ++ len area :: len name :: area ++ name ++ rest)).
        { repeat (apply Forall_app; split); auto using bigendian_bytes. repeat (constructor; auto using len_byte). repeat (apply Forall_app; split); auto. }
        destruct (fixed_size_readers _ Fb) as (F1 & F2 & F3 & F4 & F5 & F6 & F7).
        unfold readnum. destruct n as [|[|[|[|[|n]]]]]; try lia; cbn [Z.of_nat Pos.of_succ_nat Pos.succ Z.add Pos.add Z.eqb Pos.eqb];
          [rewrite F6|rewrite F4|rewrite F7|rewrite F1]; apply readint_decodes; auto. }
      rewrite Q. cbn [bind]. clear Q.
      assert (I32 : forall x r, inrange true 4 x -> Forall isbyte r -> readint32 (bigendian 4 x ++ r) = Some (x, r)).
      { intros x r X Y. destruct (fixed_size_readers (bigendian 4 x ++ r)) as (-> & _); [apply Forall_app; split; auto using bigendian_bytes|]. apply readint_decodes; auto. }
      assert (T : Forall isbyte (len area :: len name :: area ++ name ++ rest)).
      { repeat (constructor; auto using len_byte). repeat (apply Forall_app; split); auto. }
      rewrite I32; [|auto|repeat (apply Forall_app; split); auto using bigendian_bytes]. cbn [bind].
      rewrite I32; [|auto|repeat (apply Forall_app; split); auto using bigendian_bytes]. cbn [bind].
      rewrite I32; [|auto|auto]. cbn [bind]. rewrite uchar_byte. cbn [bind]. rewrite uchar_byte. cbn [bind].
      replace (Z.to_nat (len area + len name)) with (length (area ++ name)) by (rewrite app_length; unfold len; lia).
      rewrite app_assoc, fread_app. reflexivity.
    - destruct F as (C & T & L & B). unfold command. cbn [app]. rewrite uchar_byte. cbn [bind].
      replace (243 <=? len dvi) with false by lia. cbn [andb]. replace (len dvi =? 242) with false by lia. replace (len dvi <? 242) with true by lia.
      rewrite uchar_byte. cbn [bind]. rewrite <- app_assoc.
      destruct (fixed_size_readers (bigendian 3 tfm ++ dvi ++ rest)) as (_ & _ & _ & _ & _ & _ & ->).
      { repeat (apply Forall_app; split); auto using bigendian_bytes. }
      rewrite readint_decodes by auto. cbn [bind]. rewrite len_nat, fread_app. reflexivity.
  Qed.

  Lemma written_bytes : forall i, fits i -> Forall isbyte (written i).
  Proof.
    intros [n num c s d area name|cc tfm dvi|cc tfm dvi] F; cbn [fits written] in *.
    - destruct F as (N & NR & C & SS & D & A & L & BA & BN).
      assert (Forall isbyte [242 + Z.of_nat n]) by (constructor; [unfold isbyte; lia|constructor]).
      assert (Forall isbyte [len area; len name]) by (repeat (constructor; auto using len_byte)).
      repeat (apply Forall_app; split); auto using bigendian_bytes.
    - destruct F as (C & T & L & B).
      assert (Forall isbyte [len dvi; cc]) by (constructor; [unfold isbyte, len in *; lia|constructor; auto]).
      repeat (apply Forall_app; split); auto using bigendian_bytes.
    - destruct F as (C & T & L & B).
      assert (Forall isbyte [242]) by (constructor; [unfold isbyte; lia|constructor]).
      repeat (apply Forall_app; split); auto using bigendian_bytes.
  Qed.
  Lemma commands_short : forall items v rest fuel, Forall short items -> Forall fits items -> Forall isbyte rest -> (length items < fuel)%nat ->
    commands rescale fuel v (flat_map written items ++ [248] ++ rest) = Some (fold_left add items v).
  Proof.
    induction items as [|i items IH]; intros v rest fuel S F R N.
    - destruct fuel; [lia|]. cbn [flat_map app commands fold_left]. unfold command. rewrite uchar_byte. reflexivity.
    - destruct fuel; [cbn in N; lia|]. inversion_clear S. inversion_clear F. cbn [flat_map commands fold_left]. rewrite <- app_assoc.
      rewrite command_short; auto.
      + cbn [bind]. apply IH; auto. cbn [length] in N. lia.
      + apply Forall_app. split; [|apply Forall_app; split; [repeat constructor; lia|auto]].
        apply Forall_flat_map. eapply Forall_impl; [|eassumption]. apply written_bytes.
  Qed.
  Lemma written_longer : forall items, (length items <= length (flat_map written items))%nat.
  Proof.
    induction items as [|i items IH]; [apply le_n|]. cbn [flat_map length]. rewrite app_length. assert (1 <= length (written i))%nat; [|lia].
    destruct i; cbn; lia.
  Qed.
  Lemma read_folds : forall comment c d items post, Forall short items -> Forall fits items -> Forall isbyte post -> Forall isbyte comment -> len comment < 256 ->
    inrange false 4 c -> inrange false 4 d ->
    vffile rescale (vf_file comment c d items post) = Some (fold_left add items (mkvf c d [] [] [])).
  Proof.
    intros comment c d items post S F P B L C D. unfold vffile, vf_file. cbn [app]. rewrite uchar_byte. cbn [bind Z.eqb Pos.eqb]. rewrite uchar_byte. cbn [bind Z.eqb Pos.eqb].
    rewrite uchar_byte. cbn [bind]. rewrite len_nat, fread_app.
    assert (X : Forall isbyte (flat_map written items ++ [248] ++ post)).
    { apply Forall_app. split; [|apply Forall_app; split; [repeat constructor; lia|auto]].
        apply Forall_flat_map. eapply Forall_impl; [|eassumption]. apply written_bytes. }
    cbn [app] in X.
    destruct (fixed_size_readers (bigendian 4 c ++ bigendian 4 d ++ flat_map written items ++ 248 :: post)) as (_ & -> & _).
    { repeat (apply Forall_app; split); auto using bigendian_bytes; apply Forall_app in X; tauto. }
    rewrite readint_decodes by auto. cbn [bind].
    destruct (fixed_size_readers (bigendian 4 d ++ flat_map written items ++ 248 :: post)) as (_ & -> & _).
    { repeat (apply Forall_app; split); auto using bigendian_bytes; apply Forall_app in X; tauto. }
    rewrite readint_decodes by auto. cbn [bind]. change (248 :: post) with ([248] ++ post). apply commands_short; auto.
    rewrite app_length. pose proof (written_longer items). lia.
  Qed.

  Lemma fold_ds : forall items v, ds (fold_left add items v) = ds v /\ cs (fold_left add items v) = cs v.
  Proof. induction items as [|i items IH]; intros v; [auto|]. cbn [fold_left]. destruct (IH (add v i)) as [-> ->]. destruct i; auto. Qed.
  Lemma add_snoc : forall items i v, fold_left add (items ++ [i]) v = add (fold_left add items v) i.
  Proof. intros. rewrite fold_left_app. reflexivity. Qed.

  Lemma char_entry : forall items c d cc,
    (is_none (defines_char cc) items /\ getchar (fold_left add items (mkvf c d [] [] [])) cc = None /\ getwidth (fold_left add items (mkvf c d [] [] [])) cc = None) \/
    exists tfm dvi, (is_last (defines_char cc) items (Short cc tfm dvi) \/ is_last (defines_char cc) items (Long cc tfm dvi)) /\
      getchar (fold_left add items (mkvf c d [] [] [])) cc = Some dvi /\ getwidth (fold_left add items (mkvf c d [] [] [])) cc = Some tfm.
  Proof.
    intros items c d cc. induction items as [|i items IH] using rev_ind; [left; repeat split; constructor|]. rewrite add_snoc.
    set (v := fold_left add items (mkvf c d [] [] [])) in *.
    assert (K : ~ defines_char cc i -> getchar (add v i) cc = getchar v cc /\ getwidth (add v i) cc = getwidth v cc).
    { intros N. destruct i as [| |]; cbn [defines_char] in N; [auto| |]; unfold getchar, getwidth; cbn [add chardefs widths entry];
        (destruct (Z.eqb_spec cc0 cc); [contradiction|auto]). }
    assert (E : ~ defines_char cc i \/ exists tfm dvi, (i = Short cc tfm dvi \/ i = Long cc tfm dvi)).
    { destruct i as [| k tfm dvi|k tfm dvi]; [left; auto| |]; (destruct (Z.eq_dec k cc) as [->|]; [right; exists tfm, dvi; auto|left; auto]). }
    destruct E as [E|(tfm & dvi & E)].
    - destruct (K E) as [-> ->]. destruct IH as [(N & G)|(tfm & dvi & L & G)].
      + left. split; [|exact G]. apply Forall_app. split; [exact N|]. repeat constructor; auto.
      + right. exists tfm, dvi. split; [|exact G]. destruct L as [(P & l1 & l2 & -> & Q)|(P & l1 & l2 & -> & Q)]; [left|right];
          (split; [exact P|]; exists l1, (l2 ++ [i]); split; [rewrite <- app_assoc; reflexivity|]; apply Forall_app; split; auto).
    - right. exists tfm, dvi. split.
      + destruct E as [-> | ->]; [left|right]; (split; [reflexivity|]; exists items, []; split; [reflexivity|constructor]).
      + destruct E as [-> | ->]; unfold getchar, getwidth; cbn [add chardefs widths entry]; rewrite Z.eqb_refl; auto.
  Qed.
  Lemma font_entry : forall items c d num,
    (is_none (defines_font num) items /\ getfont (fold_left add items (mkvf c d [] [] [])) num = None) \/
    exists n ch s ds area name, is_last (defines_font num) items (FontDef n num ch s ds area name) /\
      getfont (fold_left add items (mkvf c d [] [] [])) num = Some (mkvfont (area ++ name) ch (rescale d s) ds).
  Proof.
    intros items c d num. induction items as [|i items IH] using rev_ind; [left; repeat split; constructor|]. rewrite add_snoc.
    destruct (fold_ds items (mkvf c d [] [] [])) as [DS _]. cbn [ds] in DS.
    set (v := fold_left add items (mkvf c d [] [] [])) in *.
    assert (K : ~ defines_font num i -> getfont (add v i) num = getfont v num).
    { intros N. destruct i as [n k ch s e area name| |]; cbn [defines_font] in N; [|auto|auto]. unfold getfont. cbn [add fonts entry].
      destruct (Z.eqb_spec k num); [contradiction|auto]. }
    assert (E : ~ defines_font num i \/ exists n ch s e area name, i = FontDef n num ch s e area name).
    { destruct i as [n k ch s e area name| |]; [|left; auto|left; auto]. destruct (Z.eq_dec k num) as [->|]; [right; repeat eexists|left; auto]. }
    destruct E as [E|(n & ch & s & e & area & name & E)].
    - rewrite (K E). destruct IH as [(N & G)|(n & ch & s & e & area & name & L & G)].
      + left. split; [|exact G]. apply Forall_app. split; [exact N|]. repeat constructor; auto.
      + right. exists n, ch, s, e, area, name. split; [|exact G]. destruct L as (P & l1 & l2 & -> & Q).
        split; [exact P|]. exists l1, (l2 ++ [i]). split; [rewrite <- app_assoc; reflexivity|]. apply Forall_app. split; auto.
    - right. exists n, ch, s, e, area, name. subst i. split.
      + split; [reflexivity|]. exists items, []. split; [reflexivity|constructor].
      + unfold getfont. cbn [add fonts entry]. rewrite Z.eqb_refl, DS. reflexivity.
  Qed.

  (** C120, for files with short packets only: *)
  Theorem vf_read_partial : forall comment c d items post, Forall short items -> Forall fits items -> Forall isbyte post -> Forall isbyte comment -> len comment < 256 ->
    inrange false 4 c -> inrange false 4 d ->
    exists v, vffile rescale (vf_file comment c d items post) = Some v /\ cs v = c /\ ds v = d /\
      (forall num, match getfont v num with
        | Some f => exists n s area, is_last (defines_font num) items (FontDef n num (vchecksum f) s (vdesign f) area (skipn (length area) (vname f))) /\
            firstn (length area) (vname f) = area /\ vsize f = rescale d s
        | None => is_none (defines_font num) items end) /\
      (forall cc, match getchar v cc, getwidth v cc with
        | Some dvi, Some tfm => is_last (defines_char cc) items (Short cc tfm dvi)
        | None, None => is_none (defines_char cc) items
        | _, _ => False end).
  Proof.
    intros comment c d items post S F P B L C D. eexists. split; [apply read_folds; auto|].
    destruct (fold_ds items (mkvf c d [] [] [])) as [DS CS]. cbn in DS, CS. split; [exact CS|]. split; [exact DS|]. split.
    - intros num. destruct (font_entry items c d num) as [(N & ->)|(n & ch & s & e & area & name & I & ->)]; [exact N|].
      cbn [vchecksum vdesign vname vsize]. exists n, s, area.
      rewrite skipn_app, Nat.sub_diag, skipn_all, firstn_app, Nat.sub_diag, firstn_all. cbn [app skipn firstn]. rewrite app_nil_r. auto.
    - intros cc. destruct (char_entry items c d cc) as [(N & -> & ->)|(tfm & dvi & I & -> & ->)]; [exact N|].
      destruct I as [I|I]; [exact I|]. exfalso. destruct I as (_ & l1 & l2 & -> & _). apply Forall_app in S as [_ S]. inversion_clear S. contradiction.
  Qed.

  (** The long form has a width of four bytes, of which only three are read: the DVI program begins one byte too early, the reading goes on with the
      last byte of the program as a command, and the width is divided by 256. *)
  Theorem vf_long_refuted : forall comment c d cc tfm dvi last post, Forall isbyte post -> Forall isbyte comment -> len comment < 256 ->
    inrange false 4 c -> inrange false 4 d -> 0 <= cc < 2147483648 -> 0 <= tfm < 2147483648 -> Forall isbyte dvi -> len dvi < 4294967295 -> isbyte last ->
    vffile rescale (vf_file comment c d [Long cc tfm (dvi ++ [last])] post) =
      commands rescale (length (written (Long cc tfm (dvi ++ [last]))) + length post + 1) (mkvf c d [] [(cc, tfm / 256)] [(cc, tfm mod 256 :: dvi)]) (last :: 248 :: post).
  Proof.
    intros comment c d cc tfm dvi last post P B L C D CC T V W LA. unfold vffile, vf_file. cbn [flat_map app]. rewrite uchar_byte. cbn [bind Z.eqb Pos.eqb]. rewrite uchar_byte. cbn [bind Z.eqb Pos.eqb].
    rewrite uchar_byte. cbn [bind]. rewrite len_nat, fread_app, app_nil_r.
    assert (X : Forall isbyte (bigendian 4 tfm ++ dvi ++ [last] ++ 248 :: post)).
    { repeat (apply Forall_app; split); auto using bigendian_bytes; repeat constructor; auto; lia. }
    assert (Y : Forall isbyte (written (Long cc tfm (dvi ++ [last])) ++ 248 :: post)).
    { cbn [written]. repeat (apply Forall_app; split); auto using bigendian_bytes; repeat constructor; auto; lia. }
    destruct (fixed_size_readers (bigendian 4 c ++ bigendian 4 d ++ written (Long cc tfm (dvi ++ [last])) ++ 248 :: post)) as (_ & -> & _).
    { repeat (apply Forall_app; split; [apply bigendian_bytes|]); exact Y. }
    rewrite readint_decodes by auto. cbn [bind].
    destruct (fixed_size_readers (bigendian 4 d ++ written (Long cc tfm (dvi ++ [last])) ++ 248 :: post)) as (_ & -> & _).
    { repeat (apply Forall_app; split; [apply bigendian_bytes|]); exact Y. }
    rewrite readint_decodes by auto. cbn [bind]. rewrite app_length. cbn [length].
    replace (S (length (written (Long cc tfm (dvi ++ [last]))) + S (length post)))%nat with (S (length (written (Long cc tfm (dvi ++ [last]))) + length post + 1)) by lia.
    cbn [commands]. remember (length (written (Long cc tfm (dvi ++ [last]))) + length post + 1)%nat as fuel.
    cbn [written]. rewrite <- !app_assoc. cbn [app]. unfold command at 1. rewrite uchar_byte. cbn [bind Z.leb Z.compare Pos.compare Pos.compare_cont andb Z.eqb Pos.eqb].
    destruct (fixed_size_readers (bigendian 4 (len (dvi ++ [last])) ++ bigendian 4 cc ++ bigendian 4 tfm ++ dvi ++ last :: 248 :: post)) as (_ & -> & _).
    { repeat (apply Forall_app; split; [apply bigendian_bytes|]); exact (proj2 (proj1 (Forall_app _ _ _) X)). }
    rewrite readint_decodes by (unfold inrange, len in *; rewrite app_length; cbn [length Nat.add Z.of_nat Z.pow Pos.of_succ_nat]; change (Z.pow_pos 256 4) with 4294967296; change (Z.pow_pos 256 (Pos.succ (Pos.succ (Pos.succ 1)))) with 4294967296; lia).
    cbn [bind].
    destruct (fixed_size_readers (bigendian 4 cc ++ bigendian 4 tfm ++ dvi ++ last :: 248 :: post)) as (_ & -> & _).
    { repeat (apply Forall_app; split; [apply bigendian_bytes|]); exact (proj2 (proj1 (Forall_app _ _ _) X)). }
    rewrite readint_decodes by (unfold inrange; change (256 ^ Z.of_nat 4) with 4294967296; lia). cbn [bind].
    assert (BT : bigendian 4 tfm = bigendian 3 (tfm / 256) ++ [tfm mod 256]).
    { cbn [bigendian app]. change (256 ^ Z.of_nat 3) with (256 * (256 * 256)). change (256 ^ Z.of_nat 2) with (256 * 256). change (256 ^ Z.of_nat 1) with 256. change (256 ^ Z.of_nat 0) with 1.
      rewrite !Z.div_1_r, <- !Z.div_div by lia. reflexivity. }
    rewrite BT, <- app_assoc. cbn [app].
    destruct (fixed_size_readers (bigendian 3 (tfm / 256) ++ tfm mod 256 :: dvi ++ last :: 248 :: post)) as (_ & _ & _ & _ & _ & _ & ->).
    { rewrite BT, <- app_assoc in X. exact X. }
    rewrite readint_decodes by (unfold inrange; change (256 ^ Z.of_nat 3) with 16777216; split; [apply Z.div_pos; lia|apply Z.div_lt_upper_bound; lia]). cbn [bind].
    replace (Z.to_nat (len (dvi ++ [last]))) with (length (tfm mod 256 :: dvi)) by (unfold len; rewrite app_length; cbn; lia).
    change (tfm mod 256 :: dvi ++ last :: 248 :: post) with ((tfm mod 256 :: dvi) ++ last :: 248 :: post). rewrite fread_app. reflexivity.
  Qed.
End Reading.
Print Assumptions vf_read_partial.
Print Assumptions vf_long_refuted.

(** a virtual font with a font and two definitions of a character, the first of which is replaced *)
Example ex_vf_items : list item :=
  [FontDef 1 7 (-5) 1048576 10485760 [] [99; 109; 114]; Short 65 500000 [65]; FontDef 4 (-1) 3 2097152 10485760 [47; 97] [98]; Short 65 600000 [171; 66]; Short 66 1 []].
Example ex_vf : vffile (fun d s => d * s / 1048576) (vf_file [72; 105] 305419896 10485760 ex_vf_items [248; 248]) =
  Some (mkvf 305419896 10485760 [(-1, mkvfont [47; 97; 98] 3 20971520 10485760); (7, mkvfont [99; 109; 114] (-5) 10485760 10485760)]
    [(66, 1); (65, 600000); (65, 500000)] [(66, []); (65, [171; 66]); (65, [65])]).
Proof. reflexivity. Qed.
Example ex_vf_fits : Forall short ex_vf_items /\ Forall fits ex_vf_items.
Proof. split; repeat constructor; unfold inrange, isbyte; cbn; lia. Qed.
(** a character in the long form with the program set_rule 0 0 (137, eight bytes): the last byte 0 is taken for an empty short packet of character 248 *)
Example ex_vf_long : vffile (fun d s => d) (vf_file [] 0 10485760 [Long 65 524288 [137; 0; 0; 0; 1; 0; 0; 0; 0]] [248; 248; 248; 248; 248]) =
  Some (mkvf 0 10485760 [] [(248, 16316664); (65, 2048)] [(248, []); (65, [0; 137; 0; 0; 0; 1; 0; 0; 0])]).
Proof. reflexivity. Qed.
