(** Properties of PDF form fields (pyx/pdfextra.py). *)
From Coq Require Import ZArith List Bool String Ascii Lia ZifyBool Reals Lra.
From Verif Require Import TrafoModel FormModel.
Import ListNotations.
Open Scope Z_scope.

(** ** C140: flags *)
(** bit positions of the PDF reference, counted from 1: the annotation flags, and the field flags common to all fields, of buttons, text fields and choice fields *)
Inductive annotation_bit : string -> Z -> Prop :=
| AInvisible : annotation_bit "invisible" 1 | AHidden : annotation_bit "hidden" 2 | APrint : annotation_bit "printable" 3 | ANoZoom : annotation_bit "nozoom" 4
| ANoRotate : annotation_bit "norotate" 5 | ANoView : annotation_bit "noview" 6 | AReadOnly : annotation_bit "readonly" 7.
Inductive common_bit : string -> Z -> Prop :=
| FReadOnly : common_bit "readonly" 1 | FRequired : common_bit "required" 2 | FNoExport : common_bit "noexport" 3.
Inductive button_bit : string -> Z -> Prop :=
| BNoToggleToOff : button_bit "notoggletooff" 15 | BRadio : button_bit "radio" 16 | BPushbutton : button_bit "pushbutton" 17.
Inductive text_bit : string -> Z -> Prop :=
| TMultiline : text_bit "multiline" 13 | TPassword : text_bit "password" 14 | TFileSelect : text_bit "fileselect" 21 | TDoNotSpellCheck : text_bit "donotspellcheck" 23
| TDoNotScroll : text_bit "donotscroll" 24.
Inductive choice_bit : string -> Z -> Prop :=
| CCombo : choice_bit "combo" 18 | CEdit : choice_bit "edit" 19 | CSort : choice_bit "sort" 20 | CMultiSelect : choice_bit "multiselect" 22
| CDoNotSpellCheck : choice_bit "donotspellcheck" 23.
Definition field_bit (name : string) (n : Z) : Prop := common_bit name n \/ button_bit name n \/ text_bit name n \/ choice_bit name n.

Lemma collect_bits : forall table flags v n, 0 <= n -> Forall (fun kb => 0 <= snd kb) table ->
  Z.testbit (fold_left (fun value kb => match fget flags (fst kb) with Some true => set_bit value (snd kb) | _ => value end) table v) n =
  Z.testbit v n || existsb (fun kb : string * Z => (snd kb =? n) && match fget flags (fst kb) with Some true => true | _ => false end) table.
Proof.
  induction table as [|[k b] table IH]; intros flags v n N F; cbn [fold_left existsb]; [now rewrite orb_false_r|].
  inversion F as [|x y B R]; subst. cbn [fst snd] in *. rewrite IH by assumption. rewrite orb_assoc. f_equal.
  destruct (fget flags k) as [[]|]; rewrite ?andb_false_r, ?andb_true_r, ?orb_false_r; try reflexivity.
  unfold set_bit. rewrite Z.lor_spec, Z.shiftl_spec by assumption. f_equal. destruct (Z.eqb_spec b n) as [->|D].
  - rewrite Z.sub_diag. reflexivity.
  - destruct (Z.lt_ge_cases n b); [apply Z.testbit_neg_r; lia|]. apply Z.bits_above_log2; [lia|]. cbn. lia.
Qed.

(** bit n (from 0) of the two numbers is set exactly when a flag is given whose position in the PDF reference is n + 1 *)
Theorem form_flags : forall flags n, 0 <= n ->
  (Z.testbit (fst (pdfflags flags)) n = true <-> exists name, fget flags name = Some true /\ annotation_bit name (n + 1)) /\
  (Z.testbit (snd (pdfflags flags)) n = true <-> exists name, fget flags name = Some true /\ field_bit name (n + 1)).
Proof.
  intros flags n N. unfold pdfflags, collect. cbn [fst snd].
  rewrite !collect_bits by (try assumption; repeat constructor; cbn [snd]; lia). rewrite !Z.bits_0, !orb_false_l, !existsb_exists.
  split; split.
  - intros ([k b] & I & E). cbn [fst snd] in E. apply andb_true_iff in E. destruct E as [E V]. apply Z.eqb_eq in E. subst b.
    destruct (fget flags k) as [[]|] eqn:K; try discriminate. exists k. split; [exact K|].
    cbn [PDFannotflags In] in I. repeat (destruct I as [I|I]; [injection I as <- <-; constructor|]). destruct I.
  - intros (k & K & A). exists (k, n). cbn [fst snd]. rewrite K, Z.eqb_refl. split; [|reflexivity].
    remember (n + 1) as m eqn:M. destruct A; (match type of M with ?c = _ => assert (n = c - 1) as -> by lia end); cbn; tauto.
  - intros ([k b] & I & E). cbn [fst snd] in E. apply andb_true_iff in E. destruct E as [E V]. apply Z.eqb_eq in E. subst b.
    destruct (fget flags k) as [[]|] eqn:K; try discriminate. exists k. split; [exact K|]. unfold field_bit.
    cbn [PDFformflags In] in I.
    repeat (destruct I as [I|I]; [injection I as <- <-;
      first [left; constructor | right; left; constructor | right; right; left; constructor | right; right; right; constructor]|]). destruct I.
  - intros (k & K & A). exists (k, n). cbn [fst snd]. rewrite K, Z.eqb_refl. split; [|reflexivity].
    remember (n + 1) as m eqn:M. destruct A as [A|[A|[A|A]]]; destruct A; (match type of M with ?c = _ => assert (n = c - 1) as -> by lia end); cbn; tauto.
Qed.
Print Assumptions form_flags.

Lemma fget_fset : forall d k v j, fget (fset d k v) j = if String.eqb k j then Some v else fget d j.
Proof.
  induction d as [|[n w] d IH]; intros k v j; cbn [fset fget]; [reflexivity|].
  destruct (String.eqb_spec n k) as [->|D]; cbn [fget].
  - destruct (String.eqb_spec k j); reflexivity.
  - rewrite IH. destruct (String.eqb_spec n j) as [->|]; [|reflexivity]. destruct (String.eqb_spec k j) as [->|]; [congruence|reflexivity].
Qed.
Definition given_or (given : flagdict) (name : string) (d : option bool) : option bool := match fget given name with Some v => Some v | None => d end.

(** the given flags replace the defaults, and a flag without default is refused *)
Theorem form_selectflags : forall defaults given, NoDup (map fst given) ->
  (forall flags, selectflags defaults given = Some flags -> forall name, fget flags name = given_or given name (fget defaults name)) /\
  (selectflags defaults given = None <-> exists name, In name (map fst given) /\ fget defaults name = None).
Proof.
  intros defaults given. revert defaults. unfold selectflags. induction given as [|[k v] given IH]; intros defaults ND.
  - cbn [overwrite]. split.
    + intros flags E name. injection E as <-. reflexivity.
    + split; [discriminate|]. intros (name & [] & _).
  - cbn [map fst] in ND. apply NoDup_cons_iff in ND. destruct ND as [NI ND]. cbn [overwrite].
    assert (GN : fget given k = None).
    { clear - NI. induction given as [|[n w] given IH]; [reflexivity|]. cbn [map fst In] in NI. cbn [fget]. destruct (String.eqb_spec n k) as [->|]; [exfalso; apply NI; now left|].
      apply IH. tauto. }
    destruct (fget defaults k) as [d|] eqn:K.
    + destruct (IH (fset defaults k v) ND) as [A B]. split.
      * intros flags E name. rewrite (A flags E name). unfold given_or. cbn [fget]. rewrite fget_fset. destruct (String.eqb_spec k name) as [->|D]; [now rewrite GN|reflexivity].
      * rewrite B. split.
        -- intros (name & I & F). exists name. rewrite fget_fset in F. destruct (String.eqb_spec k name); [discriminate|]. split; [right; exact I|exact F].
        -- intros (name & [E|I] & F); [cbn [fst] in E; congruence|]. exists name. split; [exact I|]. rewrite fget_fset. destruct (String.eqb_spec k name) as [->|]; [congruence|exact F].
    + split; [discriminate|]. split; [|reflexivity]. intros _. exists k. split; [left; reflexivity|exact K].
Qed.
Print Assumptions form_selectflags.

(** whatever flags are given, a field has only the flags of its type: text fields no flags of buttons and choices, checkboxes are neither radio buttons nor push buttons,
    radio buttons always have the radio flag and never that of push buttons *)
Theorem form_types : forall given flags n, NoDup (map fst given) -> 0 <= n ->
  (text_flags given = Some flags -> Z.testbit (snd (pdfflags flags)) n = true -> exists name, common_bit name (n + 1) \/ text_bit name (n + 1)) /\
  (choice_flags given = Some flags -> Z.testbit (snd (pdfflags flags)) n = true -> exists name, common_bit name (n + 1) \/ choice_bit name (n + 1)) /\
  (check_flags given = Some flags -> Z.testbit (snd (pdfflags flags)) n = true -> exists name, common_bit name (n + 1)) /\
  (radio_flags given = Some flags -> Z.testbit (snd (pdfflags flags)) 15 = true /\
     (Z.testbit (snd (pdfflags flags)) n = true -> n = 15 \/ n = 14 \/ exists name, common_bit name (n + 1))).
Proof.
  intros given flags n ND N.
  assert (KNOWN : forall defaults name f, selectflags defaults given = Some f -> fget f name = Some true -> fget defaults name <> None).
  { intros defaults name f S F D. destruct (form_selectflags defaults given ND) as [A B]. rewrite (A f S name), D in F. unfold given_or in F.
    destruct (fget given name) eqn:G; [|discriminate]. assert (In name (map fst given)).
    { clear - G. induction given as [|[k v] given IH]; [discriminate|]. cbn [fget] in G. cbn [map fst In]. destruct (String.eqb_spec k name); [now left|right; now apply IH]. }
    assert (SN : selectflags defaults given = None) by (apply B; exists name; split; assumption). congruence. }
  split; [|split; [|split]].
  - intros S T. apply form_flags in T; [|exact N]. destruct T as (name & F & [B|[B|[B|B]]]); exists name; try tauto.
    + exfalso. apply (KNOWN _ _ _ S F). destruct B; reflexivity.
    + destruct B; try (exfalso; apply (KNOWN _ _ _ S F); reflexivity). right. constructor.
  - intros S T. apply form_flags in T; [|exact N]. destruct T as (name & F & [B|[B|[B|B]]]); exists name; try tauto.
    + exfalso. apply (KNOWN _ _ _ S F). destruct B; reflexivity.
    + destruct B; try (exfalso; apply (KNOWN _ _ _ S F); reflexivity). right. constructor.
  - intros S T. apply form_flags in T; [|exact N]. destruct T as (name & F & [B|[B|[B|B]]]); exists name; try tauto; exfalso; apply (KNOWN _ _ _ S F); destruct B; reflexivity.
  - unfold radio_flags. intros S. destruct (selectflags radio_defaults given) as [f|] eqn:SF; [|discriminate]. injection S as <-. split.
    + apply form_flags; [lia|]. exists "radio"%string. rewrite fget_fset. split; [reflexivity|]. right; left; constructor.
    + intros T. apply form_flags in T; [|exact N]. destruct T as (name & F & B). rewrite fget_fset in F. destruct (String.eqb_spec "radio" name) as [E|D]; [subst name|].
      * left. assert (X : forall m, field_bit "radio" m -> m = 16) by (intros m [X|[X|[X|X]]]; inversion X; reflexivity). specialize (X _ B). lia.
      * right. destruct B as [B|[B|[B|B]]].
        -- right. exists name. exact B.
        -- left. remember (n + 1) as m eqn:M. destruct B; [lia|congruence|]. exfalso. apply (KNOWN _ _ _ SF F). reflexivity.
        -- exfalso; apply (KNOWN _ _ _ SF F); destruct B; reflexivity.
        -- exfalso; apply (KNOWN _ _ _ SF F); destruct B; reflexivity.
Qed.
Print Assumptions form_types.
Example form_flags_ex :
  option_map pdfflags (text_flags []) = Some (4, 2 ^ 22) /\
  option_map pdfflags (text_flags [("multiline", true); ("readonly", true); ("donotspellcheck", false)]%string) = Some (4 + 64, 1 + 2 ^ 12) /\
  option_map pdfflags (check_flags [("hidden", true)]%string) = Some (6, 0) /\ option_map pdfflags (radio_flags [("notoggletooff", true)]%string) = Some (4, 2 ^ 14 + 2 ^ 15) /\
  option_map pdfflags (choice_flags [("edit", true)]%string) = Some (4, 2 ^ 17 + 2 ^ 18 + 2 ^ 22) /\ check_flags [("multiline", true)]%string = None.
Proof. repeat split; vm_compute; reflexivity. Qed.

(** ** strings *)
(** a literal string of PDF: it ends at the parenthesis which closes the first one, a backslash makes the next character something else (here only those are read
    which stand for themselves: parentheses and backslashes), an end of line is a line feed *)
Fixpoint read_literal (depth : nat) (l : list Z) : option (list Z * list Z) :=
  match l with
  | [] => None
  | c :: r =>
      if c =? 92 then match r with e :: r' => option_map (fun x => (e :: fst x, snd x)) (read_literal depth r') | [] => None end
      else if c =? 40 then option_map (fun x => (c :: fst x, snd x)) (read_literal (S depth) r)
      else if c =? 41 then match depth with O => Some ([], r) | S d => option_map (fun x => (c :: fst x, snd x)) (read_literal d r) end
      else if c =? 13 then option_map (fun x => (10 :: fst x, snd x)) (read_literal depth (match r with 10 :: r' => r' | _ => r end))
      else option_map (fun x => (c :: fst x, snd x)) (read_literal depth r)
  end.
Definition read_string (l : list Z) : option (list Z * list Z) := match l with [] => None | c :: r => if c =? 40 then read_literal 0 r else None end.
Inductive balanced : list Z -> Prop :=
| bal_nil : balanced []
| bal_char : forall c s, c <> 40 -> c <> 41 -> c <> 92 -> c <> 13 -> balanced s -> balanced (c :: s)
| bal_paren : forall s t, balanced s -> balanced t -> balanced (40 :: s ++ 41 :: t).
Lemma read_balanced : forall s, balanced s -> forall d r, read_literal d (s ++ r) = option_map (fun x => (s ++ fst x, snd x)) (read_literal d r).
Proof.
  induction 1 as [|c s A B C D S IH|s t S IHs T IHt]; intros d r.
  - cbn [app]. destruct (read_literal d r) as [[]|]; reflexivity.
  - cbn [app read_literal]. destruct (c =? 92) eqn:E; [lia|]. destruct (c =? 40) eqn:E1; [lia|]. destruct (c =? 41) eqn:E2; [lia|]. destruct (c =? 13) eqn:E3; [lia|].
    rewrite IH. destruct (read_literal d r) as [[]|]; reflexivity.
  - cbn [app read_literal]. change (40 =? 92) with false. change (40 =? 40) with true. cbv iota.
    rewrite <- app_assoc. rewrite IHs. cbn [app read_literal]. change (41 =? 92) with false. change (41 =? 40) with false. change (41 =? 41) with true. cbv iota.
    rewrite IHt. destruct (read_literal d r) as [[a b]|]; cbn [option_map fst snd]; [|reflexivity]. do 2 f_equal. cbn [app]. f_equal. rewrite <- app_assoc. reflexivity.
Qed.

(** names and values without backslashes and carriage returns and with balanced parentheses are read back *)
Theorem form_strings_partial : forall s rest, balanced s -> read_string (literal s ++ rest) = Some (s, rest).
Proof.
  intros s rest B. unfold read_string, literal. cbn [app]. change (40 =? 40) with true. cbv iota. rewrite <- app_assoc, (read_balanced s B). cbn. rewrite app_nil_r. reflexivity.
Qed.
Print Assumptions form_strings_partial.
Example form_strings_ex : read_string (literal [97; 40; 98; 41; 10; 99] ++ [10; 47]) = Some ([97; 40; 98; 41; 10; 99], [10; 47]).
Proof. apply form_strings_partial. apply bal_char; try lia. apply (bal_paren [98]); repeat (apply bal_char; try lia); constructor. Qed.
(** others are not: they are written as they are.  A closing parenthesis ends the string early, an opening one makes the string swallow the rest of the object,
    and backslashes disappear *)
Theorem form_strings_refuted :
  read_string (literal [58; 45; 41] ++ [10]) = Some ([58; 45], [41; 10]) /\ read_string (literal [58; 45; 40] ++ [10]) = None /\
  read_string (literal [92; 40] ++ [10]) = Some ([40], [10]) /\ read_string (literal [97; 92] ++ [10]) = None.
Proof. repeat split; vm_compute; reflexivity. Qed.
Print Assumptions form_strings_refuted.

(** ** default texts *)
Fixpoint join_lines (ls : list (list Z)) : list Z := match ls with [] => [] | [l] => l | l :: r => l ++ 10 :: join_lines r end.
Lemma split_spec : forall s, split_lines s <> [] /\ join_lines (split_lines s) = s /\ Forall (fun l => ~ In 10 l) (split_lines s).
Proof.
  induction s as [|c s (NE & J & F)]; [repeat split; [discriminate|repeat constructor; intros []]|]. cbn [split_lines].
  destruct (Z.eqb_spec c 10) as [->|D].
  - split; [discriminate|]. split; [|constructor; [intros []|exact F]]. destruct (split_lines s) as [|l ls] eqn:E; [congruence|]. cbn [join_lines app]. rewrite <- E in *. cbn. f_equal.
    rewrite E in *. exact J.
  - destruct (split_lines s) as [|l ls] eqn:E; [congruence|]. split; [discriminate|]. inversion F as [|x y A B]; subst. split.
    + destruct ls; cbn [join_lines app] in *; congruence.
    + constructor; [|exact B]. intros [K|K]; [congruence|now apply A].
Qed.
(** the appearance of a default text consists of the lines of the text which are not empty; without any such line the output fails *)
Theorem form_default_text : forall s, s <> [] -> exists lines,
  s = join_lines lines /\ Forall (fun l => ~ In 10 l) lines /\ lines <> [] /\
  (Forall (eq []) lines -> default_texts s = None) /\
  (forall t, default_texts s = Some t -> t = filter (fun l => negb (match l with [] => true | _ => false end)) lines /\ t <> []) /\
  (~ In [] lines -> default_texts s = Some lines).
Proof.
  intros s NE. destruct (split_spec s) as (A & B & C). exists (split_lines s).
  assert (T : texts s = filter (fun l => negb (match l with [] => true | _ => false end)) (split_lines s)).
  { unfold texts. apply filter_ext. intros []; reflexivity. }
  assert (D : default_texts s = match texts s with [] => None | t => Some t end) by (destruct s; [congruence|reflexivity]).
  split; [congruence|split; [exact C|split; [exact A|]]]. rewrite D. split; [|split].
  - intros F. rewrite T. replace (filter _ (split_lines s)) with (@nil (list Z)); [reflexivity|]. symmetry. clear - F. induction F as [|x l E F IH]; [reflexivity|]. subst x. exact IH.
  - intros t E. rewrite T in E. destruct (filter _ (split_lines s)) as [|x l]; [discriminate|]. injection E as <-. split; [reflexivity|discriminate].
  - intros N. assert (F : filter (fun l => negb (match l with [] => true | _ => false end)) (split_lines s) = split_lines s).
    { clear - N. induction (split_lines s) as [|x l IH]; [reflexivity|]. cbn [filter]. destruct x; [exfalso; apply N; left; reflexivity|]. cbn [negb]. f_equal. apply IH. intros I. apply N. right. exact I. }
    rewrite T, F. destruct (split_lines s); [congruence|reflexivity].
Qed.
Print Assumptions form_default_text.
(** so the appearance of a text with an empty line differs from the value of the field (one line less), and a text of newlines only is an IndexError *)
Theorem form_empty_lines_refuted : default_texts [97; 10; 10; 98] = Some [[97]; [98]] /\ default_texts [97; 10; 98] = Some [[97]; [98]] /\ default_texts [10] = None.
Proof. repeat split; vm_compute; reflexivity. Qed.
Print Assumptions form_empty_lines_refuted.

(** ** radio buttons *)
Lemma eqb_str_eq : forall a b, eqb_str a b = true <-> a = b.
Proof.
  induction a as [|x a IH]; intros [|y b]; cbn; try (split; [discriminate|discriminate]); [tauto|]. rewrite andb_true_iff, Z.eqb_eq, IH. split; [intros [-> ->]; reflexivity|].
  intros E. injection E as -> ->. tauto.
Qed.
Lemma simple_id : forall s, Forall (fun c => isalnum c = true) s -> simplestring s = s.
Proof. induction 1 as [|c s C S IH]; [reflexivity|]. unfold simplestring in *. cbn [filter]. rewrite C, IH. reflexivity. Qed.
(** a name of PDF: the characters up to the next white space or delimiter *)
Definition regular (c : Z) : bool := negb (existsb (Z.eqb c) [0; 9; 10; 12; 13; 32; 40; 41; 60; 62; 91; 93; 123; 125; 47; 37]).
Fixpoint read_name (l : list Z) : list Z * list Z := match l with [] => ([], []) | c :: r => if regular c then (c :: fst (read_name r), snd (read_name r)) else ([], c :: r) end.
Lemma alnum_regular : forall c, isalnum c = true -> regular c = true.
Proof. intros c. unfold isalnum, regular. cbn [existsb]. lia. Qed.
Lemma read_regular : forall s c r, Forall (fun c => isalnum c = true) s -> regular c = false -> read_name (s ++ c :: r) = (s, c :: r).
Proof. induction 1 as [|x s X S IH]; intros C; cbn [app read_name]; [now rewrite C|]. rewrite (alnum_regular _ X), IH by assumption. reflexivity. Qed.

(** different values of letters and digits, one of them the default: exactly the box of the default is on, with the name which is the value of the whole list *)
Theorem form_radio_partial : forall n values d rest, (List.length values <= n)%nat -> NoDup values -> In d values -> Forall (Forall (fun c => isalnum c = true)) values ->
  exists i, nth_error values i = Some d /\ nth_error (b_boxes (buttonlist n values (Some d))) i = Some (d, d) /\
  (forall j v, j <> i -> nth_error values j = Some v -> nth_error (b_boxes (buttonlist n values (Some d))) j = Some (v, off) /\ v <> d) /\
  read_name (b_value (buttonlist n values (Some d)) ++ 10 :: rest) = (d, 10 :: rest).
Proof.
  intros n values d rest L ND I AL. apply In_nth_error in I. destruct I as [i I]. exists i. cbn [buttonlist b_boxes b_value]. rewrite firstn_all2 by exact L.
  rewrite Forall_forall in AL. split; [exact I|split; [|split]].
  - rewrite nth_error_map, I. cbn [option_map]. rewrite (proj2 (eqb_str_eq d d) eq_refl), simple_id; [reflexivity|]. apply AL. eapply nth_error_In; exact I.
  - intros j v J V. assert (v <> d).
    { intros ->. apply J. apply (proj1 (NoDup_nth_error values) ND); [|congruence]. apply nth_error_Some. congruence. }
    split; [|assumption]. rewrite nth_error_map, V. cbn [option_map]. rewrite simple_id by (apply AL; eapply nth_error_In; exact V).
    destruct (eqb_str v d) eqn:E; [apply eqb_str_eq in E; congruence|reflexivity].
  - apply read_regular; [apply AL; eapply nth_error_In; exact I|reflexivity].
Qed.
Print Assumptions form_radio_partial.
(** without a default, or with one which is not among the values, all boxes are off *)
Theorem form_radio_off : forall n values d, (forall v, d = Some v -> ~ In v values) -> Forall (fun b => snd b = off) (b_boxes (buttonlist n values d)).
Proof.
  intros n values d N. cbn [buttonlist b_boxes]. apply Forall_forall. intros b B. apply in_map_iff in B. destruct B as (v & <- & V). cbn [snd].
  assert (In v values) by (rewrite <- (firstn_skipn n values); apply in_or_app; left; exact V).
  destruct d as [d|]; [|reflexivity]. destruct (eqb_str v d) eqn:E; [|reflexivity]. apply eqb_str_eq in E. subst. exfalso. now apply (N d).
Qed.
Print Assumptions form_radio_off.
Example form_radio_ex : buttonlist 3 [[97]; [98; 49]; [99]] (Some [98; 49]) = mkbuttons [98; 49] [([97], off); ([98; 49], [98; 49]); ([99], off)] /\
  checkbuttons true = mkbuttons yes [(yes, yes)] /\ checkbuttons false = mkbuttons off [(yes, off)].
Proof. repeat split; vm_compute; reflexivity. Qed.
(** a check box has one box, which is on exactly if this is the default, and so is the value of the field *)
Theorem form_check : forall d rest, exists on state, b_boxes (checkbuttons d) = [(on, state)] /\ on <> off /\ (state = on <-> d = true) /\ (state = off <-> d = false) /\
  read_name (b_value (checkbuttons d) ++ 10 :: rest) = (state, 10 :: rest).
Proof.
  intros d rest. exists yes, (if d then yes else off). destruct d; (split; [reflexivity|]); (split; [discriminate|]); (split; [split; auto; discriminate|]); (split; [split; auto; discriminate|]); reflexivity.
Qed.
Print Assumptions form_check.
(** values with other characters: the value of the list is written as it is and the names of the boxes without these characters, so they differ, the value with a space is no
    name at all, and two values can get the same name; without a default the value is the name None, which is no state of the boxes *)
Theorem form_radio_refuted :
  (let b := buttonlist 1 [[97; 32; 98]] (Some [97; 32; 98]) in b_boxes b = [([97; 98], [97; 98])] /\ read_name (b_value b ++ [10]) = ([97], [32; 98; 10])) /\
  (let b := buttonlist 2 [[97; 45; 98]; [97; 98]] (Some [97; 98]) in map fst (b_boxes b) = [[97; 98]; [97; 98]] /\ map snd (b_boxes b) = [off; [97; 98]]) /\
  (let b := buttonlist 1 [[97]] None in read_name (b_value b ++ [10]) = (none_name, [10]) /\ b_boxes b = [([97], off)]).
Proof. repeat split; vm_compute; reflexivity. Qed.
Print Assumptions form_radio_refuted.

(** ** places *)
Open Scope R_scope.
Definition between (a b x : R) : Prop := a <= x <= b \/ b <= x <= a.
Lemma interval_image : forall a b x1 x2 y, x1 <= x2 -> (exists x, x1 <= x <= x2 /\ y = a * x + b) <-> between (a * x1 + b) (a * x2 + b) y.
Proof.
  intros a b x1 x2 y H. unfold between. destruct (Rtotal_order a 0) as [A|[A|A]].
  - split.
    + intros (x & X & ->). right. nra.
    + intros Y. exists ((y - b) / a). assert (E : a * ((y - b) / a) = y - b) by (field; lra). split; [|lra].
      assert (a * x2 + b <= y <= a * x1 + b) by (destruct Y; nra). split; nra.
  - subst a. split; [intros (x & X & ->); lra|]. intros Y. exists x1. lra.
  - split.
    + intros (x & X & ->). left. nra.
    + intros Y. exists ((y - b) / a). assert (E : a * ((y - b) / a) = y - b) by (field; lra). split; [|lra].
      assert (a * x1 + b <= y <= a * x2 + b) by (destruct Y; nra). split; nra.
Qed.
(** translations, scalings, mirrors at axes and rotations by right angles: the rectangle of a text or choice field, which PDF takes as two opposite corners, is the image of the field *)
Theorem form_rect : forall t x1 y1 x2 y2 q, x1 <= x2 -> y1 <= y2 -> (m01 t = 0 /\ m10 t = 0) \/ (m00 t = 0 /\ m11 t = 0) ->
  let '(a, b, c, d) := field_rect x1 y1 x2 y2 t in
  (exists p, x1 <= fst p <= x2 /\ y1 <= snd p <= y2 /\ apply_pt t p = q) <-> between a c (fst q) /\ between b d (snd q).
Proof.
  intros t x1 y1 x2 y2 [qx qy] HX HY AX. unfold field_rect, apply_pt. cbn [fst snd].
  destruct AX as [[-> ->]|[-> ->]].
  - pose proof (interval_image (m00 t) (v0 t) x1 x2 qx HX) as IX. pose proof (interval_image (m11 t) (v1 t) y1 y2 qy HY) as IY.
    replace (m00 t * x1 + 0 * y1 + v0 t) with (m00 t * x1 + v0 t) by ring. replace (m00 t * x2 + 0 * y2 + v0 t) with (m00 t * x2 + v0 t) by ring.
    replace (0 * x1 + m11 t * y1 + v1 t) with (m11 t * y1 + v1 t) by ring. replace (0 * x2 + m11 t * y2 + v1 t) with (m11 t * y2 + v1 t) by ring.
    rewrite <- IX, <- IY. split.
    + intros ((x & y) & X & Y & E). cbn [fst snd] in *. injection E as <- <-. split; [exists x|exists y]; split; try assumption; ring.
    + intros [(x & X & EX) (y & Y & EY)]. exists (x, y). cbn [fst snd]. repeat split; try lra. f_equal; lra.
  - pose proof (interval_image (m01 t) (v0 t) y1 y2 qx HY) as IX. pose proof (interval_image (m10 t) (v1 t) x1 x2 qy HX) as IY.
    replace (0 * x1 + m01 t * y1 + v0 t) with (m01 t * y1 + v0 t) by ring. replace (0 * x2 + m01 t * y2 + v0 t) with (m01 t * y2 + v0 t) by ring.
    replace (m10 t * x1 + 0 * y1 + v1 t) with (m10 t * x1 + v1 t) by ring. replace (m10 t * x2 + 0 * y2 + v1 t) with (m10 t * x2 + v1 t) by ring.
    rewrite <- IX, <- IY. split.
    + intros ((x & y) & X & Y & E). cbn [fst snd] in *. injection E as <- <-. split; [exists y|exists x]; split; try assumption; ring.
    + intros [(y & Y & EY) (x & X & EX)]. exists (x, y). cbn [fst snd]. repeat split; try lra. f_equal; lra.
Qed.
Print Assumptions form_rect.
Example form_rect_ex : field_rect 1 2 3 5 (mktrafo 0 (-1) 1 0 10 0) = (8, 1, 5, 3).
Proof. unfold field_rect, apply_pt; cbn [fst snd m00 m01 m10 m11 v0 v1]. repeat apply (f_equal2 pair); lra. Qed.

(** font sizes, border widths and sizes of buttons are multiplied by the scale of a similarity transformation: one which multiplies all lengths by k *)
Theorem form_sizes : forall t k s, 0 <= k -> 0 <= s ->
  (forall p q, hypot (fst (apply_pt t p) - fst (apply_pt t q)) (snd (apply_pt t p) - snd (apply_pt t q)) = k * hypot (fst p - fst q) (snd p - snd q)) ->
  sizetrafo s t = k * s.
Proof.
  intros t k s K S SIM. unfold sizetrafo. cbv zeta. rewrite SIM. cbn [fst snd]. unfold hypot. rewrite Rmult_assoc, <- sqrt_mult_alt by nra.
  replace ((( s - 0) * (s - 0) + (s - 0) * (s - 0)) * 0.5) with (s * s) by lra. rewrite sqrt_square by assumption. reflexivity.
Qed.
Print Assumptions form_sizes.
Lemma hypot_scale : forall k x y a b, 0 <= k -> x * x + y * y = k * k * (a * a + b * b) -> hypot x y = k * hypot a b.
Proof. intros k x y a b K E. unfold hypot. rewrite E, sqrt_mult_alt by nra. rewrite sqrt_square by assumption. reflexivity. Qed.
Example form_sizes_ex : sizetrafo 10 (mktrafo 0 (-2) 2 0 7 1) = 20 /\ sizetrafo 1 (mktrafo 1 0 0 7 0 0) = 5.
Proof.
  split.
  - replace 20 with (2 * 10) by lra. apply form_sizes; try lra. intros p q. apply hypot_scale; [lra|]. unfold apply_pt. cbn [fst snd m00 m01 m10 m11 v0 v1]. ring.
  - unfold sizetrafo, apply_pt, hypot. cbn [fst snd m00 m01 m10 m11 v0 v1]. rewrite <- sqrt_mult_alt by nra. replace 5 with (sqrt (5 * 5)) by (apply sqrt_square; lra). f_equal. lra.
Qed.

(** a button under translations and scalings: the rectangle is the image of its square *)
Theorem form_button : forall k e f x y size brp, 0 < k -> 0 <= size ->
  button_rect (button_pos x y size brp) size (mktrafo k 0 0 k e f) = field_rect x (y - brp * size) (x + size) (y - brp * size + size) (mktrafo k 0 0 k e f).
Proof.
  intros k e f x y size brp K S. unfold button_rect, button_pos, field_rect. cbv zeta.
  rewrite (form_sizes _ k size); [|lra|assumption|].
  - unfold apply_pt. cbn [fst snd m00 m01 m10 m11 v0 v1]. repeat apply (f_equal2 pair); ring.
  - intros p q. apply hypot_scale; [lra|]. unfold apply_pt. cbn [fst snd m00 m01 m10 m11 v0 v1]. ring.
Qed.
Print Assumptions form_button.
(** but not under mirrors, where the rectangles of text fields still are: the button is beside the image of its square *)
Theorem form_button_mirror_refuted : forall size, 0 < size -> button_rect (0, 0) size (mktrafo (-1) 0 0 1 0 0) = (0, 0, size, size) /\
  field_rect 0 0 size size (mktrafo (-1) 0 0 1 0 0) = (0, 0, - size, size).
Proof.
  intros size S. unfold button_rect, field_rect. cbv zeta. rewrite (form_sizes _ 1 size); [|lra|lra|].
  - unfold apply_pt. cbn [fst snd m00 m01 m10 m11 v0 v1]. split; repeat apply (f_equal2 pair); ring.
  - intros p q. apply hypot_scale; [lra|]. unfold apply_pt. cbn [fst snd m00 m01 m10 m11 v0 v1]. ring.
Qed.
Print Assumptions form_button_mirror_refuted.

Lemma fold_min : forall l a, fold_left Rmin l a <= a /\ (forall x, In x l -> fold_left Rmin l a <= x) /\ (fold_left Rmin l a = a \/ In (fold_left Rmin l a) l).
Proof.
  induction l as [|x l IH]; intros a; cbn [fold_left In]; [repeat split; [lra|tauto|tauto]|]. destruct (IH (Rmin a x)) as (A & B & C).
  pose proof (Rmin_l a x). pose proof (Rmin_r a x). split; [lra|split].
  - intros y [->|Y]; [lra|now apply B].
  - destruct C as [C|C]; [|tauto]. rewrite C. unfold Rmin. destruct (Rle_dec a x); tauto.
Qed.
Lemma fold_max : forall l a, a <= fold_left Rmax l a /\ (forall x, In x l -> x <= fold_left Rmax l a) /\ (fold_left Rmax l a = a \/ In (fold_left Rmax l a) l).
Proof.
  induction l as [|x l IH]; intros a; cbn [fold_left In]; [repeat split; [lra|tauto|tauto]|]. destruct (IH (Rmax a x)) as (A & B & C).
  pose proof (Rmax_l a x). pose proof (Rmax_r a x). split; [lra|split].
  - intros y [->|Y]; [lra|now apply B].
  - destruct C as [C|C]; [|tauto]. rewrite C. unfold Rmax. destruct (Rle_dec a x); tauto.
Qed.
(** the bounding box of radio buttons contains the squares of all buttons, and each of its sides is a side of one of them *)
Theorem form_radio_bbox : forall ps size, ps <> [] -> exists a b c d, radio_bbox ps size = Some (a, b, c, d) /\
  (forall p, In p ps -> a <= fst p /\ fst p + size <= c /\ b <= snd p /\ snd p + size <= d) /\
  (exists p, In p ps /\ fst p = a) /\ (exists p, In p ps /\ snd p = b) /\ (exists p, In p ps /\ fst p + size = c) /\ (exists p, In p ps /\ snd p + size = d).
Proof.
  intros [|p ps] size H; [congruence|]. clear H. cbn [radio_bbox]. do 4 eexists. split; [reflexivity|].
  destruct (fold_min (map fst ps) (fst p)) as (A1 & A2 & A3). destruct (fold_min (map snd ps) (snd p)) as (B1 & B2 & B3).
  destruct (fold_max (map fst ps) (fst p)) as (C1 & C2 & C3). destruct (fold_max (map snd ps) (snd p)) as (D1 & D2 & D3).
  split; [|split; [|split; [|split]]].
  - intros q [<-|Q]; [lra|]. pose proof (A2 _ (in_map fst _ _ Q)). pose proof (B2 _ (in_map snd _ _ Q)). pose proof (C2 _ (in_map fst _ _ Q)). pose proof (D2 _ (in_map snd _ _ Q)). lra.
  - destruct A3 as [E|I]; [exists p; split; [now left|lra]|]. apply in_map_iff in I. destruct I as (q & E & Q). exists q. split; [now right|exact E].
  - destruct B3 as [E|I]; [exists p; split; [now left|lra]|]. apply in_map_iff in I. destruct I as (q & E & Q). exists q. split; [now right|exact E].
  - destruct C3 as [E|I]; [exists p; split; [now left|lra]|]. apply in_map_iff in I. destruct I as (q & E & Q). exists q. split; [now right|rewrite E; reflexivity].
  - destruct D3 as [E|I]; [exists p; split; [now left|lra]|]. apply in_map_iff in I. destruct I as (q & E & Q). exists q. split; [now right|rewrite E; reflexivity].
Qed.
Print Assumptions form_radio_bbox.
Example form_radio_bbox_ex : radio_bbox [(0, 0); (5, 20); (-3, 7)] 10 = Some (-3, 0, 15, 30).
Proof. cbn. f_equal. unfold Rmin, Rmax. repeat (destruct (Rle_dec _ _); try lra). repeat apply (f_equal2 pair); lra. Qed.

(** lines of a default text: they follow each other by the leading; in fields of one line they are centered at a height which does not depend on their number,
    in others the first line is one leading and two borders below the upper side if there is space for it *)
Theorem form_lines : forall h lead bw fs n, (0 < n)%nat ->
  (forall v i, baseline v h lead bw fs n (S i) = baseline v h lead bw fs n i - lead) /\
  baseline true h lead bw fs n 0 + baseline true h lead bw fs n (n - 1) = (h - lead) + 2 * (0.215 * fs) /\
  (lead + 4 * bw <= h -> baseline false h lead bw fs n 0 + lead = h - 2 * bw) /\
  (h < lead + 4 * bw -> baseline false h lead bw fs n 0 = 2 * bw + 0.215 * fs).
Proof.
  intros h lead bw fs n N. unfold baseline, vshift. repeat split.
  - intros v i. rewrite S_INR. ring.
  - rewrite minus_INR by lia. change (INR 0) with 0. change (INR 1) with 1. lra.
  - intros H. destruct (Rlt_dec h (lead + 4 * bw)); [lra|]. change (INR 0) with 0. lra.
  - intros H. destruct (Rlt_dec h (lead + 4 * bw)); [|lra]. change (INR 0) with 0. lra.
Qed.
Print Assumptions form_lines.
Example form_lines_ex : baseline true 30 12 1 10 2 0 = 17.15 /\ baseline true 30 12 1 10 2 1 = 5.15 /\ baseline false 30 12 1 10 2 0 = 16.
Proof. unfold baseline, vshift. change (INR 2) with (1 + 1). change (INR 1) with 1. change (INR 0) with 0. destruct (Rlt_dec 30 (12 + 4 * 1)); repeat split; lra. Qed.
