(** C145: AFM files *)
From Coq Require Import Ascii String ZArith QArith List Bool Lia.
From Verif Require Import MapModel MapSpec MapProps AfmModel AfmSpec.
Import ListNotations.
Open Scope Z_scope.

Lemma kw_inj a b : kw a = kw b -> a = b.
Proof.
  revert b. induction a as [|c a IH]; destruct b as [|d b]; unfold kw; cbn; intros E; try discriminate; [reflexivity|]. injection E as E1 E2. f_equal; [|apply IH; exact E2].
  apply Nat2Z.inj in E1. rewrite <- (ascii_nat_embedding c), <- (ascii_nat_embedding d). now rewrite E1.
Qed.
Lemma is_kw a b : is (kw a) b = String.eqb a b.
Proof.
  unfold is. destruct (String.eqb_spec a b) as [->|N]; [now apply eqb_iff|]. destruct (chars_eqb (kw a) (kw b)) eqn:E; [|reflexivity]. apply eqb_iff in E. now apply kw_inj in E.
Qed.
Lemma is_false (k : text) s : k <> key s -> is k s = false.
Proof. intros N. unfold is. destruct (chars_eqb k (kw s)) eqn:E; [|reflexivity]. apply eqb_iff in E. contradiction. Qed.
Lemma one_kw a l : one_of (kw a) l = existsb (String.eqb a) l.
Proof. unfold one_of. induction l as [|b l IH]; cbn; [reflexivity|]. now rewrite is_kw, IH. Qed.
Ltac norm := change text with (list Z) in *; change chars with (list Z) in *.
Ltac keys := change key with kw in *; rewrite ?is_kw, ?one_kw; cbn [String.eqb Ascii.eqb Bool.eqb existsb orb str_keys int_keys num_keys dir_keys].

(** ** white space *)
Definition nosp1 (t : text) : Prop := match t with [] => True | c :: _ => ~ space c end.
Lemma space_dec c : {space c} + {~ space c}.
Proof. destruct (isspace c) eqn:E; [left; now apply space_iff|right; intros C; apply space_iff in C; congruence]. Qed.
Lemma rstrip_app t ws : Forall space ws -> (t = [] \/ ~ space (last t 0)) -> rstrip (t ++ ws) = t.
Proof.
  intros W L. unfold rstrip. rewrite rev_app_distr. rewrite lstrip_app; [apply rev_involutive|now apply Forall_rev|].
  destruct L as [->|L]; [exact I|]. destruct (rev t) as [|c r] eqn:E; [exact I|]. rewrite <- (rev_involutive t), E in L. cbn [rev] in L. rewrite last_last in L. exact L.
Qed.
Lemma strip_app pre t post : Forall space pre -> Forall space post -> nosp1 t -> (t = [] \/ ~ space (last t 0)) -> strip (pre ++ t ++ post) = t.
Proof.
  intros P Q N L. unfold strip. destruct t as [|c t].
  - cbn [app]. rewrite <- (app_nil_r (pre ++ post)). rewrite lstrip_app; [reflexivity|apply Forall_app; auto|exact I].
  - rewrite lstrip_app; [apply rstrip_app; auto|exact P|exact N].
Qed.
Lemma strip_padded t raw : padded t raw -> (t = [] \/ trimmed t) -> strip (removelast raw) = t.
Proof.
  intros (pre & post & P & Q & ->) T. replace (pre ++ t ++ post ++ [10]) with ((pre ++ t ++ post) ++ [10]) by (now rewrite <- !app_assoc). rewrite removelast_last.
  apply strip_app; auto; destruct T as [->|[T1 T2]]; auto; [exact I|]. destruct t; [destruct T1|exact T1].
Qed.
Lemma last_app_ne {A} (l m : list A) d : m <> [] -> last (l ++ m) d = last m d.
Proof. intros N. destruct (exists_last N) as (m' & x & ->). now rewrite app_assoc, !last_last. Qed.
Lemma plain_last k : k <> [] -> plain k -> ~ space (last k 0).
Proof. intros N P. destruct (exists_last N) as (m & x & ->). rewrite last_last. apply Forall_app in P as [_ P]. now inversion P. Qed.
Lemma keyed_trimmed k args t : keyed k args t -> trimmed t.
Proof.
  intros [k' N P|k' sep args' N P S1 S2 T]; (destruct k' as [|c k']; [congruence|]).
  - split; [now inversion P|now apply plain_last].
  - split; [cbn; now inversion P|]. destruct T as [T1 T2]. rewrite app_assoc, last_app_ne by (destruct args'; [destruct T1|discriminate]). exact T2.
Qed.
Lemma lstrip_id t : nosp1 t -> lstrip t = t.
Proof. intros N. exact (lstrip_app [] t (Forall_nil _) N). Qed.
Lemma split1_keyed k args t : keyed k args t -> split1 t = Some (k, match args with [] => None | _ => Some args end).
Proof.
  intros [k' N P|k' sep args' N P S1 S2 T]; (destruct k' as [|c k']; [congruence|]); unfold split1.
  - rewrite lstrip_id by (cbn; now inversion P).
    pose proof (word_strip (c :: k') [] P (or_introl eq_refl)) as W. rewrite app_nil_r in W. rewrite W. reflexivity.
  - rewrite lstrip_id by (cbn; now inversion P). cbn [app].
    pose proof (word_strip (c :: k') (sep ++ args') P) as W. cbn [app] in W. destruct sep as [|d sep]; [congruence|]. rewrite W by (right; exists d, (sep ++ args'); split; [reflexivity|now inversion S2]).
    destruct T as [T1 T2]. rewrite (lstrip_app (d :: sep) args' S2) by (destruct args'; [destruct T1|exact T1]). destruct args'; [destruct T1|reflexivity].
Qed.
Lemma keyed_line k args t raw : keyed k args t -> padded t raw -> strip (removelast raw) = t.
Proof. intros K P. apply strip_padded; [exact P|right; eapply keyed_trimmed; eauto]. Qed.

(** ** numbers *)
Section READ.
Variable fl : chars -> option Q.
Variables int hex : chars -> option Z.
Lemma number_read t x : number fl t x -> parsefloat fl (Some t) = Some x. Proof. intros N. exact N. Qed.
Lemma commas_space c : space (if c =? 44 then 46 else c) <-> space c.
Proof. destruct (Z.eqb_spec c 44) as [->|]; [unfold space; lia|tauto]. Qed.
Lemma commas_spaced ws t : spaced ws t -> spaced (map commas ws) (commas t).
Proof.
  intros S. induction S as [s W|s w l t W N P S IH E]; cbn [map].
  - constructor. induction W as [|c s C W IHW]; [constructor|]. cbn. constructor; [now apply commas_space|exact IHW].
  - replace (commas (s ++ w ++ t)) with (commas s ++ commas w ++ commas t) by (unfold commas; now rewrite !map_app). constructor.
    + induction W as [|c s' C W IHW]; [constructor|]. cbn. constructor; [now apply commas_space|exact IHW].
    + destruct w; [congruence|discriminate].
    + clear - P. induction P as [|c w C P IHP]; [constructor|]. cbn. constructor; [intros X; apply C; now apply commas_space|exact IHP].
    + exact IH.
    + destruct E as [->|(c & t' & -> & C)]; [left; reflexivity|right]. eexists _, _. split; [reflexivity|now apply commas_space].
Qed.
Lemma numbers_read t l n : numbers fl t l -> List.length l = n -> parsefloats fl (Some t) n = Some l.
Proof.
  intros (ws & S & F) <-. unfold parsefloats, bind. rewrite (split_spaced _ _ (commas_spaced _ _ S)).
  assert (sequence (map fl (map commas ws)) = Some l) as ->.
  { clear S. induction F as [|w x ws l N F IH]; [reflexivity|]. cbn [map sequence]. unfold number in N. change (fl (commas w)) with (fl (map (fun c => if c =? 44 then 46 else c) w)). rewrite N. cbn [bind]. rewrite IH. reflexivity. }
  now rewrite Nat.eqb_refl.
Qed.
Lemma hex_read t z : hex t = Some z -> parsehex hex (60 :: t ++ [62]) = Some z.
Proof. intros E. unfold parsehex. change (60 :: t ++ [62]) with ((60 :: t) ++ [62]). rewrite last_last. cbn [Z.eqb andb]. cbn. rewrite removelast_last. exact E. Qed.

(** ** lines of character metrics *)
Lemma split_on_app c s r : ~ In c s -> split_on c (s ++ c :: r) = s :: split_on c r.
Proof.
  intros N. induction s as [|d s IH]; cbn [app split_on]; [now rewrite Z.eqb_refl|]. destruct (Z.eqb_spec d c) as [->|_]; [exfalso; apply N; now left|].
  rewrite IH; [reflexivity|intros I; apply N; now right].
Qed.
Lemma split_on_none c s : ~ In c s -> split_on c s = [s].
Proof. intros N. induction s as [|d s IH]; cbn [split_on]; [reflexivity|]. destruct (Z.eqb_spec d c) as [->|_]; [exfalso; apply N; now left|]. rewrite IH; [reflexivity|intros I; apply N; now right]. Qed.
Lemma split_joined s parts : Forall (fun p => ~ In 59 p) (s :: parts) -> split_on 59 (joined (s :: parts)) = s :: parts.
Proof.
  revert s. induction parts as [|p parts IH]; intros s F; inversion F as [|? ? F1 F2]; subst; [now apply split_on_none|]. change (joined (s :: p :: parts)) with (s ++ 59 :: joined (p :: parts)).
  rewrite split_on_app by exact F1. now rewrite IH.
Qed.
Definition later {A} (l : list A) (old : option A) : option A := match latest l with Some x => Some x | None => old end.
Lemma later_cons {A} (x : A) l old : later (x :: l) old = later l (Some x).
Proof. unfold later, latest. cbn [rev]. destruct (rev l) as [|y r]; reflexivity. Qed.
(** what the items make of a character *)
Definition apply_items (l : list item) (c : charmetrics) : charmetrics :=
  mkchar (ccode c) (later (flat_map (fun i => match i with Width false w => [w] | _ => [] end) l) (width0 c))
    (later (flat_map (fun i => match i with Width true w => [w] | _ => [] end) l) (width1 c))
    (later (flat_map (fun i => match i with Vec l => [l] | _ => [] end) l) (cvector c))
    (later (flat_map (fun i => match i with Named n => [n] | _ => [] end) l) (cname c))
    (later (flat_map (fun i => match i with Box l => [l] | _ => [] end) l) (cbbox c))
    (cligatures c ++ flat_map (fun i => match i with Lig s l => [(s, l)] | _ => [] end) l).
Definition named (l : list item) : bool := existsb (fun i => match i with Named _ => true | _ => false end) l.
Lemma part_split s k args : part_of s k args -> exists t, strip s = t /\ t <> [] /\ split1 t = Some (k, Some args).
Proof.
  intros (_ & N & pre & t & post & P & Q & K & ->). exists t. pose proof (keyed_trimmed _ _ _ K) as [T1 T2]. split; [apply strip_app; auto; destruct t; [exact I|exact T1]|].
  split; [destruct t; [destruct T1|discriminate]|]. rewrite (split1_keyed _ _ _ K). destruct args; [congruence|reflexivity].
Qed.
Lemma split1_args s sep l : s <> [] -> plain s -> sep <> [] -> Forall space sep -> trimmed l -> split1 (s ++ sep ++ l) = Some (s, Some l).
Proof. intros A B C D E. rewrite (split1_keyed s l _ (keyed_args s sep l A B C D E)). destruct l; [destruct E as [[] _]|reflexivity]. Qed.
Lemma charpart_item c n s k args i : part_of s k args -> item_text fl i k args ->
  charpart fl int hex (Some c) n s = Some (Some (apply_items [i] c), n || named [i]).
Proof.
  intros P T. destruct (part_split _ _ _ P) as (t & E & NE & S). unfold charpart. rewrite E. destruct t as [|x t]; [congruence|]. rewrite S. cbv zeta.
  destruct T; repeat match goal with H : In _ _ |- _ => destruct H as [<-|H] end; try contradiction; keys;
    try (match goal with N : number fl _ _ |- _ => pose proof (number_read _ _ N) as NR; norm; rewrite NR end);
    try (match goal with N : numbers fl _ ?l, L : List.length ?l = ?n |- _ => pose proof (numbers_read _ _ n N L) as NR; norm; rewrite NR
         | N : numbers fl _ _ |- _ => pose proof (numbers_read _ _ _ N eq_refl) as NR; cbn [List.length] in NR; norm; rewrite NR end);
    try (rewrite split1_args by assumption);
    cbn [bind option_map]; unfold apply_items, named; cbn [flat_map app existsb later latest rev orb]; rewrite ?orb_false_r, ?orb_true_r, ?app_nil_r; reflexivity.
Qed.
Lemma apply_cons i l c : apply_items l (apply_items [i] c) = apply_items (i :: l) c.
Proof.
  unfold apply_items. cbn [ccode width0 width1 cvector cname cbbox cligatures].
  destruct i as [[|] w|v|m|b|s g]; cbn [flat_map app]; rewrite ?app_nil_r, <- ?app_assoc, ?later_cons; reflexivity.
Qed.
Lemma charparts_items l parts : item_parts fl l parts -> forall c n, charparts fl int hex (Some c) n parts = Some (Some (apply_items l c), n || named l).
Proof.
  intros I. induction I as [|s l r B I IH|i k args s l r P T I IH]; intros c n; cbn [charparts].
  - unfold apply_items, named. cbn. rewrite orb_false_r, app_nil_r. now destruct c.
  - assert (charpart fl int hex (Some c) n s = Some (Some c, n)) as ->; [|cbn [bind]; apply IH].
    unfold charpart. replace (strip s) with (@nil Z); [reflexivity|]. symmetry. rewrite <- (app_nil_r s). rewrite <- (app_nil_l []) at 1. apply (strip_app s [] []); auto; exact Logic.I.
  - rewrite (charpart_item c n s k args i P T). cbn [bind]. rewrite IH, apply_cons. f_equal. f_equal. unfold named. cbn [existsb]. rewrite orb_false_r. now rewrite orb_assoc.
Qed.
Lemma parts_semis l parts : item_parts fl l parts -> Forall (fun p => ~ In 59 p) parts.
Proof.
  induction 1 as [|s l r B I IH|i k args s l r P T I IH]; constructor; auto.
  - intros C. rewrite Forall_forall in B. specialize (B _ C). unfold space in B. lia.
  - apply P.
Qed.
Lemma code_first k args c : code_text int hex c k args -> forall s, part_of s k args -> charpart fl int hex None false s = Some (Some (newchar c), false).
Proof.
  intros T s P. destruct (part_split _ _ _ P) as (t & E & NE & S). unfold charpart. rewrite E. destruct t as [|x t]; [congruence|]. rewrite S. cbv zeta.
  destruct T as [t' z H|t' z H]; keys; [unfold parseint; cbn [bind]; rewrite H; reflexivity|]. rewrite (hex_read _ _ H). reflexivity.
Qed.
(** the first key of a character line is not EndCharMetrics *)
Lemma joined_first s parts : exists r, joined (s :: parts) = s ++ r.
Proof. destruct parts; [exists []; cbn; now rewrite app_nil_r|eexists; reflexivity]. Qed.
Lemma char_not_end c k args s parts : code_text int hex c k args -> part_of s k args -> trimmed (joined (s :: parts)) -> is (rstrip (joined (s :: parts))) "EndCharMetrics" = false.
Proof.
  intros T (_ & _ & pre & t & post & P & Q & K & ->) [TR1 TR2]. apply is_false. intros E.
  assert (rstrip (joined ((pre ++ t ++ post) :: parts)) = joined ((pre ++ t ++ post) :: parts)) as R.
  { rewrite <- (app_nil_r (joined _)) at 1. apply rstrip_app; [constructor|right; exact TR2]. }
  rewrite R in E || (norm; rewrite R in E). clear R. destruct (joined_first (pre ++ t ++ post) parts) as (r & J). norm. rewrite J in E, TR1.
  destruct pre as [|d pre]; [|exfalso; cbn in TR1; inversion P; contradiction].
  assert (exists r', t = k ++ r') as (r' & ->) by (destruct K; [exists []; now rewrite app_nil_r|eexists; reflexivity]).
  apply (f_equal (fun l => hd 0 l)) in E. destruct T; vm_compute in E; discriminate E.
Qed.
Lemma chars_line a l c raw n : chars_ a = Some l -> char_line fl int hex c raw -> exists a', parseline fl int hex a (CharMetrics n) raw = Some (a', CharMetrics (n + 1)) /\
  chars_ a' = Some (l ++ [char_of c]) /\ chardict a' = match cname (char_of c) with Some m => (m, char_of c) :: chardict a | None => chardict a end /\
  a' = set_chardict (chardict a') (set_chars (chars_ a') a).
Proof.
  intros CH (k & args & s & parts & P & T & I & TR & PD). unfold parseline. rewrite (strip_padded _ _ PD (or_intror TR)).
  pose proof (char_not_end _ _ _ _ _ T P TR) as NE. destruct (joined (s :: parts)) as [|x line] eqn:J; [destruct TR as [[] _]|]. cbv zeta. unfold processline_charmetrics. rewrite NE. rewrite <- J.
  rewrite split_joined by (constructor; [apply P|eapply parts_semis; eauto]). cbn [charparts]. rewrite (code_first _ _ _ T s P). cbn [bind]. rewrite (charparts_items _ _ I). cbn [bind orb]. rewrite CH. cbn [bind].
  assert (apply_items (snd c) (newchar (fst c)) = char_of c) as -> by (unfold apply_items, char_of, later, newchar; cbn; repeat match goal with |- context [match latest ?x with _ => _ end] => destruct (latest x) end; reflexivity).
  assert (named (snd c) = match cname (char_of c) with Some _ => true | None => false end) as ->.
  { unfold char_of. cbn [cname]. generalize (snd c). intros its. unfold latest, named.
    assert (forall its, existsb (fun i => match i with Named _ => true | _ => false end) its = match flat_map (fun i => match i with Named n => [n] | _ => [] end) its with [] => false | _ => true end) as ->.
    { clear. induction its as [|i its IH]; [reflexivity|]. cbn. rewrite IH. destruct i; reflexivity. }
    destruct (flat_map _ its) as [|y ys]; [reflexivity|]. cbn [rev]. destruct (rev ys ++ [y]) eqn:E; [destruct (rev ys); discriminate|reflexivity]. }
  eexists. split; [reflexivity|]. destruct (cname (char_of c)); repeat split; destruct a; reflexivity.
Qed.

Lemma chars_lines cs raws : Forall2 (char_line fl int hex) cs raws -> forall a l n, chars_ a = Some l -> exists a' n', parselines fl int hex a (CharMetrics n) raws = Some (a', CharMetrics n') /\
  chars_ a' = Some (l ++ map char_of cs) /\ (forall m, get_char a' m = later (filter (fun c => match cname c with Some m' => chars_eqb m' m | None => false end) (map char_of cs)) (get_char a m)) /\
  a' = set_chardict (chardict a') (set_chars (chars_ a') a).
Proof.
  induction 1 as [|c raw cs raws C F IH]; intros a l n CH.
  - exists a, n. split; [reflexivity|]. split; [cbn; now rewrite app_nil_r|]. split; [reflexivity|now destruct a].
  - destruct (chars_line a l c raw n CH C) as (a1 & E & C1 & D1 & S1). cbn [parselines]. rewrite E. cbn [bind].
    destruct (IH a1 _ (n + 1) C1) as (a2 & n2 & E2 & C2 & D2 & S2). exists a2, n2. split; [exact E2|]. split; [rewrite C2; cbn [map]; now rewrite <- app_assoc|]. split.
    + intros m. rewrite D2. cbn [map filter]. assert (get_char a1 m = match cname (char_of c) with Some m' => if chars_eqb m' m then Some (char_of c) else get_char a m | None => get_char a m end) as ->.
      { unfold get_char. rewrite D1. destruct (cname (char_of c)) as [m'|]; [|reflexivity]. cbn [find fst]. destruct (chars_eqb m' m); reflexivity. }
      destruct (cname (char_of c)) as [m'|]; [|reflexivity]. destruct (chars_eqb m' m); [now rewrite later_cons|reflexivity].
    + rewrite S2. rewrite S1. destruct a; reflexivity.
Qed.

(** ** kerning pairs *)
Lemma kern_read p k ws args : pair_text fl hex p k ws -> spaced ws args -> kern_of fl hex k (Some args) = Some p.
Proof.
  intros T S. unfold kern_of, bind at 1. rewrite (split_spaced _ _ S). cbv zeta.
  destruct T as [n1 n2 tx ty x y NX NY|t1 t2 c1 c2 tx ty x y (h1 & -> & H1) (h2 & -> & H2) NX NY|n1 n2 tx x NX|n1 n2 ty y NY]; keys;
    repeat match goal with N : number fl _ _ |- _ => apply number_read in N; norm; rewrite N; clear N end; rewrite ?(hex_read _ _ H1), ?(hex_read _ _ H2); reflexivity.
Qed.
Lemma pair_step p raw a l n : pair_line fl hex p raw -> pairs0 a = Some l -> exists a', parseline fl int hex a (KernPairs false n) raw = Some (a', KernPairs false (n + 1)) /\
  pairs0 a' = Some (l ++ [p]) /\ pairdict0 a' = (name1 p, name2 p, p) :: pairdict0 a /\ a' = set_pairdict0 (pairdict0 a') (set_pairs0 (pairs0 a') a).
Proof.
  intros (k & args & t & ws & K & NA & S & T & P) L. unfold parseline. rewrite (keyed_line _ _ _ _ K P). pose proof (keyed_trimmed _ _ _ K) as [TR _]. destruct t as [|x t]; [destruct TR|]. cbv zeta.
  unfold processline_kernpairs. rewrite (split1_keyed _ _ _ K). destruct args as [|y args]; [congruence|]. cbn [bind].
  assert (is k "Comment" = false /\ is k "EndKernPairs" = false) as [-> ->] by (destruct T; keys; auto). rewrite (kern_read p k ws _ T S). cbn [bind]. rewrite L. cbn [bind].
  eexists. split; [reflexivity|]. repeat split; destruct a; reflexivity.
Qed.
Lemma glyph_eqb_iff a b : glyph_eqb a b = true <-> a = b.
Proof.
  destruct a as [n|z], b as [m|y]; cbn; split; intros E; try discriminate; try congruence.
  - f_equal. now apply eqb_iff. - injection E as ->. now apply eqb_iff. - apply Z.eqb_eq in E. congruence. - injection E as ->. apply Z.eqb_refl.
Qed.
Definition same_pair (n1 n2 : glyph) (p : kernpair) : bool := glyph_eqb (name1 p) n1 && glyph_eqb (name2 p) n2.
Lemma pairs_lines ps raws : Forall2 (pair_line fl hex) ps raws -> forall a l n, pairs0 a = Some l -> exists a' n', parselines fl int hex a (KernPairs false n) raws = Some (a', KernPairs false n') /\
  pairs0 a' = Some (l ++ ps) /\ (forall n1 n2, get_pair a' n1 n2 = later (filter (same_pair n1 n2) ps) (get_pair a n1 n2)) /\
  a' = set_pairdict0 (pairdict0 a') (set_pairs0 (pairs0 a') a).
Proof.
  induction 1 as [|p raw ps raws C F IH]; intros a l n CH.
  - exists a, n. split; [reflexivity|]. split; [now rewrite app_nil_r|]. split; [reflexivity|now destruct a].
  - destruct (pair_step p raw a l n C CH) as (a1 & E & C1 & D1 & S1). cbn [parselines]. rewrite E. cbn [bind].
    destruct (IH a1 _ (n + 1) C1) as (a2 & n2 & E2 & C2 & D2 & S2). exists a2, n2. split; [exact E2|]. split; [rewrite C2; now rewrite <- app_assoc|]. split.
    + intros m1 m2. rewrite D2. cbn [filter]. assert (get_pair a1 m1 m2 = if same_pair m1 m2 p then Some p else get_pair a m1 m2) as ->.
      { unfold get_pair. rewrite D1. cbn [find fst snd]. unfold same_pair. destruct (glyph_eqb (name1 p) m1 && glyph_eqb (name2 p) m2); reflexivity. }
      destruct (same_pair m1 m2 p); [now rewrite later_cons|reflexivity].
    + rewrite S2. rewrite S1. destruct a; reflexivity.
Qed.

(** ** the header *)
Definition apply_header (h : header) (a : afm) : afm := match h with Attr k v => set_attr (kw k) v a | DirAttr k v => set_dirattr 0 (kw k) v a | Ignored => a end.
Lemma not_reserved (k : text) l : (forall s, In s reserved -> k <> key s) -> forallb (fun s => existsb (String.eqb s) reserved) l = true -> one_of k l = false.
Proof.
  intros N. induction l as [|s l IH]; [reflexivity|]. cbn [forallb one_of existsb]. intros E. apply andb_true_iff in E as [E1 E2]. unfold one_of in IH. rewrite IH by exact E2. rewrite orb_false_r.
  apply is_false. apply N. apply existsb_exists in E1 as (s' & I & E). apply String.eqb_eq in E. now subst.
Qed.
Lemma not_reserved1 (k : text) s : (forall s, In s reserved -> k <> key s) -> existsb (String.eqb s) reserved = true -> is k s = false.
Proof. intros N E. apply is_false. apply N. apply existsb_exists in E as (s' & I & E). apply String.eqb_eq in E. now subst. Qed.
Lemma bool_read (b : bool) : parsebool (Some (kw (if b then "true" else "false"))) = Some b.
Proof. destruct b; reflexivity. Qed.
Lemma spaced_empty ws : spaced ws [] -> ws = [].
Proof.
  intros S. remember [] as t eqn:E in S. destruct S as [|s w l t W N P S' C]; [reflexivity|]. apply app_eq_nil in E as [_ E]. apply app_eq_nil in E as [E _]. contradiction.
Qed.
Definition header_state (st : state) : Prop := st = Main \/ st = Direction 0.
Lemma main_header h k args t a : header_text fl int h k args -> keyed k args t -> exists st', processline_main fl int a t = Some (apply_header h a, st') /\ header_state st'.
Proof.
  intros T K. unfold processline_main. rewrite (split1_keyed _ _ _ K). cbn [bind].
  assert (NE : forall x l, numbers fl x l -> List.length l <> 0%nat -> x <> []).
  { intros x l (ws & S & F) N ->. apply spaced_empty in S. subst. inversion F; subst. now apply N. }
  destruct T;
    try (match goal with H : In _ _ |- _ => cbn in H; repeat (destruct H as [<-|H]; [|]); try contradiction end);
    try (match goal with N : numbers fl _ _, L : List.length _ = _ |- _ => pose proof (NE _ _ N ltac:(rewrite L; discriminate)) as NZ; pose proof (numbers_read _ _ _ N L) as NR end);
    try (match goal with N : number fl _ _ |- _ => pose proof (number_read _ _ N) as NR end);
    try (match goal with N : ?t <> [] |- _ => destruct t as [|y t'] eqn:?; [congruence|] end);
    keys; norm; try (rewrite NR); try (unfold parseint; cbn [bind]; match goal with E : int _ = Some _ |- _ => rewrite E end);
    try (match goal with b : bool |- _ => destruct b end); cbn [bind option_map];
    try (eexists; split; [reflexivity|]; (left; reflexivity) || (right; reflexivity)).
  all: try (unfold dirline; keys; norm; try (rewrite NR); try (destruct b); cbn [bind option_map]; eexists; split; [reflexivity|right; reflexivity]).
  rewrite !(not_reserved1 _ _ H) by reflexivity. rewrite !(not_reserved _ _ H) by reflexivity. eexists. split; [reflexivity|left; reflexivity].
Qed.
Definition apply_headers (hs : list header) (a : afm) : afm := fold_left (fun a h => apply_header h a) hs a.
Lemma header_not_end h k args : header_text fl int h k args -> is k "EndDirection" = false.
Proof.
  intros T. destruct T; try (match goal with H : In _ _ |- _ => cbn in H; repeat (destruct H as [<-|H]; [|]); try contradiction end); keys; try reflexivity. apply not_reserved1; auto.
Qed.
(** in the direction entered implicitly a line is read as in the header *)
Lemma direction_main a k args t st : keyed k args t -> is k "EndDirection" = false -> header_state st ->
  match st with Direction d => processline_direction fl int a t d | _ => processline_main fl int a t end = processline_main fl int a t.
Proof.
  intros K NE [-> | ->]; [reflexivity|]. unfold processline_direction. rewrite (split1_keyed _ _ _ K). cbn [bind]. rewrite NE. destruct (one_of k dir_keys) eqn:E; [|reflexivity].
  unfold processline_main. rewrite (split1_keyed _ _ _ K). cbn [bind]. unfold one_of, dir_keys in E. cbn [existsb] in E.
  assert (exists s, In s dir_keys /\ k = kw s) as (s & I & ->).
  { repeat (apply orb_true_iff in E as [E|E]; [apply eqb_iff in E; eexists; split; [|exact E]; cbn; auto 9|]). discriminate. }
  cbn in I. repeat (destruct I as [<-|I]; [keys; reflexivity|]). contradiction.
Qed.
Lemma state_line a st raw t : strip (removelast raw) = t -> t <> [] -> header_state st -> parseline fl int hex a st raw = match st with Direction d => processline_direction fl int a t d | _ => processline_main fl int a t end.
Proof. intros E N [-> | ->]; unfold parseline; rewrite E; destruct t; congruence. Qed.
Lemma keyed_nonempty k args t : keyed k args t -> t <> [].
Proof. intros K. pose proof (keyed_trimmed _ _ _ K) as [T _]. destruct t; [destruct T|discriminate]. Qed.
Lemma header_step h raw a st : header_line fl int h raw -> header_state st -> exists st', parseline fl int hex a st raw = Some (apply_header h a, st') /\ header_state st'.
Proof.
  intros H HS. destruct H as [raw P|h k args t raw T K P].
  - exists st. split; [|exact HS]. unfold parseline. rewrite (strip_padded _ _ P (or_introl eq_refl)). destruct HS as [-> | ->]; reflexivity.
  - rewrite (state_line a st raw t (keyed_line _ _ _ _ K P) (keyed_nonempty _ _ _ K) HS), (direction_main a k args t st K (header_not_end _ _ _ T) HS). eapply main_header; eauto.
Qed.
Lemma header_lines hs raws : Forall2 (header_line fl int) hs raws -> forall a st, header_state st -> exists st', parselines fl int hex a st raws = Some (apply_headers hs a, st') /\ header_state st'.
Proof.
  induction 1 as [|h raw hs raws H F IH]; intros a st HS; [exists st; auto|]. cbn [parselines]. destruct (header_step h raw a st H HS) as (st1 & E & HS1). rewrite E. cbn [bind]. apply IH. exact HS1.
Qed.
Lemma parselines_app l m : forall a st, parselines fl int hex a st (l ++ m) = bind (parselines fl int hex a st l) (fun '(a, st) => parselines fl int hex a st m).
Proof. induction l as [|x l IH]; intros a st; [reflexivity|]. cbn [app parselines]. destruct (parseline fl int hex a st x) as [[a1 st1]|]; [apply IH|reflexivity]. Qed.
Lemma keyed_key (k : string) : k <> ""%string -> plain (key k) -> keyed (key k) [] (key k).
Proof. intros N P. constructor; [|exact P]. destruct k; [congruence|discriminate]. Qed.
Lemma key_plain (k : string) : forallb (fun c => negb (isspace c)) (key k) = true -> plain (key k).
Proof. intros E. apply Forall_forall. intros c I C. rewrite forallb_forall in E. specialize (E c I). apply space_iff in C. rewrite C in E. discriminate. Qed.
Lemma bare_keyed (k : string) raw : bare k raw -> k <> ""%string -> forallb (fun c => negb (isspace c)) (key k) = true -> keyed (key k) [] (key k) /\ strip (removelast raw) = key k.
Proof. intros B N E. assert (keyed (key k) [] (key k)) as K by (apply keyed_key; [exact N|now apply key_plain]). split; [exact K|]. eapply keyed_line; eauto. Qed.
(** the lines between the sections *)
Lemma version_step raw a : version_line int raw -> exists v, parseline fl int hex a Start raw = Some (set_version v a, Main).
Proof.
  intros (n1 & n2 & z1 & z2 & t & I1 & I2 & N1 & N2 & K & P). unfold parseline. rewrite (keyed_line _ _ _ _ K P). unfold processline_start. rewrite (split1_keyed _ _ _ K).
  destruct (n1 ++ 46 :: n2) as [|y r] eqn:E; [destruct n1; discriminate|]. keys. rewrite <- E. rewrite split_on_app by exact N1. rewrite split_on_none by exact N2. cbn [map sequence]. rewrite I1. cbn [bind]. rewrite I2. cbn [bind]. eauto.
Qed.
Lemma charsection_step raw a st : section int "StartCharMetrics" raw -> header_state st -> chars_ a = None -> exists e, parseline fl int hex a st raw = Some (set_chars (Some []) (set_expected e a), CharMetrics 0).
Proof.
  intros (args & t & z & K & NA & I & P) HS C. rewrite (state_line a st raw t (keyed_line _ _ _ _ K P) (keyed_nonempty _ _ _ K) HS), (direction_main a _ args t st K ltac:(keys; reflexivity) HS).
  unfold processline_main. rewrite (split1_keyed _ _ _ K). destruct args as [|y r]; [congruence|]. cbn [bind]. keys. rewrite C. unfold parseint. cbn [bind]. rewrite I. cbn [option_map].
  destruct (tuple_leb _ _); cbn [bind]; eauto.
Qed.
Lemma endchars_step raw a n : bare "EndCharMetrics" raw -> parseline fl int hex a (CharMetrics n) raw = Some (a, Main).
Proof.
  intros B. destruct (bare_keyed "EndCharMetrics" raw B ltac:(discriminate) eq_refl) as [K E]. unfold parseline. rewrite E. reflexivity.
Qed.
Lemma main_step (k : string) raw a r : bare k raw -> k <> ""%string -> forallb (fun c => negb (isspace c)) (key k) = true -> processline_main fl int a (key k) = r -> parseline fl int hex a Main raw = r.
Proof. intros B N E R. destruct (bare_keyed k raw B N E) as [K S]. unfold parseline. rewrite S. pose proof (keyed_nonempty _ _ _ K) as NE. destruct (key k) as [|x l] eqn:Ek; [congruence|]. exact R. Qed.
Lemma pairsection_step raw a : section int "StartKernPairs" raw -> pairs0 a = None -> exists e, parseline fl int hex a KernData raw = Some (set_pairs0 (Some []) (set_expected e a), KernPairs false 0).
Proof.
  intros (args & t & z & K & NA & I & P) C. unfold parseline. rewrite (keyed_line _ _ _ _ K P). pose proof (keyed_nonempty _ _ _ K) as NE. destruct t as [|x t]; [congruence|]. cbv zeta.
  unfold processline_kerndata. rewrite (split1_keyed _ _ _ K). destruct args as [|y r]; [congruence|]. cbn [bind]. keys. rewrite C. unfold parseint. cbn [bind]. rewrite I. cbn [option_map bind]. eauto.
Qed.
Lemma headers_frame hs : forall a, let a' := apply_headers hs a in chars_ a' = chars_ a /\ chardict a' = chardict a /\ pairs0 a' = pairs0 a /\ pairdict0 a' = pairdict0 a /\ version a' = version a.
Proof.
  induction hs as [|h hs IH]; intros a; [cbn; auto|]. cbn [apply_headers fold_left]. destruct (IH (apply_header h a)) as (A & B & C & D & E). fold (apply_headers hs (apply_header h a)). rewrite A, B, C, D, E.
  destruct h; cbn; auto.
Qed.
Lemma headers_attr hs k : forall a, get_attr (apply_headers hs a) (kw k) = later (flat_map (fun h => match h with Attr k' v => if String.eqb k' k then [v] else [] | _ => [] end) hs) (get_attr a (kw k)).
Proof.
  induction hs as [|h hs IH]; intros a; [reflexivity|]. cbn [apply_headers fold_left flat_map]. fold (apply_headers hs (apply_header h a)). rewrite IH.
  destruct h as [k' v|k' v|]; cbn [apply_header app]; try reflexivity. unfold get_attr at 1. cbn [set_attr attrs find fst]. change (chars_eqb (kw k') (kw k)) with (is (kw k') k). rewrite is_kw.
  destruct (String.eqb k' k); cbn [app option_map snd]; [now rewrite later_cons|reflexivity].
Qed.
Lemma headers_dirattr hs k : forall a, get_dirattr (apply_headers hs a) 0 (kw k) = later (flat_map (fun h => match h with DirAttr k' v => if String.eqb k' k then [v] else [] | _ => [] end) hs) (get_dirattr a 0 (kw k)).
Proof.
  induction hs as [|h hs IH]; intros a; [reflexivity|]. cbn [apply_headers fold_left flat_map]. fold (apply_headers hs (apply_header h a)). rewrite IH.
  destruct h as [k' v|k' v|]; cbn [apply_header app]; try reflexivity. unfold get_dirattr at 1. cbn [set_dirattr dirattrs find fst snd]. change (chars_eqb (kw k') (kw k)) with (is (kw k') k). rewrite is_kw, Z.eqb_refl. cbn [andb].
  destruct (String.eqb k' k); cbn [app option_map snd]; [now rewrite later_cons|reflexivity].
Qed.
End READ.

(** C145: reading an AFM file made of a header, character metrics and kerning pairs *)
Theorem afm_read : forall fl int hex lversion hs lhs lchars cs lcs lendchars lkern lpairs ps lps lendpairs lendkern lend,
  version_line int lversion -> Forall2 (header_line fl int) hs lhs ->
  section int "StartCharMetrics" lchars -> Forall2 (char_line fl int hex) cs lcs -> bare "EndCharMetrics" lendchars ->
  bare "StartKernData" lkern -> section int "StartKernPairs" lpairs -> Forall2 (pair_line fl hex) ps lps -> bare "EndKernPairs" lendpairs -> bare "EndKernData" lendkern ->
  bare "EndFontMetrics" lend ->
  exists a, parse fl int hex (lversion :: lhs ++ lchars :: lcs ++ lendchars :: lkern :: lpairs :: lps ++ [lendpairs; lendkern; lend]) = Some a /\
    (forall k, get_attr a (key k) = latest (flat_map (fun h => match h with Attr k' v => if String.eqb k' k then [v] else [] | _ => [] end) hs)) /\
    (forall k, get_dirattr a 0 (key k) = latest (flat_map (fun h => match h with DirAttr k' v => if String.eqb k' k then [v] else [] | _ => [] end) hs)) /\
    chars_ a = Some (map char_of cs) /\ pairs0 a = Some ps /\
    (forall n, get_char a n = latest (filter (fun c => match cname c with Some m => if list_eq_dec Z.eq_dec m n then true else false | None => false end) (map char_of cs))) /\
    (forall n1 n2, get_pair a n1 n2 = latest (filter (fun p => glyph_eqb (name1 p) n1 && glyph_eqb (name2 p) n2) ps)).
Proof.
  intros fl int hex lversion hs lhs lchars cs lcs lendchars lkern lpairs ps lps lendpairs lendkern lend V H C CL EC KD KP PL EP EK EF.
  unfold parse. cbn [parselines]. destruct (version_step fl int hex lversion emptyafm V) as (v & ->). cbn [bind]. rewrite parselines_app.
  destruct (header_lines fl int hex hs lhs H (set_version v emptyafm) Main (or_introl eq_refl)) as (st & -> & HS). cbn [bind parselines].
  set (a1 := apply_headers hs (set_version v emptyafm)). destruct (headers_frame hs (set_version v emptyafm)) as (F1 & F2 & F3 & F4 & _). fold a1 in F1, F2, F3, F4. cbn in F1, F2, F3, F4.
  destruct (charsection_step fl int hex lchars a1 st C HS F1) as (e & ->). cbn [bind]. rewrite parselines_app. set (a2 := set_chars (Some []) (set_expected e a1)).
  destruct (chars_lines fl int hex cs lcs CL a2 [] 0 eq_refl) as (a3 & n3 & E3 & C3 & D3 & S3). rewrite E3. cbn [bind parselines]. rewrite (endchars_step fl int hex lendchars a3 n3 EC). cbn [bind].
  rewrite (main_step fl int hex "StartKernData" lkern a3 (Some (a3, KernData)) KD ltac:(discriminate) eq_refl eq_refl). cbn [bind].
  assert (pairs0 a3 = None /\ pairdict0 a3 = []) as [P3 Q3] by (rewrite S3; unfold a2; cbn; auto).
  destruct (pairsection_step fl int hex lpairs a3 KP P3) as (e' & ->). cbn [bind]. rewrite parselines_app. set (a4 := set_pairs0 (Some []) (set_expected e' a3)).
  destruct (pairs_lines fl int hex ps lps PL a4 [] 0 eq_refl) as (a5 & n5 & E5 & C5 & D5 & S5). rewrite E5. cbn [bind parselines].
  assert (parseline fl int hex a5 (KernPairs false n5) lendpairs = Some (a5, KernData)) as -> by (destruct (bare_keyed "EndKernPairs" lendpairs EP ltac:(discriminate) eq_refl) as [_ E]; unfold parseline; rewrite E; reflexivity). cbn [bind].
  assert (parseline fl int hex a5 KernData lendkern = Some (a5, Main)) as -> by (destruct (bare_keyed "EndKernData" lendkern EK ltac:(discriminate) eq_refl) as [_ E]; unfold parseline; rewrite E; reflexivity). cbn [bind].
  rewrite (main_step fl int hex "EndFontMetrics" lend a5 (Some (a5, End_)) EF ltac:(discriminate) eq_refl eq_refl). cbn [bind option_map fst].
  exists a5. split; [reflexivity|].
  assert (attrs a5 = attrs a1 /\ dirattrs a5 = dirattrs a1 /\ chars_ a5 = chars_ a3 /\ chardict a5 = chardict a3) as (G1 & G2 & G3 & G4) by (rewrite S5; unfold a4; cbn; rewrite S3; unfold a2; cbn; auto).
  split; [|split; [|split; [|split; [|split]]]].
  - intros k. unfold get_attr. rewrite G1. change (get_attr a1 (kw k) = latest (flat_map (fun h => match h with Attr k' v => if String.eqb k' k then [v] else [] | _ => [] end) hs)). unfold a1. rewrite headers_attr.
    unfold later. destruct (latest _); reflexivity.
  - intros k. unfold get_dirattr. rewrite G2. change (get_dirattr a1 0 (kw k) = latest (flat_map (fun h => match h with DirAttr k' v => if String.eqb k' k then [v] else [] | _ => [] end) hs)). unfold a1. rewrite headers_dirattr.
    unfold later. destruct (latest _); reflexivity.
  - now rewrite G3, C3.
  - exact C5.
  - intros n. replace (get_char a5 n) with (get_char a3 n) by (unfold get_char; now rewrite G4). rewrite D3.
    assert (get_char a2 n = None) as -> by (unfold get_char, a2; cbn; rewrite F2; reflexivity).
    assert (forall l, filter (fun c => match cname c with Some m' => chars_eqb m' n | None => false end) l = filter (fun c => match cname c with Some m => if list_eq_dec Z.eq_dec m n then true else false | None => false end) l) as ->.
    { intros l. apply filter_ext. intros c. destruct (cname c) as [m|]; [|reflexivity]. rewrite eqb_same. reflexivity. }
    unfold later. destruct (latest _); reflexivity.
  - intros n1 n2. rewrite D5. assert (get_pair a4 n1 n2 = None) as -> by (unfold get_pair, a4; cbn; rewrite Q3; reflexivity). unfold later, same_pair. destruct (latest _); reflexivity.
Qed.
Print Assumptions afm_read.
