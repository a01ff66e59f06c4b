(** What texmessage.load and texmessage.load_def remove from the output of TeX, and that load_graphics does not remove all. *)
From Coq Require Import Arith Bool Ascii String List Lia.
From Verif Require Import TexMsgModel TexMsgProps TexBracketProps.
Import ListNotations.
Open Scope nat_scope.

(** ** Files and their messages *)
(** some beginning of the name up to the end of a line, without its newlines, is a file *)
Definition name_of_file (isfile : str -> bool) (f : str) : Prop := exists p q, f = p ++ q /\ (q = [] \/ exists r, q = nl :: r) /\ isfile (strip p) = true.
(** an opening bracket, the name of a file, and anything up to a closing bracket *)
Definition quoted_message (isfile : str -> bool) (t : str) : Prop :=
  exists f u, strip t = ["("%char; quot] ++ f ++ [quot] ++ u ++ [")"%char] /\ ~ In quot f /\ ~ In ")"%char u /\ isfile f = true.
Definition plain_message (isfile : str -> bool) (t : str) : Prop :=
  exists c f u, t = "("%char :: c :: f ++ u ++ [")"%char] /\ c <> quot /\ ~ In ")"%char f /\ ~ In ")"%char u /\ ~ In " "%char f /\ (u = [] \/ hd nl u = " "%char) /\ name_of_file isfile (c :: f).
Inductive dropped (P : str -> Prop) : str -> str -> Prop :=
| keep x : dropped P x x
| drop a t b y : P t -> dropped P (a ++ b) y -> dropped P (a ++ t ++ b) y.
Lemma dropped_trans P x y z : dropped P x y -> dropped P y z -> dropped P x z.
Proof. induction 1 as [|a t b y H D IH]; intros H2; [exact H2|]. apply drop; [exact H|]. now apply IH. Qed.
Lemma dropped_impl (P Q : str -> Prop) x y : (forall t, P t -> Q t) -> dropped P x y -> dropped Q x y.
Proof. intros H. induction 1; [constructor|]. apply drop; auto. Qed.

(** ** Matchers *)
Lemma span_spec ok x : forall a b, span ok x = (a, b) -> x = a ++ b /\ Forall (fun c => ok c = true) a /\ match b with [] => True | c :: _ => ok c = false end.
Proof.
  induction x as [|c x IH]; intros a b H; cbn in H; [injection H as <- <-; repeat split; constructor|].
  destruct (ok c) eqn:E; [|injection H as <- <-; repeat split; [constructor|exact E]]. destruct (span ok x) as [a' b'] eqn:Es. injection H as <- <-.
  destruct (IH _ _ eq_refl) as (-> & F & B). repeat split; trivial. now constructor.
Qed.
Lemma span_all ok a b : Forall (fun c => ok c = true) a -> match b with [] => True | c :: _ => ok c = false end -> span ok (a ++ b) = (a, b).
Proof. induction a as [|c a IH]; intros F B; [destruct b as [|c b]; [reflexivity|]; cbn; now rewrite B|]. inversion F as [|? ? Hc Fa]; subst. cbn. rewrite Hc. now rewrite (IH Fa B). Qed.
Lemma isnot_spec c a : isnot c a = true <-> a <> c.
Proof. unfold isnot. destruct (Ascii.eqb_spec a c); cbn; split; congruence. Qed.
Lemma isnot_false c a : isnot c a = false <-> a = c.
Proof. unfold isnot. destruct (Ascii.eqb_spec a c); cbn; split; congruence. Qed.
Lemma isnot_all c a : Forall (fun x => isnot c x = true) a -> ~ In c a.
Proof. intros F H. pose proof (proj1 (Forall_forall _ _) F c H) as E. cbv beta in E. apply isnot_spec in E. now apply E. Qed.
Lemma all_isnot c a : ~ In c a -> Forall (fun x => isnot c x = true) a.
Proof. intros H. apply Forall_forall. intros x Hx. apply isnot_spec. intros ->. contradiction. Qed.
Definition wf (m : matcher) : Prop := forall x t f, m x = Some (t, f) -> t <> [] /\ exists b, x = t ++ b.

Lemma search_from_spec m x : forall i a b f, search_from m x i = Some (a, b, f) ->
  exists u v t, x = u ++ v /\ m v = Some (t, f) /\ a = i + length u /\ b = a + length t.
Proof.
  induction x as [|c x IH]; intros i a b f H; cbn in H.
  - destruct (m []) as [[t g]|] eqn:E; [|discriminate]. injection H as <- <- <-. exists [], [], t. cbn. repeat split; trivial; lia.
  - destruct (m (c :: x)) as [[t g]|] eqn:E.
    + injection H as <- <- <-. exists [], (c :: x), t. cbn. repeat split; trivial; lia.
    + destruct (IH _ _ _ _ H) as (u & v & t & -> & Ev & -> & ->). exists (c :: u), v, t. cbn. repeat split; trivial; lia.
Qed.
Lemma search_from_none m x : forall i, search_from m x i = None -> forall u v, x = u ++ v -> m v = None.
Proof.
  induction x as [|c x IH]; intros i H u v E; cbn in H.
  - destruct (m []) as [[t g]|] eqn:Em; [discriminate|]. destruct u; [|discriminate]. cbn in E. now subst.
  - destruct (m (c :: x)) as [[t g]|] eqn:Em; [discriminate|]. destruct u as [|d u]; cbn in E; [now subst|]. injection E as <- ->. eapply IH; [exact H|reflexivity].
Qed.
Lemma search_bound m : wf m -> forall r i j g, search m r = Some (i, j, g) -> i <= j <= length r.
Proof.
  intros W r i j g H. apply search_from_spec in H as (u & v & t & -> & E & -> & ->). destruct (W _ _ _ E) as (_ & b & ->). rewrite !app_length. lia.
Qed.

(** the loop: what is removed is matched, with a good name; at the end nothing is matched any longer *)
Definition matched (m : matcher) (good : str -> bool) (ignore : bool) (t : str) : Prop :=
  let y := if ignore then strip else fun x => x in exists v f, m (y t ++ v) = Some (y t, f) /\ good f = true.
Lemma removing_ok m good ignore : wf m -> forall fuel x, length x < fuel ->
  match removing fuel good m ignore (remove_pattern (search m) x ignore) with
  | None => True
  | Some r => dropped (matched m good ignore) x r /\ search m (if ignore then strip r else r) = None /\ length r <= length x
  end.
Proof.
  intros W. induction fuel as [|fuel IH]; intros x L; [lia|]. pose proof (remove_pattern_ok (search m) x ignore (search_bound m W)) as R. cbn [removing].
  destruct (search m (if ignore then strip x else x)) as [[[i j] g]|] eqn:Es.
  - destruct R as (a & t & b & -> & -> & (Ea & Et & Eb) & _). destruct (good g) eqn:G; [|exact I].
    apply search_from_spec in Es as (u & v & t' & Ex & Em & -> & ->). destruct (W _ _ _ Em) as (Nt & w & ->). cbn [plus] in *.
    set (y := if ignore then strip else fun x : str => x) in *.
    assert (y (a ++ t ++ b) = u ++ t' ++ w) as Ey by (unfold y; destruct ignore; exact Ex). rewrite Ey in Et. replace (length u + length t' - length u) with (length t') in Et by lia.
    rewrite skipn_app, skipn_all, Nat.sub_diag in Et. cbn [app skipn] in Et. rewrite firstn_app, firstn_all, Nat.sub_diag, firstn_O, app_nil_r in Et.
    assert (length (y t) <= length t) as Ly by (unfold y; destruct ignore; [apply strip_length|lia]). rewrite Et in Ly. destruct t' as [|c t']; [congruence|]. cbn [length] in Ly.
    assert (length (a ++ b) < fuel) as L2 by (rewrite !app_length in *; lia). specialize (IH (a ++ b) L2).
    destruct (removing fuel good m ignore (remove_pattern (search m) (a ++ b) ignore)) as [r|]; [|exact I]. destruct IH as (D & N & Lr). split; [|split; [exact N|rewrite !app_length in *; lia]].
    apply drop; [|exact D]. exists w, g. fold y. rewrite Et. now split.
  - rewrite R. destruct fuel; repeat split; trivial; constructor.
Qed.

Lemma quoted_file_shape x t f : quoted_file x = Some (t, f) -> exists u b, x = t ++ b /\ t = ["("%char; quot] ++ f ++ [quot] ++ u ++ [")"%char] /\ ~ In quot f /\ ~ In ")"%char u /\ f <> [].
Proof.
  unfold quoted_file. destruct x as [|o x]; [discriminate|]. destruct (Ascii.eqb_spec o "(") as [->|N]; [|intros H; exfalso; destruct o as [[] [] [] [] [] [] [] []]; try discriminate H; apply N; reflexivity].
  destruct x as [|q x]; [discriminate|]. destruct (Ascii.eqb_spec q quot) as [->|]; [|discriminate]. destruct (span (isnot quot) x) as [g z] eqn:E1. apply span_spec in E1 as (-> & F1 & B1).
  destruct g as [|g0 g]; [discriminate|]. destruct z as [|q2 z]; [discriminate|]. apply isnot_false in B1. subst q2. destruct (span _ z) as [u b] eqn:E2. apply span_spec in E2 as (-> & F2 & B2).
  destruct b as [|d b]; [discriminate|]. destruct (Ascii.eqb_spec d ")") as [->|N]; [|intros H; exfalso; destruct d as [[] [] [] [] [] [] [] []]; try discriminate H; apply N; reflexivity].
  intros H. assert (Some (("("%char :: quot :: (g0 :: g) ++ [quot] ++ u ++ [")"%char]), g0 :: g) = Some (t, f)) as H' by exact H. clear H. injection H' as <- <-. exists u, b. repeat split.
  - cbn. rewrite <- !app_assoc. cbn. rewrite <- app_assoc. reflexivity.
  - now apply isnot_all.
  - apply isnot_all. eapply Forall_impl; [|exact F2]. intros a Ha. cbv beta in Ha. apply andb_true_iff in Ha. tauto.
  - discriminate.
Qed.
Lemma file_shape x t g : file x = Some (t, g) -> exists c f u b, g = c :: f /\ x = t ++ b /\ t = "("%char :: c :: f ++ u ++ [")"%char] /\ c <> quot /\ ~ In ")"%char f /\ ~ In ")"%char u /\ ~ In " "%char f /\ (u = [] \/ hd nl u = " "%char).
Proof.
  unfold file. destruct x as [|o x]; [discriminate|]. destruct (Ascii.eqb_spec o "(") as [->|N]; [|intros H; exfalso; destruct o as [[] [] [] [] [] [] [] []]; try discriminate H; apply N; reflexivity].
  destruct x as [|c x]; [discriminate|]. destruct (isnot quot c) eqn:Ec; [|discriminate]. apply isnot_spec in Ec. destruct (span _ x) as [f z] eqn:E1. apply span_spec in E1 as (-> & F1 & B1).
  destruct (span _ z) as [u b] eqn:E2. apply span_spec in E2 as (-> & F2 & B2).
  destruct b as [|d b]; [discriminate|]. destruct (Ascii.eqb_spec d ")") as [->|N]; [|intros H; exfalso; destruct d as [[] [] [] [] [] [] [] []]; try discriminate H; apply N; reflexivity].
  intros H. assert (Some ("("%char :: c :: f ++ u ++ [")"%char], c :: f) = Some (t, g)) as H' by exact H. clear H. injection H' as <- <-. exists c, f, u, b. repeat split; trivial.
  - cbn. rewrite <- !app_assoc. reflexivity.
  - apply isnot_all. eapply Forall_impl; [|exact F1]. intros a Ha. cbv beta in Ha. apply andb_true_iff in Ha. tauto.
  - now apply isnot_all.
  - apply isnot_all. eapply Forall_impl; [|exact F1]. intros a Ha. cbv beta in Ha. apply andb_true_iff in Ha. tauto.
  - destruct u as [|e u]; [now left|]. right. cbn in B1 |- *. apply andb_false_iff in B1 as [B1|B1]; [now apply isnot_false in B1|]. inversion F2; subst. congruence.
Qed.
Lemma wf_quoted_file : wf quoted_file.
Proof. intros x t f H. destruct (quoted_file_shape _ _ _ H) as (u & b & E & -> & _). split; [discriminate|]. now exists b. Qed.
Lemma wf_file : wf file.
Proof. intros x t f H. destruct (file_shape _ _ _ H) as (c & g & u & b & _ & E & -> & _). split; [discriminate|]. now exists b. Qed.

Lemma split_names isfile f : forall cur acc, existsb isfile (accumulate acc (split_nl f cur)) = true <-> exists p q, f = p ++ q /\ (q = [] \/ exists r, q = nl :: r) /\ isfile (acc ++ cur ++ strip p) = true.
Proof.
  induction f as [|c f IH]; intros cur acc.
  - cbn. rewrite orb_false_r. split.
    + intros H. exists [], []. cbn. rewrite app_nil_r. auto.
    + intros (p & q & E & _ & H). destruct p; [|discriminate]. cbn in H. now rewrite app_nil_r in H.
  - cbn [split_nl]. destruct (Ascii.eqb_spec c nl) as [->|N].
    + cbn [accumulate existsb]. rewrite orb_true_iff, IH. split.
      * intros [H|(p & q & -> & Q & H)].
        -- exists [], (nl :: f). cbn. rewrite app_nil_r. split; [reflexivity|]. split; [right; now exists f|exact H].
        -- exists (nl :: p), q. split; [reflexivity|]. split; [exact Q|]. cbn. now rewrite app_assoc.
      * intros (p & q & E & Q & H). destruct p as [|d p].
        -- left. cbn in H. now rewrite app_nil_r in H.
        -- cbn in E. injection E as <- ->. right. exists p, q. split; [reflexivity|]. split; [exact Q|]. cbn in H. rewrite <- app_assoc. exact H.
    + rewrite IH. split.
      * intros (p & q & -> & Q & H). exists (c :: p), q. split; [reflexivity|]. split; [exact Q|]. cbn. destruct (Ascii.eqb_spec c nl); [contradiction|]. cbn. rewrite <- app_assoc in H. exact H.
      * intros (p & q & E & Q & H). destruct p as [|d p].
        -- cbn in E. subst q. destruct Q as [|(r & Q)]; [discriminate|]. injection Q as -> _. contradiction.
        -- cbn in E. injection E as <- ->. exists p, q. split; [reflexivity|]. split; [exact Q|]. cbn in H. destruct (Ascii.eqb_spec c nl); [contradiction|]. cbn in H. rewrite <- app_assoc. exact H.
Qed.
Lemma goodname_spec isfile f : goodname isfile f = true <-> name_of_file isfile f.
Proof. unfold goodname, name_of_file. rewrite split_names. cbn. reflexivity. Qed.

Lemma nested_length l : forall d, length (kept l d) <= length l.
Proof. induction l as [|[a k] l IH]; intros d; [cbn; lia|]. destruct k; cbn [kept]; rewrite app_length; [specialize (IH (S d)); destruct (d =? 0)|specialize (IH (d - 1)); destruct (d =? 1)|specialize (IH d); destruct (d <=? 1)]; cbn; lia. Qed.
Lemma remove_nested_length x : length (remove_nested_brackets x "(" ")" (Some quot)) <= length x.
Proof.
  rewrite nested_brackets_removed by discriminate. cbv zeta. destruct (balanced _ 0); [|lia]. etransitivity; [apply nested_length|]. rewrite <- (map_length fst), scan_chars. lia.
Qed.

(** ** C97 *)
(** load either returns its argument, or it removes from the text without nested brackets only brackets which begin with the name
    of a file, and then no text in brackets which could begin with an unquoted filename remains. *)
Theorem load_removes_files isfile msg : let r := load isfile msg in
  r = msg \/
  (dropped (fun t => quoted_message isfile t \/ plain_message isfile t) (remove_nested_brackets msg "(" ")" (Some quot)) r /\
   forall a c y, r = a ++ "("%char :: c :: y -> c = quot \/ ~ In ")"%char y).
Proof.
  cbv zeta. unfold load. set (r0 := remove_nested_brackets msg "(" ")" (Some quot)). assert (length r0 < S (length msg)) as L0 by (pose proof (remove_nested_length msg) as H; fold r0 in H; lia).
  pose proof (removing_ok quoted_file isfile true wf_quoted_file _ r0 L0) as H1. destruct (removing _ isfile _ _ _) as [r1|]; [|now left]. destruct H1 as (D1 & _ & L1).
  pose proof (removing_ok file (goodname isfile) false wf_file (S (length msg)) r1 ltac:(lia)) as H2. destruct (removing _ (goodname isfile) _ _ _) as [r2|]; [|now left]. destruct H2 as (D2 & N2 & _). right. split.
  - eapply dropped_trans; [eapply dropped_impl; [|exact D1]|eapply dropped_impl; [|exact D2]].
    + intros t (v & f & E & G). left. apply quoted_file_shape in E as (u & b & _ & E & A & B & _). exists f, u. auto.
    + intros t (v & g & E & G). right. apply file_shape in E as (c & f & u & b & -> & _ & E & A & B & C & C2 & D). exists c, f, u. apply goodname_spec in G. auto 10.
  - intros a c y E. pose proof (search_from_none file r2 0 N2 a _ E) as F. destruct (Ascii.eqb_spec c quot) as [Q|Nq]; [now left|]. right. intros Hy. unfold file in F. rewrite (proj2 (isnot_spec quot c) Nq) in F.
    destruct (span _ y) as [f z] eqn:E1. apply span_spec in E1 as (-> & F1 & _). destruct (span _ z) as [u b] eqn:E2. apply span_spec in E2 as (-> & F2 & B2).
    destruct b as [|d b].
    + rewrite app_nil_r in Hy. apply in_app_or in Hy as [Hy|Hy]; [|now apply isnot_all in F2]. pose proof (proj1 (Forall_forall _ _) F1 _ Hy) as K. discriminate.
    + apply isnot_false in B2. subst d. discriminate F.
Qed.
Print Assumptions load_removes_files.

(** *** Balanced messages *)
(** the text of a message outside of nested brackets; None if these are not balanced *)
Fixpoint outer (x : str) (d : nat) : option str :=
  match x with
  | [] => if d =? 0 then Some [] else None
  | a :: x =>
      if Ascii.eqb a "(" then outer x (S d)
      else if Ascii.eqb a ")" then match d with O => None | S d => outer x d end
      else option_map (if d =? 0 then cons a else fun y => y) (outer x d)
  end.
(** text, and messages in brackets *)
Inductive seg := Text (t : str) | Message (body : str).
Definition printed (l : list seg) : str := flat_map (fun e => match e with Text t => t | Message b => "("%char :: b ++ [")"%char] end) l.
Definition texts (l : list seg) : str := flat_map (fun e => match e with Text t => t | Message _ => [] end) l.
Definition ok_seg (e : seg) : Prop :=
  match e with
  | Text t => ~ In "("%char t /\ ~ In ")"%char t /\ ~ In quot t
  | Message b => ~ In quot b /\ exists c y, outer b 0 = Some (c :: y)
  end.
(** the name at the beginning of a message: up to the first space *)
Definition has_file (isfile : str -> bool) (e : seg) : Prop :=
  match e with
  | Text _ => True
  | Message b => exists c f u, outer b 0 = Some (c :: f ++ u) /\ ~ In " "%char f /\ (u = [] \/ hd nl u = " "%char) /\ name_of_file isfile (c :: f)
  end.

Notation br := (scan "(" ")" None false false).
Lemma br_prev x p : scan "(" ")" None false p x = br x. Proof. destruct x; reflexivity. Qed.
Lemma br_app x y : br (x ++ y) = br x ++ br y.
Proof. induction x as [|a x IH]; [reflexivity|]. cbn [app scan isquote]. rewrite ?(br_prev _ true), IH. destruct (Ascii.eqb a "("); [reflexivity|]. destruct (Ascii.eqb a ")"); reflexivity. Qed.
Lemma scan_plain x : ~ In quot x -> forall p, scan "(" ")" (Some quot) false p x = br x.
Proof.
  induction x as [|a x IH]; intros N p; [reflexivity|]. cbn [scan isquote]. destruct (Ascii.eqb_spec a quot) as [->|]; [exfalso; apply N; left; reflexivity|].
  assert (~ In quot x) as N' by (intros H; apply N; right; exact H). rewrite !(IH N'), ?(br_prev _ true). reflexivity.
Qed.
Lemma balanced_outer x : forall d y, outer x d = Some y -> forall l, balanced (br x ++ l) (S d) = balanced l 1 /\ kept (br x ++ l) (S d) = y ++ kept l 1.
Proof.
  induction x as [|a x IH]; intros d y H l.
  - cbn in H. destruct d; [|discriminate]. injection H as <-. auto.
  - cbn [outer] in H. cbn [scan isquote]. rewrite ?(br_prev _ true). destruct (Ascii.eqb_spec a "(") as [->|N1].
    + cbn [app balanced kept Nat.eqb]. apply IH. exact H.
    + destruct (Ascii.eqb_spec a ")") as [->|N2].
      * destruct d as [|d]; [discriminate|]. cbn [app balanced kept Nat.eqb]. replace (S (S d) - 1) with (S d) by lia. apply IH. exact H.
      * cbn [app balanced kept]. destruct (outer x d) as [y'|] eqn:E; [|discriminate]. injection H as <-. destruct (IH d y' E l) as [-> ->]. split; [reflexivity|]. destruct d; reflexivity.
Qed.
Lemma outer_plain x : forall d y, outer x d = Some y -> ~ In "("%char y /\ ~ In ")"%char y.
Proof.
  induction x as [|a x IH]; intros d y H; cbn [outer] in H.
  - destruct (d =? 0); [|discriminate]. injection H as <-. split; intros [].
  - destruct (Ascii.eqb_spec a "(") as [->|N1]; [now apply IH in H|]. destruct (Ascii.eqb_spec a ")") as [->|N2]; [destruct d; [discriminate|now apply IH in H]|].
    destruct (outer x d) as [y'|] eqn:E; [|discriminate]. injection H as <-. destruct (IH _ _ E). destruct (d =? 0); split; trivial; intros [?|?]; contradiction.
Qed.
Lemma outer_quot x : forall d y, outer x d = Some y -> ~ In quot x -> ~ In quot y.
Proof.
  induction x as [|a x IH]; intros d y H N; cbn [outer] in H.
  - destruct (d =? 0); [|discriminate]. injection H as <-. exact N.
  - assert (~ In quot x) as N' by (intros G; apply N; right; exact G). destruct (Ascii.eqb_spec a "(") as [->|N1]; [now apply IH in H|]. destruct (Ascii.eqb_spec a ")") as [->|N2]; [destruct d; [discriminate|now apply IH in H]|].
    destruct (outer x d) as [y'|] eqn:E; [|discriminate]. injection H as <-. pose proof (IH _ _ E N'). destruct (d =? 0); trivial. intros [->|?]; [|contradiction]. apply N. left. reflexivity.
Qed.
Lemma text_plain t : ~ In "("%char t -> ~ In ")"%char t -> forall l, balanced (br t ++ l) 0 = balanced l 0 /\ kept (br t ++ l) 0 = t ++ kept l 0.
Proof.
  induction t as [|a t IH]; intros N1 N2 l; [auto|]. cbn [scan isquote]. rewrite ?(br_prev _ true). destruct (Ascii.eqb_spec a "(") as [->|]; [exfalso; apply N1; left; reflexivity|]. destruct (Ascii.eqb_spec a ")") as [->|]; [exfalso; apply N2; left; reflexivity|].
  cbn [app balanced kept Nat.leb]. destruct (IH ltac:(intros H; apply N1; right; exact H) ltac:(intros H; apply N2; right; exact H) l) as [-> ->]. auto.
Qed.
(** the segments without nested brackets *)
Definition reduce (e : seg) : seg := match e with Text t => Text t | Message b => Message match outer b 0 with Some y => y | None => [] end end.
Lemma printed_quot l : Forall ok_seg l -> ~ In quot (printed l).
Proof.
  induction 1 as [|e l H F IH]; [intros []|]. unfold printed in *. cbn [flat_map]. intros G. apply in_app_or in G as [G|G]; [|contradiction]. destruct e as [t|b]; cbn in H; [tauto|]. destruct G as [G|G]; [discriminate|]. apply in_app_or in G as [G|[G|[]]]; [tauto|discriminate].
Qed.
Lemma nested_printed l : Forall ok_seg l -> remove_nested_brackets (printed l) "(" ")" (Some quot) = printed (map reduce l).
Proof.
  intros F. rewrite nested_brackets_removed by discriminate. cbv zeta. rewrite (scan_plain _ (printed_quot l F)).
  assert (balanced (br (printed l)) 0 = true /\ kept (br (printed l)) 0 = printed (map reduce l)) as [-> E]; [|exact E].
  induction F as [|e l H F IH]; [auto|]. unfold printed in *. cbn [flat_map map]. rewrite br_app. destruct e as [t|b]; cbn in H.
  - destruct H as (N1 & N2 & _). destruct (text_plain t N1 N2 (br (flat_map (fun e => match e with Text t => t | Message b => "("%char :: b ++ [")"%char] end) l))) as [-> ->]. destruct IH as [-> ->]. auto.
  - destruct H as (_ & c & y & E). change (br ("("%char :: b ++ [")"%char])) with (("("%char, KOpen) :: scan "(" ")" None false true (b ++ [")"%char])). rewrite (br_prev _ true), br_app. cbn [reduce app balanced kept Nat.eqb]. rewrite E, <- !app_assoc.
    destruct (balanced_outer b 0 _ E (br [")"%char] ++ br (flat_map (fun e => match e with Text t => t | Message b => "("%char :: b ++ [")"%char] end) l))) as [-> ->].
    cbn [scan isquote Ascii.eqb Bool.eqb app balanced kept Nat.eqb Nat.sub]. destruct IH as [-> ->]. auto.
Qed.
Lemma search_skip m a x : (forall b y, m (b :: y) <> None -> b = "("%char) -> ~ In "("%char a -> forall i, search_from m (a ++ x) i = search_from m x (i + length a).
Proof.
  intros H. induction a as [|c a IH]; intros N i; [cbn; now rewrite Nat.add_0_r|]. cbn [app search_from length]. destruct (m (c :: a ++ x)) eqn:E.
  - exfalso. apply N. left. apply (H c (a ++ x)). congruence.
  - rewrite IH by (intros G; apply N; right; exact G). f_equal. lia.
Qed.
Lemma file_open b y : file (b :: y) <> None -> b = "("%char.
Proof. intros H. destruct (file (b :: y)) as [[t f]|] eqn:E; [|contradiction]. apply file_shape in E as (c & f' & u & w & _ & E & -> & _). injection E. congruence. Qed.
Lemma file_found c y rest : c <> quot -> ~ In ")"%char y -> file ("("%char :: c :: y ++ ")"%char :: rest) = Some ("("%char :: c :: y ++ [")"%char], c :: fst (span (isnot " ") y)).
Proof.
  intros Nc Ny. unfold file. rewrite (proj2 (isnot_spec quot c) Nc). destruct (span (isnot " ") y) as [f u] eqn:E. apply span_spec in E as (-> & F & B). cbn [fst]. rewrite <- app_assoc.
  assert (~ In ")"%char f /\ ~ In ")"%char u) as [Nf Nu] by (split; intros H; apply Ny, in_or_app; auto).
  rewrite (span_all _ f (u ++ ")"%char :: rest)).
  - rewrite (span_all (isnot ")") u (")"%char :: rest)); [rewrite <- app_assoc; reflexivity|now apply all_isnot|reflexivity].
  - apply Forall_forall. intros a Ha. apply andb_true_iff. split; [exact (proj1 (Forall_forall _ _) F a Ha)|apply isnot_spec; intros ->; contradiction].
  - destruct u as [|d u]; [reflexivity|]. cbn. now rewrite B.
Qed.
Definition is_good isfile (e : seg) : bool := match e with Text _ => true | Message b => match outer b 0 with Some (c :: y) => goodname isfile (c :: fst (span (isnot " ") y)) | _ => false end end.
Lemma is_good_spec isfile e : ok_seg e -> is_good isfile e = true <-> has_file isfile e.
Proof.
  destruct e as [t|b]; [cbn; tauto|]. cbn [ok_seg is_good has_file]. intros (_ & c & y & ->). rewrite goodname_spec. destruct (span (isnot " ") y) as [f u] eqn:E. apply span_spec in E as (-> & Ff & B). cbn [fst]. split.
  - intros H. exists c, f, u. repeat split; [now apply isnot_all| |exact H]. destruct u as [|d u]; [now left|]. right. cbn. now apply isnot_false in B.
  - intros (c' & f' & u' & H & N & U & G). injection H as <- H. assert (f = f'); [|now subst].
    clear G. apply isnot_all in Ff. assert (u = [] \/ hd nl u = " "%char) as U' by (destruct u; [now left|right; cbn; now apply isnot_false in B]). clear B. revert f' H N. induction f as [|d f IHf]; intros f' H N.
    + destruct f' as [|d' f']; [reflexivity|]. exfalso. cbn in H. destruct u as [|e u]; [discriminate|]. destruct U' as [|U']; [discriminate|]. cbn in U'. subst e. injection H as <- _. apply N. left. reflexivity.
    + destruct f' as [|d' f'].
      * exfalso. cbn in H. destruct u' as [|e u']; [discriminate|]. destruct U as [|U]; [discriminate|]. cbn in U. subst e. injection H as -> _. apply Ff. left. reflexivity.
      * cbn in H. injection H as <- H. f_equal. apply IHf; [intros G; apply Ff; right; exact G|exact H|intros G; apply N; right; exact G].
Qed.
Lemma printed_length l : Forall ok_seg l -> length (filter (fun e => match e with Message _ => true | _ => false end) l) <= length (printed l).
Proof. induction 1 as [|e l H F IH]; [cbn; lia|]. unfold printed in *. cbn [filter flat_map]. rewrite app_length. destruct e; cbn; lia. Qed.

(** the segments of the text could be empty: they are not counted *)
Lemma removing_more isfile l fuel a : Forall ok_seg l -> ~ In "("%char a -> length (filter (fun e => match e with Message _ => true | _ => false end) l) < fuel ->
  removing fuel (goodname isfile) file false (remove_pattern (search file) (a ++ printed (map reduce l)) false) = if forallb (is_good isfile) l then Some (a ++ texts l) else None.
Proof.
  intros F. revert a fuel. induction F as [|e l H F IH]; intros a fuel Na Lf.
  - cbn. rewrite app_nil_r. unfold remove_pattern, search. pose proof (search_skip file a [] file_open Na 0) as E. rewrite app_nil_r in E. rewrite E. cbn. destruct fuel; [cbn in Lf; lia|]. reflexivity.
  - destruct e as [t|b].
    + unfold printed, texts in *. cbn [map flat_map forallb reduce is_good]. cbn [filter] in Lf. rewrite !app_assoc. cbn [andb]. apply IH; [|exact Lf]. cbn in H. intros G. apply in_app_or in G as [G|G]; tauto.
    + cbn [filter length] in Lf. unfold printed, texts in *. cbn [map flat_map forallb reduce is_good ok_seg] in *. destruct H as (Nq & c & y & E). rewrite E. destruct (outer_plain _ _ _ E) as [_ Np]. pose proof (outer_quot _ _ _ E Nq) as Nqy.
      unfold remove_pattern, search. cbn [app]. rewrite <- app_assoc. cbn [app]. rewrite (search_skip file a _ file_open Na 0). cbn [search_from]. rewrite file_found; [|intros ->; apply Nqy; left; reflexivity|intros G; apply Np; right; exact G].
      destruct fuel as [|fuel]; [lia|]. cbn [removing plus]. destruct (goodname isfile _) eqn:G; [|reflexivity]. cbn [andb app].
      set (R := flat_map _ (map reduce l)). replace (a ++ "("%char :: c :: y ++ ")"%char :: R) with (a ++ ("("%char :: c :: y ++ [")"%char]) ++ R) by (cbn; rewrite <- app_assoc; reflexivity).
      rewrite firstn_skipn_parts. apply IH; [exact Na|lia].
Qed.

(** All messages in brackets are removed (with brackets nested in them), and the text is kept, if every message begins with the name of
    a file; otherwise the text is returned as it is. *)
Theorem load_messages_removed isfile l : Forall ok_seg l ->
  (Forall (has_file isfile) l -> load isfile (printed l) = texts l) /\ (~ Forall (has_file isfile) l -> load isfile (printed l) = printed l).
Proof.
  intros F. unfold load. rewrite (nested_printed l F).
  assert (remove_pattern (search quoted_file) (printed (map reduce l)) true = (printed (map reduce l), None)) as E1.
  { pose proof (remove_pattern_ok (search quoted_file) (printed (map reduce l)) true (search_bound _ wf_quoted_file)) as R. cbv beta iota in R. destruct (search quoted_file (strip (printed (map reduce l)))) as [[[i j] g]|] eqn:Es; [|exact R]. exfalso.
    apply search_from_spec in Es as (u & v & t & Ex & Em & _). apply quoted_file_shape in Em as (u' & b & -> & -> & _).
    assert (In quot (strip (printed (map reduce l)))) as I by (rewrite Ex; apply in_or_app; right; right; left; reflexivity). apply filter_In in I as [I _].
    assert (Forall ok_seg (map reduce l)) as F2.
    { apply Forall_map. eapply Forall_impl; [|exact F]. intros [t'|b'] He; [exact He|]. cbn in *. destruct He as (Nq & c & y & E). rewrite E. split; [exact (outer_quot _ _ _ E Nq)|].
      destruct (outer_plain _ _ _ E) as [N1 N2]. exists c, y. clear - N1 N2. revert N1 N2. generalize (c :: y). clear. intros x. induction x as [|a x IH]; intros N1 N2; [reflexivity|]. cbn. destruct (Ascii.eqb_spec a "(") as [->|]; [exfalso; apply N1; left; reflexivity|]. destruct (Ascii.eqb_spec a ")") as [->|]; [exfalso; apply N2; left; reflexivity|].
      rewrite IH; [reflexivity| |]; intros H; [apply N1|apply N2]; right; exact H. }
    exact (printed_quot _ F2 I). }
  rewrite E1. assert (forall n x, removing (S n) isfile quoted_file true (x, None) = Some x) as -> by reflexivity. pose proof (removing_more isfile l (S (length (printed l))) [] F (fun H => H) ltac:(pose proof (printed_length l F); lia)) as R. cbn [app] in R. rewrite R.
  assert (forallb (is_good isfile) l = true <-> Forall (has_file isfile) l) as Q.
  { rewrite forallb_forall, Forall_forall. split; intros H e He; apply (is_good_spec isfile e (proj1 (Forall_forall _ _) F e He)), H, He. }
  split; intros H.
  - apply Q in H. now rewrite H.
  - destruct (forallb (is_good isfile) l); [exfalso; now apply H, Q|reflexivity].
Qed.
Print Assumptions load_messages_removed.

(** the examples of the documentation *)
Definition thefile (f : str) : bool := str_eqb f (s "text.py").
Definition nls (x : string) : str := map (fun c => if Ascii.eqb c "/" then nl else if Ascii.eqb c "'" then quot else c) (s x).
Example load_example : map (fun x => string_of_list_ascii (load thefile (nls x))) ["other (text.py) things"; "other ('text.py') things"; "other ('tex/t.py' further (ignored)/text) things"; "other (t/ext/.py/fur/ther (ignored) text) things"; "other (text.pyx) things"]%string
  = ["other  things"; "other  things"; "other  things"; "other  things"; "other (text.pyx) things"]%string.
Proof. vm_compute. reflexivity. Qed.
Example load_messages_example : let l := [Text (s "a"); Message (nls "te/xt.py (x (y) z) u"); Text (s "b"); Message (nls "text.py")] in Forall ok_seg l /\ Forall (has_file thefile) l /\ load thefile (printed l) = s "ab".
Proof.
  cbv zeta. assert (forall (P : seg -> Prop) x l, P x -> Forall P l -> Forall P (x :: l)) as K by (intros; constructor; assumption). repeat split.
  - repeat apply K; try constructor; cbn; repeat split; try (intros H; repeat (destruct H as [H|H]; [discriminate|]); exact H); eexists _, _; reflexivity.
  - apply K; [exact I|]. apply K; [|apply K; [exact I|apply K; [|constructor]]].
    + exists "t"%char, (nls "e/xt.py"), (nls "  u"). split; [vm_compute; reflexivity|]. split; [intros H; repeat (destruct H as [H|H]; [discriminate|]); exact H|]. split; [right; reflexivity|]. exists (nls "te/xt.py"), []. repeat split. now left.
    + exists "t"%char, (nls "ext.py"), []. split; [vm_compute; reflexivity|]. split; [intros H; repeat (destruct H as [H|H]; [discriminate|]); exact H|]. split; [left; reflexivity|]. exists (nls "text.py"), []. repeat split. now left.
Qed.

(** *** load_def *)
Definition def_ending (f : str) : Prop := exists g e, f = g ++ e /\ (e = s ".fd" \/ e = s ".def").
(** brackets around the name of a file, quoted or not, and nothing else; newlines may be anywhere *)
Definition def_message (isfile : str -> bool) (t : str) : Prop :=
  exists f, (strip t = ["("%char; quot] ++ f ++ [quot; ")"%char] \/ strip t = "("%char :: f ++ [")"%char]) /\ def_ending f /\ isfile f = true.
Lemma suffixb_spec e x : suffixb e x = true <-> exists g, x = g ++ e.
Proof.
  unfold suffixb. rewrite prefixb_spec. split; intros (y & E).
  - exists (rev y). apply (f_equal (@rev ascii)) in E. now rewrite rev_app_distr, !rev_involutive in E.
  - exists (rev y). rewrite E. now rewrite rev_app_distr.
Qed.
Lemma endings_spec f : existsb (fun e => suffixb e f) def_endings = true <-> def_ending f.
Proof.
  unfold def_endings, def_ending. cbn [existsb]. rewrite orb_false_r, orb_true_iff, !suffixb_spec. split.
  - intros [(g & E)|(g & E)]; eexists g, _; split; try exact E; auto.
  - intros (g & e & E & [->| ->]); [left|right]; exists g; exact E.
Qed.
Lemma quoted_def_shape x t f : quoted_def x = Some (t, f) -> exists b, x = t ++ b /\ t = ["("%char; quot] ++ f ++ [quot; ")"%char] /\ def_ending f.
Proof.
  unfold quoted_def, quoted_name. destruct x as [|a [|q y]]; try discriminate. destruct (Ascii.eqb_spec a "(") as [->|]; [|discriminate]. destruct (Ascii.eqb_spec q quot) as [->|]; [|discriminate]. cbn [andb].
  destruct (span _ y) as [g z] eqn:E1. apply span_spec in E1 as (-> & F1 & B1). destruct g as [|g0 g]; [discriminate|]. destruct z as [|q2 [|b z]]; try discriminate. apply isnot_false in B1. subst q2.
  destruct (existsb _ def_endings) eqn:Ee; [|discriminate]. apply endings_spec in Ee. destruct (Ascii.eqb_spec b ")") as [->|]; [|discriminate]. cbn [andb]. intros H. injection H as <- <-. exists z. split; [cbn; rewrite <- app_assoc; reflexivity|]. split; [reflexivity|].
  destruct Ee as (h & e & -> & He). exists (g0 :: h), e. auto.
Qed.
Lemma def_shape x t f : def_ x = Some (t, f) -> exists b, x = t ++ b /\ t = "("%char :: f ++ [")"%char] /\ def_ending f.
Proof.
  unfold def_, plain_name. destruct x as [|a [|c y]]; try discriminate. destruct (Ascii.eqb_spec a "(") as [->|]; [|discriminate]. destruct (isnot quot c) eqn:Ec; [|discriminate]. cbn [andb].
  destruct (span _ y) as [g z] eqn:E1. apply span_spec in E1 as (-> & F1 & B1). destruct z as [|b z]; [discriminate|].
  destruct (existsb _ def_endings) eqn:Ee; [|discriminate]. apply endings_spec in Ee. destruct (Ascii.eqb_spec b ")") as [->|]; [|discriminate]. cbn [andb]. intros H. injection H as <- <-. exists z. split; [cbn; rewrite <- app_assoc; reflexivity|]. split; [reflexivity|].
  destruct Ee as (h & e & -> & He). exists (c :: h), e. auto.
Qed.
Lemma wf_quoted_def : wf quoted_def. Proof. intros x t f H. destruct (quoted_def_shape _ _ _ H) as (b & E & -> & _). split; [discriminate|]. now exists b. Qed.
Lemma wf_def : wf def_. Proof. intros x t f H. destruct (def_shape _ _ _ H) as (b & E & -> & _). split; [discriminate|]. now exists b. Qed.
Theorem load_def_removes_files isfile msg : let r := load_def isfile msg in
  r = msg \/
  (dropped (def_message isfile) msg r /\
   forall a c f b, strip r = a ++ "("%char :: c :: f ++ ")"%char :: b -> c <> quot -> def_ending f -> In " "%char f \/ In ")"%char f).
Proof.
  cbv zeta. unfold load_def.
  pose proof (removing_ok quoted_def isfile true wf_quoted_def (S (length msg)) msg ltac:(lia)) as H1. destruct (removing _ isfile quoted_def _ _) as [r1|]; [|now left]. destruct H1 as (D1 & _ & L1).
  pose proof (removing_ok def_ isfile true wf_def (S (length msg)) r1 ltac:(lia)) as H2. destruct (removing _ isfile def_ _ _) as [r2|]; [|now left]. destruct H2 as (D2 & N2 & _). right. split.
  - eapply dropped_trans; [eapply dropped_impl; [|exact D1]|eapply dropped_impl; [|exact D2]].
    + intros t (v & f & E & G). apply quoted_def_shape in E as (b & _ & E & A). exists f. auto.
    + intros t (v & f & E & G). apply def_shape in E as (b & _ & E & A). exists f. auto.
  - intros a c f b E Nc Hf. pose proof (search_from_none def_ (strip r2) 0 N2 a _ E) as F. unfold def_, plain_name in F. rewrite (proj2 (isnot_spec quot c) Nc) in F. cbn [andb orb] in F.
    destruct (in_dec Ascii.ascii_dec " "%char f) as [|Ns]; [now left|]. right. destruct (in_dec Ascii.ascii_dec ")"%char f) as [I|Nb]; [exact I|]. exfalso.
    rewrite (span_all _ f (")"%char :: b)) in F; [|apply Forall_forall; intros x Hx; apply andb_true_iff; split; apply isnot_spec; intros ->; contradiction|reflexivity].
    apply endings_spec in Hf. rewrite Hf in F. discriminate F.
Qed.
Print Assumptions load_def_removes_files.
Example load_def_example : map (fun x => string_of_list_ascii (load_def (fun f => str_eqb f (s "ot1.fd") || str_eqb f (s "u u.def")) (nls x))) ["a (ot1./fd) b ('u u.def')"; "a (ot1.fd) b (t1.fd)"]%string = ["a  b "; "a (ot1.fd) b (t1.fd)"]%string.
Proof. vm_compute. reflexivity. Qed.

(** *** load_graphics *)
(** The loop of load_graphics goes on with the pattern of load: a second graphics file is not removed, although it exists. *)
Theorem load_graphics_refuted : ~ (forall isfile msg, load_graphics isfile msg = msg \/ forall a c f b, strip (load_graphics isfile msg) = a ++ "<"%char :: c :: f ++ s ".eps" ++ ">"%char :: b -> c <> quot -> In ">"%char f \/ isfile (c :: f ++ s ".eps") = false).
Proof.
  intros H. destruct (H (fun _ => true) (s "<a.eps><b.eps>")) as [E|E].
  - vm_compute in E. discriminate.
  - destruct (E [] "b"%char [] [] ltac:(vm_compute; reflexivity) ltac:(discriminate)) as [[]|Q]. discriminate Q.
Qed.
Print Assumptions load_graphics_refuted.
Example load_graphics_example : string_of_list_ascii (load_graphics (fun _ => true) (s "x <a.eps> y")) = "x  y"%string /\ string_of_list_ascii (load_graphics (fun _ => true) (s "<a.eps><b.eps>")) = "<b.eps>"%string.
Proof. split; vm_compute; reflexivity. Qed.
