(** remove_nested_brackets keeps exactly what is not within two levels of brackets. *)
From Coq Require Import Arith Bool Ascii String List Lia Permutation Sorting.Sorted.
From Verif Require Import TexMsgModel.
Import ListNotations.
Open Scope nat_scope.

(** ** What the brackets are *)
Inductive kind := KOpen | KClose | KText.
Section Spec.
  Variables o c : ascii.
  Variable q : option ascii.
  Definition isquote (a : ascii) : bool := match q with Some q => Ascii.eqb a q | None => false end.
  (** From left to right: a quote just behind an opening bracket begins a quoted string, which ends with the next quote (if
      there is one); brackets within it are text. *)
  Fixpoint scan (quoted behind_open : bool) (x : str) : list (ascii * kind) :=
    match x with
    | [] => []
    | a :: x =>
        if isquote a then (a, KText) :: scan (if quoted then false else behind_open && existsb isquote x) false x
        else if quoted then (a, KText) :: scan true false x
        else if Ascii.eqb a o then (a, KOpen) :: scan false true x
        else if Ascii.eqb a c then (a, KClose) :: scan false false x
        else (a, KText) :: scan false false x
    end.
End Spec.
Fixpoint balanced (l : list (ascii * kind)) (depth : nat) : bool :=
  match l with
  | [] => depth =? 0
  | (_, KOpen) :: l => balanced l (S depth)
  | (_, KClose) :: l => match depth with O => false | S d => balanced l d end
  | (_, KText) :: l => balanced l depth
  end.
(** text of a depth of at most one, and the brackets around text of depth one *)
Fixpoint kept (l : list (ascii * kind)) (depth : nat) : str :=
  match l with
  | [] => []
  | (a, KOpen) :: l => (if depth =? 0 then [a] else []) ++ kept l (S depth)
  | (a, KClose) :: l => (if depth =? 1 then [a] else []) ++ kept l (depth - 1)
  | (a, KText) :: l => (if depth <=? 1 then [a] else []) ++ kept l depth
  end.

(** ** Positions *)
Definition is_kind (k k' : kind) : bool := match k, k' with KOpen, KOpen | KClose, KClose | KText, KText => true | _, _ => false end.
Fixpoint kindpos (k : kind) (l : list (ascii * kind)) (i : nat) : list nat :=
  match l with [] => [] | (_, k') :: l => (if is_kind k k' then [i] else []) ++ kindpos k l (S i) end.
Definition is_in (n : nat) (l : list nat) : bool := existsb (Nat.eqb n) l.
Lemma is_in_spec n l : reflect (In n l) (is_in n l).
Proof.
  unfold is_in. destruct (existsb (Nat.eqb n) l) eqn:E; constructor.
  - apply existsb_exists in E as (m & Hm & E). apply Nat.eqb_eq in E. now subst.
  - intros H. assert (existsb (Nat.eqb n) l = true) by (apply existsb_exists; exists n; split; [exact H|apply Nat.eqb_refl]). congruence.
Qed.
Lemma index_from_bound a x : forall i n, In n (index_from a x i) -> i <= n < i + length x.
Proof. induction x as [|b x IH]; intros i n H; [destruct H|]. cbn in H. apply in_app_or in H as [H|H]; [destruct (Ascii.eqb b a); [destruct H as [<-|[]]; cbn; lia|destruct H]|]. apply IH in H. cbn. lia. Qed.
Lemma index_from_app a x y : forall i, index_from a (x ++ y) i = index_from a x i ++ index_from a y (i + length x).
Proof. induction x as [|b x IH]; intros i; [cbn; now rewrite Nat.add_0_r|]. cbn. rewrite IH, <- app_assoc. do 3 f_equal. lia. Qed.
Lemma filter_all {A} (p : A -> bool) l : (forall x, In x l -> p x = true) -> filter p l = l.
Proof. induction l as [|a l IH]; intros H; [reflexivity|]. cbn. rewrite (H a (or_introl eq_refl)), IH; [reflexivity|]. intros; apply H; right; assumption. Qed.
Lemma filter_none {A} (p : A -> bool) l : (forall x, In x l -> p x = false) -> filter p l = [].
Proof. induction l as [|a l IH]; intros H; [reflexivity|]. cbn. rewrite (H a (or_introl eq_refl)). apply IH. intros; apply H; right; assumption. Qed.

Section Quotes.
  Variables o c qc : ascii.
  Hypothesis oc : o <> c. Hypothesis qo : qc <> o. Hypothesis qcl : qc <> c.
  Notation scan := (scan o c (Some qc)).
  Notation isq := (isquote (Some qc)).

  Lemma no_quote x : existsb isq x = false -> forall i, index_from qc x i = [].
  Proof. induction x as [|a x IH]; intros H i; [reflexivity|]. cbn in H. apply orb_false_iff in H as [H1 H2]. cbn. unfold isquote in H1. cbn in H1. rewrite H1. cbn. now apply IH. Qed.
  (** the text up to the next quote *)
  Lemma next_quote x : existsb isq x = true -> exists y z, x = y ++ qc :: z /\ existsb isq y = false.
  Proof.
    induction x as [|a x IH]; intros H; [discriminate|]. cbn [existsb] in H. destruct (isq a) eqn:E; cbn [orb] in H.
    - exists [], x. split; [|reflexivity]. unfold isquote in E. apply Ascii.eqb_eq in E. now subst.
    - destruct (IH H) as (y & z & -> & N). exists (a :: y), z. split; [reflexivity|]. cbn [existsb]. now rewrite E.
  Qed.
  Lemma scan_quoted y z : existsb isq y = false -> scan true false (y ++ qc :: z) = map (fun a => (a, KText)) (y ++ [qc]) ++ scan false false z.
  Proof.
    induction y as [|a y IH]; intros H.
    - cbn. rewrite Ascii.eqb_refl. reflexivity.
    - cbn [existsb] in H. apply orb_false_iff in H as [H1 H2]. cbn [app map TexBracketProps.scan]. rewrite H1. now rewrite IH.
  Qed.
  Lemma kindpos_text k l m i : is_kind k KText = false -> kindpos k (map (fun a => (a, KText)) l ++ m) i = kindpos k m (i + length l).
  Proof. intros N. revert i. induction l as [|a l IH]; intros i; [cbn; now rewrite Nat.add_0_r|]. cbn. rewrite N. cbn. rewrite IH. f_equal. lia. Qed.

  Lemma unquoted_skip p pairs O C : is_in (fst p - 1) O = false -> unquoted (p :: pairs) O C = unquoted pairs O C.
  Proof. intros H. unfold unquoted. cbn [fold_left fst]. unfold is_in in H. rewrite H, andb_false_r. reflexivity. Qed.
  Lemma pairwise_cons a b l : pairwise (a :: b :: l) = (a, b) :: pairwise (b :: l). Proof. reflexivity. Qed.

  Lemma unquoted_ok n : forall x i O1 C1 prev, length x <= n -> (forall m, In m O1 -> m < i) -> (forall m, In m C1 -> m < i) -> is_in (i - 1) O1 = prev -> (prev = true -> 1 <= i) ->
    unquoted (pairwise (index_from qc x i)) (O1 ++ index_from o x i) (C1 ++ index_from c x i) =
    (O1 ++ kindpos KOpen (scan false prev x) i, C1 ++ kindpos KClose (scan false prev x) i).
  Proof.
    induction n as [|n IH]; intros x i O1 C1 prev L HO HC Hp Hi.
    - destruct x; [|cbn in L; lia]. reflexivity.
    - destruct x as [|a y]; [reflexivity|]. cbn [length] in L.
      assert (forall l m, In m (index_from l y (S i)) -> S i <= m) as Bd by (intros l m H; apply index_from_bound in H; lia).
      cbn [TexBracketProps.scan index_from]. change (isquote (Some qc) a) with (Ascii.eqb a qc). destruct (Ascii.eqb_spec a qc) as [->|Nq].
      + destruct (Ascii.eqb_spec qc o); [contradiction|]. destruct (Ascii.eqb_spec qc c); [contradiction|]. cbn [app kindpos is_kind].
        assert (is_in (S i - 1) O1 = false) as NO by (destruct (is_in_spec (S i - 1) O1) as [H|]; [apply HO in H; lia|reflexivity]).
        destruct (existsb isq y) eqn:Eq.
        * destruct (next_quote y Eq) as (y1 & y2 & -> & N1). rewrite andb_true_r. rewrite index_from_app. rewrite (no_quote y1 N1). cbn [app index_from]. rewrite Ascii.eqb_refl. cbn [app].
          rewrite pairwise_cons. set (j := S i + length y1).
          destruct prev.
          -- rewrite scan_quoted by exact N1. rewrite !kindpos_text by reflexivity. rewrite app_length. cbn [length].
             unfold unquoted. cbn [fold_left fst snd]. fold (is_in (i - 1) (O1 ++ index_from o (y1 ++ qc :: y2) (S i))).
             assert (is_in (i - 1) (O1 ++ index_from o (y1 ++ qc :: y2) (S i)) = true) as -> by (destruct (is_in_spec (i - 1) O1) as [H|]; [|discriminate]; destruct (is_in_spec (i - 1) (O1 ++ index_from o (y1 ++ qc :: y2) (S i))) as [|N]; [reflexivity|]; exfalso; apply N, in_or_app; left; exact H).
             assert ((1 <=? i) = true) as -> by (apply Nat.leb_le, Hi; reflexivity). cbn [andb].
             assert (forall l M, l <> qc -> (forall m, In m M -> m < i) -> outside (i, j) (M ++ index_from l (y1 ++ qc :: y2) (S i)) = M ++ index_from l y2 (S j)) as Out.
             { intros l M Nl HM. unfold outside. rewrite filter_app, index_from_app, filter_app. cbn [fst snd]. rewrite filter_all.
               - f_equal. rewrite filter_none.
                 + cbn [app]. rewrite filter_all.
                   * cbn [index_from]. destruct (Ascii.eqb_spec qc l); [congruence|]. cbn [app]. f_equal.
                   * intros m H. apply index_from_bound in H. fold j in H. destruct (Nat.ltb_spec m j); [lia|]. now rewrite andb_false_r.
                 + intros m H. apply index_from_bound in H. destruct (Nat.ltb_spec i m); [|lia]. destruct (Nat.ltb_spec m j); [reflexivity|unfold j in *; lia].
               - intros m H. apply HM in H. destruct (Nat.ltb_spec i m); [lia|reflexivity]. }
             rewrite Out by (trivial; congruence). rewrite Out by (trivial; congruence).
             change (unquoted (pairwise (j :: index_from qc y2 (S j))) (O1 ++ index_from o y2 (S j)) (C1 ++ index_from c y2 (S j)) = (O1 ++ kindpos KOpen (scan false false y2) (S i + (length y1 + 1)), C1 ++ kindpos KClose (scan false false y2) (S i + (length y1 + 1)))).
             replace (S i + (length y1 + 1)) with (S j) by (unfold j; lia).
             assert (is_in (S j - 1) O1 = false) as NOj by (destruct (is_in_spec (S j - 1) O1) as [H|]; [apply HO in H; unfold j in H; lia|reflexivity]).
             destruct (index_from qc y2 (S j)) as [|k r] eqn:E2.
             ++ pose proof (IH y2 (S j) O1 C1 false) as Q. rewrite E2 in Q. apply Q; [rewrite app_length in L; cbn in L; lia| | |exact NOj|discriminate].
                ** intros m H. apply HO in H. unfold j. lia.
                ** intros m H. apply HC in H. unfold j. lia.
             ++ rewrite pairwise_cons, unquoted_skip.
                ** pose proof (IH y2 (S j) O1 C1 false) as Q. rewrite E2 in Q. apply Q; [rewrite app_length in L; cbn in L; lia| | |exact NOj|discriminate].
                   --- intros m H. apply HO in H. unfold j. lia.
                   --- intros m H. apply HC in H. unfold j. lia.
                ** cbn [fst]. destruct (is_in_spec (j - 1) (O1 ++ index_from o y2 (S j))) as [H|]; [|reflexivity]. apply in_app_or in H as [H|H]; [apply HO in H|apply index_from_bound in H]; unfold j in *; lia.
          -- assert (is_in (i - 1) (O1 ++ index_from o (y1 ++ qc :: y2) (S i)) = false) as N0.
             { destruct (is_in_spec (i - 1) (O1 ++ index_from o (y1 ++ qc :: y2) (S i))) as [H|]; [|reflexivity]. apply in_app_or in H as [H|H]; [|apply Bd in H; lia]. destruct (is_in_spec (i - 1) O1); [discriminate|contradiction]. }
             rewrite unquoted_skip by exact N0.
             pose proof (IH (y1 ++ qc :: y2) (S i) O1 C1 false) as Q. rewrite (index_from_app qc) in Q. rewrite (no_quote y1 N1) in Q. cbn [app] in Q. cbn [index_from] in Q. rewrite Ascii.eqb_refl in Q. cbn [app] in Q. fold j in Q.
             apply Q; [lia| | |exact NO|discriminate]; intros m H; [apply HO in H|apply HC in H]; lia.
        * rewrite andb_false_r. rewrite (no_quote y Eq). pose proof (IH y (S i) O1 C1 false) as Q. rewrite (no_quote y Eq) in Q. apply Q; [lia| | |exact NO|discriminate]; intros m H; [apply HO in H|apply HC in H]; lia.
      + cbn [app]. destruct (Ascii.eqb_spec a o) as [->|No].
        * destruct (Ascii.eqb_spec o c); [contradiction|]. cbn [app kindpos is_kind]. pose proof (IH y (S i) (O1 ++ [i]) C1 true) as Q. rewrite <- !app_assoc in Q. cbn [app] in Q. apply Q; [lia| | | |intros; lia].
          -- intros m H. apply in_app_or in H as [H|[<-|[]]]; [apply HO in H|]; lia.
          -- intros m H. apply HC in H; lia.
          -- destruct (is_in_spec (S i - 1) (O1 ++ [i])) as [|N]; [reflexivity|]. exfalso. apply N, in_or_app. right. left. lia.
        * assert (is_in (S i - 1) O1 = false) as NO by (destruct (is_in_spec (S i - 1) O1) as [H|]; [apply HO in H; lia|reflexivity]).
          destruct (Ascii.eqb_spec a c) as [->|Nc]; cbn [app kindpos is_kind].
          -- pose proof (IH y (S i) O1 (C1 ++ [i]) false) as Q. rewrite <- !app_assoc in Q. cbn [app] in Q. apply Q; [lia| | |exact NO|discriminate].
             ++ intros m H. apply HO in H; lia.
             ++ intros m H. apply in_app_or in H as [H|[<-|[]]]; [apply HC in H|]; lia.
          -- apply IH; [lia| | |exact NO|discriminate]; intros m H; [apply HO in H|apply HC in H]; lia.
  Qed.
End Quotes.

Lemma plain_ok o c : o <> c -> forall x i prev, index_from o x i = kindpos KOpen (scan o c None false prev x) i /\ index_from c x i = kindpos KClose (scan o c None false prev x) i.
Proof.
  intros oc. induction x as [|a x IH]; intros i prev; [split; reflexivity|]. cbn [index_from scan isquote].
  destruct (Ascii.eqb_spec a o) as [->|No].
  - destruct (Ascii.eqb_spec o c); [contradiction|]. cbn. destruct (IH (S i) true) as [-> ->]. auto.
  - destruct (Ascii.eqb_spec a c) as [->|Nc]; cbn; destruct (IH (S i) false) as [-> ->]; auto.
Qed.

(** ** The order of the brackets *)
Fixpoint events (l : list (ascii * kind)) (i : nat) : list (nat * bool) :=
  match l with [] => [] | (_, k) :: l => match k with KOpen => [(i, false)] | KClose => [(i, true)] | KText => [] end ++ events l (S i) end.
Lemma events_perm l : forall i, Permutation (map (fun p => (p, false)) (kindpos KOpen l i) ++ map (fun p => (p, true)) (kindpos KClose l i)) (events l i).
Proof.
  induction l as [|[a k] l IH]; intros i; [constructor|]. cbn. destruct k; cbn.
  - constructor. apply IH.
  - rewrite <- Permutation_middle. constructor. apply IH.
  - apply IH.
Qed.
Lemma events_bound l : forall i e, In e (events l i) -> i <= fst e.
Proof. induction l as [|[a k] l IH]; intros i e H; [destruct H|]. cbn in H. apply in_app_or in H as [H|H]; [destruct k; [destruct H as [<-|[]]; cbn; lia|destruct H as [<-|[]]; cbn; lia|destruct H]|]. apply IH in H. lia. Qed.

Notation ord := (fun a b => before a b = true).
Lemma before_total a b : before a b = false -> before b a = true.
Proof. unfold before. destruct a as [a u], b as [b v]. cbn [fst snd]. destruct (Nat.ltb_spec b a), (Nat.ltb_spec a b), (Nat.eqb_spec b a), (Nat.eqb_spec a b), u, v; cbn; intros; try discriminate; try reflexivity; try lia. Qed.
Lemma before_trans a b d : before a b = true -> before b d = true -> before a d = true.
Proof.
  unfold before. destruct a as [a u], b as [b v], d as [d w]. cbn [fst snd]. destruct (Nat.ltb_spec b a), (Nat.ltb_spec d b), (Nat.ltb_spec d a), (Nat.eqb_spec b a), (Nat.eqb_spec d b), (Nat.eqb_spec d a), u, v, w; cbn; intros; try discriminate; try reflexivity; try lia.
Qed.
Lemma before_antisym a b : before a b = true -> before b a = true -> a = b.
Proof.
  unfold before. destruct a as [a u], b as [b v]. cbn [fst snd]. destruct (Nat.ltb_spec b a), (Nat.ltb_spec a b), (Nat.eqb_spec b a), (Nat.eqb_spec a b); subst; try lia; destruct u, v; cbn; intros; try discriminate; reflexivity.
Qed.
Lemma insert_perm a l : Permutation (insert a l) (a :: l).
Proof. induction l as [|b l IH]; [apply Permutation_refl|]. cbn. destruct (before a b); [apply Permutation_refl|]. rewrite IH. apply perm_swap. Qed.
Lemma sorted_perm l : Permutation (sorted l) l.
Proof. induction l as [|a l IH]; [constructor|]. cbn. rewrite insert_perm. now constructor. Qed.
Lemma insert_sorted a l : StronglySorted ord l -> StronglySorted ord (insert a l).
Proof.
  induction l as [|b l IH]; intros S; [repeat constructor|]. cbn. inversion S as [|? ? S1 F]; subst. destruct (before a b) eqn:E.
  - constructor; [exact S|]. constructor; [exact E|]. eapply Forall_impl; [|exact F]. intros d Hd. eapply before_trans; eassumption.
  - constructor; [exact (IH S1)|]. apply Forall_forall. intros d Hd. apply (Permutation_in _ (insert_perm a l)) in Hd as [<-|Hd]; [now apply before_total|]. exact (proj1 (Forall_forall _ _) F d Hd).
Qed.
Lemma sorted_sorted l : StronglySorted ord (sorted l).
Proof. induction l; [constructor|]. cbn. now apply insert_sorted. Qed.
Lemma sorted_unique l : forall m, StronglySorted ord l -> StronglySorted ord m -> Permutation l m -> l = m.
Proof.
  induction l as [|a l IH]; intros m Sl Sm Pm; [apply Permutation_nil in Pm; now subst|]. destruct m as [|b m]; [apply Permutation_sym, Permutation_nil in Pm; discriminate|].
  inversion Sl as [|? ? Sl1 Fl]; subst. inversion Sm as [|? ? Sm1 Fm]; subst.
  assert (a = b) as ->.
  { assert (In a (b :: m)) as [H|H] by (eapply Permutation_in; [exact Pm|left; reflexivity]); [now subst|]. assert (In b (a :: l)) as [H2|H2] by (eapply Permutation_in; [apply Permutation_sym; exact Pm|left; reflexivity]); [now subst|].
    apply before_antisym; [exact (proj1 (Forall_forall _ _) Fl b H2)|exact (proj1 (Forall_forall _ _) Fm a H)]. }
  f_equal. apply IH; trivial. now apply Permutation_cons_inv in Pm.
Qed.
Lemma sorted_app_one l a : StronglySorted ord l -> (forall b, In b l -> before b a = true) -> StronglySorted ord (l ++ [a]).
Proof.
  induction l as [|b l IH]; intros S H; [repeat constructor|]. cbn. inversion S; subst. constructor; [apply IH; [assumption|intros; apply H; right; assumption]|].
  apply Forall_app. split; [assumption|]. constructor; [apply H; left; reflexivity|constructor].
Qed.
Lemma events_sorted l : forall i, StronglySorted ord (rev (events l i)).
Proof.
  induction l as [|[a k] l IH]; intros i; [constructor|]. cbn [events]. rewrite rev_app_distr.
  assert (forall e b, In b (rev (events l (S i))) -> before b (i, e) = true) as H.
  { intros e b Hb. apply in_rev, events_bound in Hb. unfold before. cbn [fst snd]. destruct (Nat.ltb_spec i (fst b)); [reflexivity|lia]. }
  destruct k; cbn [rev app].
  - apply sorted_app_one; [apply IH|intros; now apply H].
  - apply sorted_app_one; [apply IH|intros; now apply H].
  - rewrite app_nil_r. apply IH.
Qed.
Lemma sorted_events l : sorted (map (fun p => (p, false)) (kindpos KOpen l 0) ++ map (fun p => (p, true)) (kindpos KClose l 0)) = rev (events l 0).
Proof.
  apply sorted_unique; [apply sorted_sorted|apply events_sorted|]. rewrite sorted_perm, events_perm. apply Permutation_rev.
Qed.

(** ** Cutting *)
Fixpoint lev (l : list (ascii * kind)) : option nat :=
  match l with
  | [] => Some 0
  | (_, k) :: l =>
      match lev l with
      | None => None
      | Some n => match k with KText => Some n | KClose => Some (S n) | KOpen => match n with O => None | S m => Some m end end
      end
  end.
Lemma balanced_lev l : forall n, balanced l n = true <-> lev l = Some n.
Proof.
  induction l as [|[a k] l IH]; intros n.
  - cbn. rewrite Nat.eqb_eq. split; congruence.
  - cbn. destruct k.
    + rewrite IH. destruct (lev l) as [[|m]|]; split; congruence.
    + destruct n as [|n]; [split; [discriminate|destruct (lev l) as [[|m]|]; congruence]|]. rewrite IH. destruct (lev l) as [[|m]|]; split; congruence.
    + rewrite IH. destruct (lev l) as [[|m]|]; split; congruence.
Qed.
Lemma lev_count l : forall n, lev l = Some n -> forall i, length (kindpos KClose l i) = n + length (kindpos KOpen l i).
Proof.
  induction l as [|[a k] l IH]; intros n H i; [injection H as <-; reflexivity|]. cbn in H. destruct (lev l) as [m|]; [|discriminate]. cbn [kindpos]. rewrite !app_length. destruct k; cbn [is_kind length].
  - destruct m as [|m]; [discriminate|]. injection H as <-. rewrite (IH (S m) eq_refl (S i)). lia.
  - injection H as <-. rewrite (IH m eq_refl (S i)). lia.
  - injection H as <-. rewrite (IH m eq_refl (S i)). lia.
Qed.

Lemma cut_ok b : forall a tail, 
  match lev b with
  | None => cut (rev (events b (length a)) ++ tail) 0 0 (a ++ map fst b) = None
  | Some n => exists e r, cut (rev (events b (length a)) ++ tail) 0 0 (a ++ map fst b) = cut tail n e (a ++ r) /\ (n <= 1 -> r = kept b n) /\
      (2 <= n -> exists b1 b2, b = b1 ++ b2 /\ r = map fst b1 ++ kept b2 1 /\ e = length a + length b1 /\ kept b n = kept b2 1)
  end.
Proof.
  induction b as [|[x k] b IH]; intros a tail.
  - cbn. exists 0, []. split; [reflexivity|]. split; [reflexivity|lia].
  - cbn [lev events]. rewrite rev_app_distr, <- app_assoc. cbn [map fst]. replace (a ++ x :: map fst b) with ((a ++ [x]) ++ map fst b) by (rewrite <- app_assoc; reflexivity).
    assert (S (length a) = length (a ++ [x])) as La by (rewrite app_length; cbn; lia). rewrite La.
    set (ev := match k with KOpen => [(length a, false)] | KClose => [(length a, true)] | KText => [] end). specialize (IH (a ++ [x]) (rev ev ++ tail)). rewrite <- La in *.
    destruct (lev b) as [n|]; [|destruct k; exact IH]. destruct IH as (e & r & E & R1 & R2).
    destruct k; subst ev; cbn [rev app] in E |- *.
    + destruct n as [|n]; [rewrite E; reflexivity|]. exists e, (if n =? 1 then skipn (S e - length a - 1) (x :: r) else x :: r). rewrite E. cbn [cut rev app].
      assert ((a ++ [x]) ++ r = a ++ x :: r) as Q by (rewrite <- app_assoc; reflexivity). rewrite Q.
      destruct (Nat.eqb_spec n 1) as [->|N1].
      * destruct (R2 ltac:(lia)) as (b1 & b2 & -> & -> & -> & Kb). split; [|split; [|lia]].
        -- rewrite firstn_app, Nat.sub_diag, firstn_all, firstn_O, app_nil_r. rewrite skipn_app, skipn_all2 by lia. cbn [app]. do 3 f_equal. lia.
        -- intros _. replace (S (S (length a) + length b1) - length a - 1) with (S (length b1)) by lia. cbn [skipn]. rewrite <- (map_length fst b1), skipn_app, skipn_all, Nat.sub_diag. cbn [app skipn kept Nat.eqb]. symmetry. exact Kb.
      * split; [reflexivity|]. split.
        -- intros L. assert (n = 0) as -> by lia. cbn [kept Nat.eqb app]. now rewrite R1 by lia.
        -- intros L. destruct (R2 ltac:(lia)) as (b1 & b2 & -> & -> & -> & Kb). exists ((x, KOpen) :: b1), b2. split; [reflexivity|]. split; [reflexivity|]. split; [cbn; lia|]. cbn [kept app]. destruct (Nat.eqb_spec n 0); [lia|]. exact Kb.
    + exists (if S n =? 2 then S (length a) else e), (x :: r). rewrite E. cbn [cut]. split; [now rewrite <- app_assoc|]. split.
      * intros L. assert (n = 0) as -> by lia. cbn [kept Nat.eqb app Nat.sub]. now rewrite R1 by lia.
      * intros L. destruct (Nat.eqb_spec (S n) 2) as [Q|Q].
        -- assert (n = 1) as -> by lia. exists [(x, KClose)], b. split; [reflexivity|]. split; [cbn; now rewrite R1 by lia|]. split; [cbn; lia|]. reflexivity.
        -- destruct (R2 ltac:(lia)) as (b1 & b2 & -> & -> & -> & Kb). exists ((x, KClose) :: b1), b2. split; [reflexivity|]. split; [reflexivity|]. split; [cbn; lia|]. cbn [kept]. destruct (Nat.eqb_spec (S n) 1); [lia|]. cbn [app]. replace (S n - 1) with n by lia. exact Kb.
    + exists e, (x :: r). rewrite E. split; [now rewrite <- app_assoc|]. split.
      * intros L. cbn [kept]. destruct (Nat.leb_spec n 1); [|lia]. cbn [app]. now rewrite R1 by lia.
      * intros L. destruct (R2 L) as (b1 & b2 & -> & -> & -> & Kb). exists ((x, KText) :: b1), b2. split; [reflexivity|]. split; [reflexivity|]. split; [cbn; lia|]. cbn [kept]. destruct (Nat.leb_spec n 1); [lia|]. exact Kb.
Qed.

Lemma scan_chars o c q x : forall u v, map fst (scan o c q u v x) = x.
Proof. induction x as [|a x IH]; intros u v; [reflexivity|]. cbn. repeat (match goal with |- context [if ?b then (a, _) :: _ else _] => destruct b end; [cbn; now rewrite IH|]). cbn. now rewrite IH. Qed.

(** ** C96 *)
(** If the brackets are balanced, everything within two or more levels of brackets is removed (with the brackets of these levels),
    and nothing else; otherwise the string is returned as it is.  Brackets in quoted strings do not count. *)
Theorem nested_brackets_removed x o c q : o <> c -> q <> Some o -> q <> Some c ->
  let l := scan o c q false false x in
  remove_nested_brackets x o c q = if balanced l 0 then kept l 0 else x.
Proof.
  intros oc qo qc l. unfold remove_nested_brackets.
  assert ((match q with Some q => unquoted (pairwise (index_all q x)) (index_all o x) (index_all c x) | None => (index_all o x, index_all c x) end) = (kindpos KOpen l 0, kindpos KClose l 0)) as ->.
  { unfold index_all. subst l. destruct q as [q|].
    - apply (unquoted_ok o c q oc ltac:(congruence) ltac:(congruence) (length x) x 0 [] [] false); [lia|intros ? []|intros ? []|reflexivity|discriminate].
    - destruct (plain_ok o c oc x 0 false) as [-> ->]. reflexivity. }
  pose proof (scan_chars o c q x false false) as Ch. fold l in Ch. rewrite sorted_events. pose proof (cut_ok l [] []) as Cu. cbn [length app] in Cu. rewrite app_nil_r in Cu. rewrite Ch in Cu.
  destruct (lev l) as [n|] eqn:E.
  - pose proof (lev_count l n E 0) as Ct. destruct Cu as (e & r & Ce & R & _). destruct (Nat.eqb_spec (length (kindpos KOpen l 0)) (length (kindpos KClose l 0))) as [Q|Q]; cbn [negb].
    + assert (n = 0) as -> by lia. apply balanced_lev in E. rewrite E, Ce. cbn [cut app]. apply R. lia.
    + destruct (balanced l 0) eqn:B; [|reflexivity]. apply balanced_lev in B. assert (n = 0) by congruence. lia.
  - rewrite Cu. assert (balanced l 0 = false) as ->; [|destruct (negb _); reflexivity]. destruct (balanced l 0) eqn:B; [|reflexivity]. apply balanced_lev in B. congruence.
Qed.
Print Assumptions nested_brackets_removed.

(** the example of the documentation, and unbalanced brackets *)
Definition doc_in : str := (s "aaa(" ++ [quot] ++ s "bb()bb" ++ [quot] ++ s " cc(dd(ee))ff)ggg")%list.
Definition doc_out : str := (s "aaa(" ++ [quot] ++ s "bb()bb" ++ [quot] ++ s " ccff)ggg")%list.
Example nested_example : remove_nested_brackets (doc_in ++ doc_in) "(" ")" (Some quot) = doc_out ++ doc_out /\ remove_nested_brackets (s "a(b))((c)") "(" ")" (Some quot) = s "a(b))((c)" /\
  remove_nested_brackets (s "x(a(b)c)(d)") "(" ")" None = s "x(ac)(d)".
Proof. repeat split. Qed.
