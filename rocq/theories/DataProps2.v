(** Properties of data sets, continued: fields of lines, columns from columns, config-like files (C66). *)
From Coq Require Import ZArith Ascii String List Bool Lia Arith.
From Verif Require Import DataModel DataProps.
Import ListNotations.
Open Scope nat_scope.

(** ** fields of a line *)
(** a field is a quoted text, which may contain whitespace, or a word *)
Inductive piece := Quoted (s : str) | Word (s : str).
Definition shown (p : piece) : str := match p with Quoted s => quote :: s ++ [quote] | Word s => s end.
Definition proper (p : piece) : Prop :=
  match p with
  | Quoted s => ~ In quote s
  | Word s => s <> [] /\ (forall c, In c s -> isspace c = false) /\ hd quote s <> quote
  end.
Definition blank (s : str) : Prop := s <> [] /\ forall c, In c s -> isspace c = true.
(** the fields with the whitespace after each of them *)
Fixpoint joined (l : list (piece * str)) : str := match l with [] => [] | [(p, _)] => shown p | (p, s) :: r => shown p ++ s ++ joined r end.

Lemma isspace_quote : isspace quote = false.
Proof. reflexivity. Qed.
Lemma skipspace_blank s r : (forall c, In c s -> isspace c = true) -> skipspace (s ++ r) = skipspace r.
Proof. induction s as [|c s IH]; intros H; cbn; auto. rewrite H by now left. apply IH. intros; apply H; now right. Qed.
Lemma skipspace_id r : (forall c, hd_error r = Some c -> isspace c = false) -> skipspace r = r.
Proof. destruct r as [|c r]; intros H; cbn; auto. now rewrite H. Qed.
Lemma shown_head p r c : proper p -> hd_error (shown p ++ r) = Some c -> isspace c = false.
Proof.
  destruct p as [s|s]; cbn; intros P E; [injection E as <-; apply isspace_quote|]. destruct P as (N & A & _). destruct s as [|x s]; [congruence|]. cbn in E. injection E as <-. apply A. now left.
Qed.
Lemma joined_head l c : (forall p s, In (p, s) l -> proper p) -> hd_error (joined l) = Some c -> isspace c = false.
Proof.
  destruct l as [|[p s] [|q l]]; intros P E; cbn [joined] in E; [discriminate| |].
  - rewrite <- (app_nil_r (shown p)) in E. eapply shown_head; eauto. eapply P; now left.
  - eapply shown_head; eauto. eapply P; now left.
Qed.
Lemma close_quoted s r : ~ In quote s -> (r = [] \/ exists c t, r = c :: t /\ isspace c = true) -> close (s ++ quote :: r) = Some (s, skipspace r).
Proof.
  induction s as [|c s IH]; intros N R; cbn [app close].
  - rewrite Ascii.eqb_refl. destruct R as [->|(c & t & -> & ->)]; reflexivity.
  - destruct (Ascii.eqb_spec c quote) as [->|NE]; [exfalso; apply N; now left|]. cbn [andb]. rewrite IH; auto. intros I. apply N. now right.
Qed.
Lemma word_word s r : (forall c, In c s -> isspace c = false) -> (r = [] \/ exists c t, r = c :: t /\ isspace c = true) -> word (s ++ r) = (s, r).
Proof.
  induction s as [|c s IH]; intros A R; cbn [app].
  - destruct R as [->|(c & t & -> & H)]; cbn; [|rewrite H]; reflexivity.
  - cbn. rewrite A by now left. rewrite IH; auto. intros; apply A; now right.
Qed.
Lemma shown_nonempty p : proper p -> shown p <> [].
Proof. destruct p; cbn; [discriminate|intros (N & _); auto]. Qed.

Section FLOAT.
Variable F : Type.
Variable tofloat : str -> option F.
Definition value (conv : str -> cell F) (p : piece) : cell F := match p with Quoted s => Text s | Word s => conv s end.
Lemma split_step conv p r n : proper p -> (r = [] \/ exists c t, r = c :: t /\ isspace c = true) ->
  split_patterns F conv (S n) (shown p ++ r) = value conv p :: split_patterns F conv n (skipspace r).
Proof.
  intros P R. destruct (shown p ++ r) as [|c0 l0] eqn:E; [apply app_eq_nil in E as [E _]; now apply shown_nonempty in E|]. rewrite <- E.
  assert (split_patterns F conv (S n) (shown p ++ r) = match match_string (shown p ++ r) with Some (s, t) => Text s :: split_patterns F conv n t | None => let (s, t) := match_column (shown p ++ r) in conv s :: split_patterns F conv n t end) as -> by (rewrite E; reflexivity).
  destruct p as [s|s]; cbn [shown value].
  - assert (match_string ((quote :: s ++ [quote]) ++ r) = Some (s, skipspace r)) as ->; [|reflexivity].
    cbn. rewrite <- app_assoc. cbn [app]. now apply close_quoted.
  - destruct P as (N & A & Q). destruct s as [|x s]; [congruence|]. cbn [hd] in Q. assert (match_string ((x :: s) ++ r) = None) as -> by (unfold match_string; cbn [app]; destruct (Ascii.eqb_spec x quote) as [EE|]; [exfalso; exact (Q EE)|reflexivity]).
    unfold match_column. rewrite word_word by auto. reflexivity.
Qed.
Lemma split_joined conv l : (forall p s, In (p, s) l -> proper p /\ blank s) -> forall n, length (joined l) <= n -> split_patterns F conv n (joined l) = map (fun ps => value conv (fst ps)) l.
Proof.
  induction l as [|[p s] l IH]; intros A n L; [destruct n; reflexivity|]. destruct (A p s (or_introl eq_refl)) as (P & S1 & S2). pose proof (shown_nonempty p P) as SN.
  assert (forall p s, In (p, s) l -> proper p /\ blank s) as A' by (intros; apply A; now right).
  destruct l as [|q l].
  - cbn [joined map fst] in *. destruct n as [|n]; [destruct (shown p); [congruence|cbn in L; lia]|]. rewrite <- (app_nil_r (shown p)). rewrite split_step by auto. destruct n; reflexivity.
  - assert (joined ((p, s) :: q :: l) = shown p ++ s ++ joined (q :: l)) as EJ by reflexivity. rewrite EJ in *. rewrite !app_length in L. destruct n as [|n]; [destruct (shown p); [congruence|cbn in L; lia]|].
    rewrite split_step; auto.
    + cbn [map fst]. f_equal. rewrite skipspace_blank by auto. rewrite skipspace_id by (intros c; apply joined_head; intros; now apply A' in H). apply IH; auto.
      destruct (shown p); [congruence|]. cbn [length Nat.add] in L. lia.
    + right. destruct s as [|c s]; [congruence|]. exists c, (s ++ joined (q :: l)). split; auto. apply S2. now left.
Qed.
(** without quotes both ways to split agree *)
Lemma word_le l : length (snd (word l)) <= length l.
Proof. induction l as [|c l IH]; cbn; auto. destruct (isspace c); cbn; auto. destruct (word l). cbn in *. lia. Qed.
Lemma skipspace_le l : length (skipspace l) <= length l.
Proof. induction l as [|c l IH]; cbn; auto. destruct (isspace c); cbn; lia. Qed.
Lemma skipspace_in l c : In c (skipspace l) -> In c l.
Proof. induction l as [|d l IH]; cbn; auto. destruct (isspace d); cbn; auto. Qed.
Lemma word_in l c : In c (snd (word l)) -> In c l.
Proof. induction l as [|d l IH]; cbn; auto. destruct (isspace d); cbn; auto. destruct (word l). cbn in *. auto. Qed.
Lemma skipspace_idem l : skipspace (skipspace l) = skipspace l.
Proof. induction l as [|c l IH]; cbn; auto. destruct (isspace c) eqn:E; auto. cbn. now rewrite E. Qed.
Lemma split_agree conv l : ~ In quote l -> forall n, length l <= n -> split_patterns F conv n (skipspace l) = map conv (split_words n l).
Proof.
  intros Q n. revert l Q. induction n as [|n IH]; intros l Q L.
  - destruct l; [reflexivity|cbn in L; lia].
  - cbn [split_words]. destruct (skipspace l) as [|c r] eqn:E; [reflexivity|].
    assert (Ascii.eqb c quote = false) as EQ. { apply Ascii.eqb_neq. intros ->. apply Q, skipspace_in. rewrite E. now left. }
    assert (isspace c = false) as EC. { pose proof (skipspace_idem l) as I. rewrite E in I. cbn in I. destruct (isspace c); auto. exfalso. pose proof (skipspace_le r) as LE. rewrite I in LE. cbn in LE. lia. }
    cbn [split_patterns match_string]. rewrite EQ. unfold match_column.
    assert (forall x, In x (c :: r) -> In x l) as IN by (intros x I; apply skipspace_in; now rewrite E).
    assert (length (snd (word (c :: r))) <= n) as LN. { cbn. rewrite EC. pose proof (word_le r). pose proof (skipspace_le l) as LL. rewrite E in LL. cbn in LL. destruct (word r). cbn in *. lia. }
    pose proof (word_in (c :: r)) as WI. destruct (word (c :: r)) as [w t]. cbn [snd map] in *. f_equal. apply IH; auto.
Qed.
(** C66: a line written as fields is read as these fields; quoted ones stay texts *)
Theorem splitline_fields : forall l float, (forall p s, In (p, s) l -> proper p /\ blank s) ->
  splitline F tofloat (joined l) float = map (fun ps => match fst ps with Quoted s => Text s | Word s => if float then (match tofloat s with Some x => Float x | None => Text s end) else Text s end) l.
Proof.
  intros l float A. unfold splitline.
  assert (split_patterns F (if float then field F tofloat else Text) (length (joined l)) (joined l) = map (fun ps => value (if float then field F tofloat else Text) (fst ps)) l) as E by (apply split_joined; auto).
  assert (map (fun ps => value (if float then field F tofloat else Text) (fst ps)) l = map (fun ps : piece * str => match fst ps with Quoted s => Text s | Word s => if float then (match tofloat s with Some x => Float x | None => Text s end) else Text s end) l) as E2.
  { apply map_ext. intros [[s|s] b]; cbn; auto. now destruct float. }
  destruct (existsb (Ascii.eqb quote) (joined l)) eqn:EX; [now rewrite E|]. rewrite <- E2, <- E. rewrite <- split_agree; auto.
  - rewrite skipspace_id; auto. intros c. apply joined_head. intros p s I. now apply A in I.
  - intros I. assert (existsb (Ascii.eqb quote) (joined l) = true); [|congruence]. apply existsb_exists. exists quote. split; [auto|apply Ascii.eqb_refl].
Qed.

(** ** columns from columns *)
Variable eval : str -> list (str * cell F) -> (ref -> option (cell F)) -> evaluated F.
Lemma evaluate_ok org e : forall n i c, evaluate eval org e i n = Ok c -> length c = n /\
  forall j, j < n -> exists env, row org (i + j) = Some env /\
    ((exists x, eval e env (columncallback org (i + j)) = Value x /\ nth_error c j = Some x) \/ (eval e env (columncallback org (i + j)) = Arithmetic /\ nth_error c j = Some Missing)).
Proof.
  induction n as [|n IH]; intros i c H; cbn in H; [injection H as <-; split; auto; lia|].
  destruct (row org i) as [env|] eqn:ER; [|discriminate].
  destruct (eval e env (columncallback org i)) as [x| |] eqn:EV; [| |discriminate]; (destruct (evaluate eval org e (S i) n) as [r|] eqn:E; [|discriminate]); injection H as <-; destruct (IH _ _ E) as (L & H); (split; [cbn; lia|]); intros [|j] J.
  - rewrite Nat.add_0_r. exists env. split; auto. left. exists x. auto.
  - destruct (H j ltac:(lia)) as (env' & R & V). exists env'. replace (i + S j) with (S i + j) by lia. cbn [nth_error]. auto.
  - rewrite Nat.add_0_r. exists env. split; auto.
  - destruct (H j ltac:(lia)) as (env' & R & V). exists env'. replace (i + S j) with (S i + j) by lia. cbn [nth_error]. auto.
Qed.
Lemma lookup_store {A} k k' (v : A) d : lookup k (store k' v d) = if str_eqb k k' then Some v else lookup k d.
Proof.
  induction d as [|[a b] d IH]; cbn; [destruct (str_eqb k k'); auto|]. destruct (str_eqb k' a) eqn:E; cbn.
  - apply str_eqb_spec in E. subst. destruct (str_eqb k a); auto.
  - rewrite IH. destruct (str_eqb k a) eqn:E2; auto. apply str_eqb_spec in E2. subst. destruct (str_eqb a k') eqn:E3; auto. apply str_eqb_spec in E3. subst. now rewrite str_eqb_refl in E.
Qed.
Lemma new_columns_ok org cols : forall done out, new_columns eval org cols done = Ok out ->
  (forall k, ~ In k (map fst cols) -> lookup k out = lookup k done) /\ (NoDup (map fst cols) -> forall k r, In (k, r) cols -> exists c, lookup k out = Some c /\ column eval org r = Ok c).
Proof.
  induction cols as [|[k r] cols IH]; intros done out H; cbn in H; [injection H as <-; split; auto; contradiction|].
  destruct (column eval org r) as [c|] eqn:EC; [|discriminate]. destruct (IH _ _ H) as (H1 & H2). split.
  - intros k' N. cbn in N. rewrite H1 by tauto. rewrite lookup_store. destruct (str_eqb k' k) eqn:E; auto. apply str_eqb_spec in E. subst. tauto.
  - intros ND k' r' [I|I]; cbn in ND; inversion ND; subst; [|eauto]. injection I as -> ->. exists c. split; auto. rewrite H1 by auto. rewrite lookup_store. now rewrite str_eqb_refl.
Qed.
Lemma copy_columns (org new : list (str * list (cell F))) k : lookup k (fold_left (fun d kc => match lookup (fst kc) d with Some _ => d | None => store (fst kc) (snd kc) d end) org new) =
  match lookup k new with Some c => Some c | None => lookup k org end.
Proof.
  revert new. induction org as [|[k' c] org IH]; intros new; cbn [fold_left lookup fst snd]; [destruct (lookup k new); auto|]. rewrite IH.
  destruct (lookup k' new) as [c'|] eqn:E.
  - destruct (lookup k new) eqn:E2; auto. destruct (str_eqb k k') eqn:E3; auto. apply str_eqb_spec in E3. subst. congruence.
  - rewrite lookup_store. destruct (str_eqb k k') eqn:E3; auto. apply str_eqb_spec in E3. subst. now rewrite E.
Qed.
(** C66: a data set made from another one has the columns asked for by name, by number or by an expression evaluated row by
    row, and a copy of the others *)
Theorem data_columns : forall org copy cols d, data eval org copy cols = Ok d -> NoDup (map fst cols) ->
  (forall k, ~ In k (map fst cols) -> lookup k (columns d) = if copy then lookup k (columns org) else None) /\
  (forall k s c, In (k, Name s) cols -> lookup s (columns org) = Some c -> lookup k (columns d) = Some c) /\
  (forall k z, In (k, Num z) cols -> exists cd c, columndata org = Some cd /\ lookup k (columns d) = Some c /\
     (if (z <? 0)%Z then nth_error cd (Z.to_nat (Z.of_nat (length cd) + z)) else nth_error cd (Z.to_nat z)) = Some c) /\
  (forall k s, In (k, Name s) cols -> lookup s (columns org) = None -> exists c n, lookup k (columns d) = Some c /\ count org = Ok n /\ length c = n /\
     forall j, j < n -> exists env, row org j = Some env /\
       ((exists x, eval s env (columncallback org j) = Value x /\ nth_error c j = Some x) \/ (eval s env (columncallback org j) = Arithmetic /\ nth_error c j = Some Missing))).
Proof.
  intros org copy cols d H ND. unfold data in H. destruct (new_columns eval org cols []) as [new|] eqn:EN; [|discriminate]. injection H as <-. cbn [columns].
  destruct (new_columns_ok org cols [] new EN) as (H1 & H2). specialize (H2 ND).
  assert (forall k c, lookup k new = Some c -> lookup k (if copy then fold_left (fun d kc => match lookup (fst kc) d with Some _ => d | None => store (fst kc) (snd kc) d end) (columns org) new else new) = Some c) as HN.
  { intros k c L. destruct copy; auto. now rewrite copy_columns, L. }
  split; [|split; [|split]].
  - intros k N. destruct copy; [rewrite copy_columns|]; now rewrite (H1 k N).
  - intros k s c I L. destruct (H2 _ _ I) as (c' & L' & C). cbn in C. rewrite L in C. injection C as ->. auto.
  - intros k z I. destruct (H2 _ _ I) as (c & L & C). cbn in C. destruct (columndata org) as [cd|]; [|discriminate]. destruct (index cd z) as [c'|] eqn:E; [|discriminate]. injection C as ->.
    exists cd, c. split; auto. split; auto. unfold index in E. destruct (z <? 0)%Z; auto. destruct (_ <? 0)%Z; [discriminate|]. now rewrite Z.add_comm.
  - intros k s I L. destruct (H2 _ _ I) as (c & L' & C). cbn in C. rewrite L in C. destruct (count org) as [n|] eqn:EC; [|discriminate]. destruct (evaluate_ok org s n 0 c C) as (LC & V).
    exists c, n. split; auto.
Qed.
(** C66: in an expression every column name stands for the entry of the row *)
Theorem row_entries : forall (org : dataset F) i env, NoDup (map fst (columns org)) -> row org i = Some env ->
  forall k, lookup k env = match lookup k (columns org) with Some c => nth_error c i | None => None end.
Proof.
  intros org i. unfold row. generalize (columns org). intros l env ND H k.
  assert (forall env0 : list (str * cell F), fold_left (fun env kc => match env, nth_error (snd kc) i with Some e, Some x => Some (store (fst kc) x e) | _, _ => None end) l (Some env0) = Some env ->
    lookup k env = match lookup k l with Some c => nth_error c i | None => lookup k env0 end) as G; [|exact (G [] H)].
  clear H. induction l as [|[k' c] l IH]; intros env0 H; cbn in *; [congruence|]. inversion ND; subst.
  destruct (nth_error c i) as [x|] eqn:E; [|exfalso; clear -H; induction l as [|y l IHl]; cbn in H; [discriminate|auto]].
  rewrite (IH H3 _ H). rewrite lookup_store. destruct (str_eqb k k') eqn:EK; auto. apply str_eqb_spec in EK. subst.
  assert (lookup k' l = None) as ->; auto. destruct (lookup k' l) as [c'|] eqn:EL; auto. exfalso. apply H2. clear -EL. induction l as [|[a b] l IHl]; cbn in *; [discriminate|]. destruct (str_eqb k' a) eqn:E; [apply str_eqb_spec in E; now left|right; auto].
Qed.
(** C66: in an expression a column number stands for the entry of the row in the column data, counted from the end if it is negative *)
Theorem row_numbers : forall (org : dataset F) cd i z c x, columndata org = Some cd -> (z < 0 -> 0 <= z + Z.of_nat (length cd))%Z ->
  nth_error cd (Z.to_nat (if z <? 0 then z + Z.of_nat (length cd) else z)%Z) = Some c -> nth_error c i = Some x -> columncallback org i (Num z) = Some x.
Proof.
  intros org cd i z c x D R C X. unfold columncallback. rewrite D. unfold index. destruct (Z.ltb_spec z 0); [|now rewrite C, X].
  destruct (Z.ltb_spec (z + Z.of_nat (length cd)) 0); [lia|]. now rewrite C, X.
Qed.
Lemma row_total (org : dataset F) i : (forall k c, In (k, c) (columns org) -> i < length c) -> row org i <> None.
Proof.
  unfold row. generalize (columns org). intros l A. assert (forall e : list (str * cell F), fold_left (fun env kc => match env, nth_error (snd kc) i with Some e, Some x => Some (store (fst kc) x e) | _, _ => None end) l (Some e) <> None) as G; [|apply G].
  induction l as [|[k c] l IH]; intros e; cbn; [discriminate|]. destruct (nth_error c i) eqn:E; [apply IH; intros; eapply A; right; eauto|]. exfalso. assert (i < length c) by (eapply A; now left). apply nth_error_Some in H. contradiction.
Qed.

(** ** config-like files *)
Notation field := (field F tofloat).
Definition entry (o : str) (sec : str * list (str * str)) : cell F := match lookup o (snd sec) with Some v => field v | None => Missing end.
Lemma combine_snoc {A B} (a : list A) (b : list B) x y : length a = length b -> combine (a ++ [x]) (b ++ [y]) = combine a b ++ [(x, y)].
Proof. revert b. induction a as [|x' a IH]; intros [|y' b] L; cbn in *; try lia; auto. now rewrite IH by lia. Qed.
Lemma lookup_none {A} k (d : list (str * A)) : lookup k d = None <-> ~ In k (map fst d).
Proof.
  induction d as [|[a b] d IH]; cbn; [tauto|]. destruct (str_eqb k a) eqn:E.
  - apply str_eqb_spec in E. subst. split; [discriminate|tauto].
  - rewrite IH. split; [|tauto]. intros N [->|I]; [now rewrite str_eqb_refl in E|tauto].
Qed.
Definition numbering (names : list str) : list (str * Z) := combine names (map Z.of_nat (seq 1 (length names))).
Lemma numbering_fst names : map fst (numbering names) = names.
Proof. apply map_fst_combine. rewrite map_length, seq_length. lia. Qed.
Lemma first_section name opts : NoDup (map fst opts) -> fold_left (option_step F tofloat) opts ([Text name], [], 1) =
  (Text name :: map (fun o => field (snd o)) opts, numbering (map fst opts), S (length opts)).
Proof.
  induction opts as [|[o v] opts IH] using rev_ind; intros N; [reflexivity|]. rewrite map_app in N. cbn in N. pose proof (NoDup_remove_2 _ _ _ N) as NI. apply NoDup_remove_1 in N. rewrite app_nil_r in *.
  rewrite fold_left_app, IH by auto. cbn [fold_left option_step fst snd].
  rewrite (proj2 (lookup_none o _)) by now rewrite numbering_fst. rewrite store_new by now rewrite numbering_fst. rewrite app_length, !map_app. cbn [length map fst snd].
  f_equal. f_equal. unfold numbering. rewrite app_length, map_length. cbn [length]. rewrite Nat.add_1_r, seq_S, map_app. cbn [map plus]. rewrite combine_snoc; auto. now rewrite !map_length, seq_length.
Qed.
Lemma numbering_lookup names o : NoDup names -> In o names -> exists i, nth_error names i = Some o /\ lookup o (numbering names) = Some (Z.of_nat (S i)).
Proof.
  intros N I. apply In_nth_error in I as (i & E). exists i. split; auto. apply lookup_in; [now rewrite numbering_fst|]. apply (in_combine_nth _ _ i); auto.
  rewrite nth_error_map. rewrite (nth_error_nth' _ 0) by (rewrite seq_length; apply nth_error_Some; rewrite E; discriminate). cbn. rewrite seq_nth by (apply nth_error_Some; rewrite E; discriminate). reflexivity.
Qed.
Lemma set_nth_map {A} (g : str -> A) names i o v : NoDup names -> nth_error names i = Some o -> set_nth i v (map g names) = map (fun x => if str_eqb x o then v else g x) names.
Proof.
  revert i. induction names as [|x names IH]; intros [|i] N E; try discriminate; cbn in *; inversion N; subst.
  - injection E as ->. rewrite str_eqb_refl. f_equal. apply map_ext_in. intros y I. destruct (str_eqb y o) eqn:EE; auto. apply str_eqb_spec in EE. subst. contradiction.
  - rewrite IH by auto. destruct (str_eqb x o) eqn:EE; auto. apply str_eqb_spec in EE. subst. exfalso. apply H1. eapply nth_error_In; eauto.
Qed.
Lemma other_section name names opts : NoDup names -> NoDup (map fst opts) -> incl (map fst opts) names ->
  fold_left (option_step F tofloat) opts (Text name :: repeat Missing (length names), numbering names, S (length names)) =
  (Text name :: map (fun o => entry o (name, opts)) names, numbering names, S (length names)).
Proof.
  intros NN. induction opts as [|[o v] opts IH] using rev_ind; intros N I.
  - cbn [fold_left]. do 3 f_equal. clear. induction names; cbn; auto. now rewrite IHnames.
  - rewrite map_app in N, I. cbn in N, I. pose proof (NoDup_remove_2 _ _ _ N) as NI. apply NoDup_remove_1 in N. rewrite app_nil_r in *.
    rewrite fold_left_app, IH by (auto; intros x J; apply I, in_or_app; auto). cbn [fold_left option_step fst snd].
    destruct (numbering_lookup names o NN) as (i & E & ->); [apply I, in_or_app; right; now left|]. do 2 f_equal. rewrite Nat2Z.id. cbn [set_nth]. f_equal. rewrite (set_nth_map _ names i o) by auto.
    apply map_ext. intros x. unfold entry. cbn [snd].
    assert (lookup x (opts ++ [(o, v)]) = match lookup x opts with Some w => Some w | None => if str_eqb x o then Some v else None end) as EL.
    { clear. induction opts as [|[a b] opts IHo]; cbn; auto. destruct (str_eqb x a); auto. }
    rewrite EL. destruct (str_eqb x o) eqn:EX; [apply str_eqb_spec in EX; subst; now rewrite (proj2 (lookup_none o opts))|destruct (lookup x opts); auto].
Qed.
(** C66: a config-like file, where no section has options which the first one does not have, becomes a table with a row for each
    section *)
Theorem conf_columns : forall (name : str) (opts : list (str * str)) (secs : list (str * list (str * str))), NoDup (map fst opts) ->
  (forall sec, In sec secs -> NoDup (map fst (snd sec)) /\ incl (map fst (snd sec)) (map fst opts)) ->
  (forall o : str, In o (map fst opts) -> ~ In o (map list_ascii_of_string ["self"; "points"; "title"; "addlinenumbers"]%string)) ->
  exists d, readconf F tofloat ((name, opts) :: secs) = Ok d /\ columndata d = Some [map (fun sec => Text (fst sec)) ((name, opts) :: secs)] /\
    forall o : str, In o (map fst opts) -> lookup o (columns d) =
      Some (map (fun sec => match lookup o (snd sec) with Some v => (match tofloat v with Some x => Float x | None => Text v end) | None => Missing end) ((name, opts) :: secs)).
Proof.
  intros name opts secs N A R. set (names := map fst opts) in *. set (all := (name, opts) :: secs).
  assert (fold_left (section_step F tofloat) all ([], [], 1) = (map (fun sec => Text (fst sec) :: map (fun o => entry o sec) names) all, numbering names, S (length names))) as EF.
  { unfold all. clear all. assert (length opts = length names) as LN by (unfold names; now rewrite map_length). induction secs as [|sec secs IH] using rev_ind.
    - cbn [fold_left]. unfold section_step. cbn [fst snd Nat.sub repeat]. rewrite first_section by auto. cbn [app map fst]. fold names. rewrite LN. do 4 f_equal. unfold names. rewrite map_map. apply map_ext_in. intros [o v] I. unfold entry. cbn [fst snd].
      now rewrite (lookup_in o v opts N I).
    - rewrite app_comm_cons, fold_left_app, IH by (intros; apply A, in_or_app; now left). cbn [fold_left]. unfold section_step. rewrite Nat.sub_succ, Nat.sub_0_r. destruct (A sec) as [A1 A2]; [apply in_or_app; right; now left|].
      rewrite other_section by auto. rewrite map_app. destruct sec; reflexivity. }
  unfold readconf. rewrite EF.
  assert (existsb (fun kv => existsb (str_eqb (fst kv)) conf_reserved) (numbering names) = false) as ->.
  { apply not_true_is_false. intros X. apply existsb_exists in X as ((k & i) & I & X). apply existsb_exists in X as (k' & I' & X). cbn in X. apply str_eqb_spec in X. subst k'.
    apply (R k); [rewrite <- (numbering_fst names); change k with (fst (k, i)); now apply in_map|]. cbn in *. tauto. }
  rewrite (filter_all _ (numbering names)).
  2:{ intros (k & i) I. cbn [fst]. destruct (str_eqb k (list_ascii_of_string "title")) eqn:E; auto. apply str_eqb_spec in E. exfalso. apply (R k); [rewrite <- (numbering_fst names); change k with (fst (k, i)); now apply in_map|]. subst. cbn. auto. }
  set (rows := map _ all).
  assert (forall p, In p rows -> length p = S (length names)) as LR by (intros p I; apply in_map_iff in I as (sec & <- & _); cbn; now rewrite map_length).
  destruct (points_accepted F rows false (numbering names) (S (length names)) LR) as (d & E).
  { intros _ k i I. apply in_combine_r, in_map_iff in I as (j & <- & I). apply in_seq in I. lia. }
  rewrite E. exists {| columns := columns d; columndata := Some [map (fun r => hd Missing r) rows] |}. split; [reflexivity|]. cbn [columns columndata].
  split; [unfold rows; now rewrite map_map|]. intros o I.
  destruct (points_table F rows false (numbering names) d E) as (l & cd & E1 & E2 & E3 & E4 & _ & E6 & E7); [unfold rows, all; discriminate|].
  assert (l = S (length names)) as -> by (rewrite <- (E3 (hd [] rows)); [apply LR|]; unfold rows, all; now left).
  destruct (numbering_lookup names o N I) as (i & Ei & Li). assert (i < length names) as Ii by (apply nth_error_Some; rewrite Ei; discriminate).
  assert (In (o, Z.of_nat (S i)) (numbering names)) as IO.
  { apply (in_combine_nth _ _ i); auto. rewrite nth_error_map. rewrite (nth_error_nth' _ 0) by now rewrite seq_length. cbn. now rewrite seq_nth. }
  destruct (E7 _ _ IO) as (col & Ic & Ec). destruct (Z.ltb_spec (Z.of_nat (S i)) 0); [lia|]. rewrite Nat2Z.id in Ec.
  rewrite (lookup_in o col) by (auto; now rewrite E6, numbering_fst). f_equal. specialize (E4 (S i) ltac:(lia)). rewrite Nat.add_0_r in E4. rewrite (nth_error_nth _ _ [] Ec) in E4. rewrite E4. unfold rows. rewrite map_map. apply map_ext. intros sec. cbn [nth].
  rewrite (nth_map' _ names i []) by auto. rewrite (nth_error_nth _ _ _ Ei). reflexivity.
Qed.
End FLOAT.
Print Assumptions splitline_fields.
Print Assumptions data_columns.
Print Assumptions row_entries.
Print Assumptions conf_columns.

(** ** what fails *)
Definition none (s : str) : option Z := None.
Definition L := list_ascii_of_string.
(** the last line is not skipped if every is greater than skiptail *)
Theorem skiptail_refuted : exists lines skiphead skiptail every d cd n, readfile Z none lines skiphead skiptail every = Ok d /\ columndata d = Some cd /\
  In (Line n) (nth 0 cd []) /\ length (datalines Z none lines) < n + skiptail.
Proof.
  exists [L "a"; L "b"; L "c"], 0, 1, 2, {| columns := []; columndata := Some [[Line 1; Line 3]; [Text (L "a"); Text (L "c")]] |}, [[Line 1; Line 3]; [Text (L "a"); Text (L "c")]], 3.
  split; [reflexivity|]. split; [reflexivity|]. split; [cbn; auto|]. vm_compute. lia.
Qed.
Print Assumptions skiptail_refuted.
(** a column can not be called title *)
Theorem column_name_refuted : exists lines, readfile Z none lines 0 0 1 = Error TypeError.
Proof. exists [L "# year title"; L "1999 a"]. reflexivity. Qed.
Print Assumptions column_name_refuted.
(** a column of an empty file is an error, not an empty column *)
Theorem empty_file_refuted : forall eval, exists d, readfile Z none [L "# only a comment"] 0 0 1 = Ok d /\ data eval d true [(L "x", Num 1)] = Error TypeError.
Proof. intros eval. eexists. split; reflexivity. Qed.
Print Assumptions empty_file_refuted.
(** an option which the first section does not have *)
Theorem conf_new_option_refuted : exists secs, (forall sec, In sec secs -> NoDup (map fst (snd sec))) /\ readconf Z none secs = Error ValueError.
Proof.
  exists [(L "a", [(L "x", L "1")]); (L "b", [(L "x", L "2"); (L "y", L "3")])]. split; [|reflexivity].
  intros sec [<-|[<-|[]]]; cbn; repeat constructor; cbn; try tauto. intros [E|[]]. discriminate E.
Qed.
Print Assumptions conf_new_option_refuted.

(** a file with a header, a short line and three of four data lines *)
Example file_ex : exists d, readfile Z none [L "# x ""the y"""; L "a b"; L "  c "; L ""; L "! no"; L "d e"; L "f g"] 1 1 1 = Ok d /\
  columndata d = Some [[Line 2; Line 3]; [Text (L "c"); Text (L "d")]; [Missing; Text (L "e")]] /\
  lookup (L "the y") (columns d) = Some [Missing; Text (L "e")].
Proof. eexists. split; [reflexivity|]. split; reflexivity. Qed.
Example fields_ex : splitline Z none (L "one ""two three"" 4") true = [Text (L "one"); Text (L "two three"); Text (L "4")].
Proof. reflexivity. Qed.
Example conf_ex : exists d, readconf Z none [(L "a", [(L "x", L "u"); (L "y", L "v")]); (L "b", [(L "y", L "w")])] = Ok d /\ lookup (L "x") (columns d) = Some [Text (L "u"); Missing].
Proof. eexists. split; reflexivity. Qed.
Example data_ex : exists d, data (fun _ env _ => match lookup (L "x") env with Some c => Value c | None => Raises end)
    {| columns := [(L "x", [Float 3%Z; Missing])]; columndata := Some [[Line 1; Line 2]; [Float 3%Z; Missing]] |} true [(L "n", Num 0); (L "z", Name (L "x+0"))] = Ok d /\
  columns d = [(L "n", [Line 1; Line 2]); (L "z", [Float 3%Z; Missing]); (L "x", [Float 3%Z; Missing])].
Proof. eexists. split; reflexivity. Qed.

Print Assumptions row_numbers.
Example row_numbers_ex : let org := {| columns := []; columndata := Some [[Line 1; Line 2; Line 3]; [Float 3%Z; Missing; Float 5%Z]] |} in
  columncallback org 2 (Num 1) = Some (Float 5%Z) /\ columncallback org 1 (Num (-2)) = Some (Line 2).
Proof. split; reflexivity. Qed.

(** ** splitting at values *)
(** C66: with increasing points the section is the number of points below the value; with several points only every second
    interval has a number *)
Theorem splitatvalue_section : forall A (lt : A -> A -> bool) v ps, (forall i j p q, i <= j -> nth_error ps i = Some p -> nth_error ps j = Some q -> lt q v = true -> lt p v = true) ->
  exists s, (forall i p, nth_error ps i = Some p -> lt p v = (i <? s)) /\ s <= length ps /\ snd (splitatvalue lt v ps) = v /\
    fst (splitatvalue lt v ps) = if 1 <? length ps then (if Nat.odd s then None else Some (s / 2)) else Some s.
Proof.
  intros A lt v ps M. exists (sections lt v ps). split; [|split; [|split; [reflexivity|]]].
  - induction ps as [|p ps IH]; intros i q E; [destruct i; discriminate|]. cbn [sections]. destruct (lt p v) eqn:EP.
    + destruct i as [|i]; cbn in E; [injection E as <-; auto|]. rewrite (IH ltac:(intros i' j' p' q' L E1 E2; apply (M (S i') (S j')); auto; lia) i q E). reflexivity.
    + destruct (lt q v) eqn:EQ; [|now destruct i]. exfalso. rewrite (M 0 i p q) in EP; auto; lia || discriminate.
  - clear. induction ps as [|p ps IH]; cbn; [lia|]. destruct (lt p v); lia.
  - unfold splitatvalue. cbn [fst]. now rewrite Nat.div2_div.
Qed.
Print Assumptions splitatvalue_section.
Example splitatvalue_ex : splitatvalue Z.ltb 5%Z [0; 3; 4; 9]%Z = (None, 5%Z) /\ splitatvalue Z.ltb 4%Z [0; 3; 4; 9]%Z = (Some 1, 4%Z).
Proof. split; reflexivity. Qed.
