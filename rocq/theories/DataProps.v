(** Properties of data sets: C66. *)
From Coq Require Import ZArith Ascii String List Bool Lia Arith.
From Verif Require Import DataModel.
Import ListNotations.
Open Scope nat_scope.

Lemma str_eqb_spec a b : str_eqb a b = true <-> a = b.
Proof. unfold str_eqb. destruct list_eq_dec; split; congruence. Qed.
Lemma str_eqb_refl a : str_eqb a a = true.
Proof. now apply str_eqb_spec. Qed.

(** ** points *)
Lemma nth_map' {A B} (f : A -> B) (l : list A) i d d' : i < length l -> nth i (map f l) d' = f (nth i l d).
Proof. intros I. rewrite (nth_indep _ d' (f d)) by (now rewrite map_length). apply map_nth. Qed.
Lemma append_points_ok F l (pts : list (list (cell F))) : forall data out, length data = l -> append_points l data pts = Ok out ->
  length out = l /\ (forall p, In p pts -> length p = l) /\ forall c, c < l -> nth c out [] = nth c data [] ++ map (fun p => nth c p Missing) pts.
Proof.
  induction pts as [|p pts IH]; intros data out L H; cbn in H.
  - injection H as <-. split; auto. split; [contradiction|]. intros c C. cbn. now rewrite app_nil_r.
  - destruct (l =? length p) eqn:E; [|discriminate]. apply Nat.eqb_eq in E.
    assert (length (map (fun cx : list (cell F) * cell F => fst cx ++ [snd cx]) (combine data p)) = l) as L' by (rewrite map_length, combine_length; lia).
    destruct (IH _ _ L' H) as (H1 & H2 & H3). split; auto. split; [intros q [<-|I]; auto|]. intros c C. rewrite (H3 c C).
    rewrite (nth_map' (fun cx : list (cell F) * cell F => fst cx ++ [snd cx]) _ c ([], Missing)) by (rewrite combine_length; lia). rewrite combine_nth by lia.
    cbn [fst snd]. rewrite <- app_assoc. reflexivity.
Qed.
Lemma append_points_total F l (pts : list (list (cell F))) : forall data, length data = l -> (forall p, In p pts -> length p = l) -> exists out, append_points l data pts = Ok out.
Proof.
  induction pts as [|p pts IH]; intros data L A; cbn; [eauto|]. rewrite (A p (or_introl eq_refl)), Nat.eqb_refl. apply IH; [|intros; apply A; now right].
  rewrite map_length, combine_length, (A p (or_introl eq_refl)). lia.
Qed.
(** C66: the columns of a list of points are the lists of their entries *)
Theorem points_table : forall F (pts : list (list (cell F))) add cols d, points pts add cols = Ok d -> pts <> [] ->
  exists l cd, columndata d = Some cd /\ length cd = l + (if add then 1 else 0) /\
    (forall p, In p pts -> length p = l) /\
    (forall c, c < l -> nth (c + (if add then 1 else 0)) cd [] = map (fun p => nth c p Missing) pts) /\
    (add = true -> nth 0 cd [] = map Line (seq 1 (length pts))) /\
    map fst (columns d) = map fst cols /\
    (forall k i, In (k, i) cols -> exists col, In (k, col) (columns d) /\
      (if (i <? 0)%Z then nth_error cd (Z.to_nat (Z.of_nat (length cd) + i)) else nth_error cd (Z.to_nat i)) = Some col).
Proof.
  intros F [|p0 pts] add cols d H N; [congruence|]. unfold points in H. remember (p0 :: pts) as al eqn:Eal.
  destruct (append_points (length p0) (map (fun x => [x]) p0) pts) as [data|] eqn:EA; [|discriminate].
  destruct (append_points_ok F (length p0) pts _ data ltac:(now rewrite map_length) EA) as (L & A & C).
  destruct (existsb _ cols) eqn:E1; [discriminate|]. set (cd := if add then map Line (seq 1 (length al)) :: data else data) in *.
  destruct (existsb (fun kv => match index cd (snd kv) with None => true | _ => false end) cols) eqn:E2; [discriminate|]. injection H as <-.
  exists (length p0), cd. cbn [columndata columns]. split; auto. split; [unfold cd; destruct add; cbn; lia|]. split; [intros p; rewrite Eal; intros [<-|I]; auto|].
  split; [|split; [|split]].
  - intros c Cc. specialize (C c Cc). rewrite (nth_map' (fun x : cell F => [x]) p0 c Missing) in C by auto. rewrite Eal. unfold cd. destruct add; cbn [nth].
    + replace (c + 1) with (S c) by lia. cbn [nth map]. rewrite C. reflexivity.
    + rewrite Nat.add_0_r. cbn [map]. rewrite C. reflexivity.
  - intros ->. reflexivity.
  - rewrite map_map. reflexivity.
  - intros k i I. assert (index cd i <> None) as NN.
    { intros Z. assert (existsb (fun kv => match index cd (snd kv) with None => true | _ => false end) cols = true); [|congruence]. apply existsb_exists. exists (k, i). split; auto. cbn. now rewrite Z. }
    destruct (index cd i) as [col|] eqn:Ei; [|congruence]. exists col. split.
    + apply in_map_iff. exists (k, i). cbn. now rewrite Ei.
    + unfold index in Ei. destruct (i <? 0)%Z; auto. destruct (i + Z.of_nat (length cd) <? 0)%Z; [discriminate|]. rewrite Z.add_comm. exact Ei.
Qed.
Print Assumptions points_table.
Lemma index_some {A} (l : list A) i : (- Z.of_nat (length l) <= i < Z.of_nat (length l))%Z -> index l i <> None.
Proof.
  intros R. unfold index. destruct (i <? 0)%Z eqn:E.
  - destruct (i + Z.of_nat (length l) <? 0)%Z eqn:E2; [lia|]. apply nth_error_Some. lia.
  - apply nth_error_Some. lia.
Qed.
(** C66: lists of points of equal lengths are accepted, with columns from the ones they have *)
Theorem points_accepted : forall F (pts : list (list (cell F))) (add : bool) (cols : list (str * Z)) l, (forall p, In p pts -> length p = l) ->
  (pts <> [] -> forall k i, In (k, i) cols -> if add then (Z.abs i <= Z.of_nat l)%Z else (Z.abs i < Z.of_nat l)%Z) -> exists d, points pts add cols = Ok d.
Proof.
  intros F [|p0 pts] add cols l A C; [unfold points; eauto|]. specialize (C ltac:(discriminate)). unfold points. rewrite (A p0) by now left.
  destruct (append_points_total F l pts (map (fun x => [x]) p0)) as (out & E); [rewrite map_length; apply A; now left|intros; apply A; now right|]. rewrite E.
  destruct (append_points_ok F l pts _ out ltac:(rewrite map_length; apply A; now left) E) as (L & _ & _).
  destruct (existsb (fun kv => (Z.of_nat l <? Z.abs (snd kv))%Z || _) cols) eqn:E1.
  { apply existsb_exists in E1 as ((k & i) & I & E1). specialize (C k i I). cbn in E1. destruct add; cbn in E1; lia. }
  set (cd := if add then _ else _). destruct (existsb (fun kv => match index cd (snd kv) with None => true | _ => false end) cols) eqn:E2; [|eauto].
  apply existsb_exists in E2 as ((k & i) & I & E2). specialize (C k i I). cbn [snd] in E2. destruct (index cd i) eqn:Ei; [discriminate|].
  exfalso. apply (index_some cd i); auto. unfold cd. destruct add; cbn [length]; rewrite L; lia.
Qed.
Print Assumptions points_accepted.
(** two points with a line number column and a column counted from the end *)
Example points_ex : points [[Float 1%Z; Float 5%Z]; [Float 3%Z; Missing]] true [(list_ascii_of_string "y", -1)]%Z =
  Ok {| columns := [(list_ascii_of_string "y", [Float 5%Z; Missing])]; columndata := Some [[Line 1; Line 2]; [Float 1%Z; Float 3%Z]; [Float 5%Z; Missing]] |}.
Proof. reflexivity. Qed.

Lemma store_new {A} k (v : A) d : ~ In k (map fst d) -> store k v d = d ++ [(k, v)].
Proof.
  induction d as [|[k' v'] d IH]; intros N; cbn in *; auto. destruct (str_eqb k k') eqn:E; [apply str_eqb_spec in E; subst; tauto|]. rewrite IH; tauto.
Qed.
(** ** selection of lines *)
Section FLOAT.
Variable F : Type.
Variable tofloat : str -> option F.
Notation splitline := (splitline F tofloat).
(** the data lines of a file: neither comments nor empty *)
Definition comment (l : str) : bool := match match_comment (strip l) with Some _ => true | None => false end.
Definition datalines (lines : list str) : list (list (cell F)) :=
  filter (fun r => negb (length r =? 0)) (map (fun l => splitline (strip l) true) (filter (fun l => negb (comment l)) lines)).
Definition chosen (h e : nat) (n : nat) : bool := (h <=? n) && ((n - h) mod e =? 0).
Definition longest (l : list (list (cell F))) : nat := fold_left (fun m r => Nat.max m (length r)) l 0.

Lemma datalines_app a b : datalines (a ++ b) = datalines a ++ datalines b.
Proof. unfold datalines. now rewrite filter_app, map_app, filter_app. Qed.
Definition numbered (dl : list (list (cell F))) (n : nat) : list (cell F) := Line (n + 1) :: nth n dl [].
Definition kept (h e : nat) (dl : list (list (cell F))) : list (list (cell F)) := map (numbered dl) (filter (chosen h e) (seq 0 (length dl))).
Lemma kept_snoc h e dl r : kept h e (dl ++ [r]) = kept h e dl ++ (if chosen h e (length dl) then [Line (length dl + 1) :: r] else []).
Proof.
  unfold kept. rewrite app_length. cbn [length]. rewrite Nat.add_1_r, seq_S, filter_app, map_app. cbn [plus filter]. f_equal.
  - apply map_ext_in. intros n I. apply filter_In in I as [I _]. apply in_seq in I. unfold numbered. rewrite app_nth1 by lia. reflexivity.
  - destruct (chosen h e (length dl)); auto. cbn. unfold numbered. rewrite app_nth2, Nat.sub_diag by lia. cbn [nth]. now rewrite ?Nat.add_1_r.
Qed.
Lemma longest_snoc l r : longest (l ++ [r]) = Nat.max (longest l) (length r).
Proof. unfold longest. now rewrite fold_left_app. Qed.
Lemma fold_longest (l : list (list (cell F))) m : fold_left (fun m r => Nat.max m (length r)) l m = Nat.max m (longest l).
Proof.
  unfold longest. revert m. induction l as [|r l IH]; intros m; cbn; [lia|]. rewrite IH. rewrite (IH (length r)). lia.
Qed.
Lemma longest_le (l : list (list (cell F))) r : In r l -> length r <= longest l.
Proof. induction l as [|x l IH]; intros I; [destruct I|]. unfold longest. cbn. rewrite fold_longest. destruct I as [<-|I]; [|specialize (IH I)]; lia. Qed.
Definition start : reading F := Build_reading F [] [] 0 0.
Lemma reading_invariant h e lines : let s := fold_left (readline F tofloat h e) lines start in
  r_line F s = length (datalines lines) /\ r_data F s = kept h e (datalines lines) /\ r_max F s = longest (r_data F s).
Proof.
  cbv zeta. induction lines as [|line lines IH] using rev_ind; [repeat split; reflexivity|].
  rewrite fold_left_app. cbn [fold_left]. set (s := fold_left _ lines start) in *. destruct IH as (I1 & I2 & I3). rewrite datalines_app.
  unfold readline. unfold datalines at 2 4. cbn [filter map]. unfold comment. destruct (match_comment (strip line)) as [rest|] eqn:EC; cbn [negb filter map].
  - rewrite !app_nil_r. destruct (_ =? _); auto.
  - destruct (splitline (strip line) true) as [|c cs] eqn:ES; cbn [filter length Nat.eqb negb]; [rewrite !app_nil_r; auto|].
    rewrite I1. fold (chosen h e (length (datalines lines))). rewrite kept_snoc, app_length. cbn [length]. destruct (chosen h e (length (datalines lines))); cbn [r_line r_data r_max].
    + split; auto. split; [now rewrite I2|]. rewrite longest_snoc, <- I3. cbn [length]. destruct (Nat.ltb_spec (r_max F s) (S (S (length cs)))); lia.
    + split; auto. split; auto. now rewrite I2, app_nil_r.
Qed.
Lemma div_step x e : 0 < e -> (x + e) / e = (x + e - 1) / e + (if x mod e =? 0 then 1 else 0).
Proof.
  intros E. pose proof (Nat.div_mod_eq x e) as D. pose proof (Nat.mod_upper_bound x e ltac:(lia)) as U. set (q := x / e) in *. set (r := x mod e) in *. clearbody q r.
  destruct (Nat.eqb_spec r 0) as [->|N].
  - assert ((x + e) / e = q + 1) as -> by (symmetry; apply (Nat.div_unique _ _ _ 0); lia). assert ((x + e - 1) / e = q) as -> by (symmetry; apply (Nat.div_unique _ _ _ (e - 1)); lia). lia.
  - assert ((x + e) / e = q + 1) as -> by (symmetry; apply (Nat.div_unique _ _ _ r); lia). assert ((x + e - 1) / e = q + 1) as -> by (symmetry; apply (Nat.div_unique _ _ _ (r - 1)); lia). lia.
Qed.
Definition cnt (h e n : nat) : nat := (n - h + e - 1) / e.
Lemma chosen_list h e n : 0 < e -> filter (chosen h e) (seq 0 n) = map (fun k => h + k * e) (seq 0 (cnt h e n)).
Proof.
  intros E. induction n as [|n IH].
  - unfold cnt. cbn. rewrite Nat.div_small by lia. reflexivity.
  - rewrite seq_S, filter_app, IH. cbn [plus filter]. unfold chosen at 1. destruct (Nat.leb_spec h n) as [L|L]; cbn [andb].
    + pose proof (div_step (n - h) e E) as DS. unfold cnt. replace (S n - h + e - 1) with (n - h + e) by lia. rewrite DS.
      destruct (Nat.eqb_spec ((n - h) mod e) 0) as [Z|NZ].
      * rewrite Nat.add_1_r, seq_S, map_app. cbn [map plus]. do 2 f_equal.
        assert ((n - h + e - 1) / e = (n - h) / e) as ->.
        { symmetry. apply (Nat.div_unique _ _ _ (e - 1)); [lia|]. pose proof (Nat.div_mod_eq (n - h) e). lia. }
        pose proof (Nat.div_mod_eq (n - h) e). lia.
      * now rewrite app_nil_r, Nat.add_0_r.
    + rewrite app_nil_r. unfold cnt. do 3 f_equal. lia.
Qed.
Lemma cnt_tail h e m n : 0 < e -> cnt h e (n - m * e) = cnt h e n - m.
Proof.
  intros E. unfold cnt. destruct (le_lt_dec (m * e + h) n) as [L|L].
  - replace (n - h + e - 1) with ((n - m * e - h + e - 1) + m * e) by lia. rewrite Nat.div_add by lia. lia.
  - replace (n - m * e - h) with 0 by lia. rewrite (Nat.div_small (0 + e - 1)) by lia.
    assert ((n - h + e - 1) / e <= m); [|lia]. apply Nat.lt_succ_r. apply Nat.div_lt_upper_bound; [lia|]. nia.
Qed.
Lemma firstn_seq a k n : firstn k (seq a n) = seq a (Nat.min k n).
Proof. revert a n. induction k as [|k IH]; intros a [|n]; cbn; auto. now rewrite IH. Qed.
(** the numbers of the data lines asked for by the three parameters *)
Definition asked (skiphead skiptail every total : nat) : list nat :=
  filter (fun n => (skiphead <=? n) && ((n - skiphead) mod every =? 0) && (n + skiptail <? total)) (seq 0 total).
Lemma filter_filter {A} (f g : A -> bool) l : filter g (filter f l) = filter (fun x => f x && g x) l.
Proof. induction l as [|x l IH]; cbn; auto. destruct (f x); cbn; [destruct (g x)|]; now rewrite IH. Qed.
Lemma filter_all {A} (f : A -> bool) l : (forall x, In x l -> f x = true) -> filter f l = l.
Proof. induction l as [|x l IH]; intros H; cbn; auto. rewrite H by now left. rewrite IH; auto. intros; apply H; now right. Qed.
Lemma filter_none {A} (f : A -> bool) l : (forall x, In x l -> f x = false) -> filter f l = [].
Proof. induction l as [|x l IH]; intros H; cbn; auto. rewrite H by now left. apply IH. intros; apply H; now right. Qed.
Lemma asked_eq h e t n : asked h t e n = filter (chosen h e) (seq 0 (n - t)).
Proof.
  unfold asked. destruct (le_lt_dec n t) as [L|L].
  - replace (n - t) with 0 by lia. cbn [seq filter]. apply filter_none. intros x I. apply in_seq in I. destruct (Nat.ltb_spec (x + t) n); [lia|apply andb_false_r].
  - replace n with ((n - t) + t) at 1 by lia. rewrite seq_app, filter_app. rewrite (filter_none _ (seq _ t)).
    + rewrite app_nil_r. apply filter_ext_in. intros x I. apply in_seq in I. unfold chosen. destruct (Nat.ltb_spec (x + t) n); [|lia]. apply andb_true_r.
    + intros x I. apply in_seq in I. destruct (Nat.ltb_spec (x + t) n); [lia|apply andb_false_r].
Qed.
Lemma rows_asked h t e dl : 0 < e -> t mod e = 0 -> (if e <=? t then deltail (t / e) (kept h e dl) else kept h e dl) = map (numbered dl) (asked h t e (length dl)).
Proof.
  intros E M. rewrite asked_eq. unfold kept. rewrite !chosen_list by auto. pose proof (Nat.div_mod_eq t e) as D. rewrite M, Nat.add_0_r in D.
  replace (length dl - t) with (length dl - t / e * e) by lia. rewrite cnt_tail by auto. destruct (Nat.leb_spec e t) as [L|L].
  - unfold deltail. rewrite !map_length, seq_length, !firstn_map, firstn_seq. do 3 f_equal. lia.
  - rewrite (Nat.div_small t e) by auto. now rewrite Nat.sub_0_r.
Qed.
Lemma store_in {A} k (v : A) d : In (k, v) (store k v d).
Proof. induction d as [|[k' v'] d IH]; cbn; auto. destruct (str_eqb k k') eqn:E; [left; apply str_eqb_spec in E; now subst|now right]. Qed.
Lemma store_incl {A} k (v : A) d x : In x (store k v d) -> x = (k, v) \/ In x d.
Proof. induction d as [|[k' v'] d IH]; cbn; [intros [<-|[]]; auto|]. destruct (str_eqb k k') eqn:E; intros [<-|I]; auto; [left; apply str_eqb_spec in E; now subst|]. destruct (IH I); auto. Qed.
Lemma dict_incl {A} (l : list (str * A)) x : In x (dict l) -> In x l.
Proof.
  unfold dict. enough (forall d, In x (fold_left (fun d kv => store (fst kv) (snd kv) d) l d) -> In x d \/ In x l) as H by (intros I; destruct (H [] I); [contradiction|auto]).
  induction l as [|[k v] l IH]; intros d I; cbn in I; auto. destruct (IH _ I) as [J|J]; [|right; now right]. cbn in J. destruct (store_incl k v d x J) as [->|J']; [right; now left|now left].
Qed.
Lemma readfile_eq lines h t e : readfile F tofloat lines h t e =
  let s := fold_left (readline F tofloat h e) lines start in
  let rows := map (fun r => if length r =? r_max F s then r else r ++ repeat Missing (r_max F s - length r)) (if e <=? t then deltail (t / e) (r_data F s) else r_data F s) in
  let names := map (text_of F) (upto (Z.of_nat (r_max F s) - 1) (r_columns F s)) in
  let cols := dict (combine names (map Z.of_nat (seq 1 (length names)))) in
  if existsb (fun kv => existsb (str_eqb (fst kv)) reserved) cols then Error TypeError else points rows false cols.
Proof. reflexivity. Qed.
Definition padded (m : nat) (r : list (cell F)) : list (cell F) := if length r =? m then r else r ++ repeat Missing (m - length r).
Lemma padded_length m r : length r <= m -> length (padded m r) = m.
Proof. intros L. unfold padded. destruct (Nat.eqb_spec (length r) m); auto. rewrite app_length, repeat_length. lia. Qed.
Lemma padded_nth m r c : length r <= m -> nth c (padded m r) Missing = nth c r Missing.
Proof.
  intros L. unfold padded. destruct (Nat.eqb_spec (length r) m); auto. destruct (le_lt_dec (length r) c) as [G|G].
  - rewrite app_nth2, (nth_overflow r) by auto. destruct (le_lt_dec (m - length r) (c - length r)); [apply nth_overflow; rewrite repeat_length; lia|]. apply nth_repeat.
  - now rewrite app_nth1.
Qed.
Lemma firstn_in {A} n (l : list A) x : In x (firstn n l) -> In x l.
Proof. intros I. rewrite <- (firstn_skipn n l). apply in_or_app. now left. Qed.
Lemma deltail_in {A} k (l : list A) x : In x (deltail k l) -> In x l.
Proof. unfold deltail. intros I. rewrite <- (firstn_skipn (length l - k) l). apply in_or_app. now left. Qed.
(** the rows given to points fit *)
Lemma rows_fit h t e lines r : let s := fold_left (readline F tofloat h e) lines start in
  In r (if e <=? t then deltail (t / e) (r_data F s) else r_data F s) -> length r <= r_max F s.
Proof.
  cbv zeta. intros I. destruct (reading_invariant h e lines) as (_ & _ & ->). apply longest_le. destruct (e <=? t); auto. now apply deltail_in in I.
Qed.
(** C66: reading a file fails only for column names which are the parameters of a function *)
Theorem file_accepted : forall lines skiphead skiptail every, 0 < every ->
  (exists d, readfile F tofloat lines skiphead skiptail every = Ok d) \/
  (readfile F tofloat lines skiphead skiptail every = Error TypeError /\
   exists l rest s, In l lines /\ match_comment (strip l) = Some rest /\ In (Text s) (splitline rest false) /\ In s (map list_ascii_of_string ["self"; "points"; "title"; "addlinenumbers"]%string)).
Proof.
  intros lines h t e E. rewrite readfile_eq. cbv zeta. set (s := fold_left _ lines start). set (names := map (text_of F) _). set (cols := dict _).
  assert (forall l, r_columns F (fold_left (readline F tofloat h e) l start) <> [] -> exists x rest, In x l /\ match_comment (strip x) = Some rest /\ r_columns F (fold_left (readline F tofloat h e) l start) = splitline rest false) as HC.
  { clear. induction l as [|x l IH] using rev_ind; [cbn; congruence|]. rewrite fold_left_app. cbn [fold_left]. unfold readline at 1 3. destruct (match_comment (strip x)) as [rest|] eqn:EC.
    - destruct (_ =? _); cbn [r_columns].
      + intros _. exists x, rest. split; auto. apply in_or_app. right. now left.
      + intros N. destruct (IH N) as (y & r & I & H). exists y, r. split; auto. apply in_or_app. now left.
    - destruct (splitline (strip x) true) as [|c cs]; [|destruct ((_ <=? _) && _); cbn [r_columns]]; intros N; destruct (IH N) as (y & r & I & H); exists y, r; (split; [apply in_or_app; now left|auto]). }
  destruct (existsb _ cols) eqn:EX.
  - right. split; auto. apply existsb_exists in EX as ((k & i) & I & EX). cbn [fst] in EX. apply existsb_exists in EX as (k' & Ik & Ek). apply str_eqb_spec in Ek. subst k'.
    unfold cols in I. apply dict_incl in I. apply in_combine_l in I. unfold names in I. apply in_map_iff in I as (c & Ec & Ic).
    assert (In c (r_columns F s)) as Ir. { unfold upto in Ic. destruct (_ <? 0)%Z; eapply firstn_in; eauto. }
    destruct (HC lines) as (l & rest & Il & Er & Ecol). { fold s. intros Z. rewrite Z in Ir. destruct Ir. } fold s in Ecol. rewrite Ecol in Ir.
    exists l, rest, k. repeat split; auto. assert (exists s', c = Text s') as (s' & ->).
    { clear -Ir. unfold DataModel.splitline in Ir. destruct (existsb _ rest).
      - revert Ir. generalize (length rest). intros n. revert rest. induction n as [|n IH]; intros [|a rest]; cbn [split_patterns]; try contradiction.
        destruct (match_string (a :: rest)) as [[s t]|]; [intros [<-|I]; eauto|]. destruct (match_column (a :: rest)) as [s t]. intros [<-|I]; eauto.
      - apply in_map_iff in Ir as (w & <- & _). eauto. }
    cbn in Ec. now subst.
  - left. apply (points_accepted F _ false cols (r_max F s)).
    + intros p I. apply in_map_iff in I as (r & <- & I). apply (padded_length (r_max F s)). now apply (rows_fit h t e lines).
    + intros NE k i I. unfold cols in I. apply dict_incl in I. apply in_combine_r in I. apply in_map_iff in I as (j & <- & I). apply in_seq in I.
      assert (length names <= r_max F s - 1); [|].
      { unfold names. rewrite map_length. unfold upto. destruct (Z.ltb_spec (Z.of_nat (r_max F s) - 1) 0) as [L|L]; [|rewrite firstn_length; lia]. exfalso.
        destruct (if e <=? t then deltail (t / e) (r_data F s) else r_data F s) as [|r rr] eqn:ER; [apply NE; reflexivity|].
        assert (length r <= r_max F s) by (apply (rows_fit h t e lines); fold s; rewrite ER; now left).
        assert (In r (r_data F s)) as Ir. { assert (In r (r :: rr)) as J by now left. rewrite <- ER in J. destruct (e <=? t); auto. now apply deltail_in in J. }
        destruct (reading_invariant h e lines) as (_ & HD & _). fold s in HD. rewrite HD in Ir. unfold kept in Ir. apply in_map_iff in Ir as (n & <- & _). cbn [numbered length] in *. lia. }
      lia.
Qed.
(** C66: reading a file gives exactly the lines asked for, with their numbers, padded to equal lengths; if skiptail is a multiple
    of every *)
Theorem file_rows : forall lines skiphead skiptail every d, 0 < every -> skiptail mod every = 0 -> readfile F tofloat lines skiphead skiptail every = Ok d ->
  let dl := datalines lines in
  let sel := filter (fun n => (skiphead <=? n) && ((n - skiphead) mod every =? 0) && (n + skiptail <? length dl)) (seq 0 (length dl)) in
  match columndata d with
  | None => sel = []
  | Some cd => sel <> [] /\ nth 0 cd [] = map (fun n => Line (n + 1)) sel /\
      (forall c, 0 < c < length cd -> nth c cd [] = map (fun n => nth (c - 1) (nth n dl []) Missing) sel) /\
      (forall n, In n sel -> length (nth n dl []) < length cd)
  end.
Proof.
  intros lines h t e d E M H. cbv zeta. fold (asked h t e (length (datalines lines))). rewrite readfile_eq in H. cbv zeta in H.
  destruct (reading_invariant h e lines) as (I1 & I2 & I3). pose proof (rows_fit h t e lines) as RF. cbv zeta in RF. set (s := fold_left _ lines start) in *. rewrite I2 in H, RF. rewrite rows_asked in H, RF by auto.
  set (sel := asked h t e (length (datalines lines))) in *. destruct (existsb _ _); [discriminate|]. fold (padded (r_max F s)) in H.
  set (cols := dict _) in *. clearbody cols. destruct sel as [|n0 sel0] eqn:ES.
  - cbn [map points] in H. injection H as <-. reflexivity.
  - rewrite <- ES in *. assert (map (padded (r_max F s)) (map (numbered (datalines lines)) sel) <> []) as NE by (rewrite ES; discriminate).
    destruct (points_table F _ false cols d H NE) as (l & cd & Ecd & Lcd & A & C & _). rewrite Ecd. rewrite Nat.add_0_r in Lcd.
    assert (l = r_max F s) as El.
    { rewrite <- (A (padded (r_max F s) (numbered (datalines lines) n0))) by (rewrite ES; now left). apply padded_length. apply RF. rewrite ES. now left. }
    assert (forall c, c < l -> nth c cd [] = map (fun n => nth c (numbered (datalines lines) n) Missing) sel) as C'.
    { intros c Cc. specialize (C c Cc). rewrite Nat.add_0_r in C. rewrite C, !map_map. apply map_ext_in. intros n I. apply padded_nth. apply RF. now apply in_map. }
    assert (forall n, In n sel -> length (nth n (datalines lines) []) < length cd) as LN.
    { intros n I. rewrite Lcd, El. apply (RF (numbered (datalines lines) n)). now apply in_map. }
    split; [rewrite ES; discriminate|]. split; [|split; auto].
    + rewrite C'; [reflexivity|]. specialize (LN n0 ltac:(rewrite ES; now left)). lia.
    + intros c Cc. rewrite C' by lia. apply map_ext. intros n. destruct c; [lia|]. cbn [numbered nth]. now rewrite Nat.sub_succ, Nat.sub_0_r.
Qed.

(** ** names of columns *)
Lemma lookup_in {A} (k : str) (v : A) d : NoDup (map fst d) -> In (k, v) d -> lookup k d = Some v.
Proof.
  induction d as [|[k' v'] d IH]; intros N I; [destruct I|]. cbn in *. inversion N; subst. destruct I as [I|I].
  - assert (k' = k) as -> by congruence. assert (v' = v) as -> by congruence. now rewrite str_eqb_refl.
  - destruct (str_eqb k k') eqn:E; auto. apply str_eqb_spec in E. subst. exfalso. apply H1. change k' with (fst (k', v)). now apply in_map.
Qed.
Lemma dict_nodup {A} (l : list (str * A)) : NoDup (map fst l) -> dict l = l.
Proof.
  unfold dict. enough (forall d, NoDup (map fst (d ++ l)) -> fold_left (fun d kv => store (fst kv) (snd kv) d) l d = d ++ l) as H by (intros N; now apply (H [])).
  induction l as [|[k v] l IH]; intros d N; cbn; [now rewrite app_nil_r|]. rewrite map_app in N. cbn in N. pose proof (NoDup_remove_2 _ _ _ N) as NI.
  rewrite store_new by (intros I; apply NI, in_or_app; now left). rewrite IH; [now rewrite <- app_assoc|]. rewrite <- app_assoc. now rewrite map_app.
Qed.
Lemma map_fst_combine {A B} (a : list A) (b : list B) : length a <= length b -> map fst (combine a b) = a.
Proof. revert b. induction a as [|x a IH]; intros [|y b] L; cbn in *; auto; [lia|]. now rewrite IH by lia. Qed.
Lemma in_combine_nth {A B} (a : list A) (b : list B) i x y : nth_error a i = Some x -> nth_error b i = Some y -> In (x, y) (combine a b).
Proof. revert b i. induction a as [|x' a IH]; intros [|y' b] [|i]; cbn; try discriminate; [intros H1 H2; left; congruence|eauto]. Qed.
Lemma nodup_app_l {A} (a b : list A) : NoDup (a ++ b) -> NoDup a.
Proof. induction a as [|x a IH]; intros N; [constructor|]. cbn in N. inversion N; subst. constructor; [intros I; apply H1, in_or_app; now left|auto]. Qed.
Lemma kept_short h e dl : length dl <= h -> kept h e dl = [].
Proof. intros L. unfold kept. rewrite filter_none; auto. intros x I. apply in_seq in I. unfold chosen. destruct (Nat.leb_spec h x); [lia|reflexivity]. Qed.
Lemma columns_kept h e lines s : r_data F s <> [] -> r_columns F (fold_left (readline F tofloat h e) lines s) = r_columns F s.
Proof.
  revert s. induction lines as [|l lines IH]; intros s N; cbn [fold_left]; auto. unfold readline at 2. destruct (match_comment (strip l)) as [rest|].
  - destruct (r_data F s) eqn:E; [congruence|]. cbn [length Nat.eqb]. apply IH. now rewrite E.
  - destruct (splitline (strip l) true) as [|c cs]; [now apply IH|]. destruct ((_ <=? _) && _); (rewrite IH; [reflexivity|]); cbn [r_data]; auto. intros Z. apply app_eq_nil in Z as [_ Z]. discriminate Z.
Qed.
Lemma columns_data h e lines s : (forall l, In l lines -> comment l = false) -> r_columns F (fold_left (readline F tofloat h e) lines s) = r_columns F s.
Proof.
  revert s. induction lines as [|l lines IH]; intros s N; cbn [fold_left]; auto. rewrite IH by (intros; apply N; now right). specialize (N l (or_introl eq_refl)). unfold comment in N. unfold readline.
  destruct (match_comment (strip l)); [discriminate|]. destruct (splitline (strip l) true) as [|c cs]; auto. now destruct ((_ <=? _) && _).
Qed.
(** C66: the columns are named by the last comment before the first line selected *)
Theorem file_names : forall a c b l t rest skiphead skiptail every d cd i s, 0 < every ->
  match_comment (strip c) = Some rest -> (forall x, In x b -> comment x = false) ->
  length (datalines (a ++ b)) = skiphead -> comment l = false -> splitline (strip l) true <> [] ->
  readfile F tofloat (a ++ c :: b ++ l :: t) skiphead skiptail every = Ok d -> columndata d = Some cd ->
  NoDup (splitline rest false) -> nth_error (splitline rest false) i = Some (Text s) -> S i < length cd ->
  lookup s (columns d) = nth_error cd (S i).
Proof.
  intros a c b l t rest h tl e d cd i nm E MC NB LD CL NL H HCD ND NI LI. rewrite readfile_eq in H. cbv zeta in H.
  pose proof (rows_fit h tl e (a ++ c :: b ++ l :: t)) as RF. cbv zeta in RF.
  assert (r_columns F (fold_left (readline F tofloat h e) (a ++ c :: b ++ l :: t) start) = splitline rest false) as EC.
  { replace (a ++ c :: b ++ l :: t) with ((a ++ [c]) ++ b ++ [l] ++ t) by (now rewrite <- app_assoc). rewrite fold_left_app, (fold_left_app _ b), fold_left_app.
    destruct (reading_invariant h e a) as (A1 & A2 & _). rewrite datalines_app, app_length in LD. rewrite kept_short in A2 by lia.
    assert (fold_left (readline F tofloat h e) (a ++ [c]) start = Build_reading F (splitline rest false) [] (length (datalines a)) (r_max F (fold_left (readline F tofloat h e) a start))) as E1.
    { rewrite fold_left_app. cbn [fold_left]. set (sa := fold_left (readline F tofloat h e) a start) in *. clearbody sa. unfold readline. rewrite MC, A2. cbn [length Nat.eqb]. now rewrite A1. }
    assert (r_line F (fold_left (readline F tofloat h e) b (fold_left (readline F tofloat h e) (a ++ [c]) start)) = h) as E2.
    { rewrite <- fold_left_app. destruct (reading_invariant h e ((a ++ [c]) ++ b)) as (-> & _). rewrite !datalines_app, !app_length.
      assert (datalines [c] = []) as -> by (unfold datalines; cbn; unfold comment; now rewrite MC). cbn. lia. }
    set (s1 := fold_left _ b _) in *. assert (r_columns F s1 = splitline rest false) as E3. { unfold s1. rewrite columns_data by auto. now rewrite E1. }
    rewrite columns_kept.
    - cbn [fold_left]. rewrite <- E3. apply (columns_data h e [l] s1). intros x [<-|[]]. auto.
    - cbn [fold_left]. unfold readline. unfold comment in CL. destruct (match_comment (strip l)); [discriminate|]. destruct (splitline (strip l) true) as [|x xs]; [congruence|].
      rewrite E2, Nat.leb_refl, Nat.sub_diag, Nat.mod_0_l by lia. cbn [andb Nat.eqb r_data]. intros Z. apply app_eq_nil in Z as [_ Z]. discriminate Z. }
  set (s := fold_left _ (a ++ c :: b ++ l :: t) start) in *. rewrite EC in H. destruct (existsb _ _); [discriminate|].
  destruct (map _ (if e <=? tl then deltail (tl / e) (r_data F s) else r_data F s)) as [|r0 rs] eqn:ER.
  { cbn [points] in H. injection H as <-. cbn in HCD. discriminate. }
  rewrite <- ER in H. assert (map (padded (r_max F s)) (if e <=? tl then deltail (tl / e) (r_data F s) else r_data F s) <> []) as NE by (fold (padded (r_max F s)) in ER; rewrite ER; discriminate).
  fold (padded (r_max F s)) in H, ER. destruct (points_table F _ false _ d H NE) as (w & cd' & E1 & E2 & E3 & _ & _ & E6 & E7). assert (cd' = cd) as -> by congruence.
  assert (w = r_max F s) as Ew.
  { rewrite <- (E3 r0) by (rewrite ER; now left). assert (In r0 (r0 :: rs)) as I by now left. rewrite <- ER in I. apply in_map_iff in I as (r & <- & I). apply padded_length. now apply RF. }
  rewrite Nat.add_0_r in E2. assert (upto (Z.of_nat (r_max F s) - 1) (splitline rest false) = firstn (r_max F s - 1) (splitline rest false)) as EU.
  { unfold upto. destruct (Z.ltb_spec (Z.of_nat (r_max F s) - 1) 0); [lia|]. f_equal. lia. }
  rewrite EU in *. set (names := map (text_of F) (firstn (r_max F s - 1) (splitline rest false))) in *.
  assert (forall x, In x (splitline rest false) -> exists s', x = Text s') as AT.
  { clear. intros c I. unfold DataModel.splitline in I. destruct (existsb _ rest).
      - revert I. generalize (length rest). intros n. revert rest. induction n as [|n IH]; intros [|a rest]; cbn [split_patterns]; try contradiction.
        destruct (match_string (a :: rest)) as [[s t]|]; [intros [<-|I]; eauto|]. destruct (match_column (a :: rest)) as [s t]. intros [<-|I]; eauto.
      - apply in_map_iff in I as (w & <- & _). eauto. }
  assert (NoDup names) as NN.
  { unfold names. assert (NoDup (firstn (r_max F s - 1) (splitline rest false))) as N1. { rewrite <- (firstn_skipn (r_max F s - 1) (splitline rest false)) in ND. now apply nodup_app_l in ND. }
    assert (forall x, In x (firstn (r_max F s - 1) (splitline rest false)) -> exists s', x = Text s') as A2 by (intros x I; apply AT; eapply firstn_in; eauto).
    revert N1 A2. generalize (firstn (r_max F s - 1) (splitline rest false)). clear. induction l as [|x l IH]; intros N A; cbn; constructor; inversion N; subst.
    - intros I. apply in_map_iff in I as (y & Ey & Iy). destruct (A x (or_introl eq_refl)) as (sx & ->). destruct (A y (or_intror Iy)) as (sy & ->). cbn in Ey. subst. contradiction.
    - apply IH; auto. intros; apply A; now right. }
  assert (map fst (combine names (map Z.of_nat (seq 1 (length names)))) = names) as MF by (apply map_fst_combine; rewrite map_length, seq_length; lia).
  rewrite dict_nodup in H, E6, E7 by now rewrite MF.
  assert (nth_error names i = Some nm) as NN1.
  { unfold names. rewrite nth_error_map. assert (nth_error (firstn (r_max F s - 1) (splitline rest false)) i = Some (Text nm)) as ->; [|reflexivity].
    assert (i < length (splitline rest false)) as LI2 by (apply nth_error_Some; rewrite NI; discriminate).
    rewrite <- (firstn_skipn (r_max F s - 1) (splitline rest false)) in NI. rewrite nth_error_app1 in NI; auto. rewrite firstn_length. lia. }
  assert (In (nm, Z.of_nat (S i)) (combine names (map Z.of_nat (seq 1 (length names))))) as IN.
  { apply (in_combine_nth _ _ i); auto. rewrite nth_error_map. assert (nth_error (seq 1 (length names)) i = Some (S i)) as ->; [|reflexivity]. rewrite (nth_error_nth' _ 0); [rewrite seq_nth|rewrite seq_length]; auto; apply nth_error_Some; rewrite NN1; discriminate. }
  destruct (E7 _ _ IN) as (col & Ic & Ec). destruct (Z.ltb_spec (Z.of_nat (S i)) 0); [lia|]. rewrite Nat2Z.id in Ec. rewrite Ec. apply lookup_in; auto. now rewrite E6, MF.
Qed.
End FLOAT.
Print Assumptions file_accepted.
Print Assumptions file_rows.
Print Assumptions file_names.
