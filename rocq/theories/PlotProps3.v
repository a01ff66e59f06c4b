(** * Each step of a graph is done once and in the right order (C109) *)

From Coq Require Import Bool Arith List Lia Permutation.
From Verif Require Import PlotModel.
Import ListNotations.

Definition event_dec (a b : event) : {a = b} + {a <> b}.
Proof. repeat decide equality. Defined.
Definition call_dec (a b : call) : {a = b} + {a <> b}.
Proof. repeat decide equality. Defined.
Definition cnt (e : event) (s : state) : nat := count_occ event_dec (log s) e.
Definition is_paint (e : event) : bool := match e with PaintKey _ => true | _ => false end.
Definition paints (s : state) : nat := length (filter is_paint (log s)).
Definition inb (c : call) (l : list call) : bool := if in_dec call_dec c l then true else false.
Lemma inb_in c l : inb c l = true <-> In c l. Proof. unfold inb. destruct (in_dec call_dec c l); split; congruence || tauto. Qed.
Lemma call_eqb_eq a b : call_eqb a b = true <-> a = b.
Proof. destruct a, b; cbn; split; intros E; try discriminate; try reflexivity; try (apply Nat.eqb_eq in E; congruence); injection E as ->; apply Nat.eqb_refl. Qed.
Lemma called c s : existsb (call_eqb c) (calls s) = inb c (calls s).
Proof.
  destruct (inb c (calls s)) eqn:I.
  - apply existsb_exists. exists c. split; [apply inb_in; exact I|apply call_eqb_eq; reflexivity].
  - destruct (existsb _ _) eqn:E; [|reflexivity]. apply existsb_exists in E. destruct E as [x [I1 I2]]. apply call_eqb_eq in I2. subst x. apply inb_in in I1. congruence.
Qed.

(** a call which is completed: not one of those which are being executed *)
Definition B (p : list call) (s : state) (c : call) : bool := inb c (calls s) && negb (inb c p).
Definition b2n (b : bool) : nat := if b then 1 else 0.
Definition n_ (s : state) : nat := length (titles s).

(** Q is what holds for the items of painted keys *)
Section Painted.
Variable Q : list nat -> Prop.

Record inv (p : list call) (s : state) : Prop := {
  i_draw : forall i, cnt (Draw i) s = b2n (B p s (CDoplotitem i));
  i_select : forall i, cnt (Select i) s = b2n (B p s CDostyles && (i <? n_ s));
  i_dynamic : forall i, cnt (Dynamic i) s = b2n (B p s CDoranges && (i <? n_ s));
  i_axes : cnt Axes s = b2n (B p s CDolayout);
  i_background : cnt Background s = b2n (B p s CDobackground);
  i_drawaxes : cnt DrawAxes s = b2n (B p s CDoaxes);
  i_paint : paints s = b2n (B p s CDokey);
  i_ds : didstyles s = B p s CDostyles;
  i_dr : didranges s = B p s CDoranges;
  i_layout : B p s CDolayout = true -> B p s CDoranges = true;
  i_styles : B p s CDostyles = true -> B p s CDolayout = true;
  i_axes_layout : B p s CDoaxes = true -> B p s CDolayout = true;
  i_item : forall i, B p s (CDoplotitem i) = true -> i < n_ s /\ B p s CDostyles = true;
  i_keyitem : forall i, B p s (CDokeyitem i) = true -> i < n_ s /\ B p s CDostyles = true;
  i_order : forall k i, nth_error (log s) k = Some (Draw i) ->
    In Axes (firstn k (log s)) /\ In (Dynamic i) (firstn k (log s)) /\ forall j, j < n_ s -> In (Select j) (firstn k (log s));
  i_painted : forall l, In (PaintKey l) (log s) -> Q l;
  i_keys : forall i, count_occ Nat.eq_dec (keyitems s) i = b2n (B p s (CDokeyitem i) && nth i (titles s) false)
}.

(** What all steps keep *)
Definition grows (s s' : state) : Prop := titles s' = titles s /\ (forall c, In c (calls s) -> In c (calls s')).
Lemma grows_refl s : grows s s. Proof. split; auto. Qed.
Lemma grows_trans a b c : grows a b -> grows b c -> grows a c.
Proof. intros [A1 A2] [B1 B2]. split; [congruence|auto]. Qed.
Lemma B_grows p s s' c : grows s s' -> B p s c = true -> B p s' c = true.
Proof.
  intros [_ G]. unfold B. rewrite !andb_true_iff, !inb_in. intros [H1 H2]. auto.
Qed.

(** The state in which a call is entered *)
Definition entered (c : call) (s : state) : state := mkstate (titles s) (calls s ++ [c]) (keyitems s) (didranges s) (didstyles s) (log s).
Lemma B_entered p s c x : inb c (calls s) = false -> B (c :: p) (entered c s) x = B p s x.
Proof.
  intros N. unfold B. cbn [entered calls]. destruct (call_dec x c) as [->|NE].
  - rewrite N. cbn. assert (inb c (c :: p) = true) as -> by (apply inb_in; now left). now rewrite andb_false_r.
  - f_equal; [|f_equal]; unfold inb.
    + destruct (in_dec call_dec x (calls s ++ [c])) as [I|I], (in_dec call_dec x (calls s)) as [J|J]; try reflexivity; exfalso.
      * apply in_app_iff in I. destruct I as [I|[I|[]]]; [auto|congruence].
      * apply I, in_app_iff. auto.
    + destruct (in_dec call_dec x (c :: p)) as [I|I], (in_dec call_dec x p) as [J|J]; try reflexivity; exfalso.
      * destruct I as [I|I]; [congruence|auto].
      * apply I. now right.
Qed.
Lemma inv_entered p s c : inb c (calls s) = false -> inv p s -> inv (c :: p) (entered c s).
Proof.
  intros N I. destruct I. unfold cnt, paints, n_ in *. constructor; unfold cnt, paints, n_; cbn [entered log titles keyitems didstyles didranges]; intros;
    repeat match goal with H : B (c :: p) (entered c s) _ = true |- _ => rewrite B_entered in H by exact N end; rewrite ?B_entered by exact N; auto.
Qed.
(** and leaving it *)
Lemma B_leave p s c x : x <> c -> B p s x = B (c :: p) s x.
Proof.
  intros NE. unfold B. f_equal. f_equal. unfold inb. destruct (in_dec call_dec x p) as [J|J], (in_dec call_dec x (c :: p)) as [I|I]; try reflexivity; exfalso.
  - apply I. now right.
  - destruct I as [I|I]; [congruence|auto].
Qed.
Lemma B_pending p s c : In c p -> B p s c = false.
Proof. intros I. unfold B. apply inb_in in I. rewrite I. apply andb_false_r. Qed.
Lemma B_now p s c : In c (calls s) -> ~ In c p -> B p s c = true.
Proof. intros I N. unfold B. apply inb_in in I. rewrite I. cbn. unfold inb. destruct (in_dec call_dec c p); [contradiction|reflexivity]. Qed.

Lemma cnt_add es s e : cnt e (add_log es s) = cnt e s + count_occ event_dec es e.
Proof. unfold cnt, add_log. cbn. apply count_occ_app. Qed.
Lemma paints_add es s : paints (add_log es s) = paints s + length (filter is_paint es).
Proof. unfold paints, add_log. cbn. rewrite filter_app, app_length. reflexivity. Qed.

Lemma order_add (n : nat) l es : (forall i, ~ In (Draw i) es) ->
  (forall k i, nth_error l k = Some (Draw i) -> In Axes (firstn k l) /\ In (Dynamic i) (firstn k l) /\ forall j, j < n -> In (Select j) (firstn k l)) ->
  forall k i, nth_error (l ++ es) k = Some (Draw i) -> In Axes (firstn k (l ++ es)) /\ In (Dynamic i) (firstn k (l ++ es)) /\ forall j, j < n -> In (Select j) (firstn k (l ++ es)).
Proof.
  intros N H k i E. destruct (Nat.lt_ge_cases k (length l)) as [L|L].
  - rewrite nth_error_app1 in E by exact L. rewrite firstn_app. replace (k - length l) with 0 by lia. rewrite firstn_O, app_nil_r. apply H. exact E.
  - rewrite nth_error_app2 in E by exact L. apply nth_error_In in E. exfalso. apply (N i). exact E.
Qed.

Lemma count_map_seq f (Hf : forall a b : nat, f a = f b -> a = b) i n : count_occ event_dec (map f (seq 0 n)) (f i) = b2n (i <? n).
Proof.
  assert (G : forall m k, count_occ event_dec (map f (seq k m)) (f i) = b2n ((k <=? i) && (i <? k + m))).
  { induction m as [|m IH]; intros k; cbn [seq map].
    - cbn [count_occ]. rewrite Nat.add_0_r. destruct (Nat.leb_spec k i), (Nat.ltb_spec i k); cbn [andb b2n]; lia.
    - destruct (event_dec (f k) (f i)) as [E|E].
      + apply Hf in E. subst k. rewrite count_occ_cons_eq, IH by reflexivity. destruct (Nat.leb_spec (S i) i); [lia|]. cbn [andb b2n].
        destruct (Nat.leb_spec i i); [|lia]. destruct (Nat.ltb_spec i (i + S m)); [reflexivity|lia].
      + rewrite count_occ_cons_neq, IH by exact E. assert (k <> i) by congruence. f_equal.
        destruct (Nat.leb_spec (S k) i), (Nat.leb_spec k i), (Nat.ltb_spec i (S k + m)), (Nat.ltb_spec i (k + S m)); cbn; lia || reflexivity. }
  rewrite G. reflexivity.
Qed.
Lemma count_map_other f e l : (forall a : nat, f a <> e) -> count_occ event_dec (map f l) e = 0.
Proof. intros N. apply count_occ_not_In. intros I. apply in_map_iff in I. destruct I as [x [X _]]. apply (N x X). Qed.
Lemma filter_map_none f (l : list nat) : (forall a, is_paint (f a) = false) -> filter is_paint (map f l) = [].
Proof. intros N. induction l as [|x l IH]; [reflexivity|]. cbn. rewrite N. exact IH. Qed.

(** Each step: the invariant, growth, and that the call is completed *)
Lemma did_already p s c f : inv p s -> ~ In c p -> existsb (call_eqb c) (calls s) = true -> inv p (once c f s) /\ grows s (once c f s) /\ B p (once c f s) c = true.
Proof.
  intros I N E. unfold once. rewrite E. split; [exact I|]. split; [apply grows_refl|]. rewrite called in E. apply B_now; [apply inb_in; exact E|exact N].
Qed.
Lemma grows_entered c s : grows s (entered c s).
Proof. split; [reflexivity|]. cbn. intros x I. apply in_app_iff. now left. Qed.
Lemma in_entered c s : In c (calls (entered c s)).
Proof. cbn. apply in_app_iff. right. now left. Qed.


(** Leaving a call after the events es *)
Record gives (c : call) (p : list call) (t s' : state) (es : list event) : Prop := {
  g_calls : calls s' = calls t; g_titles : titles s' = titles t; g_log : log s' = log t ++ es;
  g_draw : forall i, count_occ event_dec es (Draw i) = b2n (call_eqb c (CDoplotitem i));
  g_select : forall i, count_occ event_dec es (Select i) = b2n (call_eqb c CDostyles && (i <? n_ t));
  g_dynamic : forall i, count_occ event_dec es (Dynamic i) = b2n (call_eqb c CDoranges && (i <? n_ t));
  g_axes : count_occ event_dec es Axes = b2n (call_eqb c CDolayout);
  g_background : count_occ event_dec es Background = b2n (call_eqb c CDobackground);
  g_drawaxes : count_occ event_dec es DrawAxes = b2n (call_eqb c CDoaxes);
  g_paint : length (filter is_paint es) = b2n (call_eqb c CDokey);
  g_ds : didstyles s' = didstyles t || call_eqb c CDostyles;
  g_dr : didranges s' = didranges t || call_eqb c CDoranges;
  g_layout : c = CDolayout -> B (c :: p) t CDoranges = true;
  g_styles : c = CDostyles \/ c = CDoaxes -> B (c :: p) t CDolayout = true;
  g_item : forall i, c = CDoplotitem i \/ c = CDokeyitem i -> i < n_ t /\ B (c :: p) t CDostyles = true;
  g_one : forall i, c = CDoplotitem i -> es = [Draw i];
  g_painted : c = CDokey -> forall l, In (PaintKey l) es -> Q l;
  g_keys : forall i, count_occ Nat.eq_dec (keyitems s') i = count_occ Nat.eq_dec (keyitems t) i + b2n (call_eqb c (CDokeyitem i) && nth i (titles t) false)
}.

Lemma cnt_in e s : 0 < cnt e s -> In e (log s).
Proof. intros H. apply (count_occ_In event_dec). exact H. Qed.

Lemma leave p c t s' es : inv (c :: p) t -> ~ In c p -> In c (calls t) -> gives c p t s' es -> inv p s' /\ B p s' c = true.
Proof.
  intros I N C G. destruct G.
  assert (BQ : forall x, B p s' x = B (c :: p) t x || call_eqb c x).
  { intros x. destruct (call_dec x c) as [->|NE].
    - rewrite (proj2 (call_eqb_eq c c) eq_refl), orb_true_r. apply B_now; [rewrite g_calls0; exact C|exact N].
    - destruct (call_eqb c x) eqn:X; [apply call_eqb_eq in X; congruence|]. rewrite orb_false_r, <- (B_leave p t c x NE). unfold B. rewrite g_calls0. reflexivity. }
  assert (BX : forall x, b2n (B p s' x) = b2n (B (c :: p) t x) + b2n (call_eqb c x)).
  { intros x. rewrite BQ. destruct (call_eqb c x) eqn:X; [|rewrite orb_false_r; cbn; lia]. apply call_eqb_eq in X. subst x. rewrite B_pending by (now left). reflexivity. }
  assert (BX2 : forall x b, b2n (B p s' x && b) = b2n (B (c :: p) t x && b) + b2n (call_eqb c x && b)).
  { intros x b. destruct b; [rewrite !andb_true_r; apply BX|rewrite !andb_false_r; reflexivity]. }
  assert (CN : forall e, cnt e s' = cnt e t + count_occ event_dec es e) by (intros e; unfold cnt; rewrite g_log0; apply count_occ_app).
  assert (NT : n_ s' = n_ t) by (unfold n_; rewrite g_titles0; reflexivity).
  assert (UP : forall x, B (c :: p) t x = true -> B p s' x = true) by (intros x H; rewrite BQ, H; reflexivity).
  assert (DN : forall x, B p s' x = true -> B (c :: p) t x = true \/ c = x).
  { intros x H. rewrite BQ in H. apply orb_true_iff in H. destruct H as [H|H]; [now left|right; apply call_eqb_eq; exact H]. }
  split; [|rewrite BQ, (proj2 (call_eqb_eq c c) eq_refl); apply orb_true_r].
  destruct I. constructor.
  - intros i. rewrite CN, BX, g_draw0, i_draw0. reflexivity.
  - intros i. rewrite CN, NT, BX2, g_select0, i_select0. reflexivity.
  - intros i. rewrite CN, NT, BX2, g_dynamic0, i_dynamic0. reflexivity.
  - rewrite CN, BX, g_axes0, i_axes0. reflexivity.
  - rewrite CN, BX, g_background0, i_background0. reflexivity.
  - rewrite CN, BX, g_drawaxes0, i_drawaxes0. reflexivity.
  - unfold paints. rewrite g_log0, filter_app, app_length. fold (paints t). rewrite BX, g_paint0, i_paint0. reflexivity.
  - rewrite g_ds0, BQ, i_ds0. reflexivity.
  - rewrite g_dr0, BQ, i_dr0. reflexivity.
  - intros H. apply DN in H. destruct H as [H|H]; auto.
  - intros H. apply DN in H. destruct H as [H|H]; auto.
  - intros H. apply DN in H. destruct H as [H|H]; auto.
  - intros i H. apply DN in H. rewrite NT. destruct H as [H|H]; [destruct (i_item0 i H)|destruct (g_item0 i (or_introl H))]; auto.
  - intros i H. apply DN in H. rewrite NT. destruct H as [H|H]; [destruct (i_keyitem0 i H)|destruct (g_item0 i (or_intror H))]; auto.
  - rewrite g_log0, NT. destruct (match c with CDoplotitem i => Some i | _ => None end) as [i0|] eqn:M.
    + destruct c; try discriminate. injection M as ->. rewrite (g_one0 i0 eq_refl). destruct (g_item0 i0 (or_introl eq_refl)) as [L S].
      intros k i E. destruct (Nat.lt_ge_cases k (length (log t))) as [L'|L'].
      * rewrite nth_error_app1 in E by exact L'. rewrite firstn_app. replace (k - length (log t)) with 0 by lia. rewrite firstn_O, app_nil_r. apply i_order0. exact E.
      * rewrite nth_error_app2 in E by exact L'. destruct (k - length (log t)) as [|m] eqn:K; [|destruct m; discriminate]. cbn in E. injection E as <-.
        assert (KE : k = length (log t)) by lia. subst k. rewrite firstn_app, Nat.sub_diag, firstn_O, app_nil_r, firstn_all.
        pose proof (i_styles0 S) as SL. pose proof (i_layout0 SL) as SR.
        split; [apply cnt_in; rewrite i_axes0, SL; cbn; lia|]. split.
        -- apply cnt_in. rewrite i_dynamic0, SR. destruct (Nat.ltb_spec i0 (n_ t)); cbn; lia.
        -- intros j J. apply cnt_in. rewrite i_select0, S. destruct (Nat.ltb_spec j (n_ t)); cbn; lia.
    + apply order_add; [|exact i_order0]. intros i I. apply (count_occ_In event_dec) in I. rewrite g_draw0 in I.
      destruct (call_eqb c (CDoplotitem i)) eqn:X; [|cbn in I; lia]. apply call_eqb_eq in X. subst c. discriminate.
  - intros l H. rewrite g_log0 in H. apply in_app_iff in H. destruct H as [H|H]; [auto|]. destruct (call_dec c CDokey) as [E|E]; [auto|].
    exfalso. destruct (call_eqb c CDokey) eqn:X; [apply call_eqb_eq in X; contradiction|]. cbn in g_paint0. apply length_zero_iff_nil in g_paint0.
    assert (F : In (PaintKey l) (filter is_paint es)) by (apply filter_In; split; [exact H|reflexivity]). rewrite g_paint0 in F. exact F.
  - intros i. rewrite g_keys0, BX2, i_keys0, g_titles0. reflexivity.
Qed.

Lemma doranges_ok p s : inv p s -> ~ In CDoranges p -> inv p (doranges s) /\ grows s (doranges s) /\ B p (doranges s) CDoranges = true.
Proof.
  intros I N. destruct (existsb (call_eqb CDoranges) (calls s)) eqn:E; [apply did_already; assumption|].
  unfold doranges, once. rewrite E. rewrite called in E. pose proof (inv_entered p s _ E I) as J. fold (entered CDoranges s).
  pose proof (grows_entered CDoranges s) as GE. pose proof (in_entered CDoranges s) as IE. set (t := entered CDoranges s) in *. clearbody t.
  set (es := map AdjustStatic (numbers t) ++ map Dynamic (numbers t) ++ map AdjustDynamic (numbers t)).
  match goal with |- inv p ?x /\ _ => set (s' := x) end.
  assert (Z : forall e, (forall a, AdjustStatic a <> e) -> (forall a, Dynamic a <> e) -> (forall a, AdjustDynamic a <> e) -> count_occ event_dec es e = 0).
  { intros e H1 H2 H3. unfold es. rewrite !count_occ_app, !count_map_other by assumption. reflexivity. }
  destruct (leave p CDoranges t s' es J N IE) as [A A'].
  { constructor; try reflexivity; try (intros; discriminate); try (intros; rewrite Z by (intros; discriminate); reflexivity).
    - intros i. unfold es. rewrite !count_occ_app, !(count_map_other AdjustStatic), !(count_map_other AdjustDynamic) by (intros; discriminate).
      unfold numbers. rewrite count_map_seq by (intros a b H; injection H; auto). cbn [call_eqb andb]. fold (n_ t). lia.
    - unfold es. rewrite !filter_app, !filter_map_none by reflexivity. reflexivity.
    - unfold s'. cbn. now rewrite orb_false_r.
    - unfold s'. cbn. now rewrite orb_true_r.
    - intros [H|H]; discriminate.
    - intros i [H|H]; discriminate.
    - intros i. cbn. now rewrite Nat.add_0_r. }
  split; [exact A|]. split; [|exact A']. apply grows_trans with t; [exact GE|]. split; [reflexivity|auto].
Qed.

(** The other steps have the form: enter, do earlier steps, add events *)
Lemma step_ok p s c pre post : (forall t, inv (c :: p) t -> inv (c :: p) (pre t) /\ grows t (pre t) /\ True) ->
  inv p s -> ~ In c p ->
  (forall t, inv (c :: p) t -> exists es, gives c p (pre t) (post (pre t)) es) ->
  inv p (once c (fun s => post (pre s)) s) /\ grows s (once c (fun s => post (pre s)) s) /\ B p (once c (fun s => post (pre s)) s) c = true.
Proof.
  intros P I N G. destruct (existsb (call_eqb c) (calls s)) eqn:E; [apply did_already; assumption|].
  unfold once. rewrite E. rewrite called in E. pose proof (inv_entered p s _ E I) as J. fold (entered c s).
  pose proof (grows_entered c s) as GE. pose proof (in_entered c s) as IE. set (t := entered c s) in *. clearbody t.
  destruct (P t J) as (PI & PG & _). destruct (G t J) as [es GI]. destruct (leave p c (pre t) (post (pre t)) es PI N) as [A A'].
  - apply (proj2 PG). exact IE.
  - exact GI.
  - split; [exact A|]. split; [|exact A']. apply (grows_trans s t); [exact GE|]. apply (grows_trans t (pre t)); [exact PG|].
    destruct GI. split; [exact g_titles0|]. intros x X. rewrite g_calls0. exact X.
Qed.

Lemma dolayout_ok p s : inv p s -> ~ In CDolayout p -> ~ In CDoranges p -> inv p (dolayout s) /\ grows s (dolayout s) /\ B p (dolayout s) CDolayout = true.
Proof.
  intros I N N'. assert (R : ~ In CDoranges (CDolayout :: p)) by (intros [X|X]; [discriminate|auto]). apply (step_ok p s CDolayout doranges (add_log [Axes])); auto.
  - intros t J. destruct (doranges_ok _ t J R) as (A & G & _). auto.
  - intros t J. destruct (doranges_ok _ t J R) as (A & G & D). exists [Axes].
    constructor; try reflexivity; try (intros; discriminate); cbn [call_eqb add_log didstyles didranges keyitems]; try (now rewrite orb_false_r); try (intros; now rewrite Nat.add_0_r).
    + intros _. exact D.
    + intros [H|H]; discriminate.
    + intros i [H|H]; discriminate.
Qed.
Lemma dobackground_ok p s : inv p s -> ~ In CDobackground p -> inv p (dobackground s) /\ grows s (dobackground s) /\ B p (dobackground s) CDobackground = true.
Proof.
  intros I N. apply (step_ok p s CDobackground (fun s => s) (add_log [Background])); auto.
  - intros t J. split; [exact J|]. split; [apply grows_refl|exact Logic.I].
  - intros t J. exists [Background].
    constructor; try reflexivity; try (intros; discriminate); cbn [call_eqb add_log didstyles didranges keyitems]; try (now rewrite orb_false_r); try (intros; now rewrite Nat.add_0_r).
    + intros [H|H]; discriminate.
    + intros i [H|H]; discriminate.
Qed.
(** layout and background *)
Lemma both_ok p s : inv p s -> ~ In CDolayout p -> ~ In CDoranges p -> ~ In CDobackground p ->
  inv p (dobackground (dolayout s)) /\ grows s (dobackground (dolayout s)) /\ B p (dobackground (dolayout s)) CDolayout = true.
Proof.
  intros I N1 N2 N3. destruct (dolayout_ok p s I N1 N2) as (A & G & D). destruct (dobackground_ok p _ A N3) as (A' & G' & D').
  split; [exact A'|]. split; [apply (grows_trans _ _ _ G G')|]. apply (B_grows p _ _ _ G' D).
Qed.
Lemma dostyles_ok p s : inv p s -> ~ In CDostyles p -> ~ In CDolayout p -> ~ In CDoranges p -> ~ In CDobackground p ->
  inv p (dostyles s) /\ grows s (dostyles s) /\ B p (dostyles s) CDostyles = true.
Proof.
  intros I N N1 N2 N3.
  assert (X : forall c, c <> CDostyles -> ~ In c p -> ~ In c (CDostyles :: p)) by (intros c H1 H2 [H|H]; [congruence|auto]).
  apply (step_ok p s CDostyles (fun s => dobackground (dolayout s))
    (fun s => let s := add_log (map Select (numbers s)) s in mkstate (titles s) (calls s) (keyitems s) (didranges s) true (log s))); auto.
  - intros t J. destruct (both_ok _ t J) as (A & G & _); try (apply X; [discriminate|assumption]). auto.
  - intros t J. destruct (both_ok _ t J) as (A & G & D); try (apply X; [discriminate|assumption]). set (u := dobackground (dolayout t)) in *. exists (map Select (numbers u)).
    constructor; try reflexivity; try (intros; discriminate); cbn [call_eqb add_log didstyles didranges keyitems andb]; try (now rewrite orb_false_r); try (now rewrite orb_true_r); try (intros; now rewrite Nat.add_0_r);
      try (intros; rewrite count_map_other by (intros; discriminate); reflexivity).
    + intros i. unfold numbers. rewrite count_map_seq by (intros a b H; injection H; auto). reflexivity.
    + rewrite filter_map_none by reflexivity. reflexivity.
    + intros _. exact D.
    + intros i [H|H]; discriminate.
Qed.
Lemma doaxes_ok p s : inv p s -> ~ In CDoaxes p -> ~ In CDolayout p -> ~ In CDoranges p -> ~ In CDobackground p ->
  inv p (doaxes s) /\ grows s (doaxes s) /\ B p (doaxes s) CDoaxes = true.
Proof.
  intros I N N1 N2 N3.
  assert (X : forall c, c <> CDoaxes -> ~ In c p -> ~ In c (CDoaxes :: p)) by (intros c H1 H2 [H|H]; [congruence|auto]).
  apply (step_ok p s CDoaxes (fun s => dobackground (dolayout s)) (add_log [DrawAxes])); auto.
  - intros t J. destruct (both_ok _ t J) as (A & G & _); try (apply X; [discriminate|assumption]). auto.
  - intros t J. destruct (both_ok _ t J) as (A & G & D); try (apply X; [discriminate|assumption]). exists [DrawAxes].
    constructor; try reflexivity; try (intros; discriminate); cbn [call_eqb add_log didstyles didranges keyitems]; try (now rewrite orb_false_r); try (intros; now rewrite Nat.add_0_r).
    + intros _. exact D.
    + intros i [H|H]; discriminate.
Qed.
Lemma doplotitem_ok p s i : i < n_ s -> inv p s -> (forall c, In c p -> c = CDokey) ->
  inv p (doplotitem i s) /\ grows s (doplotitem i s) /\ B p (doplotitem i s) (CDoplotitem i) = true.
Proof.
  intros L I N. assert (NP : forall c, c <> CDokey -> ~ In c p) by (intros c H1 H2; apply H1, N; exact H2).
  assert (X : forall c, c <> CDokey -> c <> CDoplotitem i -> ~ In c (CDoplotitem i :: p)) by (intros c H1 H2 [H|H]; [congruence|apply (NP c H1 H)]).
  destruct (existsb (call_eqb (CDoplotitem i)) (calls s)) eqn:E; [apply did_already; auto; apply NP; discriminate|].
  unfold doplotitem, once. rewrite E. rewrite called in E. pose proof (inv_entered p s _ E I) as J. fold (entered (CDoplotitem i) s).
  pose proof (grows_entered (CDoplotitem i) s) as GE. pose proof (in_entered (CDoplotitem i) s) as IE.
  assert (LT : i < n_ (entered (CDoplotitem i) s)) by exact L. set (t := entered (CDoplotitem i) s) in *. clearbody t.
  destruct (dostyles_ok _ t J) as (A & G & D); try (apply X; discriminate).
  destruct (leave p (CDoplotitem i) (dostyles t) (add_log [Draw i] (dostyles t)) [Draw i]) as [A' D']; auto.
  - apply NP. discriminate.
  - apply (proj2 G). exact IE.
  - constructor; try reflexivity; try (intros; discriminate); cbn [call_eqb add_log didstyles didranges keyitems]; try (now rewrite orb_false_r); try (intros; now rewrite Nat.add_0_r).
    + intros j. cbn [count_occ]. destruct (event_dec (Draw i) (Draw j)) as [H|H]; [injection H as ->; rewrite Nat.eqb_refl; reflexivity|].
      destruct (Nat.eqb_spec i j); [congruence|reflexivity].
    + intros [H|H]; discriminate.
    + intros j [H|H]; [|discriminate]. injection H as <-. split; [|exact D]. unfold n_. rewrite (proj1 G). exact LT.
    + intros j H. injection H as <-. reflexivity.
  - split; [exact A'|]. split; [|exact D']. apply (grows_trans s t); [exact GE|]. apply (grows_trans t (dostyles t)); [exact G|]. split; [reflexivity|auto].
Qed.
Lemma dokeyitem_ok p s i : i < n_ s -> inv p s -> (forall c, In c p -> c = CDokey) ->
  inv p (dokeyitem i s) /\ grows s (dokeyitem i s) /\ B p (dokeyitem i s) (CDokeyitem i) = true.
Proof.
  intros L I N. assert (NP : forall c, c <> CDokey -> ~ In c p) by (intros c H1 H2; apply H1, N; exact H2).
  assert (X : forall c, c <> CDokey -> c <> CDokeyitem i -> ~ In c (CDokeyitem i :: p)) by (intros c H1 H2 [H|H]; [congruence|apply (NP c H1 H)]).
  destruct (existsb (call_eqb (CDokeyitem i)) (calls s)) eqn:E; [apply did_already; auto; apply NP; discriminate|].
  unfold dokeyitem, once. rewrite E. rewrite called in E. pose proof (inv_entered p s _ E I) as J. fold (entered (CDokeyitem i) s).
  pose proof (grows_entered (CDokeyitem i) s) as GE. pose proof (in_entered (CDokeyitem i) s) as IE.
  assert (LT : i < n_ (entered (CDokeyitem i) s)) by exact L. set (t := entered (CDokeyitem i) s) in *. clearbody t.
  destruct (dostyles_ok _ t J) as (A & G & D); try (apply X; discriminate). cbv zeta.
  match goal with |- inv p ?x /\ _ => set (s' := x) end.
  destruct (leave p (CDokeyitem i) (dostyles t) s' []) as [A' D']; auto.
  - apply NP. discriminate.
  - apply (proj2 G). exact IE.
  - unfold s'. constructor; try (destruct (nth i (titles (dostyles t)) false); reflexivity); try (intros; discriminate); cbn [call_eqb didstyles didranges keyitems count_occ].
    + destruct (nth i (titles (dostyles t)) false); cbn; now rewrite app_nil_r.
    + destruct (nth i (titles (dostyles t)) false); cbn; now rewrite orb_false_r.
    + destruct (nth i (titles (dostyles t)) false); cbn; now rewrite orb_false_r.
    + intros [H|H]; discriminate.
    + intros j [H|H]; [discriminate|]. injection H as <-. split; [|exact D]. unfold n_. rewrite (proj1 G). exact LT.
    + intros j. destruct (Nat.eqb_spec i j) as [<-|NE]; cbn [andb].
      * destruct (nth i (titles (dostyles t)) false); cbn [keyitems b2n]; [|lia]. rewrite count_occ_app. cbn. destruct (Nat.eq_dec i i); [reflexivity|congruence].
      * destruct (nth i (titles (dostyles t)) false); cbn [keyitems b2n]; [|lia]. rewrite count_occ_app. cbn. destruct (Nat.eq_dec i j); [congruence|reflexivity].
  - split; [exact A'|]. split; [|exact D']. apply (grows_trans s t); [exact GE|]. apply (grows_trans t (dostyles t)); [exact G|].
    unfold s'. destruct (nth i (titles (dostyles t)) false); split; auto.
Qed.

Lemma items_ok (f : nat -> state -> state) (C : nat -> call) p :
  (forall s i, i < n_ s -> inv p s -> inv p (f i s) /\ grows s (f i s) /\ B p (f i s) (C i) = true) ->
  forall l s, (forall i, In i l -> i < n_ s) -> inv p s ->
  let s' := fold_left (fun s i => f i s) l s in inv p s' /\ grows s s' /\ forall i, In i l -> B p s' (C i) = true.
Proof.
  intros F. induction l as [|i l IH]; intros s L I; cbn.
  - split; [exact I|]. split; [apply grows_refl|intros i []].
  - destruct (F s i) as (A & G & D); [apply L; now left|exact I|].
    destruct (IH (f i s)) as (A' & G' & D'); [intros j J; unfold n_; rewrite (proj1 G); apply L; now right|exact A|].
    split; [exact A'|]. split; [apply (grows_trans _ _ _ G G')|]. intros j [<-|J]; [apply (B_grows _ _ _ _ G' D)|apply D'; exact J].
Qed.
Lemma in_numbers i s : In i (numbers s) <-> i < n_ s.
Proof. unfold numbers, n_. rewrite in_seq. lia. Qed.

Lemma doplot_ok s : inv [] s -> inv [] (doplot s) /\ grows s (doplot s) /\ forall i, i < n_ s -> B [] (doplot s) (CDoplotitem i) = true.
Proof.
  intros I. destruct (items_ok doplotitem CDoplotitem []) with (l := numbers s) (s := s) as (A & G & D); auto.
  - intros t i L J. apply doplotitem_ok; auto. intros c [].
  - intros i H. apply in_numbers. exact H.
  - split; [exact A|]. split; [exact G|]. intros i H. apply D. apply in_numbers. exact H.
Qed.
Definition key_pre (s : state) : state := let s := dobackground s in fold_left (fun s i => dokeyitem i s) (numbers s) s.
Lemma key_pre_ok p s : (forall c, In c p -> c = CDokey) -> inv p s ->
  inv p (key_pre s) /\ grows s (key_pre s) /\ forall i, i < n_ s -> B p (key_pre s) (CDokeyitem i) = true.
Proof.
  intros N I. destruct (dobackground_ok p s I) as (A0 & G0 & _); [intros H; apply N in H; discriminate|].
  destruct (items_ok dokeyitem CDokeyitem p) with (l := numbers (dobackground s)) (s := dobackground s) as (A & G & D); auto.
  - intros t i L J. apply dokeyitem_ok; auto.
  - intros i H. apply in_numbers. exact H.
  - split; [exact A|]. split; [apply (grows_trans _ _ _ G0 G)|]. intros i H. apply D. apply in_numbers. unfold n_. rewrite (proj1 G0). exact H.
Qed.
Definition titled (ts : list bool) (l : list nat) : Prop := forall i, count_occ Nat.eq_dec l i = b2n (nth i ts false).
Lemma dokey_ok s : (forall l, titled (titles s) l -> Q l) -> inv [] s -> inv [] (dokey s) /\ grows s (dokey s) /\ B [] (dokey s) CDokey = true.
Proof.
  intros HQ I.
  destruct (existsb (call_eqb CDokey) (calls s)) eqn:E; [apply did_already; auto|].
  unfold dokey, once. rewrite E. rewrite called in E. pose proof (inv_entered [] s _ E I) as J. fold (entered CDokey s).
  pose proof (grows_entered CDokey s) as GE. pose proof (in_entered CDokey s) as IE.
  assert (TT : titles (entered CDokey s) = titles s) by reflexivity. set (t := entered CDokey s) in *. clearbody t.
  destruct (key_pre_ok [CDokey] t) as (A & G & D); auto. { intros c [<-|[]]. reflexivity. }
  fold (key_pre t). cbv zeta. set (u := key_pre t) in *.
  change (fold_left (fun s i => dokeyitem i s) (numbers (dobackground t)) (dobackground t)) with u.
  destruct (leave [] CDokey u (add_log [PaintKey (keyitems u)] u) [PaintKey (keyitems u)]) as [A' D']; auto.
  - apply (proj2 G). exact IE.
  - constructor; try reflexivity; try (intros; discriminate); cbn [call_eqb add_log didstyles didranges keyitems]; try (now rewrite orb_false_r); try (intros; now rewrite Nat.add_0_r).
    + intros [H|H]; discriminate.
    + intros i [H|H]; discriminate.
    + intros _ l [H|[]]. injection H as <-. apply HQ. intros i. rewrite (i_keys _ _ A), (proj1 G), TT.
      destruct (Nat.lt_ge_cases i (n_ t)) as [L|L]; [rewrite D by exact L; reflexivity|].
      rewrite (nth_overflow (titles s)) by (rewrite <- TT; exact L). now rewrite andb_false_r.
  - split; [exact A'|]. split; [|exact D']. apply (grows_trans s t); [exact GE|]. apply (grows_trans t u); [exact G|]. split; [reflexivity|auto].
Qed.
Lemma finish_ok s : (forall l, titled (titles s) l -> Q l) -> inv [] s -> inv [] (finish s) /\ grows s (finish s) /\
  (forall i, i < n_ s -> B [] (finish s) (CDoplotitem i) = true) /\ B [] (finish s) CDoaxes = true /\ B [] (finish s) CDokey = true /\ B [] (finish s) CDobackground = true.
Proof.
  intros HQ I. unfold finish. destruct (dobackground_ok [] s I) as (A1 & G1 & D1); [auto|]. destruct (doaxes_ok [] _ A1) as (A2 & G2 & D2); auto.
  destruct (doplot_ok _ A2) as (A3 & G3 & D3). destruct (dokey_ok (doplot (doaxes (dobackground s)))) as (A4 & G4 & D4); [rewrite (proj1 G3), (proj1 G2), (proj1 G1); exact HQ|exact A3|].
  pose proof (grows_trans _ _ _ G3 G4) as G34. pose proof (grows_trans _ _ _ G2 G34) as G234.
  split; [exact A4|]. split; [apply (grows_trans _ _ _ G1 G234)|]. split.
  - intros i L. apply (B_grows _ _ _ _ G4). apply D3. unfold n_. rewrite (proj1 G2), (proj1 G1). exact L.
  - split; [apply (B_grows _ _ _ _ G34); exact D2|]. split; [exact D4|]. apply (B_grows _ _ _ _ G234). exact D1.
Qed.

(** plotting further data *)
Lemma plot_ok b s s' : inv [] s -> plot b s = Some s' -> inv [] s' /\ titles s' = titles s ++ [b].
Proof.
  intros I E. unfold plot in E. destruct (didstyles s) eqn:DS; [discriminate|]. injection E as <-. destruct I.
  assert (NS : B [] s CDostyles = false) by congruence.
  assert (NI : forall i, B [] s (CDoplotitem i) = false) by (intros i; destruct (B [] s (CDoplotitem i)) eqn:X; [destruct (i_item0 i X); congruence|reflexivity]).
  assert (NK : forall i, B [] s (CDokeyitem i) = false) by (intros i; destruct (B [] s (CDokeyitem i)) eqn:X; [destruct (i_keyitem0 i X); congruence|reflexivity]).
  set (s1 := mkstate (titles s ++ [b]) (calls s) (keyitems s) (didranges s) false (log s)).
  assert (BS : forall x, B [] s1 x = B [] s x) by reflexivity.
  assert (BS2 : forall x es, B [] (add_log es s1) x = B [] s x) by reflexivity.
  assert (N1 : n_ s1 = S (n_ s)) by (unfold n_, s1; cbn; rewrite app_length; cbn; lia).
  assert (NODRAW : forall k i, nth_error (log s) k <> Some (Draw i)).
  { intros k i X. apply nth_error_In in X. apply (count_occ_In event_dec) in X. fold (cnt (Draw i) s) in X. rewrite i_draw0, NI in X. cbn in X. lia. }
  rewrite NS in i_select0. destruct (didranges s) eqn:DR.
  - split; [|reflexivity]. constructor; intros; rewrite ?BS2, ?cnt_add, ?paints_add; cbn [add_log s1 didstyles didranges log keyitems titles]; auto;
      try match goal with |- cnt _ _ + _ = _ => cbn [count_occ]; destruct (event_dec _ _); [discriminate|]; rewrite Nat.add_0_r; auto end.
    + apply i_draw0.
    + rewrite NS. apply i_select0.
    + change (n_ (add_log [Dynamic (length (titles s))] s1)) with (n_ s1). change (cnt (Dynamic i) s1) with (cnt (Dynamic i) s).
      rewrite i_dynamic0, N1, <- i_dr0. cbn [count_occ]. fold (n_ s). destruct (event_dec (Dynamic (n_ s)) (Dynamic i)) as [X|X].
      * injection X as <-. destruct (Nat.ltb_spec (n_ s) (n_ s)), (Nat.ltb_spec (n_ s) (S (n_ s))); cbn; lia.
      * assert (i <> n_ s) by congruence. destruct (Nat.ltb_spec i (n_ s)), (Nat.ltb_spec i (S (n_ s))); cbn; lia.
    + cbn. rewrite Nat.add_0_r. exact i_paint0.
    + rewrite BS2 in H. rewrite NI in H. discriminate.
    + rewrite BS2 in H. rewrite NK in H. discriminate.
    + exfalso. cbn [add_log s1 log] in H. destruct (Nat.lt_ge_cases k (length (log s))) as [L|L].
      * rewrite nth_error_app1 in H by exact L. apply (NODRAW _ _ H).
      * rewrite nth_error_app2 in H by exact L. apply nth_error_In in H. destruct H as [H|[]]. discriminate.
    + cbn [add_log s1 log] in H. apply in_app_iff in H. destruct H as [H|[H|[]]]; [auto|discriminate].
    + rewrite NK, i_keys0, NK. reflexivity.
  - split; [|reflexivity]. constructor; intros; rewrite ?BS; auto.
    + apply i_draw0.
    + rewrite NS. apply i_select0.
    + change (cnt (Dynamic i) s1) with (cnt (Dynamic i) s). rewrite i_dynamic0, <- i_dr0. reflexivity.
    + rewrite BS in H. rewrite NI in H. discriminate.
    + rewrite BS in H. rewrite NK in H. discriminate.
    + destruct (NODRAW _ _ H).
    + cbn [s1 keyitems]. rewrite i_keys0, !NK. reflexivity.
Qed.

Definition paints_key (o : op) : bool := match o with Dokey | Finish => true | _ => false end.
Definition is_plot (o : op) : bool := match o with Plot _ => true | _ => false end.
Lemma op_ok o s s' : (paints_key o = true -> forall l, titled (titles s) l -> Q l) -> inv [] s -> run_op o s = Some s' ->
  inv [] s' /\ (is_plot o = false -> titles s' = titles s).
Proof.
  intros HQ I E. destruct o as [b| | | | | |i| |i| |]; cbn [run_op] in E; cbn [paints_key] in HQ.
  - destruct (plot_ok _ _ _ I E) as [A _]. split; [exact A|discriminate].
  - injection E as <-. destruct (doranges_ok [] s I) as (A & [G _] & _); auto.
  - injection E as <-. destruct (dolayout_ok [] s I) as (A & [G _] & _); auto.
  - injection E as <-. destruct (dobackground_ok [] s I) as (A & [G _] & _); auto.
  - injection E as <-. destruct (dostyles_ok [] s I) as (A & [G _] & _); auto.
  - injection E as <-. destruct (doaxes_ok [] s I) as (A & [G _] & _); auto.
  - destruct (Nat.ltb_spec i (length (titles s))); [|discriminate]. injection E as <-. destruct (doplotitem_ok [] s i) as (A & [G _] & _); auto. intros c [].
  - injection E as <-. destruct (doplot_ok s I) as (A & [G _] & _); auto.
  - destruct (Nat.ltb_spec i (length (titles s))); [|discriminate]. injection E as <-. destruct (dokeyitem_ok [] s i) as (A & [G _] & _); auto. intros c [].
  - injection E as <-. destruct (dokey_ok s (HQ eq_refl) I) as (A & [G _] & _); auto.
  - injection E as <-. destruct (finish_ok s (HQ eq_refl) I) as (A & [G _] & _); auto.
Qed.
Lemma initial_ok : inv [] initial.
Proof. constructor; intros; auto; try reflexivity; try discriminate. - destruct k; discriminate. - destruct H. Qed.
Definition run_from (s : state) (ops : list op) : option state := fold_left (fun s o => match s with None => None | Some s => run_op o s end) ops (Some s).
Lemma run_from_cons s o ops : run_from s (o :: ops) = match run_op o s with Some s' => run_from s' ops | None => None end.
Proof. unfold run_from. cbn [fold_left]. destruct (run_op o s); [reflexivity|]. induction ops; auto. Qed.
Lemma run_app ops ops' : run (ops ++ ops') = match run ops with Some s => run_from s ops' | None => None end.
Proof. unfold run, run_from. rewrite fold_left_app. destruct (fold_left _ ops _); [reflexivity|]. induction ops'; auto. Qed.
Lemma run_from_ok : forall ops s s', (forall o, In o ops -> paints_key o = true -> forall l, titled (titles s) l -> Q l) ->
  (forall o, In o ops -> is_plot o = false) \/ (forall o, In o ops -> paints_key o = false) \/ (forall l, Q l) ->
  inv [] s -> run_from s ops = Some s' -> inv [] s' /\ ((forall o, In o ops -> is_plot o = false) -> titles s' = titles s).
Proof.
  induction ops as [|o ops IH]; intros s s' HQ C I E; [injection E as <-; auto|].
  rewrite run_from_cons in E. destruct (run_op o s) as [t|] eqn:R; [|discriminate].
  destruct (op_ok o s t) as [A T]; auto. { apply HQ. now left. }
  destruct (IH t s') as [A' T']; auto.
  - intros o' O' K l HL. destruct C as [C|[C|C]]; [|rewrite C in K by (now right); discriminate|apply C].
    apply (HQ o'); auto; [now right|]. rewrite <- T by (apply C; now left). exact HL.
  - destruct C as [C|[C|C]]; [left|right; left|right; right]; intros; auto; apply C; now right.
  - split; [exact A'|]. intros F. rewrite T' by (intros; apply F; now right). apply T, F. now left.
Qed.
End Painted.

Lemma inv_weaken (Q Q' : list nat -> Prop) p s : (forall l, Q l -> Q' l) -> inv Q p s -> inv Q' p s.
Proof. intros H I. destruct I. constructor; auto. Qed.

(** Whatever is called before: after finish everything was done once, and no data was drawn before the axes, its dynamic data and the styles were there *)
Theorem graph_steps_once ops s : run (ops ++ [Finish]) = Some s ->
  (forall i, i < length (titles s) ->
    count_occ event_dec (log s) (Draw i) = 1 /\ count_occ event_dec (log s) (Select i) = 1 /\ count_occ event_dec (log s) (Dynamic i) = 1) /\
  (forall i, length (titles s) <= i -> ~ In (Draw i) (log s)) /\
  count_occ event_dec (log s) Axes = 1 /\ count_occ event_dec (log s) Background = 1 /\ count_occ event_dec (log s) DrawAxes = 1 /\
  (exists l, filter is_paint (log s) = [PaintKey l]) /\
  (forall before i after, log s = before ++ Draw i :: after ->
    In Axes before /\ In (Dynamic i) before /\ forall j, j < length (titles s) -> In (Select j) before).
Proof.
  intros E. rewrite run_app in E. destruct (run ops) as [t|] eqn:R; [|discriminate]. set (Q := fun _ : list nat => True).
  destruct (run_from_ok Q ops initial t) as [IT _]; auto. { unfold Q. auto. } { right. right. unfold Q. auto. } { apply initial_ok. }
  rewrite run_from_cons in E. cbn [run_op run_from fold_left] in E. injection E as <-.
  destruct (finish_ok Q t) as (I & [G _] & D & DA & DK & DB); [unfold Q; auto|exact IT|].
  set (s := finish t) in *. assert (N : length (titles s) = n_ t) by (unfold n_; rewrite G; reflexivity). destruct I. unfold cnt in *. unfold n_ in i_select0, i_dynamic0.
  assert (AL : B [] s CDolayout = true) by (apply i_axes_layout0; exact DA).
  split; [|split; [|split; [|split; [|split; [|split]]]]].
  - intros i L. rewrite N in L. specialize (D i L). destruct (i_item0 i D) as [L' S]. rewrite i_draw0, i_select0, i_dynamic0, D, S, (i_layout0 AL).
    unfold n_ in L'. destruct (Nat.ltb_spec i (length (titles s))); [auto|lia].
  - intros i L X. apply (count_occ_In event_dec) in X. rewrite i_draw0 in X. destruct (B [] s (CDoplotitem i)) eqn:Y; [|cbn in X; lia].
    destruct (i_item0 i Y) as [L' _]. unfold n_ in L'. lia.
  - rewrite i_axes0, AL. reflexivity.
  - rewrite i_background0, DB. reflexivity.
  - rewrite i_drawaxes0, DA. reflexivity.
  - unfold paints in i_paint0. rewrite DK in i_paint0. cbn in i_paint0. destruct (filter is_paint (log s)) as [|x [|y r]] eqn:F; try discriminate.
    assert (X : In x (filter is_paint (log s))) by (rewrite F; now left). apply filter_In in X. destruct X as [_ X]. destruct x; try discriminate. eauto.
  - intros before i after X. specialize (i_order0 (length before) i). rewrite X in i_order0. rewrite nth_error_app2, Nat.sub_diag in i_order0 by lia.
    rewrite firstn_app, Nat.sub_diag, firstn_O, app_nil_r, firstn_all in i_order0. apply i_order0. reflexivity.
Qed.
Print Assumptions graph_steps_once.

(** Calls in another order with three items, two of them with titles *)
Example graph_steps_once_ex : exists s, run ([Plot true; Doranges; Plot false; Plot true; Dokeyitem 2; Doplotitem 1; Doaxes] ++ [Finish]) = Some s /\
  titles s = [true; false; true] /\
  log s = [AdjustStatic 0; Dynamic 0; AdjustDynamic 0; Dynamic 1; Dynamic 2; Axes; Background; Select 0; Select 1; Select 2; Draw 1; DrawAxes; Draw 0; Draw 2; PaintKey [2; 0]].
Proof. eexists. vm_compute. repeat split. Qed.

(** The key shows each item with a title once and no other, if all data is plotted before the key is done *)
Theorem key_shows_titles_partial ops1 ops2 s :
  (forall o, In o ops1 -> o <> Dokey /\ o <> Finish) -> (forall o b, In o ops2 -> o <> Plot b) ->
  run (ops1 ++ ops2) = Some s ->
  forall l, In (PaintKey l) (log s) -> NoDup l /\ forall i, In i l <-> nth i (titles s) false = true.
Proof.
  intros O1 O2 E l L. rewrite run_app in E. destruct (run ops1) as [t|] eqn:R; [|discriminate].
  assert (P1 : forall o, In o ops1 -> paints_key o = false) by (intros o O; destruct (O1 o O); destruct o; cbn; congruence).
  assert (P2 : forall o, In o ops2 -> is_plot o = false) by (intros o O; destruct o; cbn; auto; destruct (O2 _ title O eq_refl)).
  destruct (run_from_ok (fun _ => False) ops1 initial t) as [IT _]; auto. { intros o O K. rewrite P1 in K by exact O. discriminate. } { apply initial_ok. }
  destruct (run_from_ok (titled (titles t)) ops2 t s) as [IS T]; auto. { apply (inv_weaken (fun _ => False)); [intros _ []|exact IT]. }
  pose proof (i_painted _ _ _ IS l L) as K. rewrite (T P2). unfold titled in K. split.
  - apply (NoDup_count_occ Nat.eq_dec). intros i. rewrite K. destruct (nth i (titles t) false); cbn; lia.
  - intros i. rewrite (count_occ_In Nat.eq_dec), K. destruct (nth i (titles t) false); cbn; split; intros; try reflexivity; try lia; discriminate.
Qed.
Print Assumptions key_shows_titles_partial.

Example key_shows_titles_ex : exists s, run ([Plot true; Plot false; Doranges; Plot true] ++ [Doaxes; Dokeyitem 2; Dokey; Doplot]) = Some s /\ In (PaintKey [2; 0]) (log s) /\ titles s = [true; false; true].
Proof. eexists. split; [vm_compute; reflexivity|]. split; [cbn; tauto|reflexivity]. Qed.

(** A key which is done before the data is plotted stays without items although plotting is not refused *)
Theorem key_shows_titles_refuted : exists ops s i l,
  run (ops ++ [Finish]) = Some s /\ filter is_paint (log s) = [PaintKey l] /\ nth i (titles s) false = true /\ ~ In i l.
Proof. exists [Dokey; Plot true]. eexists. exists 0. exists []. split; [vm_compute; reflexivity|]. split; [reflexivity|]. split; [reflexivity|intros []]. Qed.
Print Assumptions key_shows_titles_refuted.

(** Plotting is refused exactly after the styles were selected *)
Theorem plot_refused ops s b : run ops = Some s -> (plot b s = None <-> In CDostyles (calls s)).
Proof.
  intros R. destruct (run_from_ok (fun _ => True) ops initial s) as [I _]; auto. { apply initial_ok. }
  unfold plot. rewrite (i_ds _ _ _ I). unfold B. cbn. rewrite andb_true_r. destruct (inb CDostyles (calls s)) eqn:X.
  - apply inb_in in X. tauto.
  - split; [discriminate|]. intros H. apply inb_in in H. congruence.
Qed.
Print Assumptions plot_refused.

Example plot_refused_ex : (exists s, run [Plot true; Doranges; Dolayout; Plot true] = Some s) /\ run [Plot true; Dokeyitem 0; Plot true] = None.
Proof. split; [eexists; vm_compute; reflexivity|vm_compute; reflexivity]. Qed.
