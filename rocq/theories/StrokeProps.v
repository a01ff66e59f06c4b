(** Properties of stroke styles (pyx/style.py). *)
From Coq Require Import ZArith String List Bool Lia Reals Lra.
From Verif Require Import AttrModel AttrSpec AttrProofs StrokeModel SymbolProps.
Import ListNotations.
Open Scope R_scope.

(** ** C142: the styles of a list *)
(** what the last style says about a part of the graphics state, for the styles in the order in which they are given *)
Definition last_of {A} (f : sstyle -> option A) (l : list sstyle) (d : A) : A := fold_left (fun a s => match f s with Some v => v | None => a end) l d.
Definition width_of (s : sstyle) : option R := match s with Width w => Some w | _ => None end.
Definition cap_of (s : sstyle) : option Z := match s with Cap v => Some v | LineStyle c _ => Some c | _ => None end.
Definition join_of (s : sstyle) : option Z := match s with Join v => Some v | _ => None end.
Definition miter_of (s : sstyle) : option R := match s with Miter v => Some v | _ => None end.
Definition dash_of (s : sstyle) : option (option dash) := match s with Dash d => Some (Some d) | LineStyle _ d => Some (Some d) | _ => None end.

Lemma last_app : forall A (f : sstyle -> option A) l r d, last_of f (l ++ r) d = last_of f r (last_of f l d).
Proof. intros. unfold last_of. apply fold_left_app. Qed.
Lemma last_filter : forall A (f : sstyle -> option A) keep l d, (forall s, keep s = false -> f s = None) -> last_of f (filter keep l) d = last_of f l d.
Proof.
  intros A f keep l d K. unfold last_of. revert d. induction l as [|s l IH]; intros d; [reflexivity|]. cbn [filter fold_left]. destruct (keep s) eqn:E; cbn [fold_left]; [apply IH|].
  rewrite (K s E). apply IH.
Qed.

(** merging on the level of the styles *)
Definition same_class (s t : sstyle) : bool :=
  match s, t with Cap _, Cap _ | Join _, Join _ | Miter _, Miter _ | Dash _, Dash _ | LineStyle _ _, LineStyle _ _ | Width _, Width _ => true | _, _ => false end.
Definition is_dash (s : sstyle) : bool := match s with Dash _ | LineStyle _ _ => true | _ => false end.
Definition is_width (s : sstyle) : bool := match s with Width _ => true | _ => false end.

Section numbered.
Variable ls : list sstyle.
Definition known (a : attr) : Prop := exists s, nth_error ls (aid a) = Some s /\ a = to_attr (aid a) s.
Definition look (a : attr) : list sstyle := match nth_error ls (aid a) with Some s => [s] | None => [] end.
Lemma look_known : forall a s, nth_error ls (aid a) = Some s -> look a = [s].
Proof. intros a s E. unfold look. rewrite E. reflexivity. Qed.
Lemma filter_look : forall c keep M, Forall known M -> (forall i s, negb (isinstance (to_attr i s) c) = keep s) ->
  flat_map look (filter (fun a => negb (isinstance a c)) M) = filter keep (flat_map look M).
Proof.
  intros c keep M F K. induction F as [|a M (s & N & E) F IH]; [reflexivity|]. cbn [filter flat_map]. rewrite (look_known a s N).
  assert (KK : negb (isinstance a c) = keep s) by (rewrite E; apply K). rewrite KK. cbn [app filter]. destruct (keep s); cbn [flat_map]; rewrite ?(look_known a s N), IH; reflexivity.
Qed.
Lemma merge_look : forall M i b, Forall known M -> nth_error ls i = Some b ->
  exists l1 l2, flat_map look M = l1 ++ l2 /\
  flat_map look (merge (to_attr i b) M) = filter (fun s => negb (same_class b s)) l1 ++ b :: filter (fun s => negb (same_class b s)) l2 /\
  (is_width b = false -> l2 = []) /\ (is_width b = true -> Forall (fun s => is_dash s = false) l1) /\ Forall known (merge (to_attr i b) M).
Proof.
  intros M i b F N.
  assert (KN : known (to_attr i b)) by (exists b; destruct b; cbn [to_attr aid]; split; auto).
  assert (LB : look (to_attr i b) = [b]) by (apply look_known; destruct b; exact N).
  assert (FF : forall f, Forall known (filter f M)) by (intros f; apply Forall_forall; intros x X; apply filter_In in X; rewrite Forall_forall in F; apply F; tauto).
  destruct (is_width b) eqn:W.
  - destruct b; try discriminate. cbn [to_attr] in *. unfold merge. cbn [akind].
    destruct (sbe_loop_spec (mkattr i ["linewidth"; "strokestyle"]%string (SortBeforeExcl "linewidth"%string ["dash"; "linestyle"]%string)) "linewidth"%string ["dash"; "linestyle"]%string M)
      as (l1 & l2 & E & E2 & F1 & F2).
    rewrite E2, E. rewrite E in F. apply Forall_app in F. destruct F as [K1 K2]. exists (flat_map look l1), (flat_map look l2). split; [apply flat_map_app|].
    assert (KEEP : forall j s, negb (isinstance (to_attr j s) "linewidth"%string) = negb (same_class (Width w) s)) by (intros j []; reflexivity).
    split; [|split; [discriminate|split]].
    + rewrite flat_map_app. cbn [flat_map]. rewrite LB. unfold notin_cls. rewrite (filter_look _ _ l1 K1 KEEP), (filter_look _ _ l2 K2 KEEP). reflexivity.
    + intros _. clear - F1 K1. induction K1 as [|a l1 (s & N & E) K1 IH]; [constructor|]. cbn [flat_map]. rewrite (look_known a s N). cbn [app]. constructor.
      * specialize (F1 a (or_introl eq_refl)). rewrite E in F1. destruct s; try reflexivity; discriminate.
      * apply IH. intros x X. apply F1. right. exact X.
    + apply Forall_app. split; [|constructor; [exact KN|]]; apply Forall_forall; intros x X; apply filter_In in X; destruct X as [X _].
      * rewrite Forall_forall in K1. now apply K1.
      * rewrite Forall_forall in K2. now apply K2.
  - exists (flat_map look M), []. split; [symmetry; apply app_nil_r|].
    assert (M1 : exists c, akind (to_attr i b) = Excl c /\ forall j s, negb (isinstance (to_attr j s) c) = negb (same_class b s)).
    { destruct b; try discriminate; eexists; (split; [reflexivity|]); intros j []; reflexivity. }
    destruct M1 as (c & AK & KEEP). unfold merge. rewrite AK. split; [|split; [reflexivity|split; [discriminate|]]].
    + rewrite flat_map_app, (filter_look c _ M F KEEP). cbn [flat_map filter]. rewrite LB. reflexivity.
    + apply Forall_app. split; [apply FF|constructor; [exact KN|constructor]].
Qed.
End numbered.

(** line widths are before dashes, and each kind occurs once *)
Definition widths_first (l : list sstyle) : Prop := forall l1 s l2, l = l1 ++ s :: l2 -> is_width s = true -> Forall (fun t => is_dash t = false /\ is_width t = false) l1 /\ Forall (fun t => is_width t = false) l2.

Lemma number_app : forall l i r, number i (l ++ r) = number i l ++ number (i + List.length l) r.
Proof. induction l as [|s l IH]; intros i r; cbn [app number List.length]; [now rewrite Nat.add_0_r|]. rewrite IH. replace (S i + List.length l)%nat with (i + S (List.length l))%nat by lia. reflexivity. Qed.
Lemma merged_invariant : forall ls l r, ls = l ++ r ->
  let M := mergeattrs (number 0 l) in let S := flat_map (look ls) M in
  Forall (known ls) M /\ widths_first S /\
  (forall d, last_of width_of S d = last_of width_of l d) /\ (forall d, last_of cap_of S d = last_of cap_of l d) /\ (forall d, last_of join_of S d = last_of join_of l d) /\
  (forall d, last_of miter_of S d = last_of miter_of l d) /\ (forall d, last_of dash_of S d = last_of dash_of l d).
Proof.
  intros ls l. induction l as [|b l IH] using rev_ind; intros r E; cbv zeta.
  - repeat split; try constructor; destruct l1; discriminate.
  - rewrite <- app_assoc in E. specialize (IH _ E). cbv zeta in IH. rewrite number_app, Nat.add_0_l. cbn [number]. rewrite mergeattrs_snoc.
    set (M := mergeattrs (number 0 l)) in *. destruct IH as (K & WF & LW & LC & LJ & LM & LD).
    assert (N : nth_error ls (List.length l) = Some b) by (rewrite E, nth_error_app2 by lia; rewrite Nat.sub_diag; reflexivity).
    destruct (merge_look ls M (List.length l) b K N) as (l1 & l2 & S1 & S2 & NW & WD & KK).
    split; [exact KK|]. rewrite S2. set (keep := fun s => negb (same_class b s)) in *.
    assert (G : forall A (f : sstyle -> option A), (is_width b = true -> forall s, f s <> None -> is_width s = false) -> (forall s, same_class b s = true -> f b = None -> f s = None) ->
       forall d, last_of f (filter keep l1 ++ b :: filter keep l2) d = last_of f (l ++ [b]) d -> True) by auto. clear G.
    assert (OTHER : forall A (f : sstyle -> option A), (forall d, last_of f (flat_map (look ls) M) d = last_of f l d) -> (forall s, same_class b s = true -> f s <> None -> f b <> None) ->
       (is_width b = true -> f b = None) -> forall d, last_of f (filter keep l1 ++ b :: filter keep l2) d = last_of f (l ++ [b]) d).
    { intros A f LF SC WB d. rewrite (last_app _ f l [b]), <- LF, S1. destruct (f b) as [v|] eqn:FB.
      - destruct (is_width b) eqn:W; [specialize (WB eq_refl); discriminate|]. rewrite (NW eq_refl). cbn [filter]. rewrite !last_app. unfold last_of. cbn [fold_left]. rewrite FB. reflexivity.
      - assert (KF : forall s, keep s = false -> f s = None).
        { intros s KS. unfold keep in KS. apply negb_false_iff in KS. destruct (f s) eqn:FS; [|reflexivity]. exfalso. apply (SC s KS); [congruence|exact eq_refl]. }
        change (b :: filter keep l2) with ([b] ++ filter keep l2). rewrite !last_app. rewrite !(last_filter _ f keep) by exact KF.
        unfold last_of at 2 4. cbn [fold_left]. rewrite FB. reflexivity. }
    split; [|split; [|split; [|split; [|split]]]].
    + (* widths first *) destruct (is_width b) eqn:W.
      * specialize (WD eq_refl).
        assert (NOW : forall l0, Forall (fun t => is_width t = false) (filter keep l0)).
        { intros l0. apply Forall_forall. intros x X. apply filter_In in X. destruct X as [_ X]. unfold keep in X. destruct b; try discriminate. destruct x; try reflexivity. discriminate. }
        intros m1 s m2 EQ WS.
        assert (EX : m1 = filter keep l1 /\ s = b /\ m2 = filter keep l2).
        { clear - EQ WS NOW. assert (P1 := NOW l1). assert (P2 := NOW l2). revert m1 EQ. induction P1 as [|x p X P1 IH]; intros m1 EQ.
          - destruct m1 as [|y m1]; cbn [app] in EQ; [injection EQ as <- <-; repeat split; reflexivity|]. exfalso. injection EQ as <- EQ.
            assert (In s (filter keep l2)) by (rewrite EQ; apply in_or_app; right; left; reflexivity). rewrite Forall_forall in P2. rewrite (P2 s) in WS by assumption. discriminate.
          - destruct m1 as [|y m1]; cbn [app] in EQ; [injection EQ as <- <-; congruence|]. injection EQ as <- EQ. destruct (IH m1 EQ) as (-> & -> & ->). repeat split. }
        destruct EX as (-> & -> & ->). split; [|apply NOW]. apply Forall_forall. intros x X. split.
        -- apply filter_In in X. rewrite Forall_forall in WD. apply WD. tauto.
        -- pose proof (NOW l1) as Q. rewrite Forall_forall in Q. now apply Q.
      * rewrite (NW eq_refl) in *. cbn [filter]. rewrite app_nil_r in S1.
        intros m1 s m2 EQ WS.
        (* s is in the filtered list, since b is no width *)
        destruct m2 as [|z m2 _] using rev_ind.
        -- apply app_inj_tail in EQ. destruct EQ as [_ EQ]. subst s. congruence.
        -- assert (EQ2 : filter keep l1 ++ [b] = (m1 ++ s :: m2) ++ [z]) by (rewrite EQ, <- app_assoc; reflexivity). apply app_inj_tail in EQ2. destruct EQ2 as [EQ2 <-].
           assert (UNF : forall p q1 q2, filter keep p = q1 ++ s :: q2 -> exists p1 p2, p = p1 ++ s :: p2 /\ filter keep p1 = q1 /\ filter keep p2 = q2).
           { clear. induction p as [|x p IH]; intros q1 q2 H; [destruct q1; discriminate|]. cbn [filter] in H. destruct (keep x) eqn:KX.
             - destruct q1 as [|y q1]; cbn [app] in H; injection H as <- H.
               + exists [], p. repeat split. exact H.
               + destruct (IH _ _ H) as (p1 & p2 & -> & A & B). exists (x :: p1), p2. cbn [app filter]. rewrite KX, A. repeat split; exact B.
             - destruct (IH _ _ H) as (p1 & p2 & -> & A & B). exists (x :: p1), p2. cbn [app filter]. rewrite KX. repeat split; assumption. }
           destruct (UNF _ _ _ EQ2) as (p1 & p2 & P & A & B). rewrite S1 in WF. destruct (WF p1 s p2 P WS) as [W1 W2].
           split; [rewrite <- A|apply Forall_app; split; [rewrite <- B|constructor; [exact W|constructor]]]; apply Forall_forall; intros x X; apply filter_In in X; destruct X as [X _].
           ++ rewrite Forall_forall in W1. now apply W1.
           ++ rewrite Forall_forall in W2. now apply W2.
    + intros d. destruct (is_width b) eqn:W.
      * destruct b; try discriminate. rewrite last_app. change (Width w :: filter keep l2) with ([Width w] ++ filter keep l2). rewrite !last_app.
        assert (NW2 : forall p d, last_of width_of (filter keep p) d = d).
        { clear. induction p as [|x p IH]; intros d; [reflexivity|]. cbn [filter]. destruct x; cbn [keep same_class negb]; unfold last_of in *; cbn [fold_left width_of]; apply IH. }
        rewrite !NW2. reflexivity.
      * apply OTHER; [exact LW| |congruence]. intros s SC FS. destruct b, s; cbn in *; congruence.
    + intros d. apply OTHER; [exact LC| |destruct b; cbn; congruence]. intros s SC FS. destruct b, s; cbn in *; congruence.
    + intros d. apply OTHER; [exact LJ| |destruct b; cbn; congruence]. intros s SC FS. destruct b, s; cbn in *; congruence.
    + intros d. apply OTHER; [exact LM| |destruct b; cbn; congruence]. intros s SC FS. destruct b, s; cbn in *; congruence.
    + intros d. apply OTHER; [exact LD| |destruct b; cbn; congruence]. intros s SC FS. destruct b, s; cbn in *; congruence.
Qed.

Lemma process_state : forall S g, widths_first S ->
  fold_left process S g = let w := last_of width_of S (g_width g) in
    mkgs w (last_of cap_of S (g_cap g)) (last_of join_of S (g_join g)) (last_of miter_of S (g_miter g))
      (match last_of dash_of S None with Some d => dash_out w d | None => g_dash g end).
Proof.
  intros S. induction S as [|b S IH] using rev_ind; intros g WF; cbv zeta; [destruct g; reflexivity|].
  assert (WF' : widths_first S).
  { intros l1 s l2 E W. destruct (WF l1 s (l2 ++ [b])) as [A B]; [rewrite E, <- app_assoc; reflexivity|exact W|]. split; [exact A|]. apply Forall_app in B. tauto. }
  rewrite fold_left_app, (IH g WF'). cbv zeta. rewrite !last_app. cbn [fold_left].
  assert (ONE : forall A (f : sstyle -> option A) d, last_of f [b] d = match f b with Some v => v | None => d end) by reflexivity. rewrite !ONE. clear ONE.
  destruct b; cbn [process width_of cap_of join_of miter_of dash_of g_width g_cap g_join g_miter g_dash]; try reflexivity.
  (* a width at the end: no dashes before it *)
  destruct (WF S (Width w) [] eq_refl eq_refl) as [A _].
  assert (ND : last_of dash_of S None = None).
  { clear - A. unfold last_of. induction A as [|x l [X _] A IHA]; [reflexivity|]. cbn [fold_left]. destruct x; try discriminate; exact IHA. }
  rewrite ND. reflexivity.
Qed.

(** the state in which a path is stroked: line width, cap, join, miter limit and dash are those of the last given style which sets them (line styles set cap and dash), those of the
    context if there is none, and the dash is scaled by the resulting line width wherever the line width is given in the list *)
Theorem stroke_last_wins : forall l g,
  let r := stroke_state g l in
  g_width r = last_of width_of l (g_width g) /\ g_cap r = last_of cap_of l (g_cap g) /\ g_join r = last_of join_of l (g_join g) /\ g_miter r = last_of miter_of l (g_miter g) /\
  g_dash r = match last_of dash_of l None with Some d => dash_out (last_of width_of l (g_width g)) d | None => g_dash g end.
Proof.
  intros l g. cbv zeta. unfold stroke_state, merged. destruct (merged_invariant l l [] (eq_sym (app_nil_r l))) as (_ & WF & A & B & C & D & E).
  change (flat_map (fun a => match nth_error l (aid a) with Some s => [s] | None => [] end) (mergeattrs (number 0 l))) with (flat_map (look l) (mergeattrs (number 0 l))).
  rewrite (process_state _ g WF). cbn [g_width g_cap g_join g_miter g_dash]. rewrite A, B, C, D, E. repeat split.
Qed.
Print Assumptions stroke_last_wins.
Example stroke_last_wins_ex :
  merged [Dash (mkdash [3] 0 true); Width 1; dotted; Cap 2; Width 2] = [Width 2; Dash (mkdash [3] 0 true); dotted; Cap 2] /\
  stroke_state (mkgs 1 0 0 10 ([], 0)) [dotted; Width 3; Cap 2] = mkgs 3 2 0 10 ([0 * 3 / defaultlinewidth_pt; 2 * 3 / defaultlinewidth_pt], 0).
Proof. split; reflexivity. Qed.

(** ** dashes *)
(** the pattern is used cyclically and its elements are alternately dashes and gaps *)
Fixpoint upto (p : list R) (k : nat) : R := match k with O => 0 | S j => upto p j + nth (j mod List.length p) p 0 end.
(** whether the point at the arc length s is drawn for an array and an offset of PostScript and PDF; an empty array is a solid line *)
Definition drawn (o : list R * R) (s : R) : Prop := fst o = [] \/ exists j, upto (fst o) (2 * j) <= s + snd o <= upto (fst o) (2 * j + 1).
(** for the attributes of SVG: an array of odd length is repeated once to get one of even length; dashes have even places in the repeated array *)
Definition svg_array (p : list R) : list R := if Nat.even (List.length p) then p else p ++ p.
Definition svg_drawn (o : option (list R * R)) (s : R) : Prop :=
  match o with None => True | Some (p, off) => drawn (svg_array p, off) s end.
Lemma upto_double : forall p k, p <> [] -> upto (p ++ p) k = upto p k.
Proof.
  intros p k NE. induction k as [|k IH]; [reflexivity|]. cbn [upto]. rewrite IH. f_equal. rewrite app_length. assert (0 < List.length p)%nat by (destruct p; [congruence|cbn; lia]).
  set (n := List.length p) in *. assert (B : (k mod (n + n) < n + n)%nat) by (apply Nat.mod_upper_bound; lia).
  assert (M : (k mod n = (k mod (n + n)) mod n)%nat).
  { rewrite (Nat.div_mod k (n + n)) at 1 by lia. replace ((n + n) * (k / (n + n)) + k mod (n + n))%nat with (k mod (n + n) + (2 * (k / (n + n))) * n)%nat by lia. apply Nat.mod_add. lia. }
  destruct (Nat.lt_ge_cases (k mod (n + n)) n) as [L|L].
  - rewrite app_nth1 by (unfold n in *; lia). rewrite M, (Nat.mod_small (k mod (n + n))) by lia. reflexivity.
  - rewrite app_nth2 by (unfold n in *; lia). fold n. rewrite M. f_equal.
    clear M. generalize dependent (k mod (n + n))%nat. intros x B L. replace x with (x - n + 1 * n)%nat at 2 by lia. rewrite Nat.mod_add by lia. rewrite Nat.mod_small by lia. reflexivity.
Qed.
(** PostScript, PDF and SVG draw the same dashes *)
Theorem dash_outputs : forall lw d s, drawn (dash_out lw d) s <-> svg_drawn (svg_dash lw d) s.
Proof.
  intros lw d s. unfold svg_dash. destruct (dash_out lw d) as [[|x p] off] eqn:E.
  - cbn [svg_drawn]. split; [auto|]. intros _. left. reflexivity.
  - cbn [svg_drawn]. unfold svg_array. destruct (Nat.even (List.length (x :: p))); [tauto|]. unfold drawn. cbn [fst snd].
    split; intros [H|(j & H)]; try discriminate; right; exists j; [rewrite !upto_double by discriminate|rewrite !upto_double in H by discriminate]; exact H.
Qed.
Print Assumptions dash_outputs.
Lemma upto_scale : forall p f k, upto (map (fun e => e * f) p) k = f * upto p k.
Proof.
  intros p f k. induction k as [|k IH]; cbn [upto]; [ring|]. rewrite IH, map_length. pose proof (map_nth (fun e => e * f) p 0 (k mod List.length p)) as M. cbv beta in M.
  rewrite Rmult_0_l in M. rewrite M. ring.
Qed.
Lemma dlw_pos : 0 < defaultlinewidth_pt.
Proof. unfold defaultlinewidth_pt. lra. Qed.
Lemma Rdlw : forall e, e * defaultlinewidth_pt / defaultlinewidth_pt = e.
Proof. intros e. pose proof dlw_pos. field. lra. Qed.
(** relative lengths without offset: a line which is f times as wide has the dashes stretched by f; with the default line width the pattern is the given one; other lengths do
    not depend on the line width *)
Theorem dash_relative_partial : forall d lw,
  (forall f s, 0 < f -> d_rel d = true -> d_offset d = 0 -> drawn (dash_out (f * lw) d) (f * s) <-> drawn (dash_out lw d) s) /\
  dash_out defaultlinewidth_pt d = (d_pattern d, d_offset d) /\ (d_rel d = false -> dash_out lw d = (d_pattern d, d_offset d)).
Proof.
  intros [p off rel] lw. unfold dash_out. cbn [d_pattern d_offset d_rel]. split; [|split].
  - intros f s F -> ->. unfold drawn. cbn [fst snd].
    replace (map (fun e => e * (f * lw) / defaultlinewidth_pt) p) with (map (fun e => e * f) (map (fun e => e * lw / defaultlinewidth_pt) p)) by (rewrite map_map; apply map_ext; intros e; unfold Rdiv; ring).
    set (q := map (fun e => e * lw / defaultlinewidth_pt) p). split; intros [H|(j & H)].
    + left. destruct q; [reflexivity|discriminate].
    + right. exists j. rewrite !upto_scale in H. nra.
    + left. rewrite H. reflexivity.
    + right. exists j. rewrite !upto_scale. nra.
  - f_equal. destruct rel; [|reflexivity]. rewrite <- (map_id p) at 2. apply map_ext. intros e. apply Rdlw.
  - intros ->. reflexivity.
Qed.
Print Assumptions dash_relative_partial.
Example dash_ex : drawn (dash_out defaultlinewidth_pt (mkdash [2] 0 true)) 5 /\ ~ drawn (dash_out defaultlinewidth_pt (mkdash [2] 0 true)) 3 /\
  drawn (dash_out (3 * defaultlinewidth_pt) (mkdash [2] 0 true)) 15.
Proof.
  assert (U : forall k, upto [2] k = 2 * INR k).
  { induction k as [|k IH]; [cbn; ring|]. cbn [upto List.length]. rewrite Nat.mod_1_r, IH, S_INR. cbn [nth]. ring. }
  assert (D : forall s, drawn ([2], 0) s <-> exists j, 4 * INR j <= s <= 4 * INR j + 2).
  { intros s. unfold drawn. cbn [fst snd]. split.
    - intros [H|(j & H)]; [discriminate|]. exists j. rewrite !U, plus_INR, mult_INR in H. change (INR 2) with 2 in H. change (INR 1) with 1 in H. lra.
    - intros (j & H). right. exists j. rewrite !U, plus_INR, mult_INR. change (INR 2) with 2. change (INR 1) with 1. lra. }
  destruct (dash_relative_partial (mkdash [2] 0 true) defaultlinewidth_pt) as (A & B & _). cbn [d_pattern d_offset] in B. rewrite B. split; [|split].
  - apply D. exists 1%nat. change (INR 1) with 1. lra.
  - intros H. apply D in H. destruct H as (j & H). destruct j as [|j]; [change (INR 0) with 0 in H; lra|]. rewrite S_INR in H. pose proof (pos_INR j). lra.
  - replace 15 with (3 * 5) by lra. apply A; [lra|reflexivity|reflexivity|]. rewrite B. apply D. exists 1%nat. change (INR 1) with 1. lra.
Qed.
(** the offset is not relative: with an offset the dashes of a wide line are not the stretched ones *)
Theorem dash_offset_refuted : let d := mkdash [2] 2 true in
  drawn (dash_out defaultlinewidth_pt d) (5 / 2) /\ ~ drawn (dash_out (2 * defaultlinewidth_pt) d) (2 * (5 / 2)).
Proof.
  assert (U : forall c k, upto [c] k = c * INR k).
  { intros c. induction k as [|k IH]; [cbn; ring|]. cbn [upto List.length]. rewrite Nat.mod_1_r, IH, S_INR. cbn [nth]. ring. }
  assert (D : forall c o s, drawn ([c], o) s <-> exists j, 2 * c * INR j <= s + o <= 2 * c * INR j + c).
  { intros c o s. unfold drawn. cbn [fst snd]. split.
    - intros [H|(j & H)]; [discriminate|]. exists j. rewrite !U, plus_INR, mult_INR in H. change (INR 2) with 2 in H. change (INR 1) with 1 in H. lra.
    - intros (j & H). right. exists j. rewrite !U, plus_INR, mult_INR. change (INR 2) with 2. change (INR 1) with 1. lra. }
  cbv zeta. unfold dash_out. cbn [d_rel d_pattern d_offset map].
  replace (2 * defaultlinewidth_pt / defaultlinewidth_pt) with 2 by (symmetry; apply Rdlw).
  replace (2 * (2 * defaultlinewidth_pt) / defaultlinewidth_pt) with 4 by (pose proof dlw_pos; field; lra). rewrite !D. split.
  - exists 1%nat. change (INR 1) with 1. lra.
  - intros (j & H). destruct j as [|[|j]]; [change (INR 0) with 0 in H; lra|change (INR 1) with 1 in H; lra|]. rewrite !S_INR in H. pose proof (pos_INR j). lra.
Qed.
Print Assumptions dash_offset_refuted.

(** ** C143: named styles *)
(** the ratio of the length of a miter and the line width at a join with the angle phi, and the rule of PostScript, PDF and SVG: a miter longer than the limit is cut *)
Definition miter_cut (limit phi : R) : Prop := 1 / sin (phi / 2) > limit.
Lemma half_angle : forall phi, 0 < phi <= PI -> 0 < sin (phi / 2).
Proof. intros phi H. apply sin_gt_0; lra. Qed.
(** the limit named by an angle cuts the miters of exactly the joins with a smaller angle *)
Theorem miter_names : forall deg phi, 0 < deg <= 180 -> 0 < phi <= PI -> miter_cut (lessthandeg deg) phi <-> phi * 180 / PI < deg.
Proof.
  intros deg phi D P. unfold miter_cut, lessthandeg. pose proof PI_RGT_0 as PI0.
  assert (E : PI * deg / 360 = (deg * PI / 180) / 2) by field. rewrite E. set (x := deg * PI / 180).
  assert (X : 0 < x <= PI).
  { unfold x. split; [apply Rmult_lt_0_compat; [apply Rmult_lt_0_compat; lra|lra]|]. apply (Rmult_le_reg_r 180); [lra|]. unfold Rdiv. rewrite Rmult_assoc, Rinv_l by lra. nra. }
  pose proof (half_angle x X) as SX. pose proof (half_angle phi P) as SP.
  assert (L : 1 / sin (phi / 2) > 1 / sin (x / 2) <-> sin (phi / 2) < sin (x / 2)).
  { unfold Rdiv. rewrite !Rmult_1_l. split; intros H.
    - apply Rnot_le_lt. intros C. apply Rinv_le_contravar in C; lra.
    - apply Rinv_lt_contravar; [nra|exact H]. }
  rewrite L. assert (Q : phi * 180 / PI < deg <-> phi < x).
  { unfold x. split; intros H.
    - apply (Rmult_lt_reg_r (180 / PI)); [apply Rdiv_lt_0_compat; lra|]. replace (deg * PI / 180 * (180 / PI)) with deg by (field; lra). unfold Rdiv in *. rewrite <- Rmult_assoc. exact H.
    - apply (Rmult_lt_reg_r (PI / 180)); [apply Rdiv_lt_0_compat; lra|]. replace (phi * 180 / PI * (PI / 180)) with phi by (field; lra). unfold Rdiv in *. rewrite <- Rmult_assoc. exact H. }
  rewrite Q. split; intros H.
  - apply Rnot_le_lt. intros C. destruct C as [C| <-]; [|lra]. assert (sin (x / 2) < sin (phi / 2)) by (apply sin_increasing_1; lra). lra.
  - apply sin_increasing_1; lra.
Qed.
Print Assumptions miter_names.
(** the default limit cuts all miters up to 11 degrees and none from 12 degrees on *)
Theorem miter_default : forall phi, 0 < phi <= PI -> (phi * 180 / PI <= 11 -> miter_cut lessthan11deg phi) /\ (12 <= phi * 180 / PI -> ~ miter_cut lessthan11deg phi).
Proof.
  intros phi P. unfold miter_cut, lessthan11deg. pose proof (half_angle phi P) as SP. pose proof pi_bounds as PB.
  assert (E : phi = phi * 180 / PI * PI / 180) by (field; lra). set (deg := phi * 180 / PI) in *. split; intros H.
  - assert (phi / 2 < 0.1) by (rewrite E; nra). pose proof (sin_lt_x (phi / 2) ltac:(lra)) as S. unfold Rdiv at 1. rewrite Rmult_1_l. apply Rlt_gt. rewrite <- (Rinv_inv 10).
    apply Rinv_lt_contravar; [|lra]. apply Rmult_lt_0_compat; lra.
  - assert (A : 0.1047 <= phi / 2) by (rewrite E; nra). intros C.
    assert (S : 0.1 <= sin 0.1047).
    { destruct (SIN_bound 0.1047) as [_ _]. pose proof (proj1 (sin_bound 0.1047 0 ltac:(lra) ltac:(lra))) as B. unfold sin_approx, sin_term in B. cbn [Nat.mul Nat.add sum_f_R0 pow] in B.
      change (fact 1) with 1%nat in B. change (fact 3) with 6%nat in B. change (INR 1) with 1 in B. replace (INR 6) with 6 in B by (cbn; ring). lra. }
    assert (M : sin 0.1047 <= sin (phi / 2)) by (apply sin_incr_1; lra).
    assert (1 / sin (phi / 2) <= 10); [|lra]. unfold Rdiv. rewrite Rmult_1_l. rewrite <- (Rinv_inv 10). apply Rinv_le_contravar; lra.
Qed.
Print Assumptions miter_default.
Example miter_ex : miter_cut (lessthandeg 60) (PI / 6) /\ ~ miter_cut (lessthandeg 60) (PI / 3) /\ ~ miter_cut (lessthandeg 180) PI.
Proof.
  pose proof PI_RGT_0 as P. split; [|split].
  - apply miter_names; try lra. replace (PI / 6 * 180 / PI) with 30 by (field; lra). lra.
  - rewrite miter_names by lra. replace (PI / 3 * 180 / PI) with 60 by (field; lra). lra.
  - rewrite miter_names by lra. replace (PI * 180 / PI) with 180 by (field; lra). lra.
Qed.

(** the named line widths: each one is the one before times the root of 2, the normal one is the sixth *)
Theorem linewidth_names : forall w, nth 5 (linewidths w) 0 = w /\ List.length (linewidths w) = 12%nat /\
  forall i, (i < 11)%nat -> nth (i + 1) (linewidths w) 0 = nth i (linewidths w) 0 * sqrt 2.
Proof.
  intros w. split; [reflexivity|split; [reflexivity|]].
  assert (S2 : sqrt 2 * sqrt 2 = 2) by (apply sqrt_sqrt; lra). assert (P : 0 < sqrt 2) by (apply sqrt_lt_R0; lra).
  assert (S4 : sqrt 4 = 2) by (replace 4 with (2 * 2) by lra; apply sqrt_square; lra).
  assert (S8 : sqrt 8 = 2 * sqrt 2) by (replace 8 with (4 * 2) by lra; rewrite sqrt_mult_alt by lra; rewrite S4; reflexivity).
  assert (S16 : sqrt 16 = 4) by (replace 16 with (4 * 4) by lra; apply sqrt_square; lra).
  assert (S32 : sqrt 32 = 4 * sqrt 2) by (replace 32 with (16 * 2) by lra; rewrite sqrt_mult_alt by lra; rewrite S16; reflexivity).
  assert (S64 : sqrt 64 = 8) by (replace 64 with (8 * 8) by lra; apply sqrt_square; lra).
  intros i H. unfold linewidths. rewrite S4, S8, S16, S32, S64.
  assert (S2' : forall x, x * sqrt 2 * sqrt 2 = 2 * x) by (intros x; rewrite Rmult_assoc, S2; ring).
  assert (V : / sqrt 2 = sqrt 2 / 2) by (apply (Rmult_eq_reg_r (sqrt 2)); [|lra]; rewrite Rinv_l by lra; unfold Rdiv; lra).
  assert (V2 : forall c, c <> 0 -> / (c * sqrt 2) = sqrt 2 / (2 * c)) by (intros c C; rewrite Rinv_mult, V; field; exact C).
  unfold Rdiv. rewrite !V2, V by lra.
  assert (G : forall x y, x = 2 * y -> w * x = w * (y * sqrt 2) * sqrt 2) by (intros x y ->; rewrite (Rmult_assoc w), (S2' y); ring).
  destruct i as [|[|[|[|[|[|[|[|[|[|[|i]]]]]]]]]]]; cbn [Nat.add nth]; try lia; unfold Rdiv; try (rewrite (Rmult_comm (sqrt 2)); apply G; lra); try (apply G; lra); try lra.
  - rewrite <- (Rmult_1_r w) at 1. rewrite (Rmult_comm (sqrt 2)). apply G. lra.
  - rewrite S2'. lra.
Qed.
Print Assumptions linewidth_names.
