(** Proofs about what canvases write to PostScript *)
From Coq Require Import ZArith Reals List Bool.
From Verif Require Import TrafoModel CanvasModel CanvasSpec.
Import ListNotations.

Section Induction.
  Variable P : item -> Prop.
  Hypothesis HT : forall k f, P (Text k f).
  Hypothesis HP : forall p sp st ss fs l, Forall P l -> P (Path p sp st ss fs l).
  Hypothesis HC : forall c l, Forall P l -> P (Canvas c l).
  Fixpoint item_all (it : item) : P it :=
    match it with
    | Text k f => HT k f
    | Path p sp st ss fs l => HP p sp st ss fs l ((fix go (l : list item) : Forall P l :=
        match l with [] => Forall_nil P | i :: r => Forall_cons i (item_all i) (go r) end) l)
    | Canvas c l => HC c l ((fix go (l : list item) : Forall P l :=
        match l with [] => Forall_nil P | i :: r => Forall_cons i (item_all i) (go r) end) l)
    end.
End Induction.

Lemma run_app {O M} (step : O -> M -> option (M * list mark)) a b m :
  run step (a ++ b) m = match run step a m with
                        | None => None
                        | Some (m', out) => match run step b m' with None => None | Some (m'', out') => Some (m'', out ++ out') end
                        end.
Proof.
  revert m. induction a as [|o a IH]; intros m; cbn.
  - destruct (run step b m) as [[m' out]|]; auto.
  - destruct (step o m) as [[m' out]|]; auto. rewrite IH. destruct (run step a m') as [[m'' o2]|]; auto.
    destruct (run step b m'') as [[m3 o3]|]; auto. now rewrite app_assoc.
Qed.

(** ** PostScript *)
Definition agrees (g : look) (x : context) (s : psstate) : Prop :=
  ctm g = p_ctm s /\ clips g = p_clips s /\ col g = p_col s /\ alpha g = p_alpha s /\ lines g = p_lines s /\ rule g = x_rule x.
Definition same (s s' : psstate) : Prop :=
  p_ctm s' = p_ctm s /\ p_clips s' = p_clips s /\ p_col s' = p_col s /\ p_alpha s' = p_alpha s /\ p_lines s' = p_lines s.
Lemma same_refl s : same s s.
Proof. repeat split. Qed.
Lemma same_trans a b c : same a b -> same b c -> same a c.
Proof. unfold same. intuition congruence. Qed.
Lemma agrees_same g x x' s s' : agrees g x s -> same s s' -> x_rule x' = x_rule x -> agrees g x' s'.
Proof. unfold agrees, same. intuition congruence. Qed.

Definition psrun := run ps_step.
Definition with_path (s : psstate) (q : path) : psstate := mkps (p_ctm s) (p_clips s) (p_col s) (p_alpha s) (p_lines s) q (p_font s).

Lemma ps_styles_run l : forall g x s st, agrees g x s ->
  exists s', psrun (ps_styles l) (s, st) = Some ((s', st), []) /\ agrees (set_styles g l) (styles_context x l) s' /\
             p_path s' = p_path s /\ p_font s' = p_font s.
Proof.
  unfold psrun, ps_styles. induction l as [|a l IH]; intros g x s st A.
  { exists s. cbn. auto. }
  cbn [flat_map]. rewrite run_app. unfold set_styles, styles_context. cbn [fold_left].
  destruct A as (A1 & A2 & A3 & A4 & A5 & A6).
  destruct a as [c|a|k v|b]; cbn [ps_style run ps_step].
  - destruct (IH (set_style g (Paint c)) x (mkps (p_ctm s) (p_clips s) c (p_alpha s) (p_lines s) (p_path s) (p_font s)) st) as (s' & R & A' & E1 & E2);
      [repeat split; auto|]. rewrite R. exists s'. cbn. auto.
  - destruct (IH (set_style g (Alpha a)) x (mkps (p_ctm s) (p_clips s) (p_col s) a (p_lines s) (p_path s) (p_font s)) st) as (s' & R & A' & E1 & E2);
      [repeat split; auto|]. rewrite R. exists s'. cbn. auto.
  - destruct (IH (set_style g (Line k v)) x (mkps (p_ctm s) (p_clips s) (p_col s) (p_alpha s) (p_lines s ++ [(k, v)]) (p_path s) (p_font s)) st) as (s' & R & A' & E1 & E2);
      [repeat split; cbn; congruence|]. rewrite R. exists s'. cbn. auto.
  - destruct (IH (set_style g (Rule b)) (mkcontext b (x_font x)) s st) as (s' & R & A' & E1 & E2);
      [repeat split; auto|]. rewrite R. exists s'. cbn. auto.
Qed.
Lemma styles_context_font x l : x_font (styles_context x l) = x_font x.
Proof.
  unfold styles_context. revert x. induction l as [|a l IH]; intros x; auto. cbn. rewrite IH. now destruct a.
Qed.
Lemma no_rule_context x l : forallb no_rule l = true -> x_rule (styles_context x l) = x_rule x.
Proof.
  unfold styles_context. revert x. induction l as [|a l IH]; intros x H; auto. cbn in *. apply andb_true_iff in H as [H1 H2].
  rewrite IH; auto. destruct a; auto. discriminate.
Qed.
Lemma is_nil_true {A} (l : list A) : is_nil l = true -> l = [].
Proof. destruct l; easy. Qed.

(** filling and stroking with styles *)
Lemma fill_run g x s st q f : agrees g x s -> p_path s = q -> forallb no_rule f = true ->
  exists s', psrun (ps_styles f ++ [if x_rule x then Eofill else Fill]) (s, st) = Some ((s', st), [filled (set_styles g f) q]) .
Proof.
  intros A E N. destruct (ps_styles_run f g x s st A) as (s' & R & (A1 & A2 & A3 & A4 & A5 & A6) & E1 & E2).
  unfold psrun in *. rewrite run_app, R. rewrite (no_rule_context x f N) in A6.
  unfold filled. rewrite A1, A2, A3, A4, A6. destruct (x_rule x); cbn; rewrite E1, E; eauto.
Qed.
Lemma stroke_run g x s st q f : agrees g x s -> p_path s = q ->
  exists s', psrun (ps_styles f ++ [Stroke]) (s, st) = Some ((s', st), [stroked (set_styles g f) q]).
Proof.
  intros A E. destruct (ps_styles_run f g x s st A) as (s' & R & (A1 & A2 & A3 & A4 & A5 & A6) & E1 & E2).
  unfold psrun in *. rewrite run_app, R. unfold stroked. rewrite A1, A2, A3, A4, A5. cbn. rewrite E1, E. eauto.
Qed.
Lemma with_path_id s q : p_path s = q -> with_path s q = s.
Proof. intros <-. destruct s; reflexivity. Qed.
Lemma agrees_path g x s q : agrees g x s -> agrees g x (with_path s q).
Proof. intros H. exact H. Qed.

Lemma saved_run ops s st s' out : psrun ops (s, s :: st) = Some ((s', s :: st), out) -> psrun (Gsave :: ops ++ [Grestore]) (s, st) = Some ((s, st), out).
Proof. intros H. unfold psrun in *. cbn. rewrite run_app, H. cbn. now rewrite app_nil_r. Qed.

(** filling the path q standing at [s]; the path stays if it is done in a group *)
Lemma fill_group g x s st q f : agrees g x s -> p_path s = q -> forallb no_rule f = true ->
  exists q', psrun (if is_nil f then [if x_rule x then Eofill else Fill] else Gsave :: ps_styles f ++ [if x_rule x then Eofill else Fill; Grestore]) (s, st)
             = Some ((with_path s q', st), [filled (set_styles g f) q]).
Proof.
  intros A E N. destruct (is_nil f) eqn:F.
  - apply is_nil_true in F as ->. exists []. unfold psrun, filled. destruct A as (A1 & A2 & A3 & A4 & A5 & A6). cbn.
    rewrite A1, A2, A3, A4, A6. destruct (x_rule x); cbn; now rewrite E.
  - exists q. rewrite with_path_id; auto. destruct (fill_run g x s (s :: st) q f A E N) as [s' R].
    replace (ps_styles f ++ [if x_rule x then Eofill else Fill; Grestore]) with ((ps_styles f ++ [if x_rule x then Eofill else Fill]) ++ [Grestore])
      by now rewrite <- app_assoc.
    eapply saved_run, R.
Qed.
Lemma stroke_group g x s st q f : agrees g x s -> p_path s = q ->
  exists q', psrun (if is_nil f then [Stroke] else Gsave :: ps_styles f ++ [Stroke; Grestore]) (s, st)
             = Some ((with_path s q', st), [stroked (set_styles g f) q]).
Proof.
  intros A E. destruct (is_nil f) eqn:F.
  - apply is_nil_true in F as ->. exists []. unfold psrun, stroked. destruct A as (A1 & A2 & A3 & A4 & A5 & A6). cbn.
    rewrite A1, A2, A3, A4, A5. cbn. now rewrite E.
  - exists q. rewrite with_path_id; auto. destruct (stroke_run g x s (s :: st) q f A E) as [s' R].
    replace (ps_styles f ++ [Stroke; Grestore]) with ((ps_styles f ++ [Stroke]) ++ [Grestore]) by now rewrite <- app_assoc.
    eapply saved_run, R.
Qed.
Lemma stroke_new g x s st q f : agrees g x s ->
  exists q', psrun (ps_group f [Newpath; Addpath q; Stroke]) (s, st) = Some ((with_path s q', st), [stroked (set_styles g f) q]).
Proof.
  intros A. unfold ps_group. destruct (is_nil f) eqn:F.
  - apply is_nil_true in F as ->. exists []. unfold psrun, stroked. destruct A as (A1 & A2 & A3 & A4 & A5 & A6). cbn.
    now rewrite A1, A2, A3, A4, A5.
  - exists (p_path s). rewrite with_path_id; auto.
    destruct (ps_styles_run f g x s (s :: st) A) as (s' & R & (A1 & A2 & A3 & A4 & A5 & A6) & E1 & E2).
    rewrite app_assoc. apply saved_run with (s' := with_path s' []). unfold psrun in *. rewrite run_app, R.
    unfold stroked. rewrite A1, A2, A3, A4, A5. reflexivity.
Qed.

Lemma ps_paint_run g x s st p sp ss fs : agrees g x s -> all_of no_rule fs = true ->
  exists q', psrun (ps_paint x p sp ss fs) (s, st) = Some ((with_path s q', st),
    match fs with Some f => [filled (set_styles g f) p] | None => [] end ++
    match ss with Some z => [stroked (set_styles g z) (stroke_path p sp)] | None => [] end).
Proof.
  intros A N. unfold ps_paint. destruct fs as [f|].
  2: { destruct ss as [z|]; [|exists (p_path s); rewrite with_path_id; auto].
       destruct (stroke_new g x s st (stroke_path p sp) z A) as [q' R]. cbn [app]. exists q'. destruct sp; exact R. }
  cbn [all_of] in N.
  set (s1 := with_path s p). assert (agrees g x s1) as A1 by (apply agrees_path; auto).
  assert (forall rest r, psrun rest (s1, st) = r -> psrun (Newpath :: Addpath p :: rest) (s, st) = r) as Start.
  { intros rest r <-. unfold psrun. cbn. change (mkps _ _ _ _ _ p _) with s1. destruct (run ps_step rest (s1, st)) as [[? ?]|]; auto. }
  destruct ss as [z|].
  2: { rewrite app_nil_r, app_nil_r. destruct (fill_group g x s1 st p f A1 eq_refl N) as [q' R]. exists q'. apply Start. exact R. }
  destruct sp as [q|].
  - destruct (fill_group g x s1 st p f A1 eq_refl N) as [q' R]. cbn [stroke_path].
    destruct (stroke_new g x (with_path s1 q') st q z (agrees_path _ _ _ _ A1)) as [q2 R2].
    exists q2. rewrite <- app_comm_cons. rewrite <- app_comm_cons. apply Start. unfold psrun in *. rewrite run_app, R, R2. reflexivity.
  - rewrite app_nil_r. cbn [stroke_path].
    destruct (fill_run g x s1 (s1 :: st) p f A1 eq_refl N) as [s2 R].
    destruct (stroke_group g x s1 st p z A1 eq_refl) as [q2 R2].
    exists q2. apply Start.
    replace (Gsave :: ps_styles f ++ (if x_rule x then Eofill else Fill) :: Grestore :: (if is_nil z then [Stroke] else Gsave :: ps_styles z ++ [Stroke; Grestore]))
      with ((Gsave :: (ps_styles f ++ [if x_rule x then Eofill else Fill]) ++ [Grestore]) ++ (if is_nil z then [Stroke] else Gsave :: ps_styles z ++ [Stroke; Grestore]))
      by (cbn; rewrite <- !app_assoc; reflexivity).
    unfold psrun in *. rewrite run_app. pose proof (saved_run _ s1 st s2 _ R) as R1. unfold psrun in R1. rewrite R1, R2. reflexivity.
Qed.

Definition psitems := fix items (x : context) (l : list item) : list psop :=
    match l with [] => [] | i :: r => ps x i ++ items (after x i) r end.
Definition view (b : bool) (m : mark) : mark := if b then m else unfont m.
Definition known (x : context) (s : psstate) : Prop := x_font x = None \/ p_font s = x_font x.
Definition children (it : item) : list item := match it with Text _ _ => [] | Path _ _ _ _ _ l => l | Canvas _ l => l end.

(** what is to be shown of an item *)
Definition ps_good (b : bool) (it : item) : Prop := forall g x s st,
  agrees g x s -> built it -> everywhere rule_free it = true ->
  (b = true -> known x s /\ forallb (everywhere font_tight) (children it) = true) ->
  exists s' m, psrun (ps x it) (s, st) = Some ((s', st), m) /\ map (view b) m = map (view b) (draw g it) /\ same s s' /\
    (b = true -> loose_text it = false -> p_font s' = p_font s) /\
    (b = true -> font_tight it = true -> known (after x it) s').
Lemma map_flat {A B} (f : A -> B) (l1 l2 l1' l2' : list A) : map f l1 = map f l1' -> map f l2 = map f l2' -> map f (l1 ++ l2) = map f (l1' ++ l2').
Proof. intros. rewrite !map_app. congruence. Qed.
Lemma ps_items_good b l : Forall (ps_good b) l -> forall g x s st, agrees g x s -> fold_right (fun i P => built i /\ P) True l ->
  forallb (everywhere rule_free) l = true -> (b = true -> known x s /\ forallb (everywhere font_tight) l = true) ->
  exists s' m, psrun (psitems x l) (s, st) = Some ((s', st), m) /\ map (view b) m = map (view b) (flat_map (draw g) l) /\ same s s' /\
    (b = true -> existsb loose_text l = false -> p_font s' = p_font s).
Proof.
  induction 1 as [|i l Hi Hl IH]; intros g x s st A W N F.
  { exists s, []. repeat split; auto. }
  cbn in W, N. destruct W as [W1 W2]. apply andb_true_iff in N as [N1 N2].
  assert (b = true -> font_tight i = true /\ forallb (everywhere font_tight) (children i) = true /\ forallb (everywhere font_tight) l = true) as F'.
  { intros B. destruct (F B) as [_ F2]. cbn in F2. apply andb_true_iff in F2 as [F2 F3]. split; [|split; auto];
    destruct i; cbn in *; auto; apply andb_true_iff in F2 as [? ?]; auto. }
  destruct (Hi g x s st A W1 N1) as (s1 & m1 & R1 & E1 & S1 & L1 & K1).
  { intros B. destruct (F B), (F' B) as (? & ? & ?). auto. }
  assert (agrees g (after x i) s1) as A1 by (apply agrees_same with (x := x) (s := s); auto; destruct i; reflexivity).
  destruct (IH g (after x i) s1 st A1 W2 N2) as (s2 & m2 & R2 & E2 & S2 & L2).
  { intros B. destruct (F' B) as (? & ? & ?). auto. }
  exists s2, (m1 ++ m2). split; [|split; [|split]].
  - unfold psrun in *. cbn [psitems]. rewrite run_app, R1, R2. reflexivity.
  - cbn [flat_map]. apply map_flat; auto.
  - eapply same_trans; eauto.
  - intros B L. cbn in L. apply orb_false_iff in L as [La Lb]. rewrite L2 by auto. apply L1; auto.
Qed.

Lemma known_styles x s s' l : known x s -> p_font s' = p_font s -> known (styles_context x l) s'.
Proof. unfold known. rewrite styles_context_font. intros [H|H] E; [left|right]; congruence. Qed.
Lemma view_same b m : view b m = view b m.
Proof. auto. Qed.

Lemma ps_all_good b it : ps_good b it.
Proof.
  induction it as [k f|p sp sty ss fs l Hl|c l Hl] using item_all.
  - intros g x s st A W N F. destruct A as (A1 & A2 & A3 & A4 & A5 & A6).
    cbn [ps]. unfold font_known.
    assert (forall o r, psrun (Selectfont o :: r) (s, st) = psrun r (mkps (p_ctm s) (p_clips s) (p_col s) (p_alpha s) (p_lines s) (p_path s) (Some o), st)) as Sel.
    { intros. unfold psrun. cbn. destruct (run ps_step r _) as [[? ?]|]; auto. }
    destruct (x_font x) as [f'|] eqn:XF; [destruct (Z.eqb_spec f f') as [->|Ne]|].
    + exists s, [Written k (p_font s) (p_ctm s) (p_clips s) (p_col s) (p_alpha s)]. split; [reflexivity|].
      split; [|split; [apply same_refl|split; auto]].
      * cbn. rewrite A1, A2, A3, A4. destruct b; cbn; auto. destruct (F eq_refl) as [[K|K] _]; [congruence|]. rewrite K, XF. reflexivity.
      * intros B _. destruct (F B) as [[K|K] _]; [congruence|]. right. cbn. congruence.
    + exists (mkps (p_ctm s) (p_clips s) (p_col s) (p_alpha s) (p_lines s) (p_path s) (Some f)).
      eexists. cbn [app]. rewrite Sel. split; [reflexivity|]. split; [|split; [repeat split|split; [discriminate|right; reflexivity]]].
      cbn. now rewrite A1, A2, A3, A4.
    + exists (mkps (p_ctm s) (p_clips s) (p_col s) (p_alpha s) (p_lines s) (p_path s) (Some f)).
      eexists. cbn [app]. rewrite Sel. split; [reflexivity|]. split; [|split; [repeat split|split; [discriminate|right; reflexivity]]].
      cbn. now rewrite A1, A2, A3, A4.
  - intros g x s st A W N F. cbn in W, N. destruct W as (W1 & W2 & W3). apply andb_true_iff in N as [N1 N2].
    cbn [ps]. change (fix items (x0 : context) (l0 : list item) {struct l0} : list psop := match l0 with [] => [] | i :: r => ps x0 i ++ items (after x0 i) r end) with psitems.
    set (x1 := styles_context x sty). set (g1 := set_styles g sty).
    assert (forall s0 st0, agrees g1 x1 s0 -> (b = true -> known x1 s0) ->
      exists s' m, psrun (ps_paint x1 p sp ss fs ++ psitems x1 l) (s0, st0) = Some ((s', st0), m) /\
        map (view b) m = map (view b) (draw g (Path p sp sty ss fs l)) /\ same s0 s' /\
        (b = true -> existsb loose_text l = false -> p_font s' = p_font s0)) as Body.
    { intros s0 st0 A0 K0. destruct (ps_paint_run g1 x1 s0 st0 p sp ss fs A0 N1) as [q R].
      destruct (ps_items_good b l Hl g1 x1 (with_path s0 q) st0 (agrees_path _ _ _ _ A0) W3 N2) as (s' & m & R' & E & S' & L).
      { intros B. destruct (F B). auto. }
      eexists s', (_ ++ m). split; [|split; [|split]].
      - unfold psrun in *. rewrite run_app, R, R'. reflexivity.
      - cbn [draw]. fold g1. rewrite (app_assoc (match fs with Some _ => _ | None => _ end)). apply map_flat; [|exact E]. reflexivity.
      - destruct S' as (? & ? & ? & ? & ?). repeat split; auto.
      - intros B Q. rewrite L; auto. }
    unfold ps_group. destruct (is_nil sty) eqn:Z0.
    + destruct (Body s st) as (s' & m & R & E & S' & L).
      * apply is_nil_true in Z0. subst sty. exact A.
      * intros B. destruct (F B) as [K _]. subst x1. eapply known_styles; eauto.
      * exists s', m. split; [exact R|]. split; [exact E|]. split; [exact S'|]. split.
        -- intros B Q. apply L; auto. cbn in Q. rewrite Z0 in Q. exact Q.
        -- intros B Q. cbn in Q. rewrite Z0 in Q. cbn in Q. apply negb_true_iff in Q. cbn [after]. destruct (F B) as [K _].
           specialize (L B Q). unfold known in *. destruct K; [left|right]; congruence.
    + destruct (ps_styles_run sty g x s (s :: st) A) as (s1 & R1 & A1 & E1 & E2).
      destruct (Body s1 (s :: st)) as (s' & m & R & E & S' & L); [exact A1| |].
      { intros B. destruct (F B) as [K _]. subst x1. eapply known_styles; eauto. }
      exists s, m. split; [|split; [exact E|split; [apply same_refl|split; auto]]].
      * rewrite app_assoc. apply saved_run with (s' := s'). unfold psrun in *. rewrite run_app, R1, R. reflexivity.
      * intros B _. destruct (F B). auto.
  - intros g x s st A W N F. cbn in W, N. destruct W as [[a W1] W2].
    assert (forallb (everywhere rule_free) l = true) as N2 by exact N. clear N.
    cbn [ps]. change (fix items (x0 : context) (l0 : list item) {struct l0} : list psop := match l0 with [] => [] | i :: r => ps x0 i ++ items (after x0 i) r end) with psitems.
    destruct (is_nil l) eqn:NL.
    { apply is_nil_true in NL. subst l. exists s, []. split; [reflexivity|]. split; [reflexivity|]. split; [apply same_refl|].
      split; auto. intros B _. destruct (F B). auto. }
    destruct (c_modifies c) eqn:M.
    2: { assert (inner g c = g) as IG.
         { unfold new_canvas in W1. destruct (fold_left place (rev a) (Some (None, None))) as [[c' t']|] eqn:Fo; [|discriminate].
           destruct a as [|a0 ar]; [|injection W1 as <-; discriminate]. cbn in Fo. injection Fo as <- <-. injection W1 as <-. reflexivity. }
         destruct (ps_items_good b l Hl g x s st A W2 N2) as (s' & m & R & E & S' & L).
         { intros B. destruct (F B). auto. }
         exists s', m. split; [exact R|]. cbn [draw]. rewrite IG. split; [exact E|]. split; [exact S'|]. split.
         - intros B Q. apply L; auto. cbn in Q. rewrite M in Q. exact Q.
         - intros B Q. cbn in Q. rewrite M in Q. cbn in Q. apply negb_true_iff in Q. cbn [after]. destruct (F B) as [K _].
           specialize (L B Q). unfold known in *. destruct K; [left|right]; congruence. }
    destruct (ps_styles_run (c_styles c) g x s (s :: st) A) as (s1 & R1 & A1 & E1 & E2).
    set (x1 := styles_context x (c_styles c)) in *. set (g1 := set_styles g (c_styles c)) in *.
    assert (exists s2, psrun (ps_clip (c_clip c) ++ ps_trafo (c_trafo c)) (s1, s :: st) = Some ((s2, s :: st), []) /\
            agrees (inner g c) x1 s2 /\ p_font s2 = p_font s1) as (s2 & R2 & A2 & E3).
    { unfold inner. fold g1. destruct A1 as (B1 & B2 & B3 & B4 & B5 & B6).
      destruct (c_clip c) as [q|], (c_trafo c) as [t|]; eexists; (split; [reflexivity|]); (split; [|reflexivity]); repeat split; cbn; congruence. }
    destruct (ps_items_good b l Hl (inner g c) x1 s2 (s :: st) A2 W2 N2) as (s' & m & R & E & S' & L).
    { intros B. destruct (F B) as [K F2]. split; auto. subst x1. eapply known_styles; eauto. congruence. }
    exists s, m. split; [|split; [exact E|split; [apply same_refl|split; auto]]].
    + rewrite !app_assoc. apply saved_run with (s' := s'). unfold psrun in *. rewrite <- !app_assoc, run_app, R1.
      rewrite app_assoc, run_app, R2. rewrite R. reflexivity.
    + intros B _. destruct (F B). auto.
Qed.
