From Coq Require Import String Reals ZArith List Bool Lia Lra.
From Verif Require Import BboxModel BboxSpec BboxProps AttrModel UnicodeTextModel UnicodeTextSpec.
Import ListNotations.
Open Scope R_scope.

Lemma letters_refl s : same_letters s s.
Proof. unfold same_letters. induction s; constructor; auto. Qed.
Lemma letters_nodot s : same_letters s (nodot s).
Proof.
  unfold same_letters, nodot. induction s as [|c s IH]; simpl; constructor; auto.
  destruct (Z.eqb_spec c 183); auto.
Qed.
Lemma letters_app a b a' b' : same_letters a a' -> same_letters b b' -> same_letters (a ++ b) (a' ++ b').
Proof. apply Forall2_app. Qed.
Lemma seen_app a b : seen (a ++ b) = (seen a ++ seen b)%list.
Proof. unfold seen. now rewrite map_app, concat_app. Qed.
Lemma nodot_hyphenless s : hyphenless s -> hyphenless (nodot s).
Proof.
  unfold hyphenless, nodot. intros H I. apply in_map_iff in I as (c & E & I). destruct (Z.eqb c 183); [discriminate|subst; auto].
Qed.

(** the parts of a text between hyphens *)
Fixpoint joined (l : list text) : text := match l with [] => [] | [s] => s | s :: l' => (s ++ 45%Z :: joined l')%list end.
Lemma split_not_nil c s : split c s <> [].
Proof. destruct s as [|d r]; simpl; [discriminate|]. destruct (Z.eqb c d); [discriminate|]. destruct (split c r); discriminate. Qed.
Lemma split_joined s : joined (split 45 s) = s.
Proof.
  induction s as [|d r IH]; [reflexivity|]. cbn [split]. destruct (Z.eqb_spec 45 d) as [<-|N].
  - pose proof (split_not_nil 45 r) as K. destruct (split 45 r) as [|p ps]; [easy|]. cbn [joined app]. now rewrite <- IH.
  - pose proof (split_not_nil 45 r) as K. destruct (split 45 r) as [|p ps]; [easy|].
    rewrite <- IH. destruct ps; reflexivity.
Qed.
Lemma split_hyphenless s : Forall hyphenless (split 45 s).
Proof.
  induction s as [|d r IH]; [constructor; [intros []|constructor]|]. cbn [split]. destruct (Z.eqb_spec 45 d) as [<-|N].
  - constructor; auto. intros [].
  - destruct (split 45 r) as [|p ps].
    { constructor; [|constructor]. intros [E|[]]. now apply N. }
    inversion IH as [|? ? A B]; subst. constructor; auto. intros [E|I]; [now apply N|exact (A I)].
Qed.

Section Proofs.
Variable extent : text -> R -> option (R * R * R).
Variables thickness halfwidth axis length size : R.
Notation in_line := (in_line extent thickness halfwidth axis length size).
Notation set_fragment := (set_fragment extent).
Notation set_fragments := (set_fragments extent thickness halfwidth axis length size).
Notation minus := (minus thickness halfwidth axis length size).

Lemma fragment_spec x y s sz i x' : set_fragment x y s sz = Some (i, x') ->
  exists s' w d h, extent s' sz = Some (w, d, h) /\ x' = x + w /\ i = Glyphs 0 x y s' sz /\ same_letters s s' /\ (hyphenless s -> hyphenless s').
Proof.
  unfold UnicodeTextModel.set_fragment, width. destruct (extent s sz) as [((w, d), h)|] eqn:E.
  - intros [= <- <-]. exists s, w, d, h. repeat split; auto using letters_refl.
  - destruct (existsb (Z.eqb 183) s); [|discriminate]. destruct (extent (nodot s) sz) as [((w, d), h)|] eqn:E'; [|discriminate].
    intros [= <- <-]. exists (nodot s), w, d, h. repeat split; auto using letters_nodot, nodot_hyphenless.
Qed.
Lemma minus_line y sz x is x' : in_line y sz (x + minuswidth_pt halfwidth size) is x' -> in_line y sz x (minus x :: is) x'.
Proof.
  intros H. unfold UnicodeTextModel.minus, minuswidth_pt, minuslength_pt, minusthickness_pt, mathaxis_pt in *. apply line_minus; [lra|lra|].
  replace (x + 2 * (halfwidth * size)) with (x + 2 * halfwidth * size) by ring. exact H.
Qed.
Definition prefix (first : bool) (s : text) : text := if first then s else 45%Z :: s.
Lemma fragments_spec y sz : forall l first x is x', set_fragments first x y sz l = Some (is, x') -> (l = [] -> first = false) ->
  in_line y sz x is x' /\
  same_letters (match l with [] => [] | _ => prefix first (joined l) end) (seen is) /\
  (Forall hyphenless l -> Forall (fun i => match i with Glyphs _ _ _ s _ => hyphenless s | _ => True end) is) /\
  (first = true -> List.length l = 1%nat -> Forall (fun i => match i with Glyphs _ _ _ _ _ => True | _ => False end) is).
Proof.
  induction l as [|s l IH]; intros first x is x' H N.
  { cbn in H. injection H as <- <-. split; [constructor|]. split; [constructor|]. split; constructor. }
  cbn [UnicodeTextModel.set_fragments] in H.
  set (x0 := if first then x else x + minuswidth_pt halfwidth size) in H.
  set (before := if first then [] else [minus x]) in H.
  assert (forall rest, in_line y sz x0 rest x' -> in_line y sz x (before ++ rest) x') as Lb.
  { intros rest H0. unfold before, x0 in *. destruct first; cbn [app]; auto. now apply minus_line. }
  assert (seen before = if first then [] else [45%Z]) as Sb by (unfold before; now destruct first).
  assert (Forall (fun i => match i with Glyphs _ _ _ s _ => hyphenless s | _ => True end) before) as Hb.
  { unfold before. destruct first; repeat constructor. }
  assert (forall rest tail, same_letters (s ++ match l with [] => [] | _ => 45%Z :: joined l end)%list (tail ++ seen rest)%list ->
    same_letters (prefix first (joined (s :: l))) (seen before ++ tail ++ seen rest)%list) as Pb.
  { intros rest tail H0. rewrite Sb.
    replace (prefix first (joined (s :: l))) with ((if first then [] else [45%Z]) ++ (s ++ match l with [] => [] | _ => 45%Z :: joined l end))%list.
    - apply letters_app; auto using letters_refl.
    - unfold prefix. destruct l; cbn [joined]; destruct first; cbn [app]; rewrite ?app_nil_r; reflexivity. }
  assert (match l with [] => [] | _ => 45%Z :: joined l end = match l with [] => [] | _ => prefix false (joined l) end) as Pl by now destruct l.
  assert (forall rest x1, set_fragments false x1 y sz l = Some (rest, x') -> List.length (s :: l) = 1%nat -> rest = []) as Single.
  { intros rest x1 H0 K. destruct l; [|discriminate]. cbn in H0. now injection H0 as <- _. }
  destruct s as [|c s].
  - destruct (set_fragments false x0 y sz l) as [(is', x1)|] eqn:E; [|discriminate]. injection H as <- <-.
    destruct (IH false x0 is' x1 E (fun _ => eq_refl)) as (A & B & C & D). split; [auto|]. split.
    + rewrite seen_app. apply (Pb is' []). cbn [app]. rewrite Pl. exact B.
    + split.
      * intros F. inversion F; subst. apply Forall_app. auto.
      * intros F K. unfold before. rewrite F. cbn [app]. rewrite (Single _ _ E K). constructor.
  - destruct (set_fragment x0 y (c :: s) sz) as [(i, x1)|] eqn:Ei; [|discriminate].
    destruct (set_fragments false x1 y sz l) as [(is', x2)|] eqn:E; [|discriminate]. injection H as <- <-.
    destruct (fragment_spec _ _ _ _ _ _ Ei) as (s' & w & d & h & X & -> & -> & Q & Hs).
    destruct (IH false _ is' x2 E (fun _ => eq_refl)) as (A & B & C & D). split.
    + apply Lb. eapply line_glyphs; [exact X|exact A].
    + split.
      * rewrite seen_app. change (seen (Glyphs 0 x0 y s' sz :: is')) with (s' ++ seen is')%list. apply Pb. rewrite Pl. now apply letters_app.
      * split.
        -- intros F. inversion F; subst. apply Forall_app. split; auto.
        -- intros F K. unfold before. rewrite F. cbn [app]. rewrite (Single _ _ E K). repeat constructor.
Qed.
Lemma text_spec (mathmode : bool) x t is x' : set_fragments true x (r_shift t * size) (r_scale t * size) (if mathmode then split 45 (r_text t) else [r_text t]) = Some (is, x') ->
  text_set extent thickness halfwidth axis length size mathmode x t is (x' - x).
Proof.
  intros H. set (l := if mathmode then split 45 (r_text t) else [r_text t]) in H.
  assert (l <> []) as N by (unfold l; destruct mathmode; [apply split_not_nil|discriminate]).
  assert (joined l = r_text t) as J by (unfold l; destruct mathmode; [apply split_joined|reflexivity]).
  destruct (fragments_spec _ _ l true x is x' H) as (A & B & C & D); [intros Q; now elim N|].
  unfold text_set. replace (x + (x' - x)) with x' by ring. split; auto. split.
  - destruct l as [|a l']; [easy|]. cbn [prefix] in B. now rewrite J in B.
  - split.
    + intros E. apply C. unfold l. rewrite E. apply split_hyphenless.
    + intros E. apply D; auto. unfold l. now rewrite E.
Qed.

Lemma widths_spec : forall ts ws, widths extent size ts = Some ws -> Forall2 (fun t w => exists d h, extent (r_text t) (r_scale t * size) = Some (w, d, h)) ts ws.
Proof.
  induction ts as [|t ts IH]; intros ws H; cbn [widths] in H; [injection H as <-; constructor|].
  unfold width in H. destruct (extent (r_text t) (r_scale t * size)) as [((w, d), h)|] eqn:E; [|discriminate].
  destruct (widths extent size ts) as [ws'|]; [|discriminate]. injection H as <-. constructor; eauto.
Qed.
Lemma fold_max : forall l a, a <= fold_left Rmax l a /\ Forall (fun b => b <= fold_left Rmax l a) l /\ (fold_left Rmax l a = a \/ In (fold_left Rmax l a) l).
Proof.
  induction l as [|b l IH]; intros a; cbn [fold_left]; [repeat split; auto; lra|].
  destruct (IH (Rmax a b)) as (A & B & C). pose proof (Rmax_l a b). pose proof (Rmax_r a b).
  split; [lra|]. split; [constructor; [lra|auto]|]. destruct C as [C|C]; [|right; now right].
  rewrite C. unfold Rmax. destruct (Rle_dec a b); [right; now left|now left].
Qed.
Lemma maximum_spec ws w : maximum ws = Some w -> Forall (fun b => b <= w) ws /\ In w ws.
Proof.
  destruct ws as [|a ws]; [discriminate|]. cbn. intros [= <-]. destruct (fold_max ws a) as (A & B & C). split; [now constructor|].
  destruct C as [C|C]; [left; now rewrite C|now right].
Qed.
Lemma stack_spec x ts frac align is x' : set_stacked extent thickness axis size x ts frac align = Some (is, x') ->
  stack_set extent thickness axis size x ts frac align is (x' - x).
Proof.
  unfold set_stacked, stack_set. destruct (widths extent size ts) as [ws|] eqn:W; [|discriminate]. destruct (maximum ws) as [w|] eqn:M; [|discriminate].
  intros [= <- <-]. replace (x + w - x) with w by ring. apply widths_spec in W. destruct (maximum_spec _ _ M) as (U & I).
  replace (axis * size - thickness * size / 2) with (mathaxis_pt axis size - 0.5 * minusthickness_pt thickness size) by (unfold mathaxis_pt, minusthickness_pt; lra).
  eexists. split; [|split].
  - f_equal.
  - clear M I. induction W as [|t wt ts ws (d & h & E) W IH]; cbn [combine map]; [constructor|].
    inversion U; subst. constructor; auto. exists wt, d, h, (align * (w - wt)). repeat split; auto. ring.
  - clear M U. induction W as [|t wt ts ws (d & h & E) W IH]; [easy|]. destruct I as [->|I].
    + exists t, d, h. split; [now left|exact E].
    + destruct (IH I) as (t' & d' & h' & I' & E'). exists t', d', h'. split; [now right|exact E'].
Qed.
Lemma element_spec mathmode x e is x' : set_element extent thickness halfwidth axis length size mathmode x e = Some (is, x') ->
  element_set extent thickness halfwidth axis length size mathmode x e is (x' - x).
Proof.
  destruct e as [s|t|ts frac align]; cbn [set_element element_set]; intros H.
  - now apply (text_spec mathmode x (mkrich s 1 0)).
  - now apply text_spec.
  - now apply stack_spec.
Qed.
End Proofs.

Section Theorems.
Variable extent : text -> R -> option (R * R * R).
Variables thickness halfwidth axis length size : R.
(** C161: texts are set one behind the other: the k-th one begins behind the sum of the widths before it, its letters are all there in order (in formulas with minus signs
    for hyphens, which are drawn in the middle of their place on the axis), stacked texts are aligned in the width of the widest of them, and fraction lines have that width. *)
Theorem texts_in_line : forall mathmode l is x, textbox extent thickness halfwidth axis length size mathmode l = Some (is, x) ->
  exists parts : list (list item * R),
    List.length parts = List.length l /\ is = List.concat (map fst parts) /\ x = sum (map snd parts) /\
    forall k e p w, nth_error l k = Some e -> nth_error parts k = Some (p, w) ->
      element_set extent thickness halfwidth axis length size mathmode (sum (map snd (firstn k parts))) e p w.
Proof.
  intros mathmode l. unfold textbox.
  assert (forall x0 is x, set_elements extent thickness halfwidth axis length size mathmode x0 l = Some (is, x) ->
    exists parts : list (list item * R), List.length parts = List.length l /\ is = List.concat (map fst parts) /\ x = x0 + sum (map snd parts) /\
    forall k e p w, nth_error l k = Some e -> nth_error parts k = Some (p, w) ->
      element_set extent thickness halfwidth axis length size mathmode (x0 + sum (map snd (firstn k parts))) e p w) as G.
  { induction l as [|e l IH]; intros x0 is x H; cbn [set_elements] in H.
    - injection H as <- <-. exists []. split; [reflexivity|]. split; [reflexivity|]. split; [cbn; lra|]. intros [|k] e p w E; discriminate.
    - destruct (set_element extent thickness halfwidth axis length size mathmode x0 e) as [(p, x1)|] eqn:E; [|discriminate].
      destruct (set_elements extent thickness halfwidth axis length size mathmode x1 l) as [(is', x2)|] eqn:E'; [|discriminate]. injection H as <- <-.
      destruct (IH _ _ _ E') as (parts & A & B & C & D). exists ((p, x1 - x0) :: parts).
      split; [cbn; now rewrite A|]. split; [cbn; now rewrite B|]. split; [rewrite C; unfold sum; cbn [map snd fold_right]; ring|].
      intros [|k] e' p' w' F G; cbn [nth_error] in F, G.
      + injection F as <-. injection G as <- <-. cbn [firstn map sum fold_right]. rewrite Rplus_0_r. now apply element_spec.
      + cbn [firstn map snd sum fold_right]. replace (x0 + (x1 - x0 + fold_right Rplus 0 (map snd (firstn k parts)))) with (x1 + sum (map snd (firstn k parts))) by (unfold sum; ring).
        eauto. }
  intros is x H. destruct (G 0 is x H) as (parts & A & B & C & D). exists parts. rewrite Rplus_0_l in C. split; [auto|]. split; [auto|]. split; [auto|].
  intros k e p w F F'. specialize (D k e p w F F'). now rewrite Rplus_0_l in D.
Qed.
(** the place of a text of a stack: within the stack, and at the left end, in the middle or at the right end of it *)
Theorem stack_alignment : forall x ts frac align is w, stack_set extent thickness axis size x ts frac align is w ->
  forall dx y s sz, In (Glyphs dx x y s sz) is -> exists wt d h, extent s sz = Some (wt, d, h) /\
    (0 <= align <= 1 -> x <= x + dx /\ x + dx + wt <= x + w) /\ (align = 0 -> x + dx = x) /\ (align = 1 -> x + dx + wt = x + w) /\ (align = 1/2 -> x + dx + wt / 2 = x + w / 2).
Proof.
  intros x ts frac align is w (lines & -> & F & _) dx y s sz I. apply in_app_iff in I. destruct I as [I|I].
  { destruct frac; [|easy]. destruct I as [I|[]]; discriminate. }
  clear -F I. induction F as [|t i ts lines (wt & d & h & left & E & L & -> & X) F IH]; [easy|]. destruct I as [I|I]; [|auto].
  injection I as <- <- <- <-. exists wt, d, h. split; auto. assert (left = align * (w - wt)) by lra. subst.
  repeat split.
  - assert (0 <= align * (w - wt)) by (apply Rmult_le_pos; lra). lra.
  - assert (0 <= (1 - align) * (w - wt)) by (apply Rmult_le_pos; lra). lra.
  - intros ->. lra.
  - intros ->. lra.
  - intros ->. lra.
Qed.

Lemma bboxes_spec : forall is bs, bboxes extent is = Some bs -> Forall2 (fun i b => item_bbox extent i = Some b) is bs.
Proof.
  induction is as [|i is IH]; intros bs H; cbn [bboxes] in H; [injection H as <-; constructor|].
  destruct (item_bbox extent i) as [b|] eqn:E; [|discriminate]. destruct (bboxes extent is) as [bs'|]; [|discriminate]. injection H as <-. constructor; auto.
Qed.
Lemma line_rules : 0 <= length * size -> 0 <= thickness * size -> forall y sz x is x', in_line extent thickness halfwidth axis length size y sz x is x' ->
  Forall (fun i => match i with Rule _ _ w h => 0 <= w /\ 0 <= h | _ => True end) is.
Proof. intros Hl Ht y sz x is x' H. induction H; constructor; auto. Qed.
(** the points of an item *)
Definition covers (i : item) (p : R * R) : Prop :=
  match i with
  | Glyphs dx x y s sz => exists w d h, extent s sz = Some (w, d, h) /\ x + dx <= fst p <= x + dx + w /\ y + d <= snd p <= y + h
  | Rule x y w h => x <= fst p <= x + w /\ y <= snd p <= y + h
  end.
(** C162: the box of a text is the smallest one with all texts and lines and both ends of the base line *)
Theorem text_box : 0 <= length * size -> 0 <= thickness * size -> forall mathmode l is x b,
  textbox extent thickness halfwidth axis length size mathmode l = Some (is, x) ->
  (forall dx x0 y s sz w d h, In (Glyphs dx x0 y s sz) is -> extent s sz = Some (w, d, h) -> 0 <= w /\ d <= h) ->
  box_bbox extent thickness halfwidth axis length size mathmode l = Some b ->
  smallest b (fun p => (exists i, In i is /\ covers i p) \/ p = (0, 0) \/ p = (x, 0)).
Proof.
  intros Hl Ht mathmode l is x b T X. unfold box_bbox. rewrite T.
  destruct (bboxes extent is) as [bs|] eqn:B; [|discriminate]. intros [= <-]. apply bboxes_spec in B.
  (* rules have sizes which are not negative *)
  assert (Forall (fun i => match i with Rule _ _ w h => 0 <= w /\ 0 <= h | _ => True end) is) as P.
  { destruct (texts_in_line _ _ _ _ T) as (parts & A & Ci & _ & D). apply Forall_forall. intros i Hi.
    assert (forall j p', In p' (map fst parts) -> In j p' -> In j is) as Back by (intros j p' I1 I2; rewrite Ci; apply in_concat; eauto). rewrite Ci in Hi.
    apply in_concat in Hi as (p & Hp & Hi). specialize (fun j => Back j p Hp). apply in_map_iff in Hp as ((p', w) & <- & Hp). cbn in Hi, Back. apply In_nth_error in Hp as (k & Hk).
    assert (exists e, nth_error l k = Some e) as (e & He).
    { destruct (nth_error l k) as [e|] eqn:Q; [eauto|]. apply nth_error_None in Q. assert (nth_error parts k <> None) as Q' by congruence. apply nth_error_Some in Q'. lia. }
    pose proof (D k e p' w He Hk) as S.
    assert (forall m x0 t, text_set extent thickness halfwidth axis length size m x0 t p' w -> match i with Rule _ _ w h => 0 <= w /\ 0 <= h | _ => True end) as Tx.
    { intros m x0 t (Ln & _). exact (proj1 (Forall_forall _ _) (line_rules Hl Ht _ _ _ _ _ Ln) i Hi). }
    destruct e as [s|t|ts frac align]; [exact (Tx _ _ _ S)|exact (Tx _ _ _ S)|].
    destruct S as (lines & -> & F & (t & d & h & It & E)). apply in_app_iff in Hi as [Hi|Hi].
    - destruct frac; [|easy]. destruct Hi as [<-|[]]. split; auto.
      assert (exists left y, In (Glyphs left (sum (map snd (firstn k parts))) y (r_text t) (r_scale t * size)) lines) as (left & y & Il).
      { clear -F It. induction F as [|? ? ? ? (wt & d & h & left & _ & _ & -> & _) F IH]; [easy|]. destruct It as [->|It].
        - do 2 eexists. now left.
        - destruct (IH It) as (left' & y' & I'). do 2 eexists. right. exact I'. }
      refine (proj1 (X _ _ _ _ _ _ _ _ (Back _ _) E)). apply in_app_iff. right. exact Il.
    - clear -F Hi. induction F as [|? ? ? ? (wt & d & h & left & _ & _ & -> & _) F IH]; [easy|]. destruct Hi as [<-|Hi]; [exact I|exact (IH Hi)]. }
  set (history := (map AddBox bs ++ [AddPoint (0, 0); AddPoint (x, 0)])%list).
  assert (includepoint_pt (includepoint_pt (fold_left biadd bs empty) (0, 0)) (x, 0) = fold_left add1 history empty) as ->.
  { unfold history. rewrite fold_left_app. cbn [fold_left add1]. f_equal. f_equal. generalize empty. clear. induction bs; intros e; cbn; auto. }
  assert (Forall (fun b => proper b) bs /\ forall p, (exists i, In i is /\ covers i p) <-> exists b, In b bs /\ inside b p) as (Q & Q').
  { clear -X B P. induction B as [|i b is bs E B IH]; [split; [constructor|]; split; intros (? & [] & _)|].
    inversion P as [|? ? Pi Pr]; subst. destruct (IH (fun dx x0 y s sz w d h I => X dx x0 y s sz w d h (or_intror I)) Pr) as (I1 & I2).
    assert (proper b /\ forall p, covers i p <-> inside b p) as (J1 & J2).
    { destruct i as [dx x0 y s sz|x0 y w h]; cbn [item_bbox covers] in *.
      - destruct (extent s sz) as [((w, d), h)|] eqn:E'; [|discriminate]. injection E as <-. destruct (X _ _ _ _ _ _ _ _ (or_introl eq_refl) E'). split.
        + intros l [= <-]. cbn. lra.
        + intros p. split.
          * intros (w' & d' & h' & [= <- <- <-] & A1 & A2). exists (dx + x0). cbn. repeat split; lra.
          * intros (l & [= <-] & A1 & A2). cbn in *. exists w, d, h. repeat split; try lra.
      - injection E as <-. destruct Pi as (Pw & Ph). assert (Rmin x0 (x0 + w) = x0 /\ Rmax x0 (x0 + w) = x0 + w /\ Rmin y (y + h) = y /\ Rmax y (y + h) = y + h) as (-> & -> & -> & ->).
        { repeat split; [apply Rmin_left|apply Rmax_right|apply Rmin_left|apply Rmax_right]; lra. }
        split; [intros l [= <-]; cbn; lra|]. intros p. split.
        + intros (A1 & A2). exists x0. cbn. auto.
        + intros (l & [= <-] & A1 & A2). cbn in *. auto. }
    split; [now constructor|]. intros p. split.
    - intros (i' & [<-|I] & C); [exists b; split; [now left|now apply J2]|]. destruct (proj1 (I2 p)) as (b' & I' & C'); [eauto|]. exists b'. split; [now right|auto].
    - intros (b' & [<-|I] & C); [exists i; split; [now left|now apply J2]|]. destruct (proj2 (I2 p)) as (b'' & I' & C'); [eauto|]. exists b''. split; [now right|auto]. }
  eapply smallest_iff; [|apply additions_smallest].
  - intros p. rewrite Q'. unfold history. split.
    + intros (a & Ia & Pa). apply in_app_iff in Ia as [Ia|[<-|[<-|[]]]]; cbn in Pa; auto.
      apply in_map_iff in Ia as (b & <- & Ib). left. exists b. auto.
    + intros [(b & Ib & Pb)|[E|E]]; [|subst p|subst p].
      * exists (AddBox b). split; [apply in_app_iff; left; now apply in_map|exact Pb].
      * exists (AddPoint (0, 0)). split; [apply in_app_iff; right; now left|reflexivity].
      * exists (AddPoint (x, 0)). split; [apply in_app_iff; right; right; now left|reflexivity].
  - unfold history. apply Forall_app. split; [|repeat constructor]. apply Forall_map. exact Q.
Qed.
End Theorems.
Print Assumptions texts_in_line.
Print Assumptions stack_alignment.
Print Assumptions text_box.

(** a font with letters of width 1/2 without the middle dot: -a-b in a formula, and a fraction behind it *)
Definition half_font (s : text) (size : R) : option (R * R * R) := if existsb (Z.eqb 183) s then None else Some (INR (List.length s) / 2 * size, 0, size).
Example formula_ex : textbox half_font 0.1 0.25 0.2 0.4 10 true [Str [45; 97; 183]%Z; Stacked [mkrich [49]%Z 1 0.3; mkrich [49; 48]%Z 1 (-0.3)] true 0.5] =
  Some ([minus 0.1 0.25 0.2 0.4 10 0; Glyphs 0 (0 + 2 * 0.25 * 10) (0 * 10) [97; 120]%Z (1 * 10);
         Rule (0 + 2 * 0.25 * 10 + INR 2 / 2 * (1 * 10)) (0.2 * 10 - 0.5 * (0.1 * 10)) (Rmax (INR 1 / 2 * (1 * 10)) (INR 2 / 2 * (1 * 10))) (0.1 * 10);
         Glyphs (0.5 * (Rmax (INR 1 / 2 * (1 * 10)) (INR 2 / 2 * (1 * 10)) - INR 1 / 2 * (1 * 10))) (0 + 2 * 0.25 * 10 + INR 2 / 2 * (1 * 10)) (0.3 * 10 + 0.2 * 10) [49]%Z (1 * 10);
         Glyphs (0.5 * (Rmax (INR 1 / 2 * (1 * 10)) (INR 2 / 2 * (1 * 10)) - INR 2 / 2 * (1 * 10))) (0 + 2 * 0.25 * 10 + INR 2 / 2 * (1 * 10)) (-0.3 * 10 + 0.2 * 10) [49; 48]%Z (1 * 10)],
        0 + 2 * 0.25 * 10 + INR 2 / 2 * (1 * 10) + Rmax (INR 1 / 2 * (1 * 10)) (INR 2 / 2 * (1 * 10))).
Proof. reflexivity. Qed.
Example box_ex : exists b, box_bbox half_font 0.1 0.25 0.2 0.4 10 false [Str [97; 98; 99]%Z] = Some b /\ inside b (15, 0) /\ inside b (7, 9) /\ ~ inside b (16, 0).
Proof.
  eexists. split; [reflexivity|].
  match goal with |- inside ?B _ /\ _ => pose proof (text_box half_font 0.1 0.25 0.2 0.4 10 ltac:(lra) ltac:(lra) false [Str [97; 98; 99]%Z] _ _ B eq_refl) as H end.
  destruct H as (P & I & L); [|reflexivity|].
  - intros dx x0 y s sz w d h [E|[]] Ex. injection E as <- <- <- <- <-. injection Ex as <- <- <-. cbn. lra.
  - cbn [List.length INR] in *. repeat split.
    + apply I. right. right. f_equal. lra.
    + apply I. left. eexists. split; [left; reflexivity|]. exists (INR 3 / 2 * (1 * 10)), 0, (1 * 10). split; [reflexivity|]. cbn. lra.
    + intros H. destruct (L (mkbbox (Some 0) 0 15 10)) with (p := (16, 0)) as (l & _ & Q & _); auto; [|cbn in Q; lra].
      intros p [(i & [<-|[]] & (w & d & h & Ex & A & B))|[E|E]]; [injection Ex as <- <- <-; cbn in A, B|subst p|subst p]; exists 0; cbn; repeat split; lra.
Qed.

(** C161: mathmode never reaches the box: it is a text attribute itself, and text attributes are refused *)
Theorem unicode_mathmode_refuted :
  (forall l, text_pt_attrs l <> MakeBox true) /\
  text_pt_attrs [mathmode_attr] = ValueError /\ text_pt_attrs [] = MakeBox false.
Proof.
  split; [|split; reflexivity]. intros l. unfold text_pt_attrs. destruct (checkattrs _ _); [|discriminate].
  destruct (getattrs (mergeattrs l) ["textattr"%string]); [|discriminate]. cbn. discriminate.
Qed.
Print Assumptions unicode_mathmode_refuted.
(** and in stacks of texts hyphens stay hyphens, also in formulas *)
Theorem stacked_minus_refuted : ~ (forall extent thickness halfwidth axis length size l is x,
  textbox extent thickness halfwidth axis length size true l = Some (is, x) -> Forall (fun i => match i with Glyphs _ _ _ s _ => hyphenless s | _ => True end) is).
Proof.
  intros H. assert (textbox half_font 0 0 0 0 1 true [Stacked [mkrich [45; 49]%Z 1 0] false 0] =
    Some ([Glyphs (0 * (INR 2 / 2 * (1 * 1) - INR 2 / 2 * (1 * 1))) 0 (0 * 1 + 0) [45; 49]%Z (1 * 1)], 0 + INR 2 / 2 * (1 * 1))) as E by reflexivity.
  apply H in E. inversion E as [|? ? A B]; subst. apply A. now left.
Qed.
Print Assumptions stacked_minus_refuted.
