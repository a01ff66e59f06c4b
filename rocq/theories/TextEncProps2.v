(** C126 (characters of SVG fonts, see TextEncProps.v) and C128 (ligatures) *)
From Coq Require Import ZArith Ascii String List Bool Lia ZifyBool.
From Verif Require Import TextEncModel TextEncProps.
Import ListNotations.
Local Open Scope Z_scope.

(** ** characters of SVG fonts *)

Section Svg.
Variable known : string -> option Z.
(** the table of the known glyph names is the inverse of a dictionary, so different names have
    different characters, and no character of the private use areas is in it *)
Hypothesis known_inj : forall g h u, known g = Some u -> known h = Some u -> g = h.
Hypothesis known_small : forall g u, known g = Some u -> u < 983040.

Definition gwell (m : svgmap) : Prop :=
  983040 <= nextglyph m /\
  (forall g u, item g (sglyphs m) = Some u -> known g = Some u \/ (known g = None /\ 983040 <= u < nextglyph m)) /\
  (forall g h u, item g (sglyphs m) = Some u -> item h (sglyphs m) = Some u -> g = h).
Definition cwell (m : svgmap) : Prop :=
  1048576 <= nextcode m /\
  (forall c u, citem c (scodes m) = Some u -> (u = c /\ 32 <= u < 127) \/ (~ 32 <= c < 127 /\ 1048576 <= u < nextcode m)) /\
  (forall c d u, citem c (scodes m) = Some u -> citem d (scodes m) = Some u -> c = d).

Definition mkept (m m' : svgmap) : Prop :=
  kept (sglyphs m) (sglyphs m') /\ forall c u, citem c (scodes m) = Some u -> citem c (scodes m') = Some u.

Lemma mkept_refl : forall m, mkept m m. Proof. intros m. split; [apply kept_refl|auto]. Qed.
Lemma mkept_trans : forall a b c, mkept a b -> mkept b c -> mkept a c.
Proof. intros a b c [A B] [C D]. split; [eapply kept_trans; eassumption|auto]. Qed.

Lemma citem_app : forall c e r, citem c (e ++ r) = match citem c e with Some u => Some u | None => citem c r end.
Proof.
  induction e as [|[d u] e IH]; cbn; intros r; [reflexivity|].
  destruct (d =? c); [reflexivity|apply IH].
Qed.

Lemma merge_glyph_spec : forall m g, gwell m -> cwell m ->
  let m' := merge_glyph known m g in
  gwell m' /\ cwell m' /\ mkept m m' /\ exists u, item g (sglyphs m') = Some u.
Proof.
  intros m g [G1 [G2 G3]] C. cbv zeta. unfold merge_glyph.
  destruct (item g (sglyphs m)) as [u|] eqn:I.
  - split; [split; [exact G1|now split]|]. split; [exact C|]. split; [apply mkept_refl|now exists u].
  - set (v := match known g with Some u => u | None => nextglyph m end).
    set (m' := match known g with
               | Some u => mksvgmap (sglyphs m ++ [(g, u)]) (scodes m) (nextglyph m) (nextcode m)
               | None => mksvgmap (sglyphs m ++ [(g, nextglyph m)]) (scodes m) (nextglyph m + 1) (nextcode m)
               end).
    assert (Eg : sglyphs m' = sglyphs m ++ [(g, v)]) by (unfold m', v; destruct (known g); reflexivity).
    assert (Ec : scodes m' = scodes m /\ nextcode m' = nextcode m) by (unfold m'; destruct (known g); split; reflexivity).
    assert (En : nextglyph m <= nextglyph m') by (unfold m'; destruct (known g); cbn; lia).
    assert (Ev : known g = Some v \/ (known g = None /\ v = nextglyph m /\ nextglyph m' = nextglyph m + 1)).
    { unfold v, m'. destruct (known g) as [u|] eqn:K; [now left|right; now repeat split]. }
    clearbody v m'. destruct Ec as [Ec1 Ec2].
    assert (L : forall h u, item h (sglyphs m') = Some u ->
                item h (sglyphs m) = Some u \/ (h = g /\ u = v)).
    { intros h u. rewrite Eg, item_app. destruct (item h (sglyphs m)) as [x|]; [now left|].
      cbn. destruct (String.eqb_spec g h) as [->|_]; [|discriminate]. intros E. injection E as <-. right. now split. }
    assert (Fresh : forall h, item h (sglyphs m) = Some v -> h = g).
    { intros h H. destruct (G2 _ _ H) as [K|[K B]]; destruct Ev as [E|[E [E1 E2]]].
      - eapply known_inj; eassumption.
      - apply known_small in K. lia.
      - apply known_small in E. lia.
      - lia. }
    split; [|split; [|split]].
    + split; [lia|]. split.
      * intros h u H. destruct (L _ _ H) as [H'|[-> ->]].
        -- destruct (G2 _ _ H') as [K|[K B]]; [now left|right; split; [exact K|lia]].
        -- destruct Ev as [E|[E [E1 E2]]]; [now left|right; split; [exact E|lia]].
      * intros h k u H K. destruct (L _ _ H) as [H'|[-> ->]]; destruct (L _ _ K) as [K'|[-> E]].
        -- eapply G3; eassumption.
        -- subst u. now apply Fresh.
        -- symmetry. now apply Fresh.
        -- reflexivity.
    + unfold cwell. rewrite Ec1, Ec2. exact C.
    + split; [|now rewrite Ec1]. intros h u H. now rewrite Eg, item_app, H.
    + exists v. rewrite Eg, item_app, I. cbn. now rewrite String.eqb_refl.
Qed.

Lemma merge_code_spec : forall m c, gwell m -> cwell m ->
  let m' := merge_code m c in
  gwell m' /\ cwell m' /\ mkept m m' /\ exists u, citem c (scodes m') = Some u.
Proof.
  intros m c G [C1 [C2 C3]]. cbv zeta. unfold merge_code.
  destruct (citem c (scodes m)) as [u|] eqn:I.
  - split; [exact G|]. split; [split; [exact C1|now split]|]. split; [apply mkept_refl|now exists u].
  - set (v := match ascii_code c with Some u => u | None => nextcode m end).
    set (m' := match ascii_code c with
               | Some u => mksvgmap (sglyphs m) (scodes m ++ [(c, u)]) (nextglyph m) (nextcode m)
               | None => mksvgmap (sglyphs m) (scodes m ++ [(c, nextcode m)]) (nextglyph m) (nextcode m + 1)
               end).
    assert (Ec : scodes m' = scodes m ++ [(c, v)]) by (unfold m', v; destruct (ascii_code c); reflexivity).
    assert (Eg : sglyphs m' = sglyphs m /\ nextglyph m' = nextglyph m) by (unfold m'; destruct (ascii_code c); split; reflexivity).
    assert (En : nextcode m <= nextcode m') by (unfold m'; destruct (ascii_code c); cbn; lia).
    assert (Ev : (v = c /\ 32 <= v < 127) \/ (~ 32 <= c < 127 /\ v = nextcode m /\ nextcode m' = nextcode m + 1)).
    { unfold v, m', ascii_code. destruct ((32 <=? c) && (c <? 127)) eqn:K; [left; lia|right; repeat split; lia]. }
    clearbody v m'. destruct Eg as [Eg1 Eg2].
    assert (L : forall h u, citem h (scodes m') = Some u ->
                citem h (scodes m) = Some u \/ (h = c /\ u = v)).
    { intros h u. rewrite Ec, citem_app. destruct (citem h (scodes m)) as [x|]; [now left|].
      cbn. destruct (Z.eqb_spec c h) as [->|_]; [|discriminate]. intros E. injection E as <-. right. now split. }
    assert (Fresh : forall h, citem h (scodes m) = Some v -> h = c).
    { intros h H. pose proof (C2 _ _ H). lia. }
    split; [|split; [|split]].
    + unfold gwell. rewrite Eg1, Eg2. exact G.
    + split; [lia|]. split.
      * intros h u H. destruct (L _ _ H) as [H'|[-> ->]]; [pose proof (C2 _ _ H'); lia|lia].
      * intros h k u H K. destruct (L _ _ H) as [H'|[-> ->]]; destruct (L _ _ K) as [K'|[-> E]].
        -- eapply C3; eassumption.
        -- subst u. now apply Fresh.
        -- symmetry. now apply Fresh.
        -- reflexivity.
    + split; [now rewrite Eg1; apply kept_refl|]. intros h u H. now rewrite Ec, citem_app, H.
    + exists v. rewrite Ec, citem_app, I. cbn. now rewrite Z.eqb_refl.
Qed.

Lemma fold_glyphs : forall gs m, gwell m -> cwell m ->
  let m' := fold_left (merge_glyph known) gs m in
  gwell m' /\ cwell m' /\ mkept m m' /\ forall g, In g gs -> exists u, item g (sglyphs m') = Some u.
Proof.
  induction gs as [|g gs IH]; intros m G C; cbv zeta; cbn [fold_left].
  - split; [exact G|]. split; [exact C|]. split; [apply mkept_refl|intros g []].
  - destruct (merge_glyph_spec m g G C) as [G1 [C1 [K1 [u U]]]].
    destruct (IH _ G1 C1) as [G2 [C2 [K2 U2]]].
    split; [exact G2|]. split; [exact C2|]. split; [eapply mkept_trans; eassumption|].
    intros h [<-|I]; [exists u; now apply K2|now apply U2].
Qed.

Lemma fold_codes : forall cs m, gwell m -> cwell m ->
  let m' := fold_left merge_code cs m in
  gwell m' /\ cwell m' /\ mkept m m' /\ forall c, In c cs -> exists u, citem c (scodes m') = Some u.
Proof.
  induction cs as [|c cs IH]; intros m G C; cbv zeta; cbn [fold_left].
  - split; [exact G|]. split; [exact C|]. split; [apply mkept_refl|intros c []].
  - destruct (merge_code_spec m c G C) as [G1 [C1 [K1 [u U]]]].
    destruct (IH _ G1 C1) as [G2 [C2 [K2 U2]]].
    split; [exact G2|]. split; [exact C2|]. split; [eapply mkept_trans; eassumption|].
    intros h [<-|I]; [exists u; now apply K2|now apply U2].
Qed.

Definition has_glyph (t : svgtext) (g : string) : Prop := match t with Glyphs gs => In g gs | Codes _ => False end.
Definition has_code (t : svgtext) (c : Z) : Prop := match t with Glyphs _ => False | Codes cs => In c cs end.

Lemma fold_texts : forall ts m, gwell m -> cwell m ->
  let m' := fold_left (merge_text known) ts m in
  gwell m' /\ cwell m' /\ mkept m m' /\
  (forall t g, In t ts -> has_glyph t g -> exists u, item g (sglyphs m') = Some u) /\
  (forall t c, In t ts -> has_code t c -> exists u, citem c (scodes m') = Some u).
Proof.
  induction ts as [|t ts IH]; intros m G C; cbv zeta; cbn [fold_left].
  - split; [exact G|]. split; [exact C|]. split; [apply mkept_refl|]. split; intros t x [].
  - assert (S : gwell (merge_text known m t) /\ cwell (merge_text known m t) /\ mkept m (merge_text known m t) /\
      (forall g, has_glyph t g -> exists u, item g (sglyphs (merge_text known m t)) = Some u) /\
      (forall c, has_code t c -> exists u, citem c (scodes (merge_text known m t)) = Some u)).
    { destruct t as [gs|cs]; cbn [merge_text has_glyph has_code].
      - destruct (fold_glyphs gs m G C) as [X [Y [Z0 W]]]. repeat (split; [assumption|]). intros c [].
      - destruct (fold_codes cs m G C) as [X [Y [Z0 W]]]. repeat (split; [assumption|]). split; [intros g []|exact W]. }
    destruct S as [G1 [C1 [K1 [U V]]]].
    destruct (IH _ G1 C1) as [G2 [C2 [K2 [U2 V2]]]].
    split; [exact G2|]. split; [exact C2|]. split; [eapply mkept_trans; eassumption|]. split.
    + intros t' g [<-|I] H; [|eapply U2; eassumption].
      destruct (U g H) as [u E]. exists u. now apply K2.
    + intros t' c [<-|I] H; [|eapply V2; eassumption].
      destruct (V c H) as [u E]. exists u. now apply K2.
Qed.

Lemma map0_well : gwell svgmap0 /\ cwell svgmap0.
Proof. split; (split; [cbn; lia|]; split; intros; discriminate). Qed.

(** every glyph of a text has a character in the SVG font, which is the same when the text is
    written as at the end, different glyphs have different characters, and so it is for the
    codes of texts given by codes *)
Theorem svg_characters : forall ts rest,
  let now := merge_texts known ts in
  let final := merge_texts known (ts ++ rest) in
  (forall t g, In t ts -> has_glyph t g -> exists u, item g (sglyphs now) = Some u /\ item g (sglyphs final) = Some u) /\
  (forall g h u, item g (sglyphs final) = Some u -> item h (sglyphs final) = Some u -> g = h) /\
  (forall t c, In t ts -> has_code t c -> exists u, citem c (scodes now) = Some u /\ citem c (scodes final) = Some u) /\
  (forall c d u, citem c (scodes final) = Some u -> citem d (scodes final) = Some u -> c = d).
Proof.
  intros ts rest. cbv zeta. unfold merge_texts.
  destruct map0_well as [G C]. destruct (fold_texts ts svgmap0 G C) as [G1 [C1 [K1 [U1 V1]]]].
  rewrite fold_left_app. destruct (fold_texts rest _ G1 C1) as [G2 [C2 [K2 _]]].
  split; [|split; [apply G2|split; [|apply C2]]].
  - intros t g I H. destruct (U1 _ _ I H) as [u E]. exists u. split; [exact E|now apply K2].
  - intros t c I H. destruct (V1 _ _ I H) as [u E]. exists u. split; [exact E|now apply K2].
Qed.
End Svg.
Print Assumptions svg_characters.

(** a font used in one text by glyph names and in another one by codes: the code 65 and the
    glyph A have the same character, also if the font has another glyph at the code 65 *)
Theorem svg_characters_refuted :
  exists known ts g c u, known "A"%string = Some 65 /\ (forall x y v, known x = Some v -> known y = Some v -> x = y) /\
    has_glyph (nth 0 ts (Glyphs [])) g /\ has_code (nth 1 ts (Glyphs [])) c /\
    item g (sglyphs (merge_texts known ts)) = Some u /\ citem c (scodes (merge_texts known ts)) = Some u.
Proof.
  exists (fun g => if String.eqb g "A" then Some 65 else None), [Glyphs ["A"%string]; Codes [65]], "A"%string, 65, 65.
  repeat split; try reflexivity; try (cbn; now left).
  intros x y v. destruct (String.eqb_spec x "A") as [->|_]; [|discriminate].
  destruct (String.eqb_spec y "A") as [->|_]; [reflexivity|discriminate].
Qed.
Print Assumptions svg_characters_refuted.

Section Examples.
Local Open Scope string_scope.
Example ex_svgmap :
  let known g := if String.eqb g "A" then Some 65 else if String.eqb g "fi" then Some 64257 else None in
  merge_texts known [Glyphs ["A"; "odd"; "A"]; Codes [66; 200; 201; 200]; Glyphs ["even"; "fi"; "odd"]] =
    mksvgmap [("A", 65); ("odd", 983040); ("even", 983041); ("fi", 64257)] [(66, 66); (200, 1048576); (201, 1048577)] 983042 1048578.
Proof. reflexivity. Qed.
End Examples.

(** ** ligatures *)

Section Ligatures.
Variable ligs : string -> option (list (string * string)).

(** the ligature of two glyphs: the first one in the list of the first glyph *)
Inductive joins (g h r : string) : Prop :=
| joins_intro l l1 l2 : ligs g = Some l -> l = l1 ++ (h, r) :: l2 -> ~ In h (map fst l1) -> joins g h r.
Definition apart (g h : string) : Prop := exists l, ligs g = Some l /\ ~ In h (map fst l).

(** [r] is made of [g] and the glyphs after it, joined one after the other *)
Inductive joined : string -> list string -> string -> Prop :=
| joined_one g : joined g [] g
| joined_more g h r hs res : joins g h r -> joined r hs res -> joined g (h :: hs) res.

(** the glyphs [gs] are cut into parts, each of which is joined to a glyph of the result, and
    no such glyph joins the first glyph of the next part *)
Inductive resolved : list string -> list string -> Prop :=
| resolved_last g hs r : joined g hs r -> resolved (g :: hs) [r]
| resolved_next g hs r h rest res : joined g hs r -> apart r h -> resolved (h :: rest) res ->
    resolved (g :: hs ++ h :: rest) (r :: res).

Lemma ligature_joins : forall g l h r, ligs g = Some l -> ligature l h = Some r -> joins g h r.
Proof.
  intros g l h r L E. unfold ligature in E.
  assert (X : exists l1 l2, l = l1 ++ (h, r) :: l2 /\ ~ In h (map fst l1)).
  { clear L. induction l as [|[a b] l IH]; cbn in E; [discriminate|].
    destruct (String.eqb_spec a h) as [->|N].
    - cbn in E. injection E as <-. exists [], l. now split; [|intros []].
    - destruct (IH E) as [l1 [l2 [-> I]]]. exists ((a, b) :: l1), l2. split; [reflexivity|].
      cbn. intros [H|H]; contradiction. }
  destruct X as [l1 [l2 [X Y]]]. now exists l l1 l2.
Qed.

Lemma ligature_apart : forall g l h, ligs g = Some l -> ligature l h = None -> apart g h.
Proof.
  intros g l h L E. exists l. split; [exact L|]. unfold ligature in E.
  clear L. induction l as [|[a b] l IH]; cbn in *; [tauto|].
  destruct (String.eqb_spec a h) as [->|N]; [discriminate|]. intros [H|H]; [contradiction|now apply IH].
Qed.

Lemma joins_fun : forall g h r r', joins g h r -> joins g h r' -> r = r'.
Proof.
  intros g h r r' [l l1 l2 L E N] [k k1 k2 K F M]. rewrite L in K. injection K as <-. rewrite E in F. clear L E.
  revert k1 F M. induction l1 as [|[a b] l1 IH]; intros [|[c d] k1] F M; cbn in F.
  - now injection F.
  - injection F as <- _ _. cbn in M. tauto.
  - injection F as -> _ _. cbn in N. tauto.
  - injection F as -> -> F. eapply IH; [|exact F|].
    + cbn in N. tauto.
    + cbn in M. tauto.
Qed.

Lemma joins_apart : forall g h r, joins g h r -> apart g h -> False.
Proof.
  intros g h r [l l1 l2 L E N] [k [K M]]. rewrite L in K. injection K as <-. apply M.
  rewrite E, map_app, in_app_iff. right. now left.
Qed.

Lemma from_spec : forall rest cur res, ligatures_from ligs cur rest = Some res ->
  forall g hs, joined g hs cur -> resolved (g :: hs ++ rest) res.
Proof.
  assert (J : forall g hs c h r, joined g hs c -> joins c h r -> joined g (hs ++ [h]) r).
  { intros g hs c h r J K. induction J as [g|g x y xs z A B IH]; cbn.
    - econstructor; [exact K|constructor].
    - econstructor; [exact A|now apply IH]. }
  induction rest as [|h rest IH]; intros cur res E g hs G; cbn in E.
  - injection E as <-. rewrite app_nil_r. now constructor.
  - destruct (ligs cur) as [l|] eqn:L; [|discriminate].
    destruct (ligature l h) as [r|] eqn:R.
    + pose proof (IH _ _ E g (hs ++ [h]) (J _ _ _ _ _ G (ligature_joins _ _ _ _ L R))) as X.
      rewrite <- app_assoc in X. exact X.
    + destruct (ligatures_from ligs h rest) as [o|] eqn:O; [|discriminate]. injection E as <-.
      apply resolved_next; [exact G|eapply ligature_apart; eassumption|].
      exact (IH _ _ O h [] (joined_one h)).
Qed.

(** ligatures are made from left to right as often as possible, and there is only one way to
    do so *)
Theorem ligatures_resolved : forall g gs res, resolveligatures ligs (g :: gs) = Some res ->
  resolved (g :: gs) res /\ forall res', resolved (g :: gs) res' -> res' = res.
Proof.
  assert (J : forall c h rest res, resolved (c :: h :: rest) res ->
     (exists r, joins c h r /\ resolved (r :: rest) res) \/ (apart c h /\ exists res', res = c :: res' /\ resolved (h :: rest) res')).
  { intros c h rest res R. remember (c :: h :: rest) as all eqn:Q.
    destruct R as [g hs r G|g hs r h' rest' res' G A R'].
    - injection Q as -> ->. inversion G as [|? ? r' ? ? K G']; subst. left. exists r'. split; [exact K|now constructor].
    - injection Q as -> Q. destruct G as [g|g x r' hs' r K G']; cbn in Q; injection Q as -> Q.
      + subst rest'. right. split; [exact A|]. now exists res'.
      + left. exists r'. split; [exact K|]. rewrite <- Q. now constructor. }
  assert (U : forall rest cur res, ligatures_from ligs cur rest = Some res ->
    forall res', resolved (cur :: rest) res' -> res' = res).
  { induction rest as [|h rest IH]; intros cur res E res' R; cbn in E.
    - injection E as <-. inversion R as [? ? r G E1|? hs ? ? ? ? G A R' E1]; subst.
      + now inversion G.
      + destruct hs; discriminate.
    - destruct (ligs cur) as [l|] eqn:L; [|discriminate]. apply J in R.
      destruct (ligature l h) as [r|] eqn:X.
      + pose proof (ligature_joins _ _ _ _ L X) as K. destruct R as [[r' [K' R]]|[A _]].
        * rewrite (joins_fun _ _ _ _ K' K) in R. now apply (IH r).
        * exfalso. eapply joins_apart; eassumption.
      + pose proof (ligature_apart _ _ _ L X) as K. destruct R as [[r' [K' _]]|[_ [o' [-> R]]]].
        * exfalso. eapply joins_apart; eassumption.
        * destruct (ligatures_from ligs h rest) as [o|] eqn:O; [|discriminate]. injection E as <-.
          f_equal. now apply (IH h). }
  intros g gs res E. cbn in E. split; [exact (from_spec _ _ _ E g [] (joined_one g))|].
  intros res' R. eapply U; eassumption.
Qed.
End Ligatures.
Print Assumptions ligatures_resolved.

Section Examples2.
Local Open Scope string_scope.
Example ex_ligatures :
  let ligs g := Some (if String.eqb g "f" then [("i", "fi"); ("f", "ff"); ("l", "fl")]
                      else if String.eqb g "ff" then [("i", "ffi")] else []) in
  resolveligatures ligs ["o"; "f"; "f"; "i"; "f"; "f"; "f"; "l"; "f"] = Some ["o"; "ffi"; "ff"; "fl"; "f"].
Proof. reflexivity. Qed.
End Examples2.
