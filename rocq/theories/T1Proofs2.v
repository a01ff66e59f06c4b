(** The selection of glyphs finds everything which is called. *)
From Coq Require Import ZArith Bool String List Lia.
From Verif Require Import T1Model T1Spec T1Proofs.
Import ListNotations.
Open Scope Z_scope.

(** F' has what F has of these subroutines and glyphs *)
Definition keeps (F F' : font) (gs : list string) (used : list Z) : Prop :=
  (forall i b, In (Z.of_nat i) used -> nth_error (subrs F) i = Some b -> nth_error (subrs F') i = Some b) /\
  (forall n b, In n gs -> getglyph F n = Some b -> getglyph F' n = Some b).
Lemma keeps_less F F' gs gs' used used' : incl gs gs' -> incl used used' -> keeps F F' gs' used' -> keeps F F' gs used.
Proof. intros G U [K1 K2]. split; intros; [apply K1|apply K2]; auto. Qed.

Definition gathers (F : font) (l : list tok) (g g' : gathered) : Prop := exists n, forall f, (n <= f)%nat -> gather F f l g = Some g'.
Definition grows (g g' : gathered) : Prop := incl (g_glyphs g) (g_glyphs g') /\ incl (g_subrs g) (g_subrs g').
Lemma grows_refl g : grows g g. Proof. split; apply incl_refl. Qed.
Lemma grows_trans a b c : grows a b -> grows b c -> grows a c.
Proof. intros [A1 A2] [B1 B2]. split; eapply incl_tran; eassumption. Qed.

(** one command without calls *)
Lemma simple_gather c st st1 junk g F : simple c st st1 -> g_stack g = junk ++ stack st ->
  exists g1, (forall f l, gather F (S f) (Cmd c :: l) g = gather F f l g1) /\ (exists junk', g_stack g1 = junk' ++ stack st1) /\ g_glyphs g1 = g_glyphs g /\ g_subrs g1 = g_subrs g.
Proof.
  intros H E. destruct H as [st sbx wx Es|st sbx sby wx wy Es|st p Es|st x y dx Es|st x y dy Es|st x y dx dy Es|st x y dx Es Cu Fl|st x y dy Es Cu Fl|st x y dx dy Es Cu Fl
      |st x y dx1 dy1 dx2 dy2 dx3 dy3 Es|st x y dx1 dx2 dy2 dy3 Es|st x y dy1 dx2 dy2 dx3 Es|st Es|st a b Es|st a b Es|st a b c d e f Es|st a b c d e f Es|st s0 q b Es B|st p Es|st p s0 l0 Es];
    try (exists g; split; [reflexivity|]; split; [|split; reflexivity]; cbn; eexists (g_stack g); now rewrite app_nil_r).
  1-3: exists g; (split; [reflexivity|]); (split; [|split; reflexivity]); unfold moves; destruct (flexing st) as [[[? ?] ?]|]; exists (g_stack g); cbn; now rewrite app_nil_r.
  - exists g. split; [reflexivity|]. split; [|split; reflexivity]. exists junk. exact E.
  - exists (mkgathered (g_glyphs g) (g_subrs g) ((junk ++ s0) ++ [q]) (g_ps g)). split; [|split; [exists junk; cbn; now rewrite app_assoc|split; reflexivity]].
    intros f l. cbn [gather]. rewrite E, Es. replace (junk ++ s0 ++ [q * b; b]) with (((junk ++ s0) ++ [q * b]) ++ [b]) by (rewrite <- !app_assoc; reflexivity). rewrite pop_app. cbn [bind]. rewrite pop_app. cbn [bind]. unfold floordiv.
    destruct (Z.eqb_spec b 0); [contradiction|]. rewrite Z.div_mul by assumption. reflexivity.
  - exists (mkgathered (g_glyphs g) (g_subrs g) junk (g_ps g)). split; [|split; [exists junk; cbn; now rewrite app_nil_r|split; reflexivity]].
    intros f l. cbn [gather]. rewrite E, Es. replace (junk ++ [0; 1]) with ((junk ++ [0]) ++ [1]) by (rewrite <- !app_assoc; reflexivity). rewrite pop_app. cbn [bind]. rewrite pop_app. cbn [bind]. unfold poptop. cbn [Nat.leb Z.to_nat bind].
    rewrite Nat.sub_0_r, firstn_all, skipn_all, app_nil_r. reflexivity.
  - exists (mkgathered (g_glyphs g) (g_subrs g) junk (g_ps g)). split; [|split; [exists junk; cbn; now rewrite app_nil_r|split; reflexivity]].
    intros f l. cbn [gather]. rewrite E, Es. replace (junk ++ [0; 2]) with ((junk ++ [0]) ++ [2]) by (rewrite <- !app_assoc; reflexivity). rewrite pop_app. cbn [bind]. rewrite pop_app. cbn [bind]. unfold poptop. cbn [Nat.leb Z.to_nat bind].
    rewrite Nat.sub_0_r, firstn_all, skipn_all, app_nil_r. reflexivity.
Qed.

Lemma poptop_app a l : poptop (length l) (a ++ l) = Some (l, a).
Proof.
  unfold poptop. rewrite app_length. replace (length l <=? length a + length l)%nat with true by (symmetry; apply Nat.leb_le; lia).
  replace (length a + length l - length l)%nat with (length a) by lia. rewrite skipn_app, skipn_all, Nat.sub_diag, firstn_app, firstn_all, Nat.sub_diag. cbn. now rewrite app_nil_r.
Qed.

Lemma composite_stays flex F l st st' : exec flex F l st st' -> composite st = true -> composite st' = true.
Proof. induction 1 as [| | ? ? ? ? ? ? Si ? IH | | | | | | ]; intros Q; trivial; auto. apply IH. now rewrite (proj2 (simple_ended _ _ _ Si)). Qed.

Theorem gather_ok flex F l st st' : exec flex F l st st' -> forall junk g, g_stack g = junk ++ stack st ->
  exists g', gathers F l g g' /\ (exists junk', g_stack g' = junk' ++ stack st') /\ grows g g' /\ (composite st' = false -> g_glyphs g' = g_glyphs g) /\
    forall F', keeps F F' (g_glyphs g') (g_subrs g') -> exec flex F' l st st'.
Proof.
  induction 1 as [st|v l st st' E H IH|k l st st1 st' E Si H IH|st E|st E Es Fl|i s b l st st1 st' E Es Nb Hb IHb H IH
      |size x y s r p1 p2 p3 p4 p5 l st st' E Es Cu Fl H IH|i l st st' E Es H IH|asb adx ady bchar achar bglyph aglyph bl al b a st E Es Cn Fl Dr Hb Ha Nb Na Gb Ga Eb IHb Ea IHa Ndb Nda Cb Ca];
    intros junk g Eg.
  - exists g. split; [exists 1%nat; intros [|f] L; [lia|reflexivity]|]. split; [eauto|]. split; [apply grows_refl|]. split; [reflexivity|]. intros; constructor.
  - destruct (IH junk (mkgathered (g_glyphs g) (g_subrs g) (g_stack g ++ [v]) (g_ps g))) as (g' & (n & R) & J & G & C & K); [cbn; rewrite Eg; now rewrite app_assoc|].
    exists g'. split; [exists (S n); intros [|f] L; [lia|]; cbn; apply R; lia|]. split; [exact J|]. split; [exact G|]. split; [exact C|]. intros F' Q. apply E_num; auto.
  - destruct (simple_gather k st st1 junk g F Si Eg) as (g1 & R1 & (j1 & J1) & G1 & U1). destruct (IH j1 g1 J1) as (g' & (n & R) & J & G & C & K).
    exists g'. split; [exists (S n); intros [|f] L; [lia|]; rewrite R1; apply R; lia|]. split; [exact J|]. split; [unfold grows in *; rewrite <- G1, <- U1; exact G|]. split; [rewrite <- G1; exact C|]. intros F' Q. eapply E_simple; eauto.
  - exists g. split; [exists 2%nat; intros [|[|f]] L; [lia|lia|reflexivity]|]. split; [eauto|]. split; [apply grows_refl|]. split; [reflexivity|]. intros; now constructor.
  - exists g. split; [exists 2%nat; intros [|[|f]] L; [lia|lia|reflexivity]|]. split; [cbn; exists (g_stack g); now rewrite app_nil_r|]. split; [apply grows_refl|]. split; [reflexivity|]. intros; now constructor.
  - destruct (IHb junk (mkgathered (g_glyphs g) (Z.of_nat i :: g_subrs g) (junk ++ s) (g_ps g)) eq_refl) as (g1 & (n1 & R1) & (j1 & J1) & G1 & C1 & K1).
    destruct (IH j1 g1 J1) as (g' & (n2 & R2) & J & G & C & K). exists g'. split.
    { exists (S (n1 + n2)). intros [|f] L; [lia|]. cbn [gather]. rewrite Eg, Es, app_assoc, pop_app. cbn [bind]. unfold getsubr. destruct (Z.leb_spec 0 (Z.of_nat i)); [|lia]. rewrite Nat2Z.id, Nb. cbn [bind]. rewrite R1 by lia. cbn [bind]. apply R2. lia. }
    split; [exact J|]. split; [eapply grows_trans; [|exact G]; destruct G1 as [Ga Gb]; split; [exact Ga|]; intros z Hz; apply Gb; right; exact Hz|]. split.
    { intros Q. rewrite C by exact Q. rewrite C1; [reflexivity|]. destruct (composite st1) eqn:Q1; [|reflexivity]. rewrite (composite_stays _ _ _ _ _ H Q1) in Q. discriminate. }
    intros F' Q. assert (keeps F F' (g_glyphs g1) (g_subrs g1)) as Q1 by (eapply keeps_less; [apply G|apply G|exact Q]).
    eapply E_callsubr; [exact E|exact Es| |apply K1, Q1|apply K, Q]. apply (proj1 Q1); [|exact Nb]. apply (proj2 G1). left. reflexivity.
  - destruct (IH (junk ++ [y; x]) (mkgathered (g_glyphs g) (g_subrs g) (junk ++ [y; x]) (g_ps g ++ [size]))) as (g' & (n & R) & J & G & C & K); [cbn; now rewrite app_nil_r|].
    exists g'. split.
    { exists (S (S (S (S n)))). intros [|[|[|[|f]]]] L; try lia. rewrite <- (R f) by lia. cbn [gather]. rewrite Eg, Es. replace (junk ++ [size; x; y; 3; 0]) with (((junk ++ [size; x; y]) ++ [3]) ++ [0]) by (rewrite <- !app_assoc; reflexivity).
      rewrite pop_app. cbn [bind]. rewrite pop_app. cbn [bind]. change (Z.to_nat 3) with (length [size; x; y]). rewrite poptop_app. cbn [bind g_ps].
      replace (g_ps g ++ [size; x; y]) with (((g_ps g ++ [size]) ++ [x]) ++ [y]) by (rewrite <- !app_assoc; reflexivity). rewrite pop_app. cbn [bind g_ps g_glyphs g_subrs g_stack]. rewrite pop_app. cbn [bind g_ps g_glyphs g_subrs g_stack]. rewrite <- app_assoc. reflexivity. }
    split; [exact J|]. split; [exact G|]. split; [exact C|]. intros F' Q. eapply E_flex; eauto.
  - destruct (IH junk (mkgathered (g_glyphs g) (g_subrs g) (junk ++ [i]) (g_ps g))) as (g' & (n & R) & J & G & C & K); [reflexivity|].
    exists g'. split.
    { exists (S (S n)). intros [|[|f]] L; try lia. rewrite <- (R f) by lia. cbn [gather]. rewrite Eg, Es. replace (junk ++ [i; 1; 3]) with (((junk ++ [i]) ++ [1]) ++ [3]) by (rewrite <- !app_assoc; reflexivity).
      rewrite pop_app. cbn [bind]. rewrite pop_app. cbn [bind]. change (Z.to_nat 1) with (length [i]). rewrite poptop_app. cbn [bind g_ps]. rewrite pop_app. reflexivity. }
    split; [exact J|]. split; [exact G|]. split; [exact C|]. intros F' Q. eapply E_hints; eauto.
  - destruct (IHb (junk ++ [asb; adx; ady]) (mkgathered (bglyph :: aglyph :: g_glyphs g) (g_subrs g) (junk ++ [asb; adx; ady]) (g_ps g))) as (g1 & (n1 & R1) & (j1 & J1) & G1 & C1 & K1); [cbn; now rewrite app_nil_r|].
    destruct (IHa (j1 ++ stack b) g1) as (g' & (n2 & R2) & (j2 & J) & G & C & K); [cbn; now rewrite app_nil_r|]. exists g'. split.
    { exists (S (S (n1 + n2))). intros [|f] L; [lia|]. cbn [gather]. rewrite Eg, Es. replace (junk ++ [asb; adx; ady; bchar; achar]) with (((junk ++ [asb; adx; ady]) ++ [bchar]) ++ [achar]) by (rewrite <- !app_assoc; reflexivity).
      rewrite pop_app. cbn [bind]. rewrite pop_app. cbn [bind]. unfold standard. destruct (Z.leb_spec 0 achar); [|lia]. destruct (Z.ltb_spec achar 256); [|lia]. destruct (Z.leb_spec 0 bchar); [|lia]. destruct (Z.ltb_spec bchar 256); [|lia]. cbn [andb].
      rewrite Na, Nb. cbn [bind]. rewrite Gb, Ga. cbn [bind]. rewrite R1 by lia. cbn [bind]. rewrite R2 by lia. cbn [bind]. destruct f; [lia|reflexivity]. }
    split; [cbn; exists (g_stack g'); now rewrite app_nil_r|]. split.
    { eapply grows_trans; [|exact G]. destruct G1 as [G1 U1]. split; [|exact U1]. intros z Hz. apply G1. right. right. exact Hz. }
    split.
    { discriminate. }
    intros F' Q. assert (keeps F F' (g_glyphs g1) (g_subrs g1)) as Q1 by (eapply keeps_less; [apply G|apply G|exact Q]).
    eapply E_seac; try eassumption; [| |apply K1, Q1|apply K, Q].
    + apply (proj2 Q1); [apply (proj1 G1); left; reflexivity|exact Gb].
    + apply (proj2 Q1); [apply (proj1 G1); right; left; reflexivity|exact Ga].
Qed.

(** ** The stripped font *)
Lemma adjusted_incl F used : incl used (adjusted F used).
Proof. unfold adjusted. destruct used as [|a r]; [apply incl_refl|]. destruct (_ && _); [apply incl_appr, incl_refl|apply incl_refl]. Qed.
Lemma max_le x l : In x l -> x <= fold_right Z.max (-1) l.
Proof. induction l as [|a l IH]; intros []; cbn; [subst; lia|specialize (IH H); lia]. Qed.
Lemma find_filter {A} (p q : A -> bool) l : (forall x, p x = true -> q x = true) -> find p (filter q l) = find p l.
Proof.
  intros H. induction l as [|x l IH]; [reflexivity|]. cbn. destruct (q x) eqn:Q; cbn.
  - now rewrite IH.
  - rewrite IH. destruct (p x) eqn:Px; [|reflexivity]. rewrite (H x Px) in Q. discriminate.
Qed.
Lemma stripped_keeps F gs used : keeps F (stripped F gs used) gs used.
Proof.
  split.
  - intros i b Hi Nb. apply adjusted_incl with (F := F) in Hi. unfold stripped. cbn [subrs]. set (u := adjusted F used) in *.
    pose proof (max_le _ _ Hi) as M. rewrite nth_error_map. rewrite nth_error_nth' with (d := 0%nat) by (rewrite seq_length; lia). cbn. rewrite seq_nth by lia. cbn.
    replace (existsb (Z.eqb (Z.of_nat i)) u) with true by (symmetry; apply existsb_exists; exists (Z.of_nat i); split; [exact Hi|apply Z.eqb_refl]). f_equal. now apply nth_error_nth.
  - intros n b Hn. unfold getglyph, stripped. cbn [glyphs]. rewrite find_filter; [auto|]. intros [m l]. cbn. intros Q. apply String.eqb_eq in Q. subst m. apply existsb_exists. exists n. split; [exact Hn|apply String.eqb_refl].
Qed.

Lemma gather_all_ok flex F gs : forall seac used, (forall g, In g gs -> exists l st, getglyph F g = Some l /\ exec flex F l initial st) ->
  exists n seac' used', (forall f, (n <= f)%nat -> gather_all F f gs seac used = Some (seac', used')) /\ incl seac seac' /\ incl used used' /\
    ((forall g, In g gs -> exists l st, getglyph F g = Some l /\ exec flex F l initial st /\ composite st = false) -> seac' = seac) /\
    (forall g l st, In g gs -> getglyph F g = Some l -> exec flex F l initial st -> forall F', keeps F F' seac' used' -> exec flex F' l initial st).
Proof.
  induction gs as [|g gs IH]; intros seac used H.
  - exists 0%nat, seac, used. split; [reflexivity|]. split; [apply incl_refl|]. split; [apply incl_refl|]. split; [reflexivity|]. intros ? ? ? [].
  - destruct (H g (or_introl eq_refl)) as (l & st & Gl & Ex). destruct (gather_ok _ _ _ _ _ Ex [] (mkgathered seac used [] []) eq_refl) as (g' & (n1 & R1) & _ & [G1 U1] & C1 & K1). cbn in G1, U1, C1.
    destruct (IH (g_glyphs g') (g_subrs g')) as (n2 & seac' & used' & R2 & I1 & I2 & C2 & K2); [intros; apply H; right; assumption|].
    exists (n1 + n2)%nat, seac', used'. split; [|split; [eapply incl_tran; eassumption|split; [eapply incl_tran; eassumption|split]]].
    + intros f L. cbn. rewrite Gl. cbn [bind]. rewrite R1 by lia. cbn [bind]. apply R2. lia.
    + intros Q. rewrite C2 by (intros; apply Q; right; assumption). destruct (Q g (or_introl eq_refl)) as (l' & st' & Gl' & Ex' & Cs). assert (l' = l) by congruence. subst l'.
      destruct (gather_ok _ _ _ _ _ Ex' [] (mkgathered seac used [] []) eq_refl) as (g2 & (n3 & R3) & _ & _ & C3 & _).
      assert (Some g' = Some g2) as E by (rewrite <- (R1 (n1 + n3)%nat) by lia; apply R3; lia). injection E as ->. apply C3, Cs.
    + intros h l' st' [<-|Hh] Gl' Ex' F' Kf; [|exact (K2 h l' st' Hh Gl' Ex' F' Kf)]. assert (l' = l) by congruence. subst l'.
      destruct (gather_ok _ _ _ _ _ Ex' [] (mkgathered seac used [] []) eq_refl) as (g2 & (n3 & R3) & _ & _ & C3 & K3).
      assert (Some g' = Some g2) as E by (rewrite <- (R1 (n1 + n3)%nat) by lia; apply R3; lia). injection E as ->. apply K3. eapply keeps_less; [exact I1|exact I2|exact Kf].
Qed.
