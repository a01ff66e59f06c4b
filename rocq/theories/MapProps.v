(** What is read from font map files. *)
From Coq Require Import ZArith List Bool Lia ZifyBool.
From Verif Require Import ReaderModel MapModel MapSpec.
Import ListNotations.
Open Scope Z_scope.

Lemma space_iff : forall c, isspace c = true <-> space c.
Proof. intros c. unfold isspace, space. lia. Qed.
Lemma nspace : forall c, ~ space c -> isspace c = false.
Proof. intros c H. destruct (isspace c) eqn:E; [|reflexivity]. apply space_iff in E. contradiction. Qed.
Lemma eqb_iff : forall s t, chars_eqb s t = true <-> s = t.
Proof.
  induction s as [|c s IH]; intros [|d t]; cbn; try (split; congruence). rewrite andb_true_iff, Z.eqb_eq, IH. split; [intros [-> ->]; reflexivity|intros [= -> ->]; auto].
Qed.
Lemma eqb_same : forall s t, chars_eqb s t = same s t.
Proof. intros s t. unfold same. destruct (list_eq_dec Z.eq_dec s t) as [E|E]; [apply eqb_iff; auto|]. destruct (chars_eqb s t) eqn:Q; [|reflexivity]. apply eqb_iff in Q. contradiction. Qed.
Lemma startswith_iff : forall p s, startswith p s = true <-> exists r, s = p ++ r.
Proof.
  induction p as [|c p IH]; intros s; cbn.
  - split; [intros _; exists s; reflexivity|auto].
  - destruct s as [|d s]; [split; [discriminate|intros (r & H); discriminate]|]. rewrite andb_true_iff, Z.eqb_eq, IH. split.
    + intros [-> (r & ->)]. exists r. reflexivity.
    + intros (r & H). injection H as -> ->. split; eauto.
Qed.
Lemma suffix_iff : forall p s, suffix p s = true <-> exists r, s = r ++ p.
Proof.
  intros p s. unfold suffix, same. destruct (list_eq_dec Z.eq_dec (skipn (length s - length p) s) p) as [E|E].
  - split; [intros _|auto]. exists (firstn (length s - length p) s). rewrite <- E at 2. symmetry. apply firstn_skipn.
  - split; [discriminate|]. intros (r & ->). exfalso. apply E. rewrite app_length. replace (length r + length p - length p)%nat with (length r) by lia.
    rewrite skipn_app, Nat.sub_diag, skipn_all. reflexivity.
Qed.
Lemma endswith_suffix : forall p c s, ~ In c p -> endswith p (c :: s) = suffix p s.
Proof.
  intros p c s N. apply eq_true_iff_eq. unfold endswith. rewrite startswith_iff, suffix_iff. split.
  - intros (r & H). apply (f_equal (@rev Z)) in H. rewrite rev_involutive, rev_app_distr, rev_involutive in H.
    destruct (rev r) as [|d r'] eqn:Er; [cbn in H; subst p; exfalso; apply N; left; reflexivity|]. cbn in H. injection H as _ ->. exists r'. reflexivity.
  - intros (r & ->). exists (rev (c :: r)). rewrite <- rev_app_distr. reflexivity.
Qed.

(** ** Tokens *)
Lemma lstrip_app : forall ws s, Forall space ws -> match s with [] => True | c :: _ => ~ space c end -> lstrip (ws ++ s) = s.
Proof.
  intros ws s W H. induction W as [|c ws C W IH]; cbn [app].
  - destruct s as [|c s]; [reflexivity|]. cbn. rewrite nspace by auto. reflexivity.
  - cbn. apply space_iff in C. rewrite C. exact IH.
Qed.
Definition open_end (sep t : text) : Prop := Forall space sep /\ (sep <> [] \/ t = []) /\ match t with [] => True | c :: _ => ~ space c end.
Lemma word_read : forall s sep t, plain s -> open_end sep t -> word (s ++ sep ++ t) = (s, t).
Proof.
  intros s sep t P (W & O & N). induction P as [|c s C P IH]; cbn [app].
  - destruct sep as [|c sep]; cbn [app].
    + destruct O as [O|O]; [contradiction|]. subst t. reflexivity.
    + cbn. inversion_clear W. pose proof H as H'. apply space_iff in H'. rewrite H'. f_equal. apply (lstrip_app sep t); auto.
  - cbn. rewrite nspace by auto. rewrite IH. reflexivity.
Qed.
Lemma quoted_read : forall s sep t, ~ In 34 s -> open_end sep t -> quoted (s ++ 34 :: sep ++ t) = (s, t).
Proof.
  intros s sep t Q (W & O & N). induction s as [|c s IH]; cbn [app].
  - cbn. destruct sep as [|c sep]; cbn [app].
    + destruct O as [O|O]; [contradiction|]. subst t. reflexivity.
    + inversion_clear W. pose proof H as H'. apply space_iff in H'. rewrite H'. f_equal. cbn. rewrite H'. apply (lstrip_app sep t); auto.
  - cbn. destruct (c =? 34) eqn:E; [exfalso; apply Q; left; lia|]. cbn. rewrite IH; [reflexivity|]. intros H. apply Q. right. exact H.
Qed.
Lemma spaced_no_quote : forall l t, spaced l t -> (forall w, In w l -> ~ In 34 w) -> ~ In 34 t.
Proof.
  assert (Sq : forall ws, Forall space ws -> ~ In 34 ws) by (intros ws W I; rewrite Forall_forall in W; specialize (W 34 I); unfold space in W; lia).
  induction 1 as [ws W|ws w l t W Nw P S IH E]; intros H; [apply Sq; auto|]. rewrite !in_app_iff. intros [I|[I|I]].
  - exact (Sq ws W I).
  - exact (H w (or_introl eq_refl) I).
  - apply IH; auto. intros w' I'. apply H. right. exact I'.
Qed.
Lemma word_shorter : forall s, let '(t, r) := word s in (length r <= length s)%nat /\ (s <> [] -> (length r < length s)%nat).
Proof.
  assert (Ls : forall s, (length (lstrip s) <= length s)%nat) by (induction s as [|c s IH]; cbn; [lia|]; destruct (isspace c); cbn; lia).
  induction s as [|c s IH]; cbn [word]; [cbn; split; [lia|congruence]|]. destruct (isspace c) eqn:E.
  - cbn [lstrip]. rewrite E. specialize (Ls s). cbn. split; lia.
  - destruct (word s) as [t r]. cbn. split; [|intros _]; lia.
Qed.
Lemma word_strip : forall w t, plain w -> (t = [] \/ exists c t', t = c :: t' /\ space c) -> word (w ++ t) = (w, lstrip t).
Proof.
  intros w t P E. induction P as [|d w D P IH]; cbn [app].
  - destruct E as [-> | (c' & t' & -> & C)]; [reflexivity|]. cbn [word]. apply space_iff in C. rewrite C. reflexivity.
  - cbn [word]. rewrite nspace by auto. rewrite IH. reflexivity.
Qed.
Lemma split_spaced : forall l t, spaced l t -> split t = l.
Proof.
  intros l t S. unfold split. assert (G : forall f, (length t <= f)%nat -> split_words f t = l); [|apply G; lia].
  induction S as [ws W|ws w l t W Nw P S IH E]; intros f F.
  - rewrite <- (app_nil_r ws). destruct f; [reflexivity|]. cbn [split_words]. rewrite lstrip_app; auto.
  - destruct w as [|c w]; [congruence|]. destruct f as [|f]; [rewrite !app_length in F; cbn in F; lia|]. cbn [split_words].
    rewrite (lstrip_app ws ((c :: w) ++ t) W); [|cbn; inversion P; auto]. cbn [app].
    assert (Wd : word (c :: w ++ t) = (c :: w, lstrip t)).
    { exact (word_strip (c :: w) t P E). }
    rewrite Wd. f_equal. rewrite !app_length in F. cbn in F.
    assert (Sl : forall g t, split_words g (lstrip t) = split_words g t).
    { intros g u. assert (Li : lstrip (lstrip u) = lstrip u) by (induction u as [|d u IHu]; [reflexivity|]; cbn; destruct (isspace d) eqn:Ed; [exact IHu|cbn; rewrite Ed; reflexivity]).
      destruct g; [reflexivity|]. cbn [split_words]. rewrite Li. reflexivity. }
    rewrite Sl. apply IH. lia.
Qed.
Definition entry_tokens (e : entry) (s : text) : list text := match e with Separate s => [[60]; s] | _ => [s] end.
Lemma tokens_more : forall f s, (length s <= f)%nat -> tokens f s = tokens (length s) s.
Proof.
  assert (Qs : forall s, (length (snd (quoted s)) <= length s)%nat).
  { assert (Ls : forall s, (length (lstrip s) <= length s)%nat) by (induction s as [|c s IH]; cbn; [lia|]; destruct (isspace c); cbn; lia).
    induction s as [|c s IH]; cbn [quoted]; [cbn; lia|]. destruct (_ && _); [cbn [snd length]; specialize (Ls s); lia|]. destruct (quoted s). cbn in *. lia. }
  assert (Os : forall c s, (length (snd (onetoken (c :: s))) <= length s)%nat).
  { intros c s. unfold onetoken. assert (W : (length (snd (word (c :: s))) <= length s)%nat) by (pose proof (word_shorter (c :: s)) as H; destruct (word (c :: s)); destruct H as [_ H]; specialize (H ltac:(discriminate)); cbn in *; lia).
    assert (Qq : (length (snd (let '(t, r) := quoted s in ((34 :: t ++ [34])%Z, r))) <= length s)%nat) by (specialize (Qs s); destruct (quoted s); exact Qs).
    destruct (Z.eq_dec c 34) as [-> | N]; [exact Qq|]. destruct c as [|p|p]; try exact W.
    repeat (destruct p as [p|p|]; try exact W). exfalso; apply N; reflexivity. }
  intros f s. revert f. induction s as [s IH] using (well_founded_induction (Wf_nat.well_founded_ltof _ (@length Z))). intros f F.
  destruct s as [|c s]; [destruct f; reflexivity|]. destruct f as [|f]; [cbn in F; lia|]. cbn [tokens length].
  specialize (Os c s). destruct (onetoken (c :: s)) as [t r]. cbn [snd] in Os. f_equal. cbn in F.
  rewrite (IH r) by (unfold Wf_nat.ltof; cbn; lia). symmetry. apply IH; [unfold Wf_nat.ltof; cbn; lia|lia].
Qed.
Lemma tokenize_step : forall s t r, s <> [] -> onetoken s = (t, r) -> (length r < length s)%nat -> tokenize s = t :: tokenize r.
Proof.
  intros s t r N E L. unfold tokenize. destruct s as [|c s]; [congruence|]. cbn [length tokens]. rewrite E. f_equal. apply tokens_more. cbn in L. lia.
Qed.
Lemma onetoken_word : forall s sep t, plain s -> first_not [34] s -> open_end sep t -> onetoken (s ++ sep ++ t) = (s, t).
Proof.
  intros s sep t P F O. rewrite <- (word_read s sep t P O). destruct s as [|c s]; [contradiction|]. cbn [app]. cbn in F. unfold onetoken.
  destruct c as [|p|p]; try reflexivity. repeat (destruct p as [p|p|]; try reflexivity). exfalso. apply F. left. reflexivity.
Qed.
Lemma entry_first : forall e s, entry_text e s -> match s with [] => False | c :: _ => ~ space c end.
Proof.
  intros e s E. inversion E as [s' P F|s' P|s' P|s' P F|ws s' Nw W P F|l t S Q]; subst; try (unfold space; lia).
  destruct s; [contradiction|]. inversion P; auto.
Qed.
Lemma line_first : forall l t, line_text l t -> match t with [] => True | c :: _ => ~ space c end.
Proof. intros l t L. inversion L as [|e s sep l' t' E]; [exact I|]. pose proof (entry_first e s E). destruct s; [contradiction|]. assumption. Qed.
Lemma entry_tokens_read : forall e s sep t, entry_text e s -> open_end sep t -> tokenize (s ++ sep ++ t) = entry_tokens e s ++ tokenize t.
Proof.
  intros e s sep t E O. assert (Lt : forall a, a <> [] -> (length t < length (a ++ sep ++ t))%nat) by (intros a Ha; rewrite !app_length; destruct a; [congruence|cbn; lia]).
  assert (Wd : forall a, plain a -> first_not [34] a -> tokenize (a ++ sep ++ t) = a :: tokenize t).
  { intros a P F. assert (a <> []) by (destruct a; [contradiction|discriminate]). apply tokenize_step; [destruct a; [contradiction|discriminate]|apply onetoken_word; auto|auto]. }
  assert (P60 : ~ space 60) by (unfold space; lia). assert (P91 : ~ space 91) by (unfold space; lia).
  inversion E as [s' P F|s' P|s' P|s' P F|ws s' Nw W P F|l u S Q]; subst; cbn [entry_tokens].
  - apply Wd; [exact P|]. destruct s; cbn in *; tauto.
  - apply Wd; [repeat constructor; auto|cbn; lia].
  - apply Wd; [repeat constructor; auto|cbn; lia].
  - apply Wd; [repeat constructor; auto|cbn; lia].
  - rewrite (tokenize_step _ [60] (s' ++ sep ++ t)); [cbn [app]; f_equal; apply Wd; auto|discriminate| |].
    + rewrite <- app_comm_cons, <- app_assoc. apply (onetoken_word [60] ws (s' ++ sep ++ t)); [repeat constructor; auto|cbn; lia|].
      split; [exact W|]. split; [left; exact Nw|]. destruct s' as [|c s']; [contradiction|]. cbn. inversion P; auto.
    + rewrite <- app_comm_cons, <- app_assoc. cbn [length]. rewrite !app_length. lia.
  - apply tokenize_step; [discriminate| |apply Lt; discriminate].
    cbn [app onetoken]. rewrite <- app_assoc. cbn [app]. rewrite (quoted_read u sep t (spaced_no_quote _ _ S Q) O). reflexivity.
Qed.
Lemma line_tokens : forall l t, line_text l t -> exists ss, Forall2 entry_text l ss /\ tokenize t = concat (map (fun es => entry_tokens (fst es) (snd es)) (combine l ss)).
Proof.
  induction 1 as [|e s sep l t E W L (ss & F & IH) O]; [exists []; split; [constructor|reflexivity]|].
  exists (s :: ss). split; [constructor; auto|]. cbn [combine map concat fst snd]. rewrite <- IH. apply entry_tokens_read; [exact E|].
  split; [exact W|]. split; [exact O|]. exact (line_first l t L).
Qed.

(** ** The meaning of the tokens *)
Definition later (l : list text) (old : option text) : option text := match last_of l with Some s => Some s | None => old end.
Lemma later_app : forall a b o, later (a ++ b) o = later b (later a o).
Proof.
  intros a b o. unfold later, last_of. destruct b as [|y b]; [rewrite app_nil_r; reflexivity|].
  assert (H : last (a ++ y :: b) [] = last (y :: b) []) by (induction a as [|x a IH]; [reflexivity|]; cbn [app]; rewrite <- IH; cbn [last]; destruct (a ++ y :: b) eqn:Q; [destruct a; discriminate|reflexivity]).
  rewrite H. destruct (a ++ y :: b) eqn:Q; [destruct a; discriminate|reflexivity].
Qed.
Definition meaning (l : list entry) (m : mapline) : mapline :=
  mkline (match texname m with Some s => Some s | None => hd_error (names l) end)
    (match texname m with Some _ => later (names l) (basepsname m) | None => later (tl (names l)) (basepsname m) end)
    (later (fonts l) (fontfilename m)) (later (encodings l) (encodingfilename m))
    (later (settings ReEncodeFont l) (reencodefont m)) (later (settings ExtendFont l) (extendfont m)) (later (settings SlantFont l) (slant m)).
Lemma meaning_cons : forall e l m, meaning (e :: l) m = meaning l (meaning [e] m).
Proof.
  intros e l m. unfold meaning. cbn [texname basepsname fontfilename encodingfilename reencodefont extendfont slant].
  unfold names, fonts, encodings, settings. cbn [flat_map]. rewrite !app_nil_r, !later_app.
  destruct (texname m) as [s|] eqn:T.
  - f_equal.
  - destruct e; cbn [app hd_error tl]; f_equal.
Qed.
Lemma same_iff : forall s t, same s t = true <-> s = t.
Proof. intros s t. rewrite <- eqb_same. apply eqb_iff. Qed.
Definition code_meaning (words : list text) (m : mapline) : mapline :=
  mkline (texname m) (basepsname m) (fontfilename m) (encodingfilename m)
    (later (arguments ReEncodeFont words) (reencodefont m)) (later (arguments ExtendFont words) (extendfont m)) (later (arguments SlantFont words) (slant m)).
Lemma fragments_read : forall isfloat words m, if supported_code isfloat words then fragments isfloat words m = Ok (code_meaning words m)
  else exists f, fragments isfloat words m = Fail f.
Proof.
  intros isfloat words. assert (G : forall n words m, (length words <= n)%nat -> if supported_code isfloat words then fragments isfloat words m = Ok (code_meaning words m)
    else exists f, fragments isfloat words m = Fail f); [|intros m; apply (G (length words)); lia].
  induction n as [|n IH]; intros ws m L.
  { destruct ws; [|cbn in L; lia]. cbn. destruct m; reflexivity. }
  destruct ws as [|arg [|c ws]]; [destruct m; reflexivity|cbn; eauto|].
  cbn [supported_code fragments]. change w_reencode with ReEncodeFont. change w_extend with ExtendFont. change w_slant with SlantFont.
  rewrite !eqb_same. unfold code_meaning. cbn [arguments]. rewrite !later_app.
  destruct (same c ReEncodeFont) eqn:C1; [|destruct (same c ExtendFont) eqn:C2; [|destruct (same c SlantFont) eqn:C3]].
  - apply same_iff in C1. subst c. change (same ReEncodeFont ExtendFont) with false. change (same ReEncodeFont SlantFont) with false. cbn [orb andb].
    specialize (IH ws (set_reencode (Some arg) m) ltac:(cbn in L; lia)). destruct (supported_code isfloat ws); exact IH.
  - apply same_iff in C2. subst c. change (same ExtendFont SlantFont) with false. cbn [orb andb].
    specialize (IH ws (set_extend (Some arg) m) ltac:(cbn in L; lia)). destruct (supported_code isfloat ws); exact IH.
  - cbn [orb andb]. destruct (isfloat arg); [|cbn; eauto]. cbn [andb].
    specialize (IH ws (set_slant (Some arg) m) ltac:(cbn in L; lia)). destruct (supported_code isfloat ws); exact IH.
  - cbn. eauto.
Qed.
Lemma app_inj_len : forall (a b p q : list Z), length p = length q -> a ++ p = b ++ q -> p = q.
Proof.
  intros a b p q L H. assert (length a = length b) by (apply (f_equal (@length Z)) in H; rewrite !app_length in H; lia).
  revert b H H0. induction a as [|x a IH]; intros [|y b] H M; try discriminate; [exact H|]. injection H as _ H. apply (IH b); auto.
Qed.
Lemma startswith_no : forall c d s, c <> d -> startswith [c] (d :: s) = false.
Proof. intros c d s N. cbn. destruct (c =? d) eqn:E; [lia|reflexivity]. Qed.
Lemma scan_entry : forall isfloat e s ts m, entry_text e s ->
  if supported isfloat e then scan isfloat false (entry_tokens e s ++ ts) m = scan isfloat false ts (meaning [e] m)
  else exists f, scan isfloat false (entry_tokens e s ++ ts) m = Fail f.
Proof.
  intros isfloat e s ts m E.
  inversion E as [s' P F|s' P|s' P|s' P F|ws s' Nw W P F|l u S Q]; subst; cbn [entry_tokens app supported].
  - destruct s as [|c s]; [contradiction|]. cbn in F. cbn [scan]. rewrite !startswith_no by lia.
    unfold meaning. destruct m as [[tn|] b f en re ex sl]; cbn; reflexivity.
  - cbn. destruct m as [tn b f en re ex sl]; unfold meaning; cbn. destruct tn; reflexivity.
  - cbn. destruct m as [tn b f en re ex sl]; unfold meaning; cbn. destruct tn; reflexivity.
  - destruct s' as [|c s']; [contradiction|]. cbn in F.
    assert (N : forall w, In w [w_pfa; w_pfb; w_enc; w_ttf; w_t42] -> ~ In 60 w) by (intros w; cbn; intros [<-|[<-|[<-|[<-|[<-|[]]]]]]; cbn; lia).
    cbn [scan]. rewrite !endswith_suffix by (apply N; cbn; tauto).
    change (startswith [60] (60 :: c :: s')) with true. change (chars_eqb (60 :: c :: s') [60]) with false.
    assert (S1 : startswith [60; 60] (60 :: c :: s') = false) by (cbn [startswith]; replace (60 =? c) with false by lia; apply andb_false_r).
    assert (S2 : startswith [60; 91] (60 :: c :: s') = false) by (cbn [startswith]; replace (91 =? c) with false by lia; apply andb_false_r).
    rewrite S1, S2. cbn iota. change w_enc with dot_enc. change w_ttf with dot_ttf. change w_t42 with dot_t42.
    set (f := c :: s'). cbn [skipn].
    assert (Dj : forall p q, length p = length q -> p <> q -> suffix p f = true -> suffix q f = false).
    { intros p q L Npq A. destruct (suffix q f) eqn:B; [|reflexivity]. apply suffix_iff in A as (r & A). apply suffix_iff in B as (r' & B). rewrite A in B.
      exfalso. apply Npq. apply (app_inj_len r r' p q); auto. }
    assert (Mf : meaning [File f] m = if suffix dot_enc f then set_encoding (Some f) m else set_font (Some f) m).
    { unfold meaning, fonts, encodings. cbn [flat_map]. destruct (suffix dot_enc f); destruct m as [[tn|] b fo en re ex sl]; reflexivity. }
    rewrite Mf. fold f.
    destruct (suffix w_pfa f) eqn:Ea; [rewrite (Dj w_pfa dot_ttf), (Dj w_pfa dot_t42), (Dj w_pfa dot_enc) by (auto; discriminate); reflexivity|].
    destruct (suffix w_pfb f) eqn:Eb; [rewrite (Dj w_pfb dot_ttf), (Dj w_pfb dot_t42), (Dj w_pfb dot_enc) by (auto; discriminate); reflexivity|].
    cbn [orb]. destruct (suffix dot_enc f) eqn:Ee; [rewrite (Dj dot_enc dot_ttf), (Dj dot_enc dot_t42) by (auto; discriminate); reflexivity|].
    destruct (suffix dot_ttf f); cbn [orb negb]; [eauto|]. destruct (suffix dot_t42 f); cbn [negb]; [eauto|reflexivity].
  - cbn. destruct m as [tn b f en re ex sl]; unfold meaning; cbn. destruct tn; reflexivity.
  - cbn [scan]. rewrite startswith_no by lia. change (startswith [34] (34 :: u ++ [34])) with true. cbn iota. cbn [skipn]. rewrite removelast_last, (split_spaced l u S).
    pose proof (fragments_read isfloat l m) as H. destruct (supported_code isfloat l).
    + rewrite H. f_equal. unfold code_meaning, meaning. cbn [names fonts encodings settings flat_map]. unfold settings, names, fonts, encodings. cbn [flat_map]. rewrite !app_nil_r.
      cbn. destruct (texname m); reflexivity.
    + destruct H as (f & ->). eauto.
Qed.
Lemma scan_line : forall isfloat l ss ts m, Forall2 entry_text l ss ->
  if forallb (supported isfloat) l then scan isfloat false (concat (map (fun es => entry_tokens (fst es) (snd es)) (combine l ss)) ++ ts) m = scan isfloat false ts (meaning l m)
  else exists f, scan isfloat false (concat (map (fun es => entry_tokens (fst es) (snd es)) (combine l ss)) ++ ts) m = Fail f.
Proof.
  intros isfloat l ss ts m F. revert m. induction F as [|e s l ss E F IH]; intros m.
  - cbn. f_equal. destruct m as [[tn|] b f en re ex sl]; reflexivity.
  - cbn [forallb combine map concat fst snd]. rewrite <- app_assoc, meaning_cons.
    pose proof (scan_entry isfloat e s (concat (map (fun es => entry_tokens (fst es) (snd es)) (combine l ss)) ++ ts) m E) as H.
    destruct (supported isfloat e); cbn [andb]; [|exact H]. rewrite H. apply IH.
Qed.

(** C123: whatever order and white space its entries have, a line is read as it is written: the first name is that of TeX, the last other name that of
    PostScript, and of several files or settings of the same kind the last one counts.  Lines with something which is not supported are refused. *)
Theorem mapline_read : forall isfloat l s, line_text l s ->
  if forallb (supported isfloat) l then exists m, read_line isfloat s = Ok m /\
    texname m = hd_error (names l) /\
    basepsname m = (match tl (names l) with [] => hd_error (names l) | l' => last_of l' end) /\
    fontfilename m = last_of (fonts l) /\ encodingfilename m = last_of (encodings l) /\
    reencodefont m = last_of (settings ReEncodeFont l) /\ extendfont m = last_of (settings ExtendFont l) /\ slant m = last_of (settings SlantFont l)
  else exists f, read_line isfloat s = Fail f.
Proof.
  intros isfloat l s L. destruct (line_tokens l s L) as (ss & F & T). unfold read_line. rewrite T, <- (app_nil_r (concat _)).
  pose proof (scan_line isfloat l ss [] empty_line F) as H. destruct (forallb (supported isfloat) l).
  - rewrite H. cbn [scan]. eexists. split; [reflexivity|].
    assert (La : forall l, later l None = last_of l) by (intros l'; unfold later; destruct (last_of l'); reflexivity).
    unfold meaning. cbn [empty_line texname basepsname fontfilename encodingfilename reencodefont extendfont slant]. rewrite !La.
    destruct (tl (names l)) as [|n ns]; cbn [last_of]; cbn [texname basepsname fontfilename encodingfilename reencodefont extendfont slant set_basepsname]; auto 10.
  - destruct H as (f & ->). eauto.
Qed.
Print Assumptions mapline_read.
(** cmr10 CMR10 "0.1 SlantFont" <[a.enc <x.pfb *)
Example mapline_ex : exists m, read_line (fun _ => true)
    [99; 109; 32; 67; 77; 32; 34; 48; 46; 49; 32; 83; 108; 97; 110; 116; 70; 111; 110; 116; 34; 32; 60; 91; 97; 46; 101; 110; 99; 9; 60; 120; 46; 112; 102; 98] = Ok m /\
  texname m = Some [99; 109] /\ basepsname m = Some [67; 77] /\ slant m = Some [48; 46; 49] /\ encodingfilename m = Some [97; 46; 101; 110; 99] /\ fontfilename m = Some [120; 46; 112; 102; 98].
Proof. eexists. split; [vm_compute; reflexivity|]. repeat split. Qed.
Example mapline_ex_text : line_text [Name [99; 109]; Code [[48]; SlantFont]; Separate [97]] ([99; 109] ++ [32] ++ (34 :: ([48] ++ [32] ++ SlantFont ++ []) ++ [34]) ++ [9; 32] ++ (60 :: [32] ++ [97]) ++ [] ++ []).
Proof.
  assert (Sp : space 32) by (unfold space; lia). assert (St : space 9) by (unfold space; lia).
  assert (Pl : forall s, forallb (fun c => negb (isspace c)) s = true -> plain s).
  { intros s H. apply Forall_forall. intros c I C. rewrite forallb_forall in H. specialize (H c I). apply space_iff in C. rewrite C in H. discriminate. }
  apply line_cons; [constructor; [apply Pl; reflexivity|cbn; lia]|(repeat (apply Forall_cons; [assumption|]); apply Forall_nil)| |left; discriminate].
  apply line_cons; [|(repeat (apply Forall_cons; [assumption|]); apply Forall_nil)| |left; discriminate].
  - constructor; [|intros w [<-|[<-|[]]]; cbn; lia].
    change ([48] ++ [32] ++ SlantFont ++ []) with ([] ++ [48] ++ ([32] ++ SlantFont ++ [])).
    apply spaced_cons; [constructor|discriminate|apply Pl; reflexivity| |right; eexists _, _; split; [reflexivity|exact Sp]].
    apply spaced_cons; [(repeat (apply Forall_cons; [assumption|]); apply Forall_nil)|discriminate|apply Pl; reflexivity|constructor; constructor|left; reflexivity].
  - apply line_cons; [apply text_separate; [discriminate|(repeat (apply Forall_cons; [assumption|]); apply Forall_nil)|apply Pl; reflexivity|cbn; lia]|constructor|constructor|right; reflexivity].
Qed.

(** C123: of the lines for a name the last one which is supported counts, wherever the comments and unsupported lines are. *)
Theorem fontmap_last : forall isfloat lines name fm, readfontmap isfloat lines [] = Some fm ->
  match lookup name fm with
  | Some m => exists before line after, lines = before ++ line :: after /\ is_comment_line (rstrip line) = false /\ read_line isfloat (rstrip line) = Ok m /\ texname m = name /\
      forall line', In line' after -> is_comment_line (rstrip line') = false -> forall m', read_line isfloat (rstrip line') = Ok m' -> texname m' <> name
  | None => forall line', In line' lines -> is_comment_line (rstrip line') = false -> forall m', read_line isfloat (rstrip line') = Ok m' -> texname m' <> name
  end.
Proof.
  intros isfloat lines name.
  assert (Sn : forall a b, same_name a b = true <-> a = b).
  { intros [a|] [b|]; cbn; try (split; congruence). rewrite eqb_iff. split; congruence. }
  assert (G : forall lines acc fm, readfontmap isfloat lines acc = Some fm -> match lookup name fm with
    | Some m => (exists before line after, lines = before ++ line :: after /\ is_comment_line (rstrip line) = false /\ read_line isfloat (rstrip line) = Ok m /\ texname m = name /\
      forall line', In line' after -> is_comment_line (rstrip line') = false -> forall m', read_line isfloat (rstrip line') = Ok m' -> texname m' <> name) \/
      (lookup name acc = Some m /\ forall line', In line' lines -> is_comment_line (rstrip line') = false -> forall m', read_line isfloat (rstrip line') = Ok m' -> texname m' <> name)
    | None => lookup name acc = None /\ forall line', In line' lines -> is_comment_line (rstrip line') = false -> forall m', read_line isfloat (rstrip line') = Ok m' -> texname m' <> name
    end).
  { clear lines. induction lines as [|line lines IH]; intros acc fm R; cbn [readfontmap] in R.
    - injection R as <-. destruct (lookup name acc); [right|]; split; auto; intros ? [].
    - assert (Skip : forall acc', readfontmap isfloat lines acc' = Some fm -> lookup name acc' = lookup name acc ->
        (is_comment_line (rstrip line) = false -> forall m', read_line isfloat (rstrip line) = Ok m' -> texname m' <> name) ->
        match lookup name fm with
        | Some m => (exists before line0 after, line :: lines = before ++ line0 :: after /\ is_comment_line (rstrip line0) = false /\ read_line isfloat (rstrip line0) = Ok m /\ texname m = name /\
          forall line', In line' after -> is_comment_line (rstrip line') = false -> forall m', read_line isfloat (rstrip line') = Ok m' -> texname m' <> name) \/
          (lookup name acc = Some m /\ forall line', In line' (line :: lines) -> is_comment_line (rstrip line') = false -> forall m', read_line isfloat (rstrip line') = Ok m' -> texname m' <> name)
        | None => lookup name acc = None /\ forall line', In line' (line :: lines) -> is_comment_line (rstrip line') = false -> forall m', read_line isfloat (rstrip line') = Ok m' -> texname m' <> name
        end).
      { intros acc' R' La No. specialize (IH acc' fm R'). rewrite La in IH. destruct (lookup name fm).
        - destruct IH as [(b & l0 & a & -> & H)|[H1 H2]]; [left; exists (line :: b), l0, a; split; [reflexivity|exact H]|right]. split; [exact H1|]. intros l' [<-|I]; [exact No|exact (H2 l' I)].
        - destruct IH as [H1 H2]. split; [exact H1|]. intros l' [<-|I]; [exact No|exact (H2 l' I)]. }
      destruct (is_comment_line (rstrip line)) eqn:C; [apply (Skip acc R eq_refl); discriminate|].
      destruct (read_line isfloat (rstrip line)) as [m|[]] eqn:E; try discriminate; try (apply (Skip acc R eq_refl); intros _ m' H; discriminate).
      destruct (same_name (texname m) name) eqn:Q.
      + apply Sn in Q. specialize (IH _ _ R).
        assert (Lk : lookup name ((texname m, m) :: acc) = Some m) by (unfold lookup; cbn [find fst]; rewrite (proj2 (Sn _ _) Q); reflexivity).
        rewrite Lk in IH. destruct (lookup name fm) as [m2|].
        * destruct IH as [(b & l0 & a & -> & H)|[H1 H2]]; [left; exists (line :: b), l0, a; split; [reflexivity|exact H]|left].
          injection H1 as <-. exists [], line, lines. split; [reflexivity|]. split; [exact C|]. split; [exact E|]. split; [exact Q|exact H2].
        * destruct IH; discriminate.
      + apply (Skip _ R).
        * unfold lookup. cbn [find fst]. rewrite Q. reflexivity.
        * intros _ m' H. injection H as <-. intros H. apply (proj2 (Sn _ _)) in H. congruence. }
  intros fm R. specialize (G lines [] fm R). destruct (lookup name fm).
  - destruct G as [G|[G _]]; [exact G|discriminate].
  - apply G.
Qed.
Print Assumptions fontmap_last.
(** a A, then a comment, then a B, then a with a fragment which is not supported: the second line counts *)
Example fontmap_ex : exists fm m, readfontmap (fun _ => true) [[97; 32; 65; 10]; [37; 97; 32; 67]; [97; 32; 66]; [97; 32; 68; 32; 34; 48; 34]] [] = Some fm /\
  lookup (Some [97]) fm = Some m /\ basepsname m = Some [66].
Proof. do 2 eexists. split; [vm_compute; reflexivity|]. split; reflexivity. Qed.
