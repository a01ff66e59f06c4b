(** Conversion of paths to normpaths: the steps. *)
From Coq Require Import Reals Bool List Lra Lia.
From Verif Require Import TrafoModel BboxModel CurveModel CurveSpec CurveProofs CurveProofs2 CurveProofs3 ArcModel NormsubModel NormsubSpec NormsubProofs NormsubProofs2 NormsubProofs3 NormpathModel PathModel PathSpec PathNormModel PathNormSpec.
Import ListNotations.
Open Scope R_scope.

Local Notation pt := (R * R)%type.

Lemma last_sub_app f done s : last_sub f (done ++ [s]) = bind (f s) (fun s' => Ok (done ++ [s'])).
Proof. unfold last_sub. rewrite rev_app_distr. simpl. rewrite removelast_last. reflexivity. Qed.
Lemma last_epsilon_some done s e e' : epsilon s = Some e -> last_epsilon (done ++ [s]) e' = e.
Proof. intros E. unfold last_epsilon. rewrite rev_app_distr. simpl. now rewrite E. Qed.
Lemma last_closed_app done s : last_closed (done ++ [s]) = closed s.
Proof. unfold last_closed. rewrite rev_app_distr. reflexivity. Qed.

Lemma end_of_snoc p l s : end_of p (l ++ [s]) = seg_end s.
Proof. unfold end_of. rewrite map_app. simpl. apply last_last. Qed.
Lemma end_of_cons p s l : end_of p (s :: l) = end_of (seg_end s) l.
Proof. unfold end_of. simpl. revert s. induction l as [|s' l IH]; intros s; auto. simpl map. cbn [last]. destruct l; auto. simpl. apply (IH s). Qed.
Lemma seg_items_snoc l s : forall p, seg_items p (l ++ [s]) = seg_items p l ++ [seg_item (end_of p l) s].
Proof.
  induction l as [|s' l IH]; intros p; [reflexivity|]. simpl app. cbn [seg_items]. rewrite IH, end_of_cons. reflexivity.
Qed.
Lemma seg_item_ends p s : atbegin_pt (seg_item p s) = p /\ atend_pt (seg_item p s) = seg_end s.
Proof. destruct s; auto. Qed.
Lemma seg_items_chained l : forall p, chained p (seg_items p l) (end_of p l).
Proof.
  induction l as [|s l IH]; intros p; [reflexivity|]. cbn [seg_items chained]. destruct (seg_item_ends p s) as [-> ->].
  rewrite end_of_cons. auto.
Qed.
Lemma seg_items_nil p l : seg_items p l = [] <-> l = [].
Proof. destruct l; simpl; split; congruence. Qed.
Lemma lastitem_chained b l q i : chained b l q -> lastitem l = Some i -> atend_pt i = q.
Proof. intros C L. apply lastitem_some in L. rewrite L in C. apply chained_app in C as (m & _ & C). apply C. Qed.

Section Steps.
  Variables (e : R).
  Hypothesis He : 0 < e.

  Lemma make_point f p : make (S (S f)) [Line p p] false (Some e) = Ok (mknsp [] false (Some e) (Some (Line p p))).
  Proof.
    unfold make, extend, extend_with. cbn [append epsilon empty_nsp mismatch skipped lastitem items rev closed with_skipped].
    rewrite dist_self. destruct (leb_spec e 0); [lra|]. reflexivity.
  Qed.
  Lemma append_first f p i : fast e i -> atbegin_pt i = p ->
    append (S f) (mknsp [] false (Some e) (Some (Line p p))) i = Ok (mknsp [i] false (Some e) None).
  Proof.
    intros F B. 
    assert (A := append_fast e f (mknsp [] false (Some e) None) i He eq_refl eq_refl eq_refl F).
    assert (M : modifiedbegin_pt i p = i) by (destruct i; simpl in *; subst; auto).
    cbn [append epsilon closed skipped items with_skipped lastitem rev] in *. unfold mismatch in *.
    cbn [skipped lastitem items rev atend_pt atbegin_pt] in *. rewrite B in *. rewrite gap_self in *. rewrite M.
    destruct (ltb_spec 0 e); [|lra]. cbn [negb]. apply A. discriminate.
  Qed.
  Lemma close_line f s b q : epsilon s = Some e -> closed s = false -> skipped s = None -> items s <> [] -> chained b (items s) q ->
    fast e (Line q b) -> close (S (S f)) s = Ok (mknsp (items s ++ [Line q b]) true (Some e) None).
  Proof.
    intros Es Hc K N C F. unfold close. rewrite Hc.
    destruct (lastitem (items s)) as [l|] eqn:L; [|apply lastitem_none in L; congruence].
    destruct (items s) as [|i its] eqn:Ei; [congruence|]. rewrite <- Ei in *.
    assert (B : atbegin_pt i = b) by (rewrite Ei in C; apply C). rewrite B, (lastitem_chained _ _ _ _ C L).
    rewrite (append_fast e (S f)); auto.
    - cbn [bind]. simpl. rewrite K. simpl. rewrite Es, ?K. reflexivity.
    - intros l0 L0. rewrite L0 in L. injection L as ->. simpl. apply (lastitem_chained _ _ _ _ C L0).
  Qed.

  (** the subpath under construction *)
  Definition open_sub (p : pt) (l : list seg) : nsp :=
    mknsp (seg_items p l) false (Some e) (match l with [] => Some (Line p p) | _ => None end).
  Lemma append_open f p l s : Forall (fast e) (seg_items p (l ++ [s])) ->
    append (S f) (open_sub p l) (seg_item (end_of p l) s) = Ok (open_sub p (l ++ [s])).
  Proof.
    intros F. rewrite seg_items_snoc in F. apply Forall_app in F as [_ F]. inversion F as [|? ? F1 _]; subst.
    destruct l as [|s0 l].
    - apply append_first; auto. apply seg_item_ends.
    - rewrite (append_fast e f); auto.
      + unfold push, open_sub. simpl items. rewrite seg_items_snoc. reflexivity.
      + intros i L. rewrite (proj1 (seg_item_ends _ _)). simpl items in L. eapply lastitem_chained; [|exact L]. apply (seg_items_chained (s0 :: l)).
  Qed.
  Lemma open_shows p l : shows e (mkdrawn p l false) (open_sub p l).
  Proof.
    unfold shows, drawn_items. simpl. split; auto. split; auto. split; auto. destruct l as [|s l]; auto. split.
    - unfold nsp_atbegin. simpl. now rewrite (proj1 (seg_item_ends _ _)).
    - unfold nsp_atend, open_sub. cbn [skipped items]. destruct (lastitem (seg_items p (s :: l))) as [i|] eqn:L; [|apply lastitem_none in L; discriminate L].
      simpl option_map. f_equal. apply (lastitem_chained _ _ _ _ (seg_items_chained (s :: l) p) L).
  Qed.
  Lemma close_open f p l : l <> [] -> (forall its, drawn_items (mkdrawn p l true) its -> Forall (fast e) its) ->
    exists s, close (S (S f)) (open_sub p l) = Ok s /\ shows e (mkdrawn p l true) s /\ closed s = true.
  Proof.
    intros N F. assert (C := seg_items_chained l p). assert (B : nsp_atbegin (open_sub p l) = Some p) by apply (open_shows p l).
    assert (K : skipped (open_sub p l) = None) by (destruct l; [congruence|reflexivity]).
    assert (N' : seg_items p l <> []) by (rewrite seg_items_nil; auto).
    destruct (Req_EM_T (fst (end_of p l)) (fst p)) as [E1|E1]; [destruct (Req_EM_T (snd (end_of p l)) (snd p)) as [E2|E2]|].
    - assert (E : end_of p l = p) by (destruct (end_of p l), p; simpl in *; subst; auto).
      assert (D : drawn_items (mkdrawn p l true) (seg_items p l)) by (right; left; simpl; auto).
      assert (C' : chained p (items (open_sub p l)) p) by (simpl; rewrite <- E at 3; auto).
      assert (F' : Forall (fast e) (items (open_sub p l))) by (simpl; auto).
      rewrite (close_fast e f (open_sub p l) p He eq_refl eq_refl K N' C' F').
      eexists. split; [reflexivity|]. split; auto. split; auto. split; auto. split; auto.
      split; [destruct l as [|s l]; [congruence|]; exact B|].
      unfold nsp_atend. cbn [skipped items]. destruct (lastitem _) as [i|] eqn:L; [|apply lastitem_none in L; contradiction (N' L)].
      simpl option_map. f_equal. apply (lastitem_chained _ _ _ _ C' L).
    - assert (E : end_of p l <> p) by congruence.
      assert (D : drawn_items (mkdrawn p l true) (seg_items p l ++ [Line (end_of p l) p])) by (right; right; simpl; auto).
      assert (F' : fast e (Line (end_of p l) p)) by (apply F in D; apply Forall_app in D as [_ D]; now inversion D).
      rewrite (close_line f (open_sub p l) p (end_of p l) eq_refl eq_refl K N' C F').
      eexists. split; [reflexivity|]. split; auto. split; auto. split; auto. split; auto.
      split; [destruct l as [|s l]; [congruence|]; exact B|]. unfold nsp_atend. cbn [skipped items]. now rewrite lastitem_app.
    - assert (E : end_of p l <> p) by congruence.
      assert (D : drawn_items (mkdrawn p l true) (seg_items p l ++ [Line (end_of p l) p])) by (right; right; simpl; auto).
      assert (F' : fast e (Line (end_of p l) p)) by (apply F in D; apply Forall_app in D as [_ D]; now inversion D).
      rewrite (close_line f (open_sub p l) p (end_of p l) eq_refl eq_refl K N' C F').
      eexists. split; [reflexivity|]. split; auto. split; auto. split; auto. split; auto.
      split; [destruct l as [|s l]; [congruence|]; exact B|]. unfold nsp_atend. cbn [skipped items]. now rewrite lastitem_app.
  Qed.

  (** the interpreter and the conversion side by side *)
  Definition fastd (d : drawn) : Prop := forall l, drawn_items d l -> Forall (fast e) l.
  Definition Rel (g : gstate) (nc : normpath * context) : Prop :=
    match now g with
    | NoPoint => False
    | At p => Forall2 (shows e) (finished g) (fst nc) /\ finished g <> [] /\ snd nc = mkcontext p p
    | Drawing p l => exists done, fst nc = done ++ [open_sub p l] /\ Forall2 (shows e) (finished g) done /\ snd nc = mkcontext (end_of p l) p
    end.
  Lemma Rel_ended g nc : Rel g nc -> Forall2 (shows e) (ended g) (fst nc).
  Proof.
    unfold Rel, ended. destruct (now g) as [|p|p l]; [tauto| |].
    - intros (F & _). now rewrite app_nil_r.
    - intros (done & -> & F & _). apply Forall2_app; auto. constructor; auto. apply open_shows.
  Qed.
  Lemma Rel_epsilon g nc : Rel g nc -> last_epsilon (fst nc) e = e.
  Proof.
    intros R. apply Rel_ended in R. destruct (fst nc) as [|s l _] using rev_ind; [reflexivity|].
    apply Forall2_app_inv_r in R as (d1 & d2 & _ & R & _). inversion R as [|? ? ? ? S _]; subst. apply last_epsilon_some. apply S.
  Qed.
  Lemma fastd_open p l s : fastd (mkdrawn p (l ++ [s]) false) -> Forall (fast e) (seg_items p (l ++ [s])).
  Proof. intros F. apply F. left. auto. Qed.
  Lemma fastd_shut p l : fastd (mkdrawn p l true) -> fastd (mkdrawn p l false).
  Proof.
    intros F its [[_ ->]|[[[=] _]|[[=] _]]]. simpl.
    destruct (Req_EM_T (fst (end_of p l)) (fst p)) as [E1|E1]; [destruct (Req_EM_T (snd (end_of p l)) (snd p)) as [E2|E2]|].
    - apply F. right. left. simpl. split; auto. split; auto. destruct (end_of p l), p; simpl in *; subst; auto.
    - assert (D : drawn_items (mkdrawn p l true) (seg_items p l ++ [Line (end_of p l) p])) by (right; right; simpl; split; auto; split; auto; congruence).
      apply F in D. now apply Forall_app in D as [D _].
    - assert (D : drawn_items (mkdrawn p l true) (seg_items p l ++ [Line (end_of p l) p])) by (right; right; simpl; split; auto; split; auto; congruence).
      apply F in D. now apply Forall_app in D as [D _].
  Qed.
  Lemma fastd_shorter p l s b : fastd (mkdrawn p (l ++ [s]) b) -> fastd (mkdrawn p l false).
  Proof.
    intros F. assert (F' : fastd (mkdrawn p (l ++ [s]) false)) by (destruct b; auto; apply fastd_shut; auto).
    intros its [[_ ->]|[[[=] _]|[[=] _]]]. apply fastd_open in F'. rewrite seg_items_snoc in F'. now apply Forall_app in F' as [F' _].
  Qed.
  (** what is regular at the end was so all the time *)
  Lemma fastd_before g o g' : obey g o = Some g' -> Forall fastd (ended g') -> Forall fastd (ended g).
  Proof.
    assert (A : forall s, add_seg g s = Some g' -> Forall fastd (ended g') -> Forall fastd (ended g)).
    { intros s. unfold add_seg, ended. destruct (now g) as [|p|p l]; [discriminate| |]; intros [= <-]; simpl; intros F.
      - apply Forall_app in F as [F _]. now rewrite app_nil_r.
      - apply Forall_app in F as [F1 F2]. apply Forall_app. split; auto. constructor; auto. inversion F2; subst. eapply fastd_shorter; eauto. }
    assert (M : forall p, Some (move g p) = Some g' -> Forall fastd (ended g') -> Forall fastd (ended g)).
    { intros p [= <-] F. unfold ended in F at 1. simpl in F. now apply Forall_app in F as [F _]. }
    assert (S : forall X (f : (pt -> pt) -> option X) r, relative g f = Some r -> exists q, f q = Some r).
    { intros X h r. unfold relative. destruct (point_of (now g)); [|discriminate]. intros H. eauto. }
    destruct o; simpl; auto; try discriminate.
    - apply M.
    - intros H. apply S in H as (q & H). apply (M _ H).
    - apply A.
    - intros H. apply S in H as (q & H). apply (A _ H).
    - apply A.
    - intros H. apply S in H as (q & H). apply (A _ H).
    - unfold ended. destruct (now g) as [|p|p l] eqn:N; try (intros [= <-]; rewrite N; auto; fail).
      intros [= <-]. simpl. rewrite app_nil_r. intros F. apply Forall_app in F as [F1 F2]. apply Forall_app. split; auto.
      constructor; auto. inversion F2; subst. now apply fastd_shut.
  Qed.
  Lemma fastd_before_all l : forall g g', obey_all g l = Some g' -> Forall fastd (ended g') -> Forall fastd (ended g).
  Proof.
    induction l as [|o l IH]; simpl; intros g g' H F; [congruence|].
    destruct (obey g o) as [g1|] eqn:O; [|discriminate]. eapply fastd_before; eauto.
  Qed.

  Lemma step_add f g nc p l s : now g = Drawing p l -> Rel g nc -> Forall fastd (ended (mkgstate (finished g) (Drawing p (l ++ [s])))) ->
    exists nc', add_item (S (S f)) (seg_item (current (snd nc)) s) nc = Ok nc' /\ Rel (mkgstate (finished g) (Drawing p (l ++ [s]))) nc'.
  Proof.
    intros N R F. unfold Rel in R. rewrite N in R. destruct R as (done & R1 & R2 & R3). destruct nc as [np c]. simpl in R1, R3. subst np c.
    unfold ended in F. simpl in F. apply Forall_app in F as [_ F]. inversion F as [|? ? F1 _]; subst. apply fastd_open in F1.
    unfold add_item. rewrite last_sub_app. simpl snd. simpl current.
    assert (A : append (S (S f)) (open_sub p l) (seg_item (end_of p l) s) = Ok (open_sub p (l ++ [s]))).
    { apply append_open. auto. }
    rewrite A. cbn [bind]. eexists. split; [reflexivity|]. unfold Rel. simpl. exists done. split; auto. split; auto.
    rewrite (proj2 (seg_item_ends _ _)), end_of_snoc. reflexivity.
  Qed.

  Lemma step_lines f l : forall g nc p k, now g = Drawing p k -> Rel g nc -> forall g', obey_all g (map Oline l) = Some g' -> Forall fastd (ended g') ->
    exists nc' k', add_lines (S (S f)) l nc = Ok nc' /\ Rel g' nc' /\ now g' = Drawing p k' /\ (l <> [] \/ k <> [] -> k' <> []).
  Proof.
    induction l as [|q l IH]; intros g nc p k N R g' O F.
    - simpl in O. injection O as <-. exists nc, k. split; [reflexivity|]. split; auto. split; auto. tauto.
    - cbn [map obey_all obey] in O. unfold add_seg in O. rewrite N in O.
      destruct (step_add f g nc p k (SegLine q) N R) as (nc1 & A & R1); [eapply fastd_before_all; eauto|].
      destruct (IH (mkgstate (finished g) (Drawing p (k ++ [SegLine q]))) nc1 p (k ++ [SegLine q]) eq_refl R1 g' O F) as (nc' & k' & B & R' & N' & K).
      exists nc', k'. cbn [add_lines]. simpl seg_item in A. rewrite A. cbn [bind]. split; auto. split; auto. split; auto.
      intros _. apply K. right. destruct k; discriminate.
  Qed.
  Lemma step_curves f l : forall g nc p k, now g = Drawing p k -> Rel g nc -> forall g', obey_all g (map (fun '(p1, p2, p3) => Ocurve p1 p2 p3) l) = Some g' -> Forall fastd (ended g') ->
    exists nc' k', add_curves (S (S f)) l nc = Ok nc' /\ Rel g' nc' /\ now g' = Drawing p k' /\ (l <> [] \/ k <> [] -> k' <> []).
  Proof.
    induction l as [|[[q1 q2] q3] l IH]; intros g nc p k N R g' O F.
    - simpl in O. injection O as <-. exists nc, k. split; [reflexivity|]. split; auto. split; auto. tauto.
    - cbn [map obey_all obey] in O. unfold add_seg in O. rewrite N in O.
      destruct (step_add f g nc p k (SegCurve q1 q2 q3) N R) as (nc1 & A & R1); [eapply fastd_before_all; eauto|].
      destruct (IH (mkgstate (finished g) (Drawing p (k ++ [SegCurve q1 q2 q3]))) nc1 p (k ++ [SegCurve q1 q2 q3]) eq_refl R1 g' O F) as (nc' & k' & B & R' & N' & K).
      exists nc', k'. cbn [add_curves]. simpl seg_item in A. rewrite A. cbn [bind]. split; auto. split; auto. split; auto.
      intros _. apply K. right. destruct k; discriminate.
  Qed.
  Lemma step_moves f g nc p : Rel g nc -> exists nc', add_move (S (S f)) e p (fst nc) = Ok nc' /\ Rel (move g p) nc'.
  Proof.
    intros R. unfold add_move. rewrite (Rel_epsilon _ _ R). unfold point_sub. rewrite make_point. cbn [bind].
    eexists. split; [reflexivity|]. unfold Rel, move. simpl. exists (fst nc). split; auto. split; auto. now apply Rel_ended.
  Qed.

  (** the place of the pen after an item of the given kind *)
  Definition placed (k : kind) (g : gstate) : Prop :=
    match k with
    | Closes => exists p, now g = At p
    | Draws => exists p l, now g = Drawing p l /\ l <> []
    | _ => exists p l, now g = Drawing p l
    end.
  Definition after (prev k : kind) : kind := match k with Nothing => prev | _ => k end.
  Lemma Rel_point g nc : Rel g nc -> point_of (now g) = Some (current (snd nc)).
  Proof.
    unfold Rel. destruct (now g) as [|p|p l]; [tauto| |].
    - intros (_ & _ & ->). reflexivity.
    - intros (done & _ & _ & ->). reflexivity.
  Qed.
  Lemma step_item f prev i g nc g' : straight i = true -> prev <> Nothing -> placed prev g -> Rel g nc ->
    (kind_of i = Draws -> prev <> Closes) -> (kind_of i = Closes -> prev = Draws) ->
    obey_all g (item_outputPS i) = Some g' -> Forall fastd (ended g') ->
    exists nc', update_normpath (S (S f)) e nc i = Ok nc' /\ Rel g' nc' /\ placed (after prev (kind_of i)) g'.
  Proof.
    intros S NN P R KD KC O F.
    assert (Q := Rel_point g nc R).
    assert (ADD : forall s, prev <> Closes -> add_seg g s = Some g' ->
      exists nc', add_item (Datatypes.S (Datatypes.S f)) (seg_item (current (snd nc)) s) nc = Ok nc' /\ Rel g' nc' /\ placed Draws g').
    { intros s NC A. assert (exists p l, now g = Drawing p l) as (p & l & N).
      { destruct prev; simpl in P; try congruence; auto. destruct P as (p & l & N & _). eauto. }
      unfold add_seg in A. rewrite N in A. injection A as <-.
      destruct (step_add f g nc p l s N R F) as (nc' & A & R'). exists nc'. split; auto. split; auto.
      simpl. exists p, (l ++ [s]). split; auto. destruct l; discriminate. }
    assert (MOVE : forall p, g' = move g p -> exists nc', add_move (Datatypes.S (Datatypes.S f)) e p (fst nc) = Ok nc' /\ Rel g' nc' /\ placed Moves g').
    { intros p ->. destruct (step_moves f g nc p R) as (nc' & A & R'). exists nc'. split; auto. split; auto. simpl. eauto. }
    destruct nc as [np c]. simpl in Q.
    destruct i as [|p|p|p1 p2 p3|d|d|d1 d2 d3|x y r a1 a2|x y r a1 a2|p1 p2 r|l|l]; try discriminate S; cbn [update_normpath update_simple kind_of after].
    - specialize (KC eq_refl). subst prev. destruct P as (p & l & N & NE). cbn [item_outputPS obey_all obey] in O. rewrite N in O. injection O as <-.
      unfold Rel in R. rewrite N in R. destruct R as (done & R1 & R2 & R3). simpl in R1, R3. subst np c.
      unfold ended in F. simpl in F. rewrite app_nil_r in F. apply Forall_app in F as [_ F]. inversion F as [|? ? F1 _]; subst.
      destruct (close_open f p l NE F1) as (s & C & SH & _).
      rewrite last_sub_app, C. cbn [bind]. eexists. split; [reflexivity|]. split; [|simpl; eauto].
      unfold Rel. simpl. split; [apply Forall2_app; auto|]. split; auto. destruct (finished g); discriminate.
    - cbn [item_outputPS obey_all obey] in O. injection O as <-. apply MOVE. auto.
    - cbn [item_outputPS obey_all obey] in O. destruct (add_seg g (SegLine p)) as [g1|] eqn:A; [|discriminate]. injection O as ->.
      apply (ADD (SegLine p) (KD eq_refl) A).
    - cbn [item_outputPS obey_all obey] in O. destruct (add_seg g (SegCurve p1 p2 p3)) as [g1|] eqn:A; [|discriminate]. injection O as ->.
      apply (ADD (SegCurve p1 p2 p3) (KD eq_refl) A).
    - cbn [item_outputPS obey_all obey] in O. unfold relative in O. rewrite Q in O. injection O as <-. apply MOVE. reflexivity.
    - cbn [item_outputPS obey_all obey] in O. unfold relative in O. rewrite Q in O. destruct (add_seg g _) as [g1|] eqn:A; [|discriminate]. injection O as ->.
      apply (ADD _ (KD eq_refl) A).
    - cbn [item_outputPS obey_all obey] in O. unfold relative in O. rewrite Q in O. destruct (add_seg g _) as [g1|] eqn:A; [|discriminate]. injection O as ->.
      apply (ADD _ (KD eq_refl) A).
    - destruct l as [|q l]; [simpl in O; injection O as <-; exists (np, c); split; [reflexivity|]; auto|].
      assert (exists p k, now g = Drawing p k) as (p & k & N).
      { specialize (KD eq_refl). destruct prev; simpl in P; try congruence; auto. destruct P as (p & k & N & _). eauto. }
      destruct (step_lines f (q :: l) g (np, c) p k N R g' O F) as (nc' & k' & A & R' & N' & K).
      exists nc'. split; auto. split; auto. simpl. exists p, k'. split; auto. apply K. left. discriminate.
    - destruct l as [|q l]; [simpl in O; injection O as <-; exists (np, c); split; [reflexivity|]; auto|].
      assert (exists p k, now g = Drawing p k) as (p & k & N).
      { specialize (KD eq_refl). destruct prev; simpl in P; try congruence; auto. destruct P as (p & k & N & _). eauto. }
      destruct (step_curves f (q :: l) g (np, c) p k N R g' O F) as (nc' & k' & A & R' & N' & K).
      exists nc'. split; auto. split; auto. simpl. exists p, k'. split; auto. apply K. left. discriminate.
  Qed.
  Lemma obey_all_app l1 l2 g g' : obey_all g (l1 ++ l2) = Some g' -> exists g1, obey_all g l1 = Some g1 /\ obey_all g1 l2 = Some g'.
  Proof.
    revert g. induction l1 as [|o l1 IH]; simpl; intros g H; [eauto|]. destruct (obey g o); [auto|discriminate].
  Qed.
  Lemma steps f l : forall prev g nc g', forallb straight l = true -> prev <> Nothing -> calm prev l = true -> placed prev g -> Rel g nc ->
    obey_all g (flat_map item_outputPS l) = Some g' -> Forall fastd (ended g') ->
    exists nc', updates (S (S f)) e nc l = Ok nc' /\ Rel g' nc'.
  Proof.
    induction l as [|i l IH]; intros prev g nc g' S NN C P R O F.
    - simpl in O. injection O as <-. exists nc. auto.
    - cbn [flat_map] in O. apply obey_all_app in O as (g1 & O1 & O2). cbn [forallb] in S. apply andb_prop in S as [S1 S2]. cbn [calm] in C.
      assert (F1 := fastd_before_all _ _ _ O2 F).
      assert (KD : kind_of i = Draws -> prev <> Closes) by (intros K; rewrite K in C; destruct prev; congruence).
      assert (KC : kind_of i = Closes -> prev = Draws) by (intros K; rewrite K in C; destruct prev; congruence).
      destruct (step_item f prev i g nc g1 S1 NN P R KD KC O1 F1) as (nc1 & U & R1 & P1).
      assert (C' : calm (after prev (kind_of i)) l = true) by (destruct (kind_of i), prev; auto; discriminate).
      assert (NN' : after prev (kind_of i) <> Nothing) by (destruct (kind_of i); simpl; auto; discriminate).
      destruct (IH _ g1 nc1 g' S2 NN' C' P1 R1 O2 F) as (nc' & U' & R'). exists nc'. cbn [updates]. rewrite U. cbn [bind]. auto.
  Qed.
  Lemma convert_regular f p l g : forallb straight l = true -> calm Moves l = true ->
    obey_all (mkgstate [] NoPoint) (outputPS (Moveto p :: l)) = Some g -> Forall fastd (ended g) ->
    exists np, convert (S (S f)) e (Moveto p :: l) = Ok np /\ Forall2 (shows e) (ended g) np.
  Proof.
    intros S C O F. unfold outputPS in O. cbn [flat_map item_outputPS app obey_all obey] in O.
    unfold convert. cbn [create_normpath createcontext]. unfold point_sub. rewrite make_point. cbn [bind].
    assert (R : Rel (move (mkgstate [] NoPoint) p) ([open_sub p []], mkcontext p p)).
    { unfold Rel, move. simpl. exists []. split; auto. split; auto. constructor. }
    assert (P : placed Moves (move (mkgstate [] NoPoint) p)) by (simpl; eauto).
    destruct (steps f l Moves _ _ g S ltac:(discriminate) C P R O F) as (nc & U & R').
    change (exists np, bind (updates (Datatypes.S (Datatypes.S f)) e ([open_sub p []], mkcontext p p) l) (fun nc => Ok (fst nc)) = Ok np /\ Forall2 (shows e) (ended g) np).
    rewrite U. cbn [bind]. eexists. split; [reflexivity|]. now apply Rel_ended.
  Qed.
End Steps.

(** * The way back *)
Definition item_seg (i : item) : seg := match i with Line _ p => SegLine p | Curve _ p1 p2 p3 => SegCurve p1 p2 p3 end.
Lemma item_seg_end i : seg_end (item_seg i) = atend_pt i.
Proof. destruct i; auto. Qed.
Lemma chained_segs l : forall b q, chained b l q -> exists k, l = seg_items b k /\ end_of b k = q.
Proof.
  induction l as [|i l IH]; intros b q C.
  - exists []. split; auto.
  - destruct C as [C1 C2]. destruct (IH _ _ C2) as (k & E1 & E2). exists (item_seg i :: k). cbn [seg_items]. rewrite end_of_cons, item_seg_end.
    split; auto. rewrite <- E1. f_equal. destruct i; simpl in *; subst; auto.
Qed.
Lemma updates_app fuel e l1 l2 : forall nc, updates fuel e nc (l1 ++ l2) = bind (updates fuel e nc l1) (fun nc' => updates fuel e nc' l2).
Proof. induction l1 as [|i l1 IH]; intros nc; [reflexivity|]. cbn [app updates]. destruct (update_normpath fuel e nc i); cbn [bind]; auto. Qed.

Section Back.
  Variables (f : nat) (e : R).
  Hypothesis He : 0 < e.
  Local Notation fuel := (S (S f)).

  Lemma update_item s nc : update_normpath fuel e nc (item_pathitem (seg_item (current (snd nc)) s)) = add_item fuel (seg_item (current (snd nc)) s) nc.
  Proof. destruct nc, s; reflexivity. Qed.
  Lemma seg_pathitem p q s : item_pathitem (seg_item p s) = item_pathitem (seg_item q s).
  Proof. destruct s; auto. Qed.
  Lemma add_segs done b l : forall k, Forall (fast e) (seg_items b (k ++ l)) ->
    updates fuel e (done ++ [open_sub e b k], mkcontext (end_of b k) b) (map item_pathitem (seg_items (end_of b k) l)) =
    Ok (done ++ [open_sub e b (k ++ l)], mkcontext (end_of b (k ++ l)) b).
  Proof.
    induction l as [|s l IH]; intros k F.
    - rewrite app_nil_r. reflexivity.
    - cbn [seg_items map updates].
      assert (U := update_item s (done ++ [open_sub e b k], mkcontext (end_of b k) b)). cbn [snd current] in U. rewrite U. clear U.
      unfold add_item at 1. cbn [snd current]. rewrite last_sub_app.
      assert (F' : Forall (fast e) (seg_items b (k ++ [s]))).
      { replace (k ++ s :: l) with ((k ++ [s]) ++ l) in F by (now rewrite <- app_assoc).
        clear -F. revert F. generalize (k ++ [s]). intros k' F. revert b F. induction k' as [|s' k' IH']; intros b F; [constructor|].
        simpl in *. inversion F; subst. constructor; eauto. }
      rewrite (append_open e He (S f) b k s F'). cbn [bind]. rewrite (proj2 (seg_item_ends _ _)).
      replace (k ++ s :: l) with ((k ++ [s]) ++ l) in * by (now rewrite <- app_assoc).
      rewrite <- (IH (k ++ [s]) F). rewrite end_of_snoc. reflexivity.
  Qed.
  Lemma lastitem_seg b k s : lastitem (seg_items b (k ++ [s])) = Some (seg_item (end_of b k) s).
  Proof. rewrite seg_items_snoc. apply lastitem_app. Qed.

  Lemma pathitems_back done s : clean e s -> exists b l c, nsp_pathitems s = Moveto b :: l /\
    updates fuel e (done ++ [open_sub e b []], mkcontext b b) l = Ok (done ++ [s], c).
  Proof.
    intros (N & Es & K & F & b & q & C & Q). apply chained_connected in C.
    assert (F' : Forall (fast e) (items s)) by (apply (Forall_impl _ (fun i => proj2 (fast_speed e i (Rlt_le _ _ He))) F)).
    destruct (chained_segs _ _ _ C) as (k & Ei & Eq). destruct s as [its cl ep sk]. simpl in *. subst its ep sk q.
    assert (NK : k <> []) by (intros ->; apply N; reflexivity).
    destruct (exists_last NK) as (k' & s & ->).
    unfold nsp_pathitems. cbn [items closed]. rewrite lastitem_seg.
    destruct (seg_items b (k' ++ [s])) as [|i0 r] eqn:E0; [congruence|]. rewrite <- E0 in *.
    assert (B : atbegin_pt i0 = b).
    { destruct (k' ++ [s]) as [|s0 r0]; [discriminate|]. simpl in E0. injection E0 as <- _. apply seg_item_ends. }
    rewrite B. exists b. destruct cl.
    - specialize (Q eq_refl). rewrite end_of_snoc in Q.
      assert (OK : fast e (seg_item (end_of b k') s)) by (rewrite seg_items_snoc in F'; apply Forall_app in F' as [_ F']; now inversion F').
      destruct s as [q|q1 q2 q3]; cbn [seg_item is_line andb].
      + simpl in Q. subst q. rewrite seg_items_snoc, removelast_last. eexists. eexists. split; [reflexivity|].
        rewrite updates_app. rewrite seg_items_snoc in F'. apply Forall_app in F' as [F' _].
        change b with (end_of b []) at 2 4. rewrite (add_segs done b k' [] F'). cbn [bind app].
        cbn [updates update_normpath update_simple]. rewrite last_sub_app.
        assert (NK' : k' <> []) by (intros ->; simpl in OK; rewrite dist_self in OK; lra).
        rewrite (close_line e He f (open_sub e b k') b (end_of b k')); auto.
        * destruct k'; [congruence|reflexivity].
        * destruct k'; [congruence|reflexivity].
        * intros EE; apply NK'; apply (seg_items_nil b k'); exact EE.
        * apply seg_items_chained.
      + eexists. eexists. split; [reflexivity|]. rewrite updates_app. change b with (end_of b []) at 2 4.
        rewrite (add_segs done b (k' ++ [SegCurve q1 q2 q3]) [] F'). cbn [bind app].
        cbn [updates update_normpath update_simple]. rewrite last_sub_app.
        rewrite (close_fast e f (open_sub e b (k' ++ [SegCurve q1 q2 q3])) b); auto.
        * cbn [bind]. cbn [open_sub items]. reflexivity.
        * destruct k'; reflexivity.
        * assert (CC := seg_items_chained (k' ++ [SegCurve q1 q2 q3]) b). rewrite end_of_snoc, Q in CC. exact CC.
    - cbn [andb]. rewrite app_nil_r. eexists. exists (mkcontext (end_of b (k' ++ [s])) b). split; [reflexivity|]. change b with (end_of b []) at 2 4.
      rewrite (add_segs done b (k' ++ [s]) [] F'). cbn [app]. unfold open_sub. destruct (k' ++ [s]) eqn:E; [destruct k'; discriminate|]. reflexivity.
  Qed.
  Lemma updates_back np : forall done c, done <> [] -> Forall (clean e) done -> Forall (clean e) np ->
    exists c', updates fuel e (done, c) (np_pathitems np) = Ok (done ++ np, c').
  Proof.
    induction np as [|s np IH]; intros done c N D F.
    - exists c. simpl. now rewrite app_nil_r.
    - inversion F as [|? ? F1 F2]; subst. unfold np_pathitems. cbn [flat_map]. destruct (pathitems_back done s F1) as (b & l & c1 & E & U).
      rewrite E. cbn [app]. cbn [updates update_normpath update_simple]. unfold add_move.
      assert (LE : last_epsilon done e = e).
      { destruct (exists_last N) as (d & s' & ->). apply last_epsilon_some. apply Forall_app in D as [_ D]. inversion D as [|? ? D1 _]; subst. apply D1. }
      rewrite LE. unfold point_sub. rewrite (make_point e He f). cbn [bind].
      change (mknsp [] false (Some e) (Some (Line b b))) with (open_sub e b []).
      rewrite updates_app, U. cbn [bind]. change (flat_map nsp_pathitems np) with (np_pathitems np).
      destruct (IH (done ++ [s]) c1) as (c' & U'); auto.
      + destruct done; discriminate.
      + apply Forall_app. auto.
      + exists c'. rewrite U'. now rewrite <- app_assoc.
  Qed.
  Lemma convert_back np : Forall (clean e) np -> convert fuel e (np_pathitems np) = Ok np.
  Proof.
    destruct np as [|s np]; intros F; [reflexivity|]. inversion F as [|? ? F1 F2]; subst.
    destruct (pathitems_back [] s F1) as (b & l & c1 & E & U). destruct (updates_back np [s] c1 ltac:(discriminate) ltac:(auto) F2) as (c' & U').
    unfold np_pathitems in *. cbn [flat_map]. rewrite E. cbn [app convert create_normpath createcontext]. unfold point_sub. rewrite (make_point e He f). cbn [bind].
    cbn [app] in U. change (bind (updates fuel e ([open_sub e b []], mkcontext b b) (l ++ np_pathitems np)) (fun nc => Ok (fst nc)) = Ok (s :: np)).
    rewrite updates_app, U. cbn [bind]. unfold np_pathitems. rewrite U'. reflexivity.
  Qed.
End Back.

(** * Arcs *)
Lemma last_sub_bind f g np : last_sub (fun s => bind (f s) g) np = bind (last_sub f np) (last_sub g).
Proof.
  destruct np as [|s np _] using rev_ind; [reflexivity|]. rewrite !last_sub_app. destruct (f s); simpl; auto. now rewrite last_sub_app.
Qed.
Definition is_curve (i : item) : Prop := match i with Curve _ _ _ _ => True | _ => False end.
Lemma last_sub_ok np : np <> [] -> last_sub (fun s => Ok s) np = Ok np.
Proof. intros N. destruct (exists_last N) as (d & s & ->). rewrite last_sub_app. reflexivity. Qed.
Lemma last_sub_nonempty f np np' : last_sub f np = Ok np' -> np' <> [].
Proof.
  destruct np as [|s np _] using rev_ind; [discriminate|]. rewrite last_sub_app. destruct (f s); [|discriminate|discriminate]. simpl. intros [= <-]. destruct np; discriminate.
Qed.
Lemma extend_curves fuel l : forall np c q, np <> [] -> Forall is_curve l -> chained (current c) l q ->
  bind (last_sub (fun s => extend fuel s l) np) (fun np2 => Ok (np2, mkcontext q (subfirst c))) = add_curves fuel (map triple l) (np, c).
Proof.
  induction l as [|i l IH]; intros np c q N F C.
  - unfold extend. cbn [extend_with map add_curves]. simpl in C. subst q. rewrite last_sub_ok by auto. destruct c; reflexivity.
  - unfold extend. cbn [extend_with]. rewrite (last_sub_bind (fun s => append fuel s i) (fun s' => extend_with (append fuel) s' l)).
    inversion F as [|? ? F1 F2]; subst. destruct C as [C1 C2]. destruct i as [|p0 p1 p2 p3]; [contradiction|]. simpl in C1. subst p0.
    cbn [map triple add_curves snd]. unfold add_item. destruct (last_sub (fun s => append fuel s (Curve (current c) p1 p2 p3)) np) as [np1| |] eqn:E; auto.
    cbn [bind atend_pt]. apply (IH np1 (mkcontext p3 (subfirst c)) q); auto. eapply last_sub_nonempty; eauto.
Qed.
