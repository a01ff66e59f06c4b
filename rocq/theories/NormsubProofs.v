(** Subpaths stay connected. *)
From Coq Require Import Reals List Lra Lia Bool.
From Verif Require Import TrafoModel BboxModel RootsModel CurveModel CurveSpec CurveProofs CurveProofs2 CurveProofs3 NormsubModel NormsubSpec.
Import ListNotations.
Open Scope R_scope.

Local Notation pt := (R * R)%type.

Lemma ltb_spec x y : reflect (x < y) (ltb x y).
Proof. unfold ltb. destruct (Rlt_dec x y); constructor; auto. Qed.
Lemma leb_spec x y : reflect (x <= y) (leb x y).
Proof. unfold leb. destruct (Rle_dec x y); constructor; auto. Qed.

Fixpoint chained (p : pt) (l : list item) (q : pt) : Prop :=
  match l with
  | [] => p = q
  | i :: l' => atbegin_pt i = p /\ chained (atend_pt i) l' q
  end.
Lemma chained_app l1 l2 p q : chained p (l1 ++ l2) q <-> exists m, chained p l1 m /\ chained m l2 q.
Proof.
  revert p. induction l1 as [|i l1 IH]; simpl; intros p.
  - split; [intros H; exists p; auto|intros (m & -> & H); auto].
  - rewrite IH. split; [intros (H & m & H1 & H2); exists m; auto|intros (m & (H & H1) & H2); split; auto; exists m; auto].
Qed.
Lemma chained_one p i q : chained p [i] q <-> atbegin_pt i = p /\ atend_pt i = q.
Proof. simpl. tauto. Qed.
Lemma begin_at i : at_pt i 0 = atbegin_pt i /\ at_pt i 1 = atend_pt i.
Proof.
  destruct i as [[x0 y0] [x1 y1]|[x0 y0] [x1 y1] [x2 y2] [x3 y3]]; simpl; unfold curve_coord; split; pairs_ring.
Qed.
Lemma chained_connected p l q : chained p l q <-> connected p l q.
Proof.
  revert p. induction l as [|i l IH]; simpl; [tauto|]. intros p. destruct (begin_at i) as [-> ->]. now rewrite IH.
Qed.
Lemma chained_rev p l q : chained p l q -> chained q (map item_reversed (rev l)) p.
Proof.
  revert p. induction l as [|i l IH]; simpl; intros p; [auto|]. intros [H1 H2].
  rewrite map_app. apply chained_app. exists (atend_pt i). split; [auto|]. destruct i; simpl in *; auto.
Qed.

Lemma modifiedbegin_end i p : atbegin_pt (modifiedbegin_pt i p) = p /\ atend_pt (modifiedbegin_pt i p) = atend_pt i.
Proof. destruct i; simpl; auto. Qed.
Lemma modifiedend_end i p : atbegin_pt (modifiedend_pt i p) = atbegin_pt i /\ atend_pt (modifiedend_pt i p) = p.
Proof. destruct i; simpl; auto. Qed.

Lemma lastitem_app l i : lastitem (l ++ [i]) = Some i.
Proof. unfold lastitem. now rewrite rev_app_distr. Qed.
Lemma lastitem_some l i : lastitem l = Some i -> l = removelast l ++ [i].
Proof.
  destruct l as [|j l'] using rev_ind; [discriminate|]. rewrite lastitem_app. intros [= ->]. now rewrite removelast_last.
Qed.
Lemma lastitem_none l : lastitem l = None -> l = [].
Proof. destruct l as [|j l'] using rev_ind; auto. rewrite lastitem_app. discriminate. Qed.

(** what is kept by append: the items and the skipped line lead from b to p *)
Definition skip_ok (e : R) (q : pt) (o : option item) (p : pt) : Prop :=
  match o with
  | None => q = p
  | Some l => exists p0 p1, l = Line p0 p1 /\ p0 = q /\ p1 = p /\ dist p0 p1 < e
  end.
Definition leads (e : R) (s : nsp) (b p : pt) : Prop :=
  exists q, chained b (items s) q /\ skip_ok e q (skipped s) p.

(** the pieces of a curve *)
Lemma pieces_chained e ts : forall c prev, chained (fst (fst (fst c))) (map (line_if_short e) (pieces c prev ts)) (snd c).
Proof.
  induction ts as [|t ts IH]; intros [[[p0 p1] p2] p3] prev; cbn [pieces].
  - cbn [map]. apply chained_one. unfold line_if_short. destruct (ltb _ _); simpl; auto.
  - set (u := match prev with None => t | Some u => (t - u) / (1 - u) end).
    unfold split. cbv zeta. cbn [map chained]. split.
    + unfold line_if_short. destruct (ltb _ _); reflexivity.
    + match goal with |- chained ?a (map _ (pieces ?c ?p ts)) ?q => specialize (IH c p) end. simpl fst in IH. simpl snd in IH.
      unfold line_if_short at 1. destruct (ltb _ _); simpl atend_pt; exact IH.
Qed.

Section Append.
  Variable e : R.

  Lemma extend_leads_aux app : 
    (forall s i b p s', epsilon s = Some e -> leads e s b p -> (skipped s = None -> atbegin_pt i = p) -> app s i = Ok s' ->
        leads e s' b (atend_pt i) /\ epsilon s' = Some e /\ closed s' = false) ->
    forall l s b p q s', epsilon s = Some e -> closed s = false -> leads e s b p -> chained p l q -> extend_with app s l = Ok s' ->
      leads e s' b q /\ epsilon s' = Some e /\ closed s' = false.
  Proof.
    intros H. induction l as [|i l IH]; simpl; intros s b p q s' He Hc L C E.
    - injection E as <-. subst. auto.
    - destruct C as [C1 C2]. destruct (app s i) as [s1| |] eqn:A; simpl in E; try discriminate.
      destruct (H s i b p s1 He L (fun _ => C1) A) as (L1 & E1 & F1). eapply IH; eauto.
  Qed.

  Lemma append_leads fuel : forall s i b p s', epsilon s = Some e -> leads e s b p -> (skipped s = None -> atbegin_pt i = p) ->
    append fuel s i = Ok s' -> leads e s' b (atend_pt i) /\ epsilon s' = Some e /\ closed s' = false.
  Proof.
    induction fuel as [|f IH]; simpl; [discriminate|]. intros s i b p s' He (q & C & K) B. rewrite He.
    destruct (mismatch e s i); [discriminate|]. destruct (closed s) eqn:Hc; [discriminate|].
    set (j := match skipped s with Some l => modifiedbegin_pt i (atbegin_pt l) | None => i end).
    assert (J : atbegin_pt j = q /\ atend_pt j = atend_pt i).
    { unfold j. destruct (skipped s) as [l|] eqn:S.
      - destruct (modifiedbegin_end i (atbegin_pt l)) as [-> ->]. destruct K as (p0 & p1 & -> & <- & _). auto.
      - simpl in K. rewrite B by auto. subst. auto. }
    clearbody j. destruct J as [J1 <-]. 
    assert (P : forall j', atbegin_pt j' = q -> atend_pt j' = atend_pt j -> leads e (push (with_skipped s None) j') b (atend_pt j)).
    { intros j' H1 H2. exists (atend_pt j). split; [|reflexivity]. simpl. apply chained_app. exists q. split; auto. simpl. auto. }
    destruct j as [p0 p1|p0 p1 p2 p3]; cbn [atbegin_pt atend_pt] in *.
    - destruct (leb_spec e (dist p0 p1)); intros [= <-]; (split; [|auto]).
      + apply P; auto.
      + exists q. split; auto. simpl. exists p0, p1. repeat split; auto. lra.
    - destruct (substantial e p0 p1 p2 p3) eqn:Sub.
      + set (q1 := shift_first e p0 p1 p2 p3). set (q2 := shift_second e p0 p1 p2 p3).
        destruct (splitpoints e p0 q1 q2 p3) as [|t ts] eqn:T.
        * intros [= <-]. split; [|auto]. apply P; auto.
        * intros E. eapply extend_leads_aux with (p := p0) (b := b) in E; eauto.
          -- exists q. split; auto. simpl. auto.
          -- apply pieces_chained with (c := (p0, q1, q2, p3)).
      + intros [= <-]. split; [|auto]. exists q. split; auto. simpl. exists p0, p3. repeat split; auto.
        unfold substantial in Sub. apply orb_false_iff in Sub as [Sub _]. destruct (leb_spec e (dist p0 p3)); [discriminate|lra].
  Qed.

  Lemma extend_leads fuel l s b p q s' : epsilon s = Some e -> closed s = false -> leads e s b p -> chained p l q ->
    extend fuel s l = Ok s' -> leads e s' b q /\ epsilon s' = Some e /\ closed s' = false.
  Proof. apply extend_leads_aux. intros; eapply append_leads; eauto. Qed.

  (** no exception for matching items *)
  Hypothesis Hpos : 0 < e.
  Lemma gap_self p : gap p p = 0.
  Proof. unfold gap, hypot. rewrite !Rminus_diag_eq by reflexivity. rewrite Rmult_0_l, Rplus_0_l. apply sqrt_0. Qed.
  Lemma gap_dist p q : gap p q = dist p q.
  Proof. unfold gap, dist, hypot. f_equal. ring. Qed.
  Lemma leads_match s i b p : leads e s b p -> atbegin_pt i = p -> mismatch e s i = false.
  Proof.
    intros (q & C & K) B. unfold mismatch. destruct (skipped s) as [l|]; simpl in K.
    - destruct K as (p0 & p1 & -> & _ & -> & _). simpl. rewrite B, gap_self. destruct (ltb_spec 0 e); auto; lra.
    - subst p. destruct (lastitem (items s)) as [l|] eqn:L; auto. apply lastitem_some in L. rewrite L in C.
      apply chained_app in C as (m & _ & C). simpl in C. destruct C as [_ C]. rewrite B, C, gap_self. destruct (ltb_spec 0 e); auto; lra.
  Qed.
  Lemma append_no_exn fuel : forall s i b p x, epsilon s = Some e -> closed s = false -> leads e s b p -> atbegin_pt i = p ->
    append fuel s i <> Exn x.
  Proof.
    induction fuel as [|f IH]; simpl; [discriminate|]. intros s i b p x He Hc L B. rewrite He.
    rewrite (leads_match s i b p L B), Hc. destruct L as (q & C & K).
    set (j := match skipped s with Some l => modifiedbegin_pt i (atbegin_pt l) | None => i end).
    assert (J : atbegin_pt j = q).
    { unfold j. destruct (skipped s) as [l|] eqn:S.
      - destruct (modifiedbegin_end i (atbegin_pt l)) as [-> _]. destruct K as (p0 & p1 & -> & <- & _). auto.
      - simpl in K. subst. auto. }
    clearbody j. destruct j as [p0 p1|p0 p1 p2 p3]; cbn [atbegin_pt] in J; subst q.
    - destruct (leb _ _); discriminate.
    - destruct (substantial _ _ _ _ _); [|discriminate].
      set (q1 := shift_first e p0 p1 p2 p3). set (q2 := shift_second e p0 p1 p2 p3).
      destruct (splitpoints _ _ _ _ _) as [|t ts]; [discriminate|].
      pose proof (pieces_chained e (rsort (t :: ts)) (p0, q1, q2, p3) None) as PC. simpl fst in PC. simpl snd in PC.
      set (pcs := map _ _) in *. clearbody pcs.
      assert (G : forall l s p q, epsilon s = Some e -> closed s = false -> leads e s b p -> chained p l q -> extend_with (append f) s l <> Exn x).
      { induction l as [|i' l IHl]; simpl; [discriminate|]. intros s1 pp qq He1 Hc1 L1 [C1 C2].
        destruct (append f s1 i') as [s2| |] eqn:A; simpl; [|exact (fun E => IH s1 i' b pp _ He1 Hc1 L1 C1 (eq_trans A E))|discriminate].
        destruct (append_leads f s1 i' b pp s2) as (L2 & E2 & F2); auto. eapply IHl; eauto. }
      apply (G pcs (with_skipped s None) p0 p3); auto. exists p0. split; auto. reflexivity.
  Qed.
End Append.
