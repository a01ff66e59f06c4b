(** The segments of a subpath. *)
From Coq Require Import Reals ZArith List Lra Lia Bool Arith.
From Verif Require Import PyDict TrafoModel BboxModel RootsModel CurveModel CurveSpec CurveProofs CurveProofs2 CurveProofs3 CurveProofs4
  NormsubModel NormsubSpec NormsubProofs NormsubProofs2 NormsubProofs3 NormsubProofs4.
Import ListNotations.
Open Scope R_scope.

Local Notation pt := (R * R)%type.

Lemma segment_ends i t u : atbegin_pt (segment i t u) = at_pt i t /\ atend_pt (segment i t u) = at_pt i u.
Proof.
  destruct i as [[x0 y0] [x1 y1]|[x0 y0] [x1 y1] [x2 y2] [x3 y3]]; simpl.
  - unfold line_segment. simpl. auto.
  - unfold curve_segment, segment_coord, curve_coord. simpl. split; apply pair_eq; field.
Qed.

Section Segments.
  Variables (e : R) (s : nsp).
  Hypothesis Es : epsilon s = Some e.
  Variables b0 q0 : pt.
  Hypothesis Conn : chained b0 (items s) q0.
  Variable fuel : nat.

  (** a normsubpath that is not empty and leads from b to p *)
  Definition whole (r : nsp) (b p : pt) : Prop :=
    leads e r b p /\ epsilon r = Some e /\ closed r = false /\ (skipped r = None -> items r <> []).
  (** the finished ones lead from point to point *)
  Definition ok (done : list nsp) (pts : list pt) : Prop :=
    length pts = S (length done) /\
    forall j r p q, nth_error done j = Some r -> nth_error pts j = Some p -> nth_error pts (S j) = Some q -> whole r p q.
  Lemma ok_nil p : ok [] [p].
  Proof. split; auto. intros [|j]; discriminate. Qed.
  Lemma ok_snoc done pre b r p : ok done (pre ++ [b]) -> whole r b p -> ok (done ++ [r]) ((pre ++ [b]) ++ [p]).
  Proof.
    intros [L H] W. split; [rewrite app_length, L, app_length; simpl; lia|].
    rewrite app_length in L. simpl in L. assert (Lp : length pre = length done) by lia.
    intros j r' p' q' Hr Hp Hq. destruct (lt_eq_lt_dec j (length done)) as [[Lt| ->]|Gt].
    - rewrite nth_error_app1 in Hr by auto. rewrite nth_error_app1 in Hp, Hq by (rewrite app_length; simpl; lia). eapply H; eauto.
    - rewrite nth_error_app2 in Hr by lia. rewrite Nat.sub_diag in Hr. injection Hr as <-.
      rewrite nth_error_app1 in Hp by (rewrite app_length; simpl; lia). rewrite nth_error_app2 in Hp by lia. rewrite Lp, Nat.sub_diag in Hp. injection Hp as <-.
      rewrite nth_error_app2 in Hq by (rewrite app_length; simpl; lia).
      replace (S (length done) - length (pre ++ [b]))%nat with 0%nat in Hq by (rewrite app_length; cbn [length]; lia). simpl in Hq. injection Hq as <-. auto.
    - exfalso. assert (j < length (done ++ [r]))%nat by (apply nth_error_Some; congruence). rewrite app_length in *. simpl in *. lia.
  Qed.
  Lemma append_whole r b p i r' : leads e r b p -> epsilon r = Some e -> atbegin_pt i = p -> append fuel r i = Ok r' -> whole r' b (atend_pt i).
  Proof.
    intros L E B A. destruct (append_leads e fuel r i b p r' E L (fun _ => B) A) as (L' & E' & C'). split; auto. split; auto. split; auto.
    intros K. exact (append_progress _ _ _ _ A K).
  Qed.
  Lemma make_one_whole g r : make fuel [g] false (Some e) = Ok r -> whole r (atbegin_pt g) (atend_pt g).
  Proof.
    unfold make, extend. simpl. destruct (append fuel (empty_nsp (Some e)) g) as [r0| |] eqn:A; simpl; try discriminate. intros [= ->].
    apply (append_whole (empty_nsp (Some e)) (atbegin_pt g) (atbegin_pt g) g r); auto. exists (atbegin_pt g). split; simpl; auto.
  Qed.
  Lemma more_ok i cs : forall c0 c1 done pre b last done' last',
    ok done (pre ++ [b]) -> whole last b (at_pt i c1) -> more_segments fuel (Some e) (pairs (segment i) (c1 :: cs)) done last = Ok (done', last') ->
    c0 = c1 -> exists pre' b', pre ++ [b] ++ map (at_pt i) (removelast (c1 :: cs)) = pre' ++ [b'] /\ ok done' (pre' ++ [b']) /\
      whole last' b' (at_pt i (List.last (c1 :: cs) 0)).
  Proof.
    induction cs as [|c cs IH]; intros c0 c1 done pre b last done' last' O W M _.
    - simpl in M. injection M as <- <-. exists pre, b. simpl. split; auto.
    - change (pairs (segment i) (c1 :: c :: cs)) with (segment i c1 c :: pairs (segment i) (c :: cs)) in M. cbn [more_segments] in M.
      destruct (make fuel [segment i c1 c] false (Some e)) as [r| |] eqn:R; cbn [bind] in M; try discriminate.
      apply make_one_whole in R. destruct (segment_ends i c1 c) as [S1 S2]. rewrite S1, S2 in R.
      destruct (IH c c (done ++ [last]) (pre ++ [b]) (at_pt i c1) r done' last') as (pre' & b' & E1 & E2 & E3); auto.
      + apply ok_snoc; auto.
      + exists pre', b'. split; [|split; auto].
        rewrite <- E1. change (removelast (c1 :: c :: cs)) with (c1 :: removelast (c :: cs)). cbn [map]. rewrite <- !app_assoc. reflexivity.
  Qed.
  Lemma add_ok i c0 c1 cs done pre b last done' last' : ok done (pre ++ [b]) -> leads e last b (at_pt i c0) -> epsilon last = Some e ->
    add_segments fuel (Some e) i (c0 :: c1 :: cs) done last = Ok (done', last') ->
    exists pre' b', pre ++ [b] ++ map (at_pt i) (removelast (c1 :: cs)) = pre' ++ [b'] /\ ok done' (pre' ++ [b']) /\
      whole last' b' (at_pt i (List.last (c1 :: cs) 0)).
  Proof.
    intros O L E A.
    assert (A' : bind (append fuel last (segment i c0 c1)) (fun r => more_segments fuel (Some e) (pairs (segment i) (c1 :: cs)) done r) = Ok (done', last')) by exact A.
    clear A. destruct (append fuel last (segment i c0 c1)) as [r| |] eqn:Rn; cbn [bind] in A'; try discriminate.
    destruct (segment_ends i c0 c1) as [S1 S2]. apply (append_whole last b (at_pt i c0)) in Rn; auto. rewrite S2 in Rn.
    exact (more_ok i cs c1 c1 done pre b r done' last' O Rn A' eq_refl).
  Qed.

  (** the items between two others *)
  Lemma slice_chained l : forall b q j k i i', chained b l q -> nth_error l j = Some i -> nth_error l k = Some i' -> (j < k)%nat ->
    chained (atend_pt i) (firstn (k - j - 1) (skipn (S j) l)) (atbegin_pt i').
  Proof.
    induction l as [|x l IH]; intros b q [|j] [|k] i i' C Hj Hk L; try discriminate; try lia.
    - simpl in *. injection Hj as ->. destruct C as [_ C]. replace (k - 0)%nat with k by lia. clear -C Hk.
      revert l i C Hk. induction k as [|k IH]; intros [|y l] i C Hk; try discriminate; simpl in *.
      + injection Hk as ->. destruct C as [-> _]. auto.
      + destruct C as [C1 C2]. split; auto.
    - simpl in *. destruct C as [_ C]. apply (IH (atend_pt x) q j k i i'); auto. lia.
  Qed.
  Lemma extend_whole l r b p q r' : leads e r b p -> epsilon r = Some e -> closed r = false -> chained p l q -> extend fuel r l = Ok r' ->
    leads e r' b q /\ epsilon r' = Some e /\ closed r' = false.
  Proof. intros L E C Ch X. eapply extend_leads; eauto. Qed.

  (** the point at a parameter *)
  Definition the_pt (t : R) : pt :=
    match nth_error (items s) (param_index (length (items s)) t) with
    | Some i => at_pt i (t - INR (param_index (length (items s)) t)) | None => (0, 0) end.
  Hypothesis Ne : items s <> [].
  Lemma index_item t : exists i, nth_error (items s) (param_index (length (items s)) t) = Some i.
  Proof.
    destruct (param_index_spec (length (items s)) t) as [H _]; [destruct (items s); [congruence|simpl; lia]|].
    apply nth_error_Some in H. destruct (nth_error _ _); [eauto|congruence].
  Qed.
  Lemma last_snoc {A} (l : list A) x d : List.last (l ++ [x]) d = x.
  Proof. apply last_last. Qed.

  Lemma loop_ok params : forall done last c0 cs k i pre b result,
    ok done (pre ++ [b]) -> leads e last b (at_pt i c0) -> epsilon last = Some e -> closed last = false -> nth_error (items s) k = Some i ->
    segments_loop fuel s params done last (c0 :: cs) (Some k) = Ok result -> (cs <> [] \/ params <> []) ->
    ok result (pre ++ [b] ++ map (at_pt i) cs ++ map the_pt params).
  Proof.
    induction params as [|t params IH]; intros done last c0 cs k i pre b result O L El Cl Hk Run Hne.
    - cbn [segments_loop] in Run. rewrite Hk, Es in Run. destruct cs as [|c1 cs]; [destruct Hne; congruence|].
      destruct (add_segments fuel (Some e) i (c0 :: c1 :: cs) done last) as [[done' last']| |] eqn:A; cbn [bind] in Run; try discriminate.
      injection Run as <-. destruct (add_ok i c0 c1 cs done pre b last done' last' O L El A) as (pre' & b' & E1 & E2 & E3).
      pose proof (ok_snoc done' pre' b' last' _ E2 E3) as F. rewrite <- E1 in F. cbn [map] in *. rewrite app_nil_r.
      assert (Q : map (at_pt i) (c1 :: cs) = map (at_pt i) (removelast (c1 :: cs)) ++ [at_pt i (List.last (c1 :: cs) 0)]).
      { transitivity (map (at_pt i) (removelast (c1 :: cs) ++ [List.last (c1 :: cs) 0])); [f_equal; apply app_removelast_last; discriminate|apply map_app]. }
      cbn [map] in Q. rewrite Q. rewrite <- !app_assoc in F.
      exact F.
    - cbn [segments_loop] in Run. set (index := param_index (length (items s)) t) in *.
      destruct (index_item t) as [i' Hi']. fold index in Hi'.
      assert (Pt : the_pt t = at_pt i' (t - INR index)) by (unfold the_pt; fold index; rewrite Hi'; auto).
      destruct (Nat.eqb_spec index k) as [Ek|Nk].
      + subst k. rewrite Hk in Hi'. injection Hi' as <-.
        change ((c0 :: cs) ++ [t - INR index]) with (c0 :: (cs ++ [t - INR index])) in Run.
        specialize (IH done last c0 (cs ++ [t - INR index]) index i pre b result O L El Cl Hk Run).
        rewrite map_app in IH. cbn [map] in *. rewrite <- !app_assoc in IH. rewrite Pt. apply IH. left. destruct cs; discriminate.
      + rewrite Hk, Es in Run. set (up := Nat.ltb k index) in *.
        set (ce := if up then 1 else 0) in *.
        assert (J : exists c1 cs', cs ++ [ce] = c1 :: cs' /\ removelast (c1 :: cs') = cs /\ List.last (c1 :: cs') 0 = ce).
        { destruct (cs ++ [ce]) as [|c1 cs'] eqn:D; [destruct cs; discriminate|]. exists c1, cs'. rewrite <- D, removelast_last, last_last. auto. }
        destruct J as (c1 & cs' & J1 & J2 & J3).
        change ((c0 :: cs) ++ [ce]) with (c0 :: (cs ++ [ce])) in Run. rewrite J1 in Run.
        destruct (add_segments fuel (Some e) i (c0 :: c1 :: cs') done last) as [[done' last']| |] eqn:A; cbn [bind] in Run; try discriminate.
        destruct (add_ok i c0 c1 cs' done pre b last done' last' O L El A) as (pre' & b' & E1 & E2 & (W1 & W2 & W3 & _)).
        rewrite J2 in E1. rewrite J3 in W1.
        destruct (extend fuel last' _) as [last2| |] eqn:X; cbn [bind] in Run; try discriminate.
        assert (L2 : leads e last2 b' (at_pt i' (if up then 0 else 1)) /\ epsilon last2 = Some e /\ closed last2 = false).
        { clear IH Run A. unfold ce in W1. clear J1 J3 ce. unfold up in *. clear up. destruct (Nat.ltb_spec k index) as [Lt|Ge].
          - refine (extend_whole _ last' b' (at_pt i 1) (at_pt i' 0) last2 W1 W2 W3 _ X).
            destruct (begin_at i) as [_ ->]. destruct (begin_at i') as [-> _]. exact (slice_chained _ _ _ _ _ _ _ Conn Hk Hi' Lt).
          - refine (extend_whole _ last' b' (at_pt i 0) (at_pt i' 1) last2 W1 W2 W3 _ X).
            destruct (begin_at i) as [-> _]. destruct (begin_at i') as [_ ->]. apply chained_rev.
            refine (slice_chained _ _ _ _ _ _ _ Conn Hi' Hk _). lia. }
        destruct L2 as (L2 & El2 & Cl2).
        assert (Hc : [t - INR index] <> []) by discriminate.
        specialize (IH done' last2 (if up then 0 else 1) [t - INR index] index i' pre' b' result E2 L2 El2 Cl2 Hi' Run (or_introl Hc)).
        rewrite app_assoc, <- E1 in IH. cbn [map] in IH |- *. rewrite Pt.
        rewrite <- !app_assoc in IH.
        exact IH.
  Qed.
  Lemma segments_loop_ok params t result : segments_loop fuel s (t :: params) [] (empty_nsp (epsilon s)) [] None = Ok result -> params <> [] ->
    ok result (map the_pt (t :: params)).
  Proof.
    intros Run N. cbn [segments_loop] in Run. rewrite Es in Run. destruct (index_item t) as [i Hi].
    apply (loop_ok params [] (empty_nsp (Some e)) _ [] _ i [] (the_pt t)) in Run; auto.
    - apply ok_nil.
    - exists (the_pt t). split; [reflexivity|]. simpl. unfold the_pt. rewrite Hi. auto.
  Qed.
End Segments.
