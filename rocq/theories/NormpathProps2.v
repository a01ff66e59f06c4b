(** Further properties of paths of several subpaths: lists of parameters, reversal,
    transformation, bounding box, joining and splitting. *)
From Coq Require Import Reals Lra Lia ZArith Bool List.
From Verif Require Import PyDict TrafoModel BboxModel BboxSpec BboxProps CurveModel CurveSpec CurveProofs2 CurveProps NormsubModel NormsubSpec
  NormsubProofs NormsubProofs4 NormsubProofs5 NormsubProps NormsubProps2 NormpathModel NormpathSpec NormpathProofs NormpathProps.
Import ListNotations.
Open Scope R_scope.

Local Notation pt := (R * R)%type.

(** ** lists of parameters *)
Lemma set_nth_pre {A} (pre : list A) x y l : set_nth (length pre) x (pre ++ y :: l) = pre ++ x :: l.
Proof. induction pre as [|a pre IH]; simpl; auto. now rewrite IH. Qed.
(** C55: in a list of parameters and lengths exactly the lengths are converted, each on its
    place. *)
Theorem mixed_parameters : forall P L (c : L -> P) (params : list (P + L)),
  convertparams (map c) params = map (fun x => match x with inl p => inl p | inr l => inl (c l) end) params.
Proof.
  intros P L c params. unfold convertparams.
  assert (G : forall params pre k, k = length pre -> fold_left (fun params '(k, p) => set_nth k (inl p) params)
      (combine (snd (to_convert k params)) (map c (fst (to_convert k params)))) (pre ++ params) =
    pre ++ map (fun x => match x with inl p => inl p | inr l => inl (c l) end) params).
  { clear. induction params as [|[p|l] params IH]; intros pre k ->; auto.
    - cbn [to_convert map]. replace (pre ++ inl p :: params) with ((pre ++ [inl p]) ++ params) by now rewrite <- app_assoc.
      rewrite IH by (rewrite app_length; simpl; lia). now rewrite <- app_assoc.
    - cbn [to_convert]. specialize (IH (pre ++ [inl (c l)]) (S (length pre)) ltac:(rewrite app_length; simpl; lia)).
      destruct (to_convert (S (length pre)) params) as [xs ks]. cbn [fst snd map combine fold_left] in *. rewrite set_nth_pre.
      replace (pre ++ inl (c l) :: params) with ((pre ++ [inl (c l)]) ++ params) by now rewrite <- app_assoc.
      rewrite IH. now rewrite <- app_assoc. }
  specialize (G params [] 0%nat eq_refl). simpl app in G. rewrite <- G.
  destruct (to_convert 0 params) as [[|x xs] ks]; auto. simpl. now destruct ks.
Qed.
Print Assumptions mixed_parameters.
Example mixed_parameters_ex : convertparams (map (fun x => x + 10)%nat) [inl 1; inr 2; inr 3; inl 4]%nat = [inl 1; inl 12; inl 13; inl 4]%nat.
Proof. reflexivity. Qed.
(** C55: each point of a list of parameters is the one at the parameter of the subpath,
    whatever the other parameters are. *)
Theorem path_points_independent : forall np (ps : list param), (forall s, In s np -> items s <> []) -> (forall p, In p ps -> (fst p < length np)%nat) ->
  path_query nsp_at np ps = flat_map (fun p => path_query nsp_at np [p]) ps /\
  Forall2 (fun p answer => exists s x, nth_error np (fst p) = Some s /\ answer = Some (Some x) /\ on_path (items s) (snd p) x) ps (path_query nsp_at np ps).
Proof.
  intros np ps N H.
  set (g := fun k t => hd None (nsp_at (nth k np (empty_nsp None)) [t])).
  assert (M : forall ps, (forall p, In p ps -> (fst p < length np)%nat) -> path_query nsp_at np ps = map (fun p => Some (g (fst p) (snd p))) ps).
  { clear ps H. intros ps H. unfold path_query, path_distribute. rewrite (collect_distribute (fst : param -> nat) (snd : param -> R) ps _ g); auto.
    intros p ts I. specialize (H p I). rewrite (nth_error_nth' np (empty_nsp None) H).
    destruct (points_independent (nth (fst p) np (empty_nsp None)) ts) as [E F]; [apply N; now apply nth_In|].
    rewrite E. clear E F. unfold g. set (s := nth (fst p) np (empty_nsp None)) in *. induction ts as [|t ts IH]; auto. cbn [flat_map map]. rewrite IH.
    destruct (points_independent s [t]) as [_ F]; [apply N; now apply nth_In|]. inversion F as [|? ? ? ? K1 K2]; subst. inversion K2; subst. reflexivity. }
  rewrite (M ps H). split.
  - induction ps as [|p ps IH]; auto. cbn [map flat_map]. rewrite (M [p]) by (intros q [<-|[]]; apply H; now left). rewrite IH by (intros; apply H; now right). reflexivity.
  - clear M. induction ps as [|p ps IH]; constructor; [|apply IH; intros; apply H; now right].
    specialize (H p (or_introl eq_refl)). unfold g.
    destruct (points_independent (nth (fst p) np (empty_nsp None)) [snd p]) as [_ F]; [apply N; now apply nth_In|].
    inversion F as [|? ? ? ? (x & -> & K1) K2]; subst. exists (nth (fst p) np (empty_nsp None)), x. split; [now apply nth_error_nth'|]. split; auto.
Qed.
Print Assumptions path_points_independent.
Definition two_subpaths : normpath := [mknsp two_lines false (Some 1) None; mknsp [Line (0, 1) (0, 6)] false (Some 1) None].
Example path_points_ex : path_query nsp_at two_subpaths [(1%nat, 1); (0%nat, 1); (1%nat, 0)] = [Some (Some (0, 6)); Some (Some (4, 0)); Some (Some (0, 1))].
Proof.
  destruct (path_points_independent two_subpaths [(1%nat, 1); (0%nat, 1); (1%nat, 0)]) as [_ F].
  - intros s [<-|[<-|[]]]; discriminate.
  - intros p [<-|[<-|[<-|[]]]]; simpl; lia.
  - inversion F as [|? ? ? ? (s1 & x1 & E1 & -> & O1) F1]; subst. inversion F1 as [|? ? ? ? (s2 & x2 & E2 & -> & O2) F2]; subst.
    inversion F2 as [|? ? ? ? (s3 & x3 & E3 & -> & O3) F3]; subst. inversion F3; subst.
    injection E1 as <-. injection E2 as <-. injection E3 as <-. cbn [items] in *.
    assert (C : connected (0, 1) [Line (0, 1) (0, 6)] (0, 6)) by (apply chained_connected; simpl; auto).
    rewrite (point_unique _ _ _ _ x1 (0, 6) C O1), (point_unique _ _ _ _ x3 (0, 1) C O3), (point_unique_ex x2 O2); auto.
    + exists 0%nat, (Line (0, 1) (0, 6)). split; auto. split; [simpl; apply pair_eq; lra|]. simpl. split; [auto|right; lra].
    + exists 0%nat, (Line (0, 1) (0, 6)). split; auto. split; [simpl; apply pair_eq; lra|]. simpl. split; [auto|right; lra].
Qed.

(** ** reversal and transformation *)
Lemma all_ok_each {A B} (f : A -> res B) l l' : Forall2 (fun a b => f a = Ok b) l l' -> all_ok f l = Ok l'.
Proof. induction 1 as [|a b l l' H _ IH]; simpl; auto. now rewrite H, IH. Qed.
Lemma Forall2_ex {A B} (R : A -> B -> Prop) l : (forall a, In a l -> exists b, R a b) -> exists l', Forall2 R l l'.
Proof.
  induction l as [|a l IH]; intros H; [exists []; auto|]. destruct (H a (or_introl eq_refl)) as (b & Hb). destruct IH as (l' & F); [intros; apply H; now right|].
  exists (b :: l'). auto.
Qed.
Lemma Forall2_length {A B} (R : A -> B -> Prop) l l' : Forall2 R l l' -> length l = length l'.
Proof. induction 1; simpl; auto. Qed.
Lemma Forall2_nth {A B} (R : A -> B -> Prop) l l' k a b : Forall2 R l l' -> nth_error l k = Some a -> nth_error l' k = Some b -> R a b.
Proof. intros F. revert k. induction F as [|x y l l' H _ IH]; intros [|k]; simpl; try discriminate; [congruence|]. apply IH. Qed.
Lemma Forall2_map_imp {A B} (P Q : A -> B -> Prop) l l' : (forall a b, P a b -> Q a b) -> Forall2 P l l' -> Forall2 Q l l'.
Proof. induction 2; constructor; auto. Qed.
(** subpaths whose items all have at least the velocity epsilon *)
Definition regular (s : nsp) : Prop := exists e p q, 0 < e /\ epsilon s = Some e /\ skipped s = None /\ connected p (items s) q /\
  (forall i, In i (items s) -> speed_at_least e i) /\ (closed s = true -> p = q /\ items s <> []).
Lemma nth_error_rev {A} (l : list A) k : (k < length l)%nat -> nth_error (rev l) k = nth_error l (length l - 1 - k).
Proof.
  intros H. destruct l as [|d l']; [simpl in H; lia|]. set (l := d :: l') in *.
  rewrite (nth_error_nth' (rev l) d) by now rewrite rev_length. rewrite rev_nth by auto.
  rewrite (nth_error_nth' l d) by lia. do 2 f_equal. lia.
Qed.
(** C53: the reversed path has the reversed subpaths in the reversed order, and reversing it
    again gives the path. *)
Theorem reversed_path : forall f np, (forall s, In s np -> regular s) ->
  exists r, path_reversed (S (S f)) np = Ok r /\ length r = length np /\ path_reversed (S (S f)) r = Ok np /\
    forall k s t x, nth_error np k = Some s -> on_path (items s) t x ->
      exists s', nth_error r (length np - 1 - k) = Some s' /\ on_path (items s') (INR (length (items s)) - t) x.
Proof.
  intros f np H.
  assert (E : exists r, Forall2 (fun s s' => nsp_reversed (S (S f)) s = Ok s' /\ nsp_reversed (S (S f)) s' = Ok s /\
     forall t x, on_path (items s) t x -> on_path (items s') (INR (length (items s)) - t) x) (rev np) r).
  { apply Forall2_ex. intros s I. apply in_rev in I. destruct (H s I) as (e & p & q & He & Es & Ks & C & V & Hc).
    destruct (reversed_subpath f e s p q He Es Ks C V Hc) as (s' & E1 & E2 & E3 & E4 & E5). exists s'. split; auto. split; auto.
    intros t x O. apply E4. now replace (INR (length (items s)) - (INR (length (items s)) - t)) with t by ring. }
  destruct E as (r & F). exists r. unfold path_reversed.
  assert (L : length r = length np) by (rewrite <- (rev_length np); symmetry; eapply Forall2_length; eauto).
  split; [apply all_ok_each; eapply Forall2_map_imp; [|exact F]; simpl; tauto|]. split; auto. split.
  - apply all_ok_each. rewrite <- (rev_involutive np).
    assert (G : forall l l', Forall2 (fun s s' => nsp_reversed (S (S f)) s' = Ok s) l l' -> Forall2 (fun s s' => nsp_reversed (S (S f)) s = Ok s') (rev l') (rev l)).
    { clear. induction 1 as [|s s' l l' K _ IH]; simpl; auto. apply Forall2_app; auto. }
    apply G. eapply Forall2_map_imp; [|exact F]. simpl. tauto.
  - intros k s t x Hk O. assert (Lk : (k < length np)%nat) by (apply nth_error_Some; congruence).
    destruct (nth_error r (length np - 1 - k)) as [s'|] eqn:Hs; [|apply nth_error_None in Hs; lia]. exists s'. split; auto.
    apply (Forall2_nth _ _ _ (length np - 1 - k) s s' F) in Hs; [apply Hs; auto|].
    rewrite nth_error_rev by lia. now replace (length np - 1 - (length np - 1 - k))%nat with k by lia.
Qed.
Print Assumptions reversed_path.
(** C54: a transformation that does not shrink distances maps each point of the path. *)
Theorem transformed_path : forall f m np, (forall x y, distance x y <= distance (apply_pt m x) (apply_pt m y)) -> (forall s, In s np -> regular s) ->
  exists r, path_transformed (S (S f)) m np = Ok r /\ length r = length np /\
    forall k s t x, nth_error np k = Some s -> on_path (items s) t x -> exists s', nth_error r k = Some s' /\ closed s' = closed s /\ on_path (items s') t (apply_pt m x).
Proof.
  intros f m np M H.
  assert (E : exists r, Forall2 (fun s s' => nsp_transformed (S (S f)) m s = Ok s' /\ closed s' = closed s /\ forall t x, on_path (items s) t x -> on_path (items s') t (apply_pt m x)) np r).
  { apply Forall2_ex. intros s I. destruct (H s I) as (e & p & q & He & Es & Ks & C & V & Hc).
    destruct (transformed_subpath f e m s p q He M Es Ks C V Hc) as (s' & E1 & E2 & E3 & E4). exists s'. auto. }
  destruct E as (r & F). exists r. split; [apply all_ok_each; eapply Forall2_map_imp; [|exact F]; simpl; tauto|].
  assert (L : length r = length np) by (symmetry; eapply Forall2_length; eauto). split; auto.
  intros k s t x Hk O. assert (Lk : (k < length np)%nat) by (apply nth_error_Some; congruence).
  destruct (nth_error r k) as [s'|] eqn:Hs; [|apply nth_error_None in Hs; lia]. exists s'. split; auto.
  destruct (Forall2_nth _ _ _ k s s' F Hk Hs) as (_ & A & B). auto.
Qed.
Print Assumptions transformed_path.
Lemma two_subpaths_regular : forall s, In s two_subpaths -> regular s.
Proof.
  intros s [<-|[<-|[]]]; exists 1.
  - exists (0, 0), (4, 3). split; [lra|]. repeat (split; [now auto|]). split; [apply two_lines_connected|]. split; [apply two_lines_speed|discriminate].
  - exists (0, 1), (0, 6). split; [lra|]. repeat (split; [now auto|]). split; [apply chained_connected; simpl; auto|]. split; [|discriminate].
    intros i [<-|[]]. apply line_speed; [|lra]. rewrite (dist_is (0, 1) (0, 6) 5) by (simpl; lra). lra.
Qed.
Example reversed_path_ex : exists r s', path_reversed 2 two_subpaths = Ok r /\ nth_error r 1 = Some s' /\ on_path (items s') 1 (4, 0).
Proof.
  destruct (reversed_path 0 two_subpaths two_subpaths_regular) as (r & E & _ & _ & H).
  destruct (H 0%nat (mknsp two_lines false (Some 1) None) 1 (4, 0) eq_refl) as (s' & E' & O).
  - exists 0%nat, (Line (0, 0) (4, 0)). split; auto. split; [simpl; apply pair_eq; lra|]. simpl. split; [auto|right; lra].
  - exists r, s'. split; auto. split; auto. simpl in O. now replace (1 + 1 - 1) with 1 in O by ring.
Qed.

(** ** bounding box *)
(** C77: the bounding box of a path is the smallest box containing its subpaths. *)
Theorem path_bbox_smallest : forall np, smallest (path_bbox np) (fun x => exists s i t, In s np /\ In i (items s) /\ 0 <= t <= 1 /\ x = at_pt i t).
Proof.
  intros np. unfold path_bbox.
  assert (G : forall np b (S : pt -> Prop), smallest b S ->
    smallest (fold_left (fun b s => biadd b (nsp_bbox s)) np b) (fun x => S x \/ exists s i t, In s np /\ In i (items s) /\ 0 <= t <= 1 /\ x = at_pt i t)).
  { clear. induction np as [|s np IH]; intros b S Sb; cbn [fold_left].
    - eapply smallest_iff; [|exact Sb]. intros x. split; auto. intros [H|(s & i & t & [] & _)]; auto.
    - eapply smallest_iff; [|apply (IH (biadd b (nsp_bbox s)) (fun x => S x \/ exists i t, In i (items s) /\ 0 <= t <= 1 /\ x = at_pt i t))].
      + intros x. split.
        * intros [[H|(i & t & H)]|(s' & i & t & H1 & H)]; [left; auto|right; exists s, i, t; simpl; tauto|right; exists s', i, t; simpl; tauto].
        * intros [H|(s' & i & t & [<-|H1] & H)]; [left; auto|left; right; exists i, t; tauto|right; exists s', i, t; tauto].
      + rewrite badd_biadd. pose proof (subpath_bbox_smallest s) as Ss. destruct Sb as (Pb & Ib & Lb). destruct Ss as (Pj & Ij & Lj).
        destruct (badd_smallest b (nsp_bbox s) Pb Pj) as (P & I & L). split; auto. split.
        * intros x [H|H]; apply I; [left; auto|right; auto].
        * intros c Hc. apply L. intros x [H|H]; [apply Lb; auto|apply Lj; auto]. }
  specialize (G np empty (fun _ => False)). eapply smallest_iff; [|apply G].
  - intros x. split; [intros [[]|H]; auto|auto].
  - split; [intros ? H; discriminate|]. split; [intros x []|]. intros c _ x H. now apply inside_none in H.
Qed.
Print Assumptions path_bbox_smallest.
Example path_bbox_ex : path_bbox two_subpaths = mkbbox (Some 0) 0 4 6.
Proof. unfold path_bbox, two_subpaths. cbn [fold_left nsp_bbox items two_lines item_bbox]. unfold biadd. simpl. repeat f_equal; mm; lra. Qed.

(** ** joining *)
Lemma path_atend_app np s : path_atend (np ++ [s]) = nsp_atend s.
Proof. unfold path_atend. now rewrite rev_unit. Qed.
Lemma path_atend_cons s np : np <> [] -> path_atend (s :: np) = path_atend np.
Proof. intros N. destruct (exists_last N) as (l & x & ->). change (s :: l ++ [x]) with ((s :: l) ++ [x]). now rewrite !path_atend_app. Qed.
Lemma path_atend_app2 a b : b <> [] -> path_atend (a ++ b) = path_atend b.
Proof. intros N. destruct (exists_last N) as (l & x & ->). now rewrite app_assoc, !path_atend_app. Qed.
Lemma path_atbegin_app a b : a <> [] -> path_atbegin (a ++ b) = path_atbegin a.
Proof. destruct a; [congruence|reflexivity]. Qed.
(** C52: joined paths go from the begin of the first to the end of the second one, and only
    the two subpaths at the junction are merged. *)
Theorem path_join_ends : forall fuel e a b l1 l2 p q p' q' s o r, 0 < e -> l2 <> [] -> connected p l1 q -> connected p' l2 q' ->
  extend fuel (empty_nsp (Some e)) l1 = Ok s -> extend fuel (empty_nsp (Some e)) l2 = Ok o -> items s <> [] ->
  path_join fuel (a ++ [s]) (o :: b) = Ok r ->
  exists j, r = a ++ j :: b /\ nsp_atbegin j = nsp_atbegin s /\ nsp_atend j = nsp_atend o /\
    path_atbegin r = path_atbegin (a ++ [s]) /\ path_atend r = path_atend (o :: b).
Proof.
  intros fuel e a b l1 l2 p q p' q' s o r He N C1 C2 X1 X2 Is J. unfold path_join in J. rewrite rev_unit in J.
  destruct (join fuel s o) as [j| |] eqn:E; try discriminate. simpl in J. injection J as <-. rewrite removelast_last. exists j. split; auto.
  destruct (join_ends fuel e l1 l2 p q p' q' s o He N C1 C2 X1 X2 Is) as [_ H]. destruct (H j E) as (B & D & _).
  assert (N1 : l1 <> []). { intros ->. injection X1 as <-. now apply Is. }
  destruct (subpath_connected fuel e l1 p q s N1 C1 X1) as (B1 & _). destruct (subpath_connected fuel e l2 p' q' o N C2 X2) as (_ & D2 & _).
  rewrite B, B1, D, D2. split; auto. split; auto. split.
  - destruct a as [|x a]; simpl; congruence.
  - rewrite path_atend_app2 by discriminate. destruct b as [|y b].
    + change [j] with ([] ++ [j]). change [o] with ([] ++ [o]). rewrite !path_atend_app. congruence.
    + rewrite (path_atend_cons j), (path_atend_cons o) by discriminate. reflexivity.
Qed.
Print Assumptions path_join_ends.
Example path_join_ex : path_join 1 [mknsp two_lines false (Some 1) None; mknsp [Line (0, 0) (4, 0)] false (Some 1) None]
    [mknsp [Line (4, 3) (9, 3)] false (Some 1) None; mknsp two_lines false (Some 1) None] =
  Ok [mknsp two_lines false (Some 1) None; mknsp [Line (0, 0) (4, 0); Line (4, 0) (4, 3); Line (4, 3) (9, 3)] false (Some 1) None; mknsp two_lines false (Some 1) None].
Proof. unfold path_join. cbn [rev app]. rewrite join_ex. reflexivity. Qed.
