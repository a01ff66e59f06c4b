(** Properties of subpaths. *)
From Coq Require Import Reals ZArith List Lra Lia Bool Arith.
From Verif Require Import PyDict TrafoModel BboxModel BboxSpec BboxProps RootsModel RootsProofs RootsProps CurveModel CurveSpec CurveProofs CurveProofs2
  CurveProofs3 CurveProofs4 CurveProps NormsubModel NormsubSpec NormsubProofs NormsubProofs2 NormsubProofs3 NormsubProofs4 NormsubProofs5 NormsubProofs6.
Import ListNotations.
Open Scope R_scope.

Local Notation pt := (R * R)%type.

(** ** tools for examples *)
Lemma hypot_is x y z : 0 <= z -> x * x + y * y = z * z -> hypot x y = z.
Proof. intros Hz E. unfold hypot. rewrite E. now apply sqrt_square. Qed.
Lemma dist_is p q z : 0 <= z -> (fst q - fst p) * (fst q - fst p) + (snd q - snd p) * (snd q - snd p) = z * z -> dist p q = z.
Proof. apply hypot_is. Qed.
Lemma leb_yes x y : x <= y -> leb x y = true.
Proof. intros H. now apply leb_true. Qed.
Lemma leb_no x y : y < x -> leb x y = false.
Proof. intros H. destruct (leb_spec x y); auto; lra. Qed.
Lemma ltb_yes x y : x < y -> ltb x y = true.
Proof. intros H. destruct (ltb_spec x y); auto; lra. Qed.
Lemma ltb_no x y : y <= x -> ltb x y = false.
Proof. intros H. destruct (ltb_spec x y); auto; lra. Qed.
Lemma gap_is p q z : 0 <= z -> (fst p - fst q) * (fst p - fst q) + (snd p - snd q) * (snd p - snd q) = z * z -> gap p q = z.
Proof. apply hypot_is. Qed.

Lemma append_line f e s p q : 0 < e -> epsilon s = Some e -> closed s = false -> (nsp_atend s = None \/ nsp_atend s = Some p) ->
  append (S f) s (Line p q) =
    let p0 := match skipped s with Some l => atbegin_pt l | None => p end in
    Ok (if leb e (dist p0 q) then push (with_skipped s None) (Line p0 q) else with_skipped s (Some (Line p0 q))).
Proof.
  intros He Es Hc E. cbn [append]. rewrite Es. assert (M : mismatch e s (Line p q) = false).
  { unfold mismatch, nsp_atend in *. destruct (skipped s) as [l|]; [|destruct (lastitem (items s)) as [l|]; auto]; cbn [option_map] in E; (destruct E as [E|E]; [discriminate|]);
    injection E as ->; cbn [atbegin_pt]; rewrite gap_self, ltb_yes by lra; auto. }
  rewrite M, Hc. destruct (skipped s); cbn [modifiedbegin_pt]; destruct (leb _ _); auto.
Qed.
Ltac lines_go := cbn [bind extend_with push with_skipped items skipped closed epsilon app empty_nsp]; rewrite ?(append_line _ 1) by (simpl; auto; lra);
  cbn [skipped empty_nsp push with_skipped items closed epsilon app atbegin_pt].

Lemma extend_nonempty fuel l s s' : extend fuel s l = Ok s' -> l <> [] -> skipped s' = None -> items s' <> [].
Proof. intros X N. destruct (extend_last (append fuel) l s s' X N) as (s0 & i & A). exact (append_progress _ _ _ _ A). Qed.
Lemma leads_ends e s b p : leads e s b p -> (skipped s = None -> items s <> []) -> nsp_atbegin s = Some b /\ nsp_atend s = Some p.
Proof.
  intros (q & C & K) N. unfold nsp_atbegin, nsp_atend. destruct (skipped s) as [l|]; simpl in K.
  - destruct K as (p0 & p1 & -> & -> & -> & _). simpl. destruct (items s) as [|i its]; simpl in *; [now subst|]. destruct C as [-> _]. auto.
  - subst q. specialize (N eq_refl). split.
    + destruct (items s); [congruence|]. destruct C as [-> _]. auto.
    + destruct (lastitem (items s)) as [i|] eqn:L; [|apply lastitem_none in L; congruence].
      apply lastitem_some in L. rewrite L in C. apply chained_app in C as (m & _ & C). apply chained_one in C as [_ <-]. auto.
Qed.
Lemma leads_empty e p : leads e (empty_nsp (Some e)) p p.
Proof. exists p. split; reflexivity. Qed.
Lemma leads_iff e s b p : leads e s b p <-> exists m, connected b (items s) m /\
  match skipped s with None => m = p | Some k => (exists x y, k = Line x y) /\ at_pt k 0 = m /\ at_pt k 1 = p /\ distance m p < e end.
Proof.
  unfold leads, skip_ok. split; intros (q & C & K); exists q; (split; [now apply chained_connected|]); destruct (skipped s) as [k|]; auto.
  - destruct K as (p0 & p1 & -> & -> & -> & D). destruct (begin_at (Line q p)) as [-> ->]. rewrite distance_dist. simpl. split; [exists q, p; auto|auto].
  - destruct K as ((x & y & ->) & <- & <- & D). destruct (begin_at (Line x y)) as [E1 E2]. rewrite E1, E2 in *. simpl in *. rewrite distance_dist in D. exists x, y. auto.
Qed.

(** ** appending *)
(** C52: after appending contiguous items the subpath begins where the first and ends where
    the last one did.  Its items are contiguous, and together with the line shorter than
    epsilon which may have been skipped they lead to the end. *)
Theorem subpath_connected : forall fuel e l p q s, l <> [] -> connected p l q ->
  extend fuel (empty_nsp (Some e)) l = Ok s ->
  nsp_atbegin s = Some p /\ nsp_atend s = Some q /\ closed s = false /\
  exists m, connected p (items s) m /\
    match skipped s with None => m = q | Some k => (exists x y, k = Line x y) /\ at_pt k 0 = m /\ at_pt k 1 = q /\ distance m q < e end.
Proof.
  intros fuel e l p q s N C X. apply chained_connected in C.
  destruct (extend_leads e fuel l (empty_nsp (Some e)) p p q s eq_refl eq_refl (leads_empty e p) C X) as (L & _ & Hc).
  destruct (leads_ends e s p q L (extend_nonempty _ _ _ _ X N)) as [B E]. split; auto. split; auto. split; auto. now apply leads_iff.
Qed.
Print Assumptions subpath_connected.

(** C52: appending contiguous items never raises an exception; for lines the result is
    there without any recursion. *)
Theorem contiguous_items_accepted : forall e l p q, 0 < e -> connected p l q ->
  (forall fuel x, extend fuel (empty_nsp (Some e)) l <> Exn x) /\
  ((forall i, In i l -> exists a b, i = Line a b) -> exists s, extend 1 (empty_nsp (Some e)) l = Ok s).
Proof.
  intros e l p q He C. apply chained_connected in C.
  assert (G : forall fuel x l s b p, epsilon s = Some e -> closed s = false -> leads e s b p -> chained p l q -> extend fuel s l <> Exn x).
  { intros fuel x. clear l p C. induction l as [|i l IH]; unfold extend; cbn [extend_with]; [discriminate|]. intros s b p Es Hc L [C1 C2].
    destruct (append fuel s i) as [s1| |] eqn:A; cbn [bind]; [|exfalso; exact (append_no_exn e He fuel s i b p _ Es Hc L C1 A)|discriminate].
    destruct (append_leads e fuel s i b p s1 Es L (fun _ => C1) A) as (L1 & E1 & H1). exact (IH s1 b _ E1 H1 L1 C2). }
  split; [intros fuel x; exact (G fuel x l (empty_nsp (Some e)) p p eq_refl eq_refl (leads_empty e p) C)|].
  intros Ln. assert (D : forall l s, (forall i, In i l -> exists a b, i = Line a b) -> extend 1 s l <> Deep).
  { clear. induction l as [|i l IH]; intros s Ln; unfold extend; cbn [extend_with]; [discriminate|].
    destruct (append 1 s i) as [s1| |] eqn:A; cbn [bind]; [|discriminate|].
    - apply IH. intros; apply Ln; now right.
    - exfalso. destruct (Ln i (or_introl eq_refl)) as (a & b & ->). revert A. cbn [append]. destruct (epsilon s); [|discriminate].
      destruct (mismatch _ _ _); [discriminate|]. destruct (closed s); [discriminate|]. destruct (skipped s); cbn [modifiedbegin_pt]; destruct (leb _ _); discriminate. }
  destruct (extend 1 (empty_nsp (Some e)) l) as [s| |] eqn:X; [eauto| |].
  - exfalso. exact (G 1%nat _ l (empty_nsp (Some e)) p p eq_refl eq_refl (leads_empty e p) C X).
  - exfalso. exact (D l _ Ln X).
Qed.
Print Assumptions contiguous_items_accepted.

(** lines of lengths 5, 1/2, 1/4 and 5 with epsilon 1: the two short ones are joined to
    the following line *)
Example short_lines_ex :
  extend 1 (empty_nsp (Some 1)) [Line (0, 0) (3, 4); Line (3, 4) (3, 9 / 2); Line (3, 9 / 2) (3, 19 / 4); Line (3, 19 / 4) (3, 9)] =
    Ok (mknsp [Line (0, 0) (3, 4); Line (3, 4) (3, 9)] false (Some 1) None).
Proof.
  unfold extend. cbn [extend_with]. lines_go. 
  rewrite (dist_is (0, 0) (3, 4) 5) by (simpl; lra). rewrite leb_yes by lra. lines_go.
  rewrite (dist_is (3, 4) (3, 9 / 2) (1 / 2)) by (simpl; lra). rewrite leb_no by lra. lines_go.
  rewrite (dist_is (3, 4) (3, 19 / 4) (3 / 4)) by (simpl; lra). rewrite leb_no by lra. lines_go.
  rewrite (dist_is (3, 4) (3, 9) 5) by (simpl; lra). rewrite leb_yes by lra. reflexivity.
Qed.
Example subpath_connected_ex : exists s, extend 1 (empty_nsp (Some 1)) [Line (0, 0) (3, 4); Line (3, 4) (3, 9 / 2)] = Ok s /\
  nsp_atbegin s = Some (0, 0) /\ nsp_atend s = Some (3, 9 / 2).
Proof.
  assert (C : connected (0, 0) [Line (0, 0) (3, 4); Line (3, 4) (3, 9 / 2)] (3, 9 / 2)) by (apply chained_connected; simpl; auto).
  destruct (proj2 (contiguous_items_accepted 1 _ _ _ ltac:(lra) C)) as [s X].
  - intros i [<-|[<-|[]]]; eauto.
  - exists s. split; auto. assert (N : [Line (0, 0) (3, 4); Line (3, 4) (3, 9 / 2)] <> []) by discriminate.
    destruct (subpath_connected 1 1 _ (0, 0) (3, 9 / 2) s N C X) as (H1 & H2 & _); auto.
Qed.

(** C52: the velocity of a stored item and thus its arc length is not below epsilon, unless
    it is a curve for which the double zero of the derivative of its squared velocity makes
    realpolyroots fail, so this part of C52 is partial.  No contiguity is needed. *)
Theorem stored_items_long_partial : forall fuel e l c s, 0 < e -> make fuel l c (Some e) = Ok s ->
  (forall p q, In (Line p q) (items s) -> e <= distance p q) /\
  forall i, In i (items s) -> (speed_at_least e i /\ forall L, is_arc_length (at_pt i) 0 1 L -> e <= L) \/ degenerate i.
Proof.
  intros fuel e l c s He M. unfold make in M. destruct (extend fuel (empty_nsp (Some e)) l) as [s0| |] eqn:X; cbn [bind] in M; try discriminate.
  destruct (extend_good e fuel l (empty_nsp (Some e)) s0 He eq_refl (Forall_nil _) X) as [E0 F0].
  assert (F : Forall (good e) (items s)).
  { destruct c; [|now injection M as <-]. unfold close in M. destruct (closed s0); [discriminate|]. destruct (lastitem (items s0)); [|discriminate].
    destruct (items s0) as [|i0 its] eqn:I0; [discriminate|]. rewrite <- I0 in *. destruct (append fuel s0 _) as [s1| |] eqn:A; cbn [bind] in M; try discriminate.
    destruct (append_good e fuel He _ _ _ (conj E0 F0) A) as [E1 F1]. clear -He M E1 F1.
    destruct (flush fuel s1) as [s2| |] eqn:Fl; cbn [bind] in M; try discriminate. injection M as <-. cbn [items].
    revert s1 E1 F1 Fl. assert (G : forall n s1, epsilon s1 = Some e -> Forall (good e) (items s1) -> flush n s1 = Ok s2 -> Forall (good e) (items s2)).
    { induction n as [|n IH]; simpl; intros s1 E1 F1; destruct (skipped s1) as [k|]; try discriminate; try (intros [= <-]; auto).
      destruct (lastitem (items s1)) as [i|] eqn:Li; [|discriminate]. destruct (append n _ _) as [s3| |] eqn:A; cbn [bind]; try discriminate.
      apply lastitem_some in Li. rewrite Li in F1. apply Forall_app in F1 as [F1 _].
      apply (append_good e n He) in A as [E3 F3]; [|split; auto]. now apply IH. }
    intros s1 E1 F1 Fl. exact (G fuel s1 E1 F1 Fl). }
  rewrite Forall_forall in F. split.
  - intros p q I. destruct (F _ I) as [G|[]]. rewrite distance_dist. exact G.
  - intros i I. destruct (F _ I) as [G|G].
    + left. split; [apply fast_speed; [lra|auto]|]. intros L HL. exact (fast_length e i L G HL).
    + right. destruct i as [|p0 p1 p2 p3]; [destruct G|]. now apply deg_degenerate.
Qed.
Print Assumptions stored_items_long_partial.

(** C52: such a curve, of length less than epsilon, is stored. *)
Definition bad_curve : item := Curve (0, 0) (-6800, 0) (-10710, 2890) (-6817, 8670).
Lemma chain_cat p0 p1 p2 p3 l : forall t, chain (at_pt (Curve p0 p1 p2 p3)) t l = chain (cat (p0, p1, p2, p3)) t l.
Proof. induction l as [|u l IH]; intros t; auto. cbn [chain]. now rewrite !at_pt_cat, IH. Qed.
Lemma bad_extrema : extrema (0, 0) (-6800, 0) (-10710, 2890) (-6817, 8670) = [- (30 / 17); 0].
Proof.
  unfold extrema, der_coefs. cbn [fst snd].
  match goal with |- match realpolyroots ?l with _ => _ end = _ => replace l with
    [96550276; 96550276 * (30 / 17); 96550276 * 0; 96550276 * - (4000 / 4913)] by (repeat (f_equal; try lra)) end.
  rewrite roots_lead by lra. simpl map. cbv iota.
  replace (1 / 96550276 * (96550276 * (30 / 17))) with (30 / 17) by lra. replace (1 / 96550276 * (96550276 * 0)) with 0 by lra.
  replace (1 / 96550276 * (96550276 * - (4000 / 4913))) with (- (4000 / 4913)) by lra.
  rewrite (cubic_bad_wrong _ _ _ (- (20 / 17)) (10 / 17)); [|lra|intros x; unfold cub; field].
  f_equal; [lra|]. f_equal. lra.
Qed.
Theorem short_item_refuted : append 1 (empty_nsp (Some 20400)) bad_curve = Ok (mknsp [bad_curve] false (Some 20400) None) /\
  forall L, is_arc_length (at_pt bad_curve) 0 1 L -> L < 20400.
Proof.
  assert (D1 : dist (0, 0) (-6800, 0) = 6800) by (apply dist_is; simpl; lra).
  assert (D2 : dist (-6817, 8670) (-10710, 2890) * 3 >= 20400).
  { assert (H : 6800 <= dist (-6817, 8670) (-10710, 2890)) by (apply hypot_ge; simpl; lra). lra. }
  split.
  - unfold bad_curve. cbn [append epsilon empty_nsp mismatch skipped items lastitem rev closed].
    assert (S : substantial 20400 (0, 0) (-6800, 0) (-10710, 2890) (-6817, 8670) = true).
    { unfold substantial. rewrite D1, (leb_yes 20400 (6800 * 3)) by lra. rewrite (leb_yes 20400 (dist (-6817, 8670) (-10710, 2890) * 3)) by lra.
      rewrite !orb_true_l. apply orb_true_r. }
    rewrite S. unfold shift_first, shift_second. rewrite D1, ltb_no by lra. rewrite ltb_no by lra.
    unfold splitpoints. rewrite bad_extrema. cbn [filter].
    rewrite (ltb_no 0 (- (30 / 17))) by lra. rewrite (ltb_no 0 0) by lra. reflexivity.
  - intros L [_ Least]. apply Rle_lt_trans with (polygon ((0, 0), (-6800, 0), (-10710, 2890), (-6817, 8670))).
    + apply Least. intros x (l & I & ->). refine (Rle_trans _ _ _ _ (chain_le_polygon _ l I)). right. unfold bad_curve. apply chain_cat.
    + unfold polygon. rewrite D1.
      assert (H1 : dist (-6800, 0) (-10710, 2890) <= 4900).
      { unfold dist, hypot. rewrite <- (sqrt_square 4900) by lra. apply sqrt_le_1_alt. simpl. lra. }
      assert (H2 : dist (-10710, 2890) (-6817, 8670) <= 7000).
      { unfold dist, hypot. rewrite <- (sqrt_square 7000) by lra. apply sqrt_le_1_alt. simpl. lra. }
      lra.
Qed.
Print Assumptions short_item_refuted.

(** a line and a curve with velocity 3 are both stored *)
Example stored_items_ex : let s := mknsp [Line (0, 0) (3, 4); Curve (3, 4) (4, 4) (5, 4) (6, 4)] false (Some 1) None in
  make 1 [Line (0, 0) (3, 4); Curve (3, 4) (4, 4) (5, 4) (6, 4)] false (Some 1) = Ok s /\
  forall L, is_arc_length (at_pt (Curve (3, 4) (4, 4) (5, 4) (6, 4))) 0 1 L -> 1 <= L.
Proof.
  assert (F : fast 1 (Curve (3, 4) (4, 4) (5, 4) (6, 4))).
  { intros t _. unfold sq. simpl. match goal with |- _ <= ?x => replace x with 9 by ring end. lra. }
  intros s. split.
  - unfold make. rewrite (extend_fast 1 0 [Line (0, 0) (3, 4); Curve (3, 4) (4, 4) (5, 4) (6, 4)] ltac:(lra) (empty_nsp (Some 1)) (0, 0) (0, 0) (6, 4)); auto.
    + simpl. auto.
    + simpl. auto.
    + constructor; [|constructor; auto]. simpl. rewrite (dist_is (0, 0) (3, 4) 5) by (simpl; lra). lra.
  - intros L. now apply fast_length.
Qed.

(** C52: closing gives contiguous items leading back to the begin, without skipped line. *)
Theorem closed_subpath : forall fuel e l p q s s', 0 < e -> connected p l q -> extend fuel (empty_nsp (Some e)) l = Ok s ->
  close fuel s = Ok s' ->
  connected p (items s') p /\ items s' <> [] /\ skipped s' = None /\ closed s' = true /\ nsp_atbegin s' = Some p /\ nsp_atend s' = Some p.
Proof.
  intros fuel e l p q s s' He C X K. apply chained_connected in C.
  destruct (extend_leads e fuel l (empty_nsp (Some e)) p p q s eq_refl eq_refl (leads_empty e p) C X) as (L & E & _).
  destruct (extend_good e fuel l (empty_nsp (Some e)) s He eq_refl (Forall_nil _) X) as [_ F].
  destruct (close_leads e fuel s p q s' He E L F K) as (H1 & H2 & _ & _ & H5 & H6).
  assert (L' : leads e s' p p) by (exists p; rewrite H5; split; [auto|reflexivity]).
  destruct (leads_ends e s' p p L' (fun _ => H2)) as [B E']. rewrite <- chained_connected. auto 10.
Qed.
Print Assumptions closed_subpath.
(** two sides of a triangle are closed by the third *)
Example closed_subpath_ex : let l := [Line (0, 0) (4, 0); Line (4, 0) (4, 3)] in
  make 2 l true (Some 1) = Ok (mknsp (l ++ [Line (4, 3) (0, 0)]) true (Some 1) None).
Proof.
  intros l. unfold make, extend, l. cbn [extend_with]. lines_go. rewrite (dist_is (0, 0) (4, 0) 4) by (simpl; lra). rewrite leb_yes by lra. lines_go.
  rewrite (dist_is (4, 0) (4, 3) 3) by (simpl; lra). rewrite leb_yes by lra. cbn [bind]. unfold close. lines_go.
  cbn [lastitem rev app atend_pt]. lines_go.
  rewrite (dist_is (4, 3) (0, 0) 5) by (simpl; lra). rewrite leb_yes by lra. reflexivity.
Qed.

(** C52: items which are not contiguous are accepted as long as the gap is smaller than
    epsilon, and are stored with this gap. *)
Theorem gap_refuted : exists s, extend 1 (empty_nsp (Some 1)) [Line (0, 0) (5, 0); Line (11 / 2, 0) (9, 0)] = Ok s /\
  items s = [Line (0, 0) (5, 0); Line (11 / 2, 0) (9, 0)] /\ ~ exists p q, connected p (items s) q.
Proof.
  exists (mknsp [Line (0, 0) (5, 0); Line (11 / 2, 0) (9, 0)] false (Some 1) None). split; [|split; auto].
  - unfold extend. cbn [extend_with]. lines_go. rewrite (dist_is (0, 0) (5, 0) 5) by (simpl; lra). rewrite leb_yes by lra. cbn [bind].
    cbn [append epsilon push with_skipped mismatch skipped items lastitem rev app closed empty_nsp atend_pt atbegin_pt].
    unfold mismatch. cbn [skipped items lastitem rev app atend_pt atbegin_pt push with_skipped empty_nsp].
    rewrite (gap_is (5, 0) (11 / 2, 0) (1 / 2)) by (simpl; lra). rewrite ltb_yes by lra. cbn [negb].
    rewrite (dist_is (11 / 2, 0) (9, 0) (7 / 2)) by (simpl; lra). rewrite leb_yes by lra. reflexivity.
  - intros (p & q & C). apply chained_connected in C. simpl in C. destruct C as (_ & C & _). apply (f_equal fst) in C. simpl in C. lra.
Qed.
Print Assumptions gap_refuted.
(** Without epsilon even closed subpaths can be extended, though according to the
    documentation appending to a closed normsubpath fails. *)
Theorem append_closed_refuted : forall i s, closed s = true -> epsilon s = None -> append 1 s i = Ok (mknsp (items s ++ [i]) true None (skipped s)).
Proof. intros i s C E. simpl. rewrite E. unfold push. now rewrite C, E. Qed.
Print Assumptions append_closed_refuted.
Example append_closed_none_ex : append 1 (mknsp [Line (0, 0) (4, 0)] true None None) (Line (9, 9) (1, 7)) =
  Ok (mknsp [Line (0, 0) (4, 0); Line (9, 9) (1, 7)] true None None).
Proof. reflexivity. Qed.
(** with epsilon appending to a closed subpath fails *)
Theorem append_closed : forall fuel e s i r, closed s = true -> epsilon s = Some e -> append fuel s i <> Ok r.
Proof.
  intros [|f] e s i r C E; simpl; [discriminate|]. rewrite E, C. destruct (mismatch e s i); discriminate.
Qed.
Print Assumptions append_closed.
Example append_closed_ex : append 5 (mknsp [Line (0, 0) (4, 0); Line (4, 0) (0, 0)] true (Some 1) None) (Line (0, 0) (1, 7)) = Exn Normpath.
Proof.
  cbn [append epsilon closed]. unfold mismatch. cbn [skipped items lastitem rev app atend_pt atbegin_pt].
  rewrite (gap_is (0, 0) (0, 0) 0) by (simpl; lra). rewrite ltb_yes by lra. reflexivity.
Qed.

(** ** joining *)
(** C52: a subpath joined to one with items is connected by a line and goes from the begin
    of the first to the end of the second. *)
Theorem join_ends : forall fuel e l1 l2 p q p' q' s o, 0 < e -> l2 <> [] -> connected p l1 q -> connected p' l2 q' ->
  extend fuel (empty_nsp (Some e)) l1 = Ok s -> extend fuel (empty_nsp (Some e)) l2 = Ok o -> items s <> [] ->
  (forall x, join fuel s o <> Exn x) /\
  forall r, join fuel s o = Ok r -> nsp_atbegin r = Some p /\ nsp_atend r = Some q' /\
    exists m, connected p (items r) m /\
      match skipped r with None => m = q' | Some k => (exists x y, k = Line x y) /\ at_pt k 0 = m /\ at_pt k 1 = q' /\ distance m q' < e end.
Proof.
  intros fuel e l1 l2 p q p' q' s o He N C1 C2 X1 X2 Is. apply chained_connected in C1, C2.
  destruct (extend_leads e fuel l1 (empty_nsp (Some e)) p p q s eq_refl eq_refl (leads_empty e p) C1 X1) as (L1 & E1 & H1).
  destruct (extend_leads e fuel l2 (empty_nsp (Some e)) p' p' q' o eq_refl eq_refl (leads_empty e p') C2 X2) as (L2 & E2 & H2).
  destruct (leads_ends e s p q L1 (fun _ => Is)) as [_ Es]. pose proof (extend_nonempty _ _ _ _ X2 N) as No.
  destruct (leads_ends e o p' q' L2 No) as [Bo _].
  unfold join. rewrite H2. destruct (items s) as [|i0 its] eqn:I0; [congruence|]. rewrite Es, Bo.
  destruct (append fuel s (Line q p')) as [s1| |] eqn:A; cbn [bind].
  2:{ exfalso. exact (append_no_exn e He fuel s (Line q p') p q _ E1 H1 L1 eq_refl A). }
  2:{ split; discriminate. }
  destruct (append_leads e fuel s (Line q p') p q s1 E1 L1 (fun _ => eq_refl) A) as (L3 & E3 & H3). simpl in L3.
  destruct L2 as (m & Cm & Km).
  assert (G : forall l s b p q, epsilon s = Some e -> closed s = false -> leads e s b p -> chained p l q -> forall x, extend fuel s l <> Exn x).
  { clear -He. induction l as [|i l IH]; unfold extend; cbn [extend_with]; [discriminate|]. intros s b p q Es Hc L [K1 K2] x.
    destruct (append fuel s i) as [s1| |] eqn:A; cbn [bind]; [|exfalso; exact (append_no_exn e He fuel s i b p _ Es Hc L K1 A)|discriminate].
    destruct (append_leads e fuel s i b p s1 Es L (fun _ => K1) A) as (Q1 & Q2 & Q3). exact (IH s1 b _ q Q2 Q3 Q1 K2 x). }
  destruct (extend fuel s1 (items o)) as [s2| |] eqn:X; cbn [bind].
  2:{ exfalso. exact (G (items o) s1 p p' m E3 H3 L3 Cm _ X). }
  2:{ split; discriminate. }
  destruct (extend_leads e fuel (items o) s1 p p' m s2 E3 H3 L3 Cm X) as (L4 & E4 & H4).
  assert (P : forall r b q, leads e r b q -> (skipped r = None -> items r <> []) -> nsp_atbegin r = Some b /\ nsp_atend r = Some q /\
    exists m, connected b (items r) m /\
      match skipped r with None => m = q | Some k => (exists x y, k = Line x y) /\ at_pt k 0 = m /\ at_pt k 1 = q /\ distance m q < e end).
  { clear. intros r b q L Nr. destruct (leads_ends e r b q L Nr) as [? ?]. split; auto. split; auto. now apply leads_iff. }
  destruct (skipped o) as [k|] eqn:Ko.
  - simpl in Km. destruct Km as (x0 & y0 & -> & -> & -> & _). split.
    + intros x A2. exact (append_no_exn e He fuel s2 (Line m q') p m x E4 H4 L4 eq_refl A2).
    + intros r A2. destruct (append_leads e fuel s2 (Line m q') p m r E4 L4 (fun _ => eq_refl) A2) as (L5 & _ & _). apply P; [exact L5|].
      exact (append_progress _ _ _ _ A2).
  - simpl in Km. subst m. split; [discriminate|]. intros r [= <-]. apply P; auto.
    apply (extend_nonempty _ _ _ _ X). auto.
Qed.
Print Assumptions join_ends.
Example join_ex : join 1 (mknsp [Line (0, 0) (4, 0)] false (Some 1) None) (mknsp [Line (4, 3) (9, 3)] false (Some 1) None) =
  Ok (mknsp [Line (0, 0) (4, 0); Line (4, 0) (4, 3); Line (4, 3) (9, 3)] false (Some 1) None).
Proof.
  unfold join. cbn [closed items nsp_atend nsp_atbegin skipped lastitem rev app option_map atend_pt atbegin_pt]. lines_go.
  rewrite (dist_is (4, 0) (4, 3) 3) by (simpl; lra). rewrite leb_yes by lra. unfold extend. lines_go.
  rewrite (dist_is (4, 3) (9, 3) 5) by (simpl; lra). rewrite leb_yes by lra. reflexivity.
Qed.
(** C52: joining to a subpath which only has a skipped line adds no connecting line: it
    fails, although both subpaths are open and not empty. *)
Theorem join_skipped_refuted : exists s o, extend 1 (empty_nsp (Some 1)) [Line (0, 0) (1 / 2, 0)] = Ok s /\
  extend 1 (empty_nsp (Some 1)) [Line (4, 0) (9, 0)] = Ok o /\ nsp_atend s = Some (1 / 2, 0) /\ join 1 s o = Exn Assertion.
Proof.
  exists (mknsp [] false (Some 1) (Some (Line (0, 0) (1 / 2, 0)))), (mknsp [Line (4, 0) (9, 0)] false (Some 1) None).
  split; [|split; [|split]].
  - unfold extend. cbn [extend_with]. lines_go. rewrite (dist_is (0, 0) (1 / 2, 0) (1 / 2)) by (simpl; lra). rewrite leb_no by lra. reflexivity.
  - unfold extend. cbn [extend_with]. lines_go. rewrite (dist_is (4, 0) (9, 0) 5) by (simpl; lra). rewrite leb_yes by lra. reflexivity.
  - reflexivity.
  - unfold join, extend. cbn [closed items skipped bind extend_with append epsilon]. unfold mismatch. cbn [skipped items lastitem rev app atend_pt atbegin_pt].
    rewrite (gap_is (1 / 2, 0) (4, 0) (7 / 2)) by (simpl; lra). rewrite ltb_no by lra. reflexivity.
Qed.
Print Assumptions join_skipped_refuted.
