(** The normpath of a path and its cache (properties C57 and C86). *)
From Coq Require Import Reals Bool List Lra Lia.
From Verif Require Import TrafoModel BboxModel CurveModel CurveSpec CurveProofs CurveProofs2 ArcModel ArcSpec ArcProofs ArcProps NormsubModel NormsubSpec NormsubProofs NormsubProofs2 NormsubProofs3 NormsubProps NormpathModel PathModel PathSpec PathProps PathNormModel PathNormSpec PathNormProofs.
Import ListNotations.
Open Scope R_scope.

Local Notation pt := (R * R)%type.

(** * The cache *)
Definition consistent (fuel : nat) (p : pathobj) : Prop :=
  forall np, cache p = Some np -> convert fuel (default p) (pathitems p) = Ok np.
Lemma get_consistent fuel p : consistent fuel p ->
  fst (get_normpath fuel p) = convert fuel (default p) (pathitems p) /\
  pathitems (snd (get_normpath fuel p)) = pathitems p /\ default (snd (get_normpath fuel p)) = default p /\
  consistent fuel (snd (get_normpath fuel p)).
Proof.
  intros C. unfold get_normpath. destruct (cache p) as [np|] eqn:K.
  - simpl. rewrite (C _ K). auto.
  - destruct (convert fuel (default p) (pathitems p)) as [np|x|] eqn:E; simpl; try (repeat split; auto; fail).
    split; auto. split; auto. split; auto. intros np' [= <-]. auto.
Qed.
Lemma act_consistent fuel p a : consistent fuel p -> harmless a ->
  consistent fuel (act fuel p a) /\ default (act fuel p a) = default p /\
  pathitems (act fuel p a) = plain (convert fuel (default p)) fuel (pathitems p) a.
Proof.
  intros C H. destruct (get_consistent fuel p C) as (G1 & G2 & G3 & G4).
  destruct a; cbn [act plain]; try contradiction; try (repeat split; auto; intros ? [=]; fail); auto.
  destruct (get_normpath fuel p) as [r p'] eqn:E. simpl in G1, G2, G3, G4. rewrite <- G1. destruct r as [np|x|]; auto.
  destruct (path_join fuel np other); auto. simpl. repeat split; auto. intros ? [=].
Qed.
Lemma history_consistent fuel h : forall p, consistent fuel p -> Forall harmless h ->
  consistent fuel (history fuel p h) /\ default (history fuel p h) = default p /\
  pathitems (history fuel p h) = fold_left (plain (convert fuel (default p)) fuel) h (pathitems p).
Proof.
  induction h as [|a h IH]; intros p C H; [auto|]. inversion H as [|? ? H1 H2]; subst.
  destruct (act_consistent fuel p a C H1) as (A1 & A2 & A3). destruct (IH _ A1 H2) as (B1 & B2 & B3).
  simpl. rewrite <- A3, <- A2. unfold history in *. split; auto.
Qed.

(** After any history of actions, normpath() gives the normpath of a fresh path with the
    items it should have. *)
Theorem cache_transparent : forall fuel e l h, Forall harmless h ->
  fst (get_normpath fuel (history fuel (new_path e l) h)) = convert fuel e (fold_left (plain (convert fuel e) fuel) h l).
Proof.
  intros fuel e l h H. assert (C : consistent fuel (new_path e l)) by (intros np [=]).
  destruct (history_consistent fuel h _ C H) as (C' & D & P). destruct (get_consistent fuel _ C') as (G & _).
  rewrite G, D, P. reflexivity.
Qed.
Print Assumptions cache_transparent.
Lemma convert_line f e p q : 0 < e -> convert (S (S f)) e [Moveto p; Lineto q] =
  Ok [if leb e (dist p q) then mknsp [Line p q] false (Some e) None else mknsp [] false (Some e) (Some (Line p q))].
Proof.
  intros He. unfold convert. cbn [create_normpath createcontext]. unfold point_sub. rewrite (make_point e He f). cbn [bind].
  cbn [updates update_normpath update_simple current]. unfold add_item. change ([mknsp [] false (Some e) (Some (Line p p))]) with ([] ++ [mknsp [] false (Some e) (Some (Line p p))]) at 1.
  rewrite last_sub_app. remember (S f) as g. cbn [append epsilon closed skipped items with_skipped]. unfold mismatch. cbn [skipped atend_pt atbegin_pt].
  rewrite gap_self. destruct (ltb_spec 0 e); [|lra]. cbn [negb modifiedbegin_pt]. destruct (leb e (dist p q)); reflexivity.
Qed.

(** a path is extended after its normpath was asked for, joined, and extended again *)
Example cache_ex : exists np, fst (get_normpath 5 (history 5 (new_path 1 [Moveto (0, 0)]) [Query; Append (Lineto (10, 0)); Query])) = Ok np /\
  map items np = [[Line (0, 0) (10, 0)]] /\ Forall harmless [Query; Append (Lineto (10, 0)); Query].
Proof.
  rewrite cache_transparent by (repeat constructor). cbn [fold_left plain app]. rewrite convert_line by lra.
  rewrite (dist_is _ _ 10) by (simpl; lra). rewrite leb_yes by lra. eexists. split; [reflexivity|]. split; auto. repeat constructor.
Qed.

(** Changing the default epsilon does not change the normpaths already calculated. *)
Theorem cache_epsilon_refuted : exists e e' l np np', forall f,
  fst (get_normpath (S (S f)) (history (S (S f)) (new_path e l) [Query; SetEpsilon e'])) = Ok np /\
  convert (S (S f)) e' l = Ok np' /\ map items np <> map items np' /\ map items np' = [[]].
Proof.
  exists 1, 100, [Moveto (0, 0); Lineto (10, 0)]. eexists. eexists. intros f.
  assert (D : dist (0, 0) (10, 0) = 10) by (rewrite (dist_is _ _ 10); simpl; lra).
  assert (C1 := convert_line f 1 (0, 0) (10, 0) ltac:(lra)). assert (C2 := convert_line f 100 (0, 0) (10, 0) ltac:(lra)).
  rewrite D, leb_yes in C1 by lra. rewrite D, leb_no in C2 by lra. remember (S (S f)) as fuel.
  unfold history, new_path. cbn [fold_left act]. unfold get_normpath. cbn [cache default pathitems]. rewrite C1. cbn [snd cache default pathitems fst].
  split; [reflexivity|]. split; [exact C2|]. simpl. split; [intros E; discriminate E|reflexivity].
Qed.
Print Assumptions cache_epsilon_refuted.

(** The normpath obtained from a path is the cached object: modifying it changes what the
    path answers afterwards, without any item being added to it. *)
Theorem cache_alias_refuted : exists e l s np np', forall f,
  fst (get_normpath (S (S f)) (history (S (S f)) (new_path e l) [ModifyNormpath s])) = Ok np /\
  pathitems (history (S (S f)) (new_path e l) [ModifyNormpath s]) = l /\
  convert (S (S f)) e l = Ok np' /\ length np = 2%nat /\ length np' = 1%nat.
Proof.
  exists 1, [Moveto (0, 0); Lineto (10, 0)], (mknsp [Line (5, 5) (9, 9)] false (Some 1) None). eexists. eexists. intros f.
  assert (D : dist (0, 0) (10, 0) = 10) by (rewrite (dist_is _ _ 10); simpl; lra).
  assert (C1 := convert_line f 1 (0, 0) (10, 0) ltac:(lra)). rewrite D, leb_yes in C1 by lra. remember (S (S f)) as fuel.
  unfold history, new_path. cbn [fold_left act]. unfold get_normpath. cbn [cache default pathitems]. rewrite C1. cbn [cache default pathitems fst].
  split; [reflexivity|]. split; [reflexivity|]. split; [reflexivity|]. split; reflexivity.
Qed.
Print Assumptions cache_alias_refuted.

(** * The conversion *)

(** If what the path draws consists of lines and curves with at least the speed e, and each
    closepath comes after drawing something and before a move, then the normpath with
    epsilon e has exactly the subpaths drawn (and one without items for each mere move). *)
Theorem normpath_of_path : forall f e p l g, 0 < e -> forallb straight l = true -> calm Moves l = true ->
  obey_all (mkgstate [] NoPoint) (outputPS (Moveto p :: l)) = Some g -> Forall (regular e) (ended g) ->
  exists np, convert (S (S f)) e (Moveto p :: l) = Ok np /\ Forall2 (shows e) (ended g) np.
Proof.
  intros f e p l g He S C O F. apply (convert_regular e He f p l g S C O).
  eapply Forall_impl; [|exact F]. intros d D its I. specialize (D its I).
  apply (Forall_impl _ (fun i => proj2 (fast_speed e i (Rlt_le _ _ He))) D).
Qed.
Print Assumptions normpath_of_path.

Example normpath_of_path_ex :
  let l := [Rlineto (10, 0); Lineto (10, 10); Closepath; Moveto (50, 50); Rmoveto (-20, -20); Lineto (30, 40)] in
  forallb straight l = true /\ calm Moves l = true /\
  exists g, obey_all (mkgstate [] NoPoint) (outputPS (Moveto (0, 0) :: l)) = Some g /\ Forall (regular 5) (ended g) /\
    map (fun d => (shut d, length (segs d))) (ended g) = [(true, 2%nat); (false, 0%nat); (false, 1%nat)].
Proof.
  cbv zeta. split; [reflexivity|]. split; [reflexivity|]. eexists. split; [reflexivity|]. split; [|reflexivity].
  assert (L : forall p q z, 5 <= z -> (fst q - fst p) * (fst q - fst p) + (snd q - snd p) * (snd q - snd p) = z * z -> speed_at_least 5 (Line p q)).
  { intros p q z Z H. apply fast_speed; [lra|]. simpl. rewrite (dist_is p q z); lra. }
  repeat constructor.
  - intros its [[[=] _]|[[_ [E _]]|[_ [_ ->]]]]; [simpl in E; injection E; intros; lra|].
    assert (speed_at_least 5 (Line (10, 10) (0, 0))).
    { apply fast_speed; [lra|]. simpl. unfold dist, hypot. simpl. apply Rsqr_incr_0_var; [|apply sqrt_pos].
      rewrite Rsqr_sqrt by nra. unfold Rsqr. nra. }
    repeat constructor; cbn [seg_items seg_item end_of seg_end map last app]; auto; apply (L _ _ 10); simpl; lra.
  - intros its [[_ ->]|[[[=] _]|[[=] _]]]. constructor.
  - intros its [[_ ->]|[[[=] _]|[[=] _]]]. repeat constructor. apply (L _ _ 10); simpl; lra.
Qed.

(** Drawing after closepath is refused, although it draws another subpath in PostScript. *)
Theorem normpath_after_close_refuted : exists e l d, interpret (outputPS l) = Some d /\ length d = 2%nat /\
  (forall x, In x d -> regular e x) /\ forall f, convert (S (S f)) e l = Exn Normpath.
Proof.
  exists 1, [Moveto (0, 0); Lineto (10, 0); Closepath; Lineto (0, 10)]. eexists. split; [reflexivity|]. split; [reflexivity|].
  assert (He : 0 < 1) by lra.
  assert (L : forall p q, (fst q - fst p) * (fst q - fst p) + (snd q - snd p) * (snd q - snd p) = 10 * 10 -> fast 1 (Line p q)).
  { intros p q H. simpl. rewrite (dist_is p q 10); lra. }
  assert (L' : forall p q, fast 1 (Line p q) -> speed_at_least 1 (Line p q)) by (intros; apply fast_speed; auto; lra).
  split.
  - intros x [<-|[<-|[]]].
    + intros its [[[=] _]|[[_ [E _]]|[_ [_ ->]]]]; [unfold end_of in E; simpl in E; injection E; intros; lra|].
      repeat constructor; unfold end_of; simpl; apply L', L; simpl; lra.
    + intros its [[_ ->]|[[[=] _]|[[=] _]]]. repeat constructor. simpl. apply L', L; simpl; lra.
  - intros f. unfold convert. cbn [create_normpath createcontext]. unfold point_sub. rewrite (make_point 1 He f). cbn [bind].
    change (bind (updates (S (S f)) 1 ([] ++ [open_sub 1 (0, 0) []], mkcontext (end_of (0, 0) []) (0, 0))
              (map item_pathitem (seg_items (end_of (0, 0) []) [SegLine (10, 0)]) ++ [Closepath; Lineto (0, 10)])) (fun nc => Ok (fst nc)) = Exn Normpath).
    assert (FF : Forall (fast 1) (seg_items (0, 0) ([] ++ [SegLine (10, 0)]))) by (apply Forall_cons; [apply L; simpl; lra|apply Forall_nil]).
    rewrite updates_app, (add_segs f 1 He [] (0, 0) [SegLine (10, 0)] [] FF). cbn [bind updates update_normpath update_simple].
    rewrite last_sub_app. rewrite (close_line 1 He f _ (0, 0) (10, 0)); simpl; auto; [|discriminate|apply L; simpl; lra].
    cbn [bind update_simple]. unfold add_item, last_sub. cbn [rev app]. remember (S f) as g. cbn [append epsilon]. unfold mismatch. cbn [skipped lastitem items rev app atend_pt atbegin_pt current].
    simpl. rewrite gap_self. destruct (ltb_spec 0 1); [|lra]. reflexivity.
Qed.
Print Assumptions normpath_after_close_refuted.

(** * The way back *)

(** Converting a normpath to a path and back gives the same normpath, if its subpaths are
    clean: connected, with items of at least the speed e, and no line skipped at the end. *)
Theorem normpath_roundtrip : forall f e np, 0 < e -> Forall (clean e) np -> convert (S (S f)) e (np_pathitems np) = Ok np.
Proof. intros f e np He F. apply convert_back; auto. Qed.
Print Assumptions normpath_roundtrip.
Example normpath_roundtrip_ex :
  let np := [mknsp [Line (0, 0) (10, 0); Line (10, 0) (10, 10); Line (10, 10) (0, 10); Line (0, 10) (0, 0)] true (Some 1) None;
             mknsp [Line (20, 0) (30, 0)] false (Some 1) None] in
  Forall (clean 1) np /\ np_pathitems np = [Moveto (0, 0); Lineto (10, 0); Lineto (10, 10); Lineto (0, 10); Closepath; Moveto (20, 0); Lineto (30, 0)].
Proof.
  cbv zeta. split; [|reflexivity].
  assert (L : forall p q, (fst q - fst p) * (fst q - fst p) + (snd q - snd p) * (snd q - snd p) = 10 * 10 -> speed_at_least 1 (Line p q)).
  { intros p q H. apply fast_speed; [lra|]. simpl. rewrite (dist_is p q 10); lra. }
  repeat constructor; try discriminate; cbn [items]; try (apply L; simpl; lra).
  - exists (0, 0), (0, 0). split; [|auto]. apply chained_connected. simpl. auto.
  - exists (20, 0), (30, 0). split; [|discriminate]. apply chained_connected. simpl. auto.
Qed.

(** A line skipped at the end, and a subpath with nothing but a skipped line, are lost. *)
Theorem roundtrip_skipped_refuted : exists e l np np', forall f,
  convert (S (S f)) e l = Ok np /\ convert (S (S f)) e (np_pathitems np) = Ok np' /\
  path_atend np <> path_atend np' /\ length np = 2%nat /\ length np' = 1%nat.
Proof.
  exists 1, [Moveto (0, 0); Lineto (10, 0); Moveto (50, 50)]. eexists. eexists. intros f. assert (He : 0 < 1) by lra.
  assert (D : dist (0, 0) (10, 0) = 10) by (rewrite (dist_is _ _ 10); simpl; lra).
  assert (M := make_point 1 He f (50, 50)).
  assert (C := convert_line f 1 (0, 0) (10, 0) He). rewrite D, leb_yes in C by lra.
  assert (C' : convert (S (S f)) 1 [Moveto (0, 0); Lineto (10, 0); Moveto (50, 50)] =
               Ok [mknsp [Line (0, 0) (10, 0)] false (Some 1) None; mknsp [] false (Some 1) (Some (Line (50, 50) (50, 50)))]).
  { unfold convert in *. cbn [create_normpath createcontext] in *. unfold point_sub in *. rewrite (make_point 1 He f (0, 0)) in C |- *. cbn [bind] in C |- *.
    change [Lineto (10, 0); Moveto (50, 50)] with ([Lineto (10, 0)] ++ [Moveto (50, 50)]). rewrite updates_app.
    destruct (updates (S (S f)) 1 _ [Lineto (10, 0)]) as [[np c]| |]; try discriminate C. cbn [bind fst] in C. injection C as ->.
    cbn [bind updates update_normpath update_simple]. unfold add_move. change (last_epsilon [mknsp [Line (0, 0) (10, 0)] false (Some 1) None] 1) with 1.
    unfold point_sub. rewrite M. reflexivity. }
  split; [exact C'|]. split; [exact C|]. simpl. split; [|auto]. intros E. injection E. intros; lra.
Qed.
Print Assumptions roundtrip_skipped_refuted.

(** * Arcs *)
Lemma chained_points (P : nat -> pt) l : forall k, (forall i it, nth_error l i = Some it -> atbegin_pt it = P (k + i)%nat /\ atend_pt it = P (S (k + i))) ->
  chained (P k) l (P (k + length l)%nat).
Proof.
  induction l as [|it l IH]; intros k H; simpl.
  - now rewrite Nat.add_0_r.
  - destruct (H 0%nat it eq_refl) as [H1 H2]. rewrite Nat.add_0_r in H1, H2. split; auto. rewrite H2.
    replace (k + S (length l))%nat with (S k + length l)%nat by lia. apply IH. intros i j E. specialize (H (S i) j E).
    replace (k + S i)%nat with (S k + i)%nat in H by lia. auto.
Qed.
Definition somes (l : list (option item)) : list item := flat_map (fun o => match o with Some i => [i] | None => [] end) l.
Lemma somes_nth l : (forall i o, nth_error l i = Some o -> o <> None) -> length (somes l) = length l /\
  forall i it, nth_error (somes l) i = Some it -> nth_error l i = Some (Some it).
Proof.
  induction l as [|o l IH]; intros H; [split; auto; intros [|i] it; discriminate|].
  destruct (IH (fun i => H (S i))) as [L N]. destruct o as [j|]; [|destruct (H 0%nat None eq_refl eq_refl)].
  cbn [somes flat_map app length]. change (flat_map _ l) with (somes l). split; [now rewrite L|]. intros [|i] it E; simpl in *; [now injection E as ->|auto].
Qed.
Lemma arc_items_chained x y r a1 a2 : chained (arcpoint x y r a1) (arc_items x y r a1 a2) (arcpoint x y r a2) /\ Forall is_curve (arc_items x y r a1 a2).
Proof.
  assert (P0 : forall a, arcpoint x y r a = circle_point x y r (rad a)) by (intros a; unfold arcpoint, circle_point; now rewrite rad_radians).
  rewrite !P0. destruct (Req_EM_T r 0) as [->|NR].
  - assert (E : arc_items x y 0 a1 a2 = []).
    { unfold arc_items, arctobezierpath. cbv zeta. rewrite (proj2 (eqb_true 0 0) eq_refl). reflexivity. }
    rewrite E. split; [|constructor]. simpl. unfold circle_point. f_equal; ring.
  - destruct (arc_curves x y r a1 a2 45 NR ltac:(lra)) as (e & E1 & E2 & E3 & E4 & E5).
    change (arc_items x y r a1 a2) with (somes (arctobezierpath x y r a1 a2 45)). set (l := arctobezierpath x y r a1 a2 45) in *.
    destruct (somes_nth l) as [LL NN].
    { intros i o H. destruct (E5 i o H) as (p1 & p2 & ->). discriminate. }
    assert (EE : circle_point x y r e = circle_point x y r (rad a2)).
    { destruct (Rle_lt_dec (rad a2) (rad a1 + 2 * PI)) as [H|H].
      - destruct (E1 H) as [(_ & ->)|(_ & (k & ->) & _)]; auto. unfold circle_point. now rewrite cos_turn, sin_turn.
      - destruct (E2 H) as ((k & ->) & _). unfold circle_point. replace (rad a2 - IZR k * (2 * PI)) with (rad a2 + IZR (- k) * (2 * PI)) by (rewrite opp_IZR; ring).
        now rewrite cos_turn, sin_turn. }
    split.
    + assert (C := chained_points (fun i => circle_point x y r (rad a1 + INR i * ((e - rad a1) / INR (length l)))) (somes l) 0).
      rewrite LL in C. cbn [Nat.add] in C.
      replace (rad a1 + INR 0 * ((e - rad a1) / INR (length l))) with (rad a1) in C by (simpl; ring).
      replace (rad a1 + INR (length l) * ((e - rad a1) / INR (length l))) with e in C.
      * rewrite <- EE. apply C. intros i it H. apply NN in H. destruct (E5 i _ H) as (p1 & p2 & [= ->]). auto.
      * destruct (Req_EM_T e (rad a1)) as [->|NE]; [replace (rad a1 - rad a1) with 0 by ring; unfold Rdiv; ring|].
        assert (l <> []) by (intros L; apply NE, E3; auto). field. apply not_0_INR. destruct l; [congruence|discriminate].
    + apply Forall_forall. intros it H. apply In_nth_error in H as (i & H). apply NN in H. destruct (E5 i _ H) as (p1 & p2 & [= ->]). exact I.
Qed.
Lemma arcn_items_chained x y r a1 a2 : chained (arcpoint x y r a1) (arcn_items x y r a1 a2) (arcpoint x y r a2) /\ Forall is_curve (arcn_items x y r a1 a2).
Proof.
  destruct (arc_items_chained x y r a2 a1) as [C F]. unfold arcn_items. split; [now apply chained_rev|].
  apply Forall_forall. intros it H. apply in_map_iff in H as (j & <- & H). apply in_rev in H. rewrite Forall_forall in F. specialize (F j H). destruct j; auto.
Qed.
Lemma add_arc_open fuel e p q l np c : np <> [] -> last_closed np = false -> Forall is_curve l -> chained p l q ->
  add_arc fuel e p q l (np, c) = bind (add_item fuel (Line (current c) p) (np, c)) (add_curves fuel (map triple l)).
Proof.
  intros N L F C. unfold add_arc, add_item. rewrite L. destruct (last_sub (fun s => append fuel s (Line (current c) p)) np) as [np1| |] eqn:E; auto.
  cbn [bind atend_pt]. apply (extend_curves fuel l np1 (mkcontext p (subfirst c)) q); auto. eapply last_sub_nonempty; eauto.
Qed.

(** In a subpath that is not closed an arc is a line to its first point followed by its
    curves, whatever the subpath and the lengths are. *)
Theorem arc_as_curves : forall fuel e np c x y r a1 a2 rest, np <> [] -> last_closed np = false ->
  updates fuel e (np, c) (Arc x y r a1 a2 :: rest) =
    updates fuel e (np, c) (Lineto (circle_point x y r (rad a1)) :: Multicurveto (map triple (arc_items x y r a1 a2)) :: rest) /\
  updates fuel e (np, c) (Arcn x y r a1 a2 :: rest) =
    updates fuel e (np, c) (Lineto (circle_point x y r (rad a1)) :: Multicurveto (map triple (arcn_items x y r a1 a2)) :: rest).
Proof.
  intros fuel e np c x y r a1 a2 rest N L.
  assert (P0 : forall a, circle_point x y r (rad a) = arcpoint x y r a) by (intros a; unfold arcpoint, circle_point; now rewrite rad_radians). rewrite P0.
  destruct (arc_items_chained x y r a1 a2) as [C1 F1]. destruct (arcn_items_chained x y r a1 a2) as [C2 F2].
  cbn [updates update_normpath update_simple]. rewrite !add_arc_open by auto.
  destruct (add_item fuel (Line (current c) (arcpoint x y r a1)) (np, c)) as [[np1 c1]| |]; cbn [bind]; split; reflexivity.
Qed.
Print Assumptions arc_as_curves.

(** After closing, when the current point is the begin of the subpath, an arc begins a new
    subpath there. *)
Theorem arc_after_close : forall f e np c x y r a1 a2 rest, 0 < last_epsilon np e -> np <> [] -> last_closed np = true -> current c = subfirst c ->
  updates (S (S f)) e (np, c) (Arc x y r a1 a2 :: rest) = updates (S (S f)) e (np, c) (Moveto (current c) :: Arc x y r a1 a2 :: rest) /\
  updates (S (S f)) e (np, c) (Arcn x y r a1 a2 :: rest) = updates (S (S f)) e (np, c) (Moveto (current c) :: Arcn x y r a1 a2 :: rest).
Proof.
  intros f e np c x y r a1 a2 rest He N L Q. 
  assert (G : forall p q l, add_arc (S (S f)) e p q l (np, c) = bind (add_move (S (S f)) e (current c) np) (add_arc (S (S f)) e p q l)).
  { intros p q l. unfold add_move, point_sub. rewrite (make_point _ He f). cbn [bind]. unfold add_arc. rewrite L, last_closed_app. cbn [closed current].
    rewrite last_sub_app.
    assert (A : make (S (S f)) [Line (current c) p] false (Some (last_epsilon np e)) =
                append (S (S f)) (mknsp [] false (Some (last_epsilon np e)) (Some (Line (current c) (current c)))) (Line (current c) p)).
    { unfold make, extend, extend_with. remember (S f) as g. cbn [append epsilon empty_nsp closed skipped with_skipped items]. unfold mismatch. cbn [skipped lastitem items rev empty_nsp atend_pt atbegin_pt].
      rewrite gap_self. destruct (ltb_spec 0 (last_epsilon np e)); [|lra]. cbn [negb modifiedbegin_pt]. destruct (leb _ _); reflexivity. }
    rewrite A. destruct (append _ _ _) as [s| |]; auto. cbn [bind subfirst]. rewrite <- Q. reflexivity. }
  cbn [updates update_normpath update_simple]. rewrite !G. split; destruct (add_move _ _ _ _) as [[np1 c1]| |]; reflexivity.
Qed.
Print Assumptions arc_after_close.
Example arc_after_close_ex : exists np c, np <> [] /\ last_closed np = true /\ current c = subfirst c /\ 0 < last_epsilon np 1 /\
  updates 9 1 ([mknsp [Line (0, 0) (10, 0)] false (Some 1) None], mkcontext (10, 0) (0, 0)) [Closepath] = Ok (np, c).
Proof.
  assert (He : 0 < 1) by lra.
  cbn [updates update_normpath update_simple]. change [mknsp [Line (0, 0) (10, 0)] false (Some 1) None] with ([] ++ [mknsp [Line (0, 0) (10, 0)] false (Some 1) None]).
  rewrite last_sub_app, (close_line 1 He 7 _ (0, 0) (10, 0)); simpl; auto; [|discriminate|rewrite (dist_is _ _ 10); simpl; lra].
  eexists. eexists. split; [|split; [|split; [|split; [|reflexivity]]]]; simpl; auto; try discriminate.
Qed.
