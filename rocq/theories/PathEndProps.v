(** Every subpath of a converted path begins and ends where it should, whatever its length and speed. *)
From Coq Require Import Reals Bool List Lra Lia.
From Verif Require Import TrafoModel BboxModel CurveModel CurveSpec ArcModel NormsubModel NormsubSpec NormsubProofs NormsubProofs2 CurveProofs2 NormsubProofs3 NormsubProps NormpathModel PathModel PathSpec PathNormModel PathNormSpec PathNormProofs PathNormProps.
Import ListNotations.
Open Scope R_scope.

Local Notation pt := (R * R)%type.

(** a subpath from where to where the drawn one goes, made of connected items with at most a
    short line missing at the end *)
Definition spans (e : R) (d : drawn) (s : nsp) : Prop :=
  closed s = shut d /\ epsilon s = Some e /\ nsp_atbegin s = Some (start d) /\
  nsp_atend s = Some (if shut d then start d else end_of (start d) (segs d)) /\
  exists m, connected (start d) (items s) m /\ distance m (if shut d then start d else end_of (start d) (segs d)) < e.

Section Ends.
  Variables (fuel : nat) (e : R).
  Hypothesis He : 0 < e.

  Definition going (s : nsp) (b q : pt) : Prop :=
    leads e s b q /\ epsilon s = Some e /\ closed s = false /\ (skipped s = None -> items s <> []) /\ Forall (good e) (items s).
  Lemma distance_self m : distance m m < e.
  Proof. rewrite distance_dist, dist_self. exact He. Qed.
  Lemma going_spans s b k : going s b (end_of b k) -> spans e (mkdrawn b k false) s.
  Proof.
    intros (L & E & C & N & _). destruct (leads_ends e s b _ L N) as [B A]. unfold spans. simpl.
    split; auto. split; auto. split; auto. split; auto. apply leads_iff in L as (m & Cn & K). exists m. split; auto.
    destruct (skipped s); [apply K|]. subst m. apply distance_self.
  Qed.
  Lemma going_append s b q i s' : going s b q -> atbegin_pt i = q -> append fuel s i = Ok s' -> going s' b (atend_pt i).
  Proof.
    intros (L & E & C & N & G) B A. destruct (append_leads e fuel s i b q s' E L (fun _ => B) A) as (L' & E' & C').
    destruct (append_good e fuel He s i s' (conj E G) A) as [_ G']. split; auto. split; auto. split; auto. split; auto.
    exact (append_progress _ _ _ _ A).
  Qed.
  Lemma going_point p s : point_sub fuel e p = Ok s -> going s p p.
  Proof.
    unfold point_sub, make, extend. cbn [extend_with]. destruct (append fuel (empty_nsp (Some e)) (Line p p)) as [s1| |] eqn:A; cbn [bind]; try discriminate.
    intros [= <-]. destruct (append_leads e fuel (empty_nsp (Some e)) (Line p p) p p s1 eq_refl (leads_empty e p) (fun _ => eq_refl) A) as (L & E & C).
    destruct (append_good e fuel He (empty_nsp (Some e)) (Line p p) s1 (conj eq_refl (Forall_nil _)) A) as [_ G].
    split; auto. split; auto. split; auto. split; auto. exact (append_progress _ _ _ _ A).
  Qed.
  Lemma going_close s b k s' : going s b (end_of b k) -> close fuel s = Ok s' -> spans e (mkdrawn b k true) s'.
  Proof.
    intros (L & E & C & N & G) X. destruct (close_leads e fuel s b _ s' He E L G X) as (H1 & H2 & H3 & _ & H5 & H6).
    assert (L' : leads e s' b b) by (exists b; rewrite H5; split; [auto|reflexivity]).
    destruct (leads_ends e s' b b L' (fun _ => H2)) as [B A]. unfold spans. simpl. split; auto. split; auto. split; auto. split; auto.
    exists b. split; [now apply chained_connected|apply distance_self].
  Qed.

  Definition J (g : gstate) (nc : normpath * context) : Prop :=
    match now g with
    | NoPoint => False
    | At p => Forall2 (spans e) (finished g) (fst nc) /\ snd nc = mkcontext p p /\ exists d done s, fst nc = done ++ [s] /\ closed s = true /\ epsilon s = Some e /\ finished g = d ++ [mkdrawn p (match rev (finished g) with x :: _ => segs x | [] => [] end) true]
    | Drawing p k => exists done s, fst nc = done ++ [s] /\ Forall2 (spans e) (finished g) done /\ going s p (end_of p k) /\ snd nc = mkcontext (end_of p k) p
    end.
  Lemma J_ended g nc : J g nc -> Forall2 (spans e) (ended g) (fst nc).
  Proof.
    unfold J, ended. destruct (now g) as [|p|p k]; [tauto| |].
    - intros (F & _). now rewrite app_nil_r.
    - intros (done & s & -> & F & G & _). apply Forall2_app; auto. constructor; auto. now apply going_spans.
  Qed.
  Lemma J_point g nc : J g nc -> point_of (now g) = Some (current (snd nc)).
  Proof.
    unfold J. destruct (now g) as [|p|p k]; [tauto| |]; simpl.
    - intros (_ & -> & _). auto.
    - intros (? & ? & _ & _ & _ & ->). auto.
  Qed.
  Lemma J_epsilon g nc : J g nc -> last_epsilon (fst nc) e = e.
  Proof.
    unfold J. destruct (now g) as [|p|p k]; [tauto| |].
    - intros (_ & _ & _ & done & s & -> & _ & E & _). now apply last_epsilon_some.
    - intros (done & s & -> & _ & (_ & E & _) & _). now apply last_epsilon_some.
  Qed.
  Lemma J_seg g nc s nc' g' : J g nc -> add_item fuel (seg_item (current (snd nc)) s) nc = Ok nc' -> add_seg g s = Some g' -> J g' nc'.
  Proof.
    intros H A S. destruct nc as [np c]. unfold add_item in A. unfold J in H. unfold add_seg in S. destruct (now g) as [|p|p k]; [tauto| |].
    - exfalso. destruct H as (_ & _ & _ & done & x & E & C & E' & _). simpl in E. subst np. rewrite last_sub_app in A.
      destruct (append fuel x _) as [r| |] eqn:X; try discriminate. exact (append_closed fuel e x _ r C E' X).
    - destruct H as (done & x & E & F & G & E'). simpl in E, E'. subst np c. rewrite last_sub_app in A. cbn [snd current] in A.
      destruct (append fuel x (seg_item (end_of p k) s)) as [r| |] eqn:X; try discriminate. cbn [bind] in A. injection A as <-. injection S as <-.
      unfold J. cbn [now finished fst snd]. exists done, r. split; auto. split; auto. rewrite end_of_snoc.
      assert (G' := going_append x p _ _ r G (proj1 (seg_item_ends _ s)) X). rewrite (proj2 (seg_item_ends _ s)) in *. auto.
  Qed.
  Lemma J_move g nc p nc' : J g nc -> add_move fuel e p (fst nc) = Ok nc' -> J (move g p) nc'.
  Proof.
    intros H. unfold add_move. rewrite (J_epsilon g nc H). destruct (point_sub fuel e p) as [s| |] eqn:P; try discriminate. intros [= <-].
    unfold J, move. cbn [now finished fst snd]. exists (fst nc), s. split; auto. split; [now apply J_ended|]. split; auto. now apply going_point.
  Qed.
  Lemma J_lines l : forall g nc g' nc', J g nc -> add_lines fuel l nc = Ok nc' -> obey_all g (map Oline l) = Some g' -> J g' nc'.
  Proof.
    induction l as [|p l IH]; intros g nc g' nc' H A O.
    - injection A as <-. injection O as <-. exact H.
    - cbn [add_lines] in A. destruct (add_item fuel _ nc) as [nc1| |] eqn:A1; try discriminate. cbn [map obey_all obey] in O.
      destruct (add_seg g (SegLine p)) as [g1|] eqn:O1; [|discriminate]. exact (IH _ _ _ _ (J_seg g nc (SegLine p) nc1 g1 H A1 O1) A O).
  Qed.
  Lemma J_curves l : forall g nc g' nc', J g nc -> add_curves fuel l nc = Ok nc' -> obey_all g (map (fun '(p1, p2, p3) => Ocurve p1 p2 p3) l) = Some g' -> J g' nc'.
  Proof.
    induction l as [|[[p1 p2] p3] l IH]; intros g nc g' nc' H A O.
    - injection A as <-. injection O as <-. exact H.
    - cbn [add_curves] in A. destruct (add_item fuel _ nc) as [nc1| |] eqn:A1; try discriminate. cbn [map obey_all obey] in O.
      destruct (add_seg g (SegCurve p1 p2 p3)) as [g1|] eqn:O1; [|discriminate]. exact (IH _ _ _ _ (J_seg g nc (SegCurve p1 p2 p3) nc1 g1 H A1 O1) A O).
  Qed.
  Lemma J_item g nc i g' nc' : straight i = true -> J g nc -> update_normpath fuel e nc i = Ok nc' -> obey_all g (item_outputPS i) = Some g' -> J g' nc'.
  Proof.
    intros S H A O. assert (P := J_point g nc H). destruct nc as [np c]. cbn [snd] in P.
    assert (O1 : forall o, obey_all g [o] = Some g' -> obey g o = Some g') by (intros o; simpl; destruct (obey g o); auto).
    destruct i as [|p|p|p1 p2 p3|d|d|d1 d2 d3|x y r a1 a2|x y r a1 a2|p1 p2 r|l|l]; try discriminate S; cbn [update_normpath update_simple item_outputPS] in *; try apply O1 in O; cbn [obey] in O; unfold relative in O; try rewrite P in O.
    - unfold J in H. destruct (now g) as [|p|p k] eqn:N; [tauto| |].
      + exfalso. destruct H as (_ & _ & _ & done & x & E & C & _). simpl in E. subst np. rewrite last_sub_app in A. unfold close in A. rewrite C in A. discriminate.
      + destruct H as (done & x & E & F & G & E'). simpl in E, E'. subst np c. rewrite last_sub_app in A.
        destruct (close fuel x) as [r| |] eqn:X; try discriminate. cbn [bind] in A. injection A as <-. injection O as <-.
        assert (SP := going_close x p k r G X). unfold J. cbn [now finished fst snd subfirst]. split; [apply Forall2_app; auto|]. split; auto.
        exists (finished g), done, r. split; auto. split; [apply SP|]. split; [apply SP|]. rewrite rev_app_distr. reflexivity.
    - injection O as <-. exact (J_move g (np, c) p nc' H A).
    - exact (J_seg g (np, c) (SegLine p) nc' g' H A O).
    - exact (J_seg g (np, c) (SegCurve p1 p2 p3) nc' g' H A O).
    - injection O as <-. exact (J_move g (np, c) _ nc' H A).
    - exact (J_seg g (np, c) (SegLine _) nc' g' H A O).
    - exact (J_seg g (np, c) (SegCurve _ _ _) nc' g' H A O).
    - exact (J_lines l g (np, c) g' nc' H A O).
    - exact (J_curves l g (np, c) g' nc' H A O).
  Qed.
  Lemma J_items l : forall g nc g' nc', forallb straight l = true -> J g nc -> updates fuel e nc l = Ok nc' -> obey_all g (flat_map item_outputPS l) = Some g' -> J g' nc'.
  Proof.
    induction l as [|i l IH]; intros g nc g' nc' S H A O.
    - injection A as <-. injection O as <-. exact H.
    - cbn [forallb] in S. apply andb_prop in S as [S1 S2]. cbn [updates] in A. destruct (update_normpath fuel e nc i) as [nc1| |] eqn:A1; try discriminate.
      cbn [flat_map] in O. apply obey_all_app in O as (g1 & O1 & O2). exact (IH _ _ _ _ S2 (J_item g nc i g1 nc1 S1 H A1 O1) A O2).
  Qed.
  Lemma convert_J p l g np : forallb straight l = true -> obey_all (mkgstate [] NoPoint) (outputPS (Moveto p :: l)) = Some g ->
    convert fuel e (Moveto p :: l) = Ok np -> exists c, J g (np, c).
  Proof.
    intros S O A. unfold convert in A. cbn [create_normpath createcontext] in A. destruct (point_sub fuel e p) as [s| |] eqn:P; try discriminate.
    cbn [bind] in A. destruct (updates fuel e ([s], mkcontext p p) l) as [[np' c]| |] eqn:U;
      (match type of A with bind ?x _ = _ => change x with (updates fuel e ([s], mkcontext p p) l) in A end; rewrite U in A; cbn [bind fst] in A; try discriminate).
    injection A as ->.
    exists c. unfold outputPS in O. cbn [flat_map item_outputPS app obey_all obey] in O.
    refine (J_items l (move (mkgstate [] NoPoint) p) ([s], mkcontext p p) g (np, c) S _ U O).
    unfold J, move. cbn [now finished fst snd]. exists [], s. split; auto. split; [constructor|]. split; auto. now apply going_point.
  Qed.
End Ends.

(** C86: whenever the conversion succeeds, subpath by subpath the normpath goes from where to where the path does, is
    closed where it is, and consists of connected items that miss the end by less than epsilon. *)
Theorem normpath_subpaths : forall fuel e p l g np, 0 < e -> forallb straight l = true ->
  obey_all (mkgstate [] NoPoint) (outputPS (Moveto p :: l)) = Some g -> convert fuel e (Moveto p :: l) = Ok np ->
  Forall2 (spans e) (ended g) np.
Proof.
  intros fuel e p l g np He S O A. destruct (convert_J fuel e He p l g np S O A) as (c & H). exact (J_ended e He g (np, c) H).
Qed.
Print Assumptions normpath_subpaths.
(** the first point of the first subpath *)
Definition begins (p : pt) (g : gstate) : Prop :=
  match now g with
  | NoPoint => False
  | At _ => match finished g with d :: _ => start d = p | [] => False end
  | Drawing q _ => match finished g with d :: _ => start d = p | [] => q = p end
  end.
Lemma begins_seg p g s g' : begins p g -> add_seg g s = Some g' -> begins p g'.
Proof. unfold begins, add_seg. destruct (now g); [tauto| |]; intros H [= <-]; simpl; auto. destruct (finished g); tauto. Qed.
Lemma begins_move p g q g' : begins p g -> Some (move g q) = Some g' -> begins p g'.
Proof. unfold begins. intros H [= <-]. unfold move, ended. simpl. destruct (now g); [tauto| |]; destruct (finished g); simpl; tauto. Qed.
Lemma begins_all p l : forall g g', begins p g -> obey_all g l = Some g' -> begins p g'.
Proof.
  induction l as [|o l IH]; cbn [obey_all]; intros g g' H O; [now injection O as <-|]. destruct (obey g o) as [g1|] eqn:O1; [|discriminate].
  refine (IH g1 g' _ O). clear IH O.
  destruct o; simpl in O1; try discriminate; unfold relative in O1; try (destruct (point_of (now g)); [|discriminate]);
    try (eapply begins_seg; eassumption); try (eapply begins_move; eassumption).
  unfold begins in *. destruct (now g) eqn:N; injection O1 as <-; simpl; rewrite ?N; auto; destruct (finished g); simpl; auto.
Qed.

(** C86: the last point of a path is where the pen is. *)
Theorem path_end_point : forall fuel e p l g np, 0 < e -> forallb straight l = true ->
  obey_all (mkgstate [] NoPoint) (outputPS (Moveto p :: l)) = Some g -> convert fuel e (Moveto p :: l) = Ok np ->
  path_atend np = point_of (now g) /\ path_atbegin np = Some p.
Proof.
  intros fuel e p l g np He S O A. destruct (convert_J fuel e He p l g np S O A) as (c & H). split.
  - assert (SP := J_ended e He g (np, c) H). unfold J in H. unfold ended in SP. destruct (now g) as [|q|q k]; [tauto| |].
    + destruct H as (_ & _ & d & _ & _ & _ & _ & _ & E). rewrite E, app_nil_r in SP. cbn [fst] in SP. apply Forall2_app_inv_l in SP as (n1 & n2 & _ & SP & ->).
      inversion SP as [|? y ? ? (_ & _ & _ & A' & _) SP']; subst. inversion SP'; subst. unfold path_atend. rewrite rev_app_distr. exact A'.
    + cbn [fst] in SP. apply Forall2_app_inv_l in SP as (n1 & n2 & _ & SP & ->).
      inversion SP as [|? y ? ? (_ & _ & _ & A' & _) SP']; subst. inversion SP'; subst. unfold path_atend. rewrite rev_app_distr. exact A'.
  - assert (SP := J_ended e He g (np, c) H). cbn [fst] in SP.
    unfold outputPS in O. cbn [flat_map item_outputPS app obey_all obey] in O.
    assert (G := begins_all p _ (move (mkgstate [] NoPoint) p) g eq_refl O). unfold begins in G.
    unfold ended in SP. destruct (finished g) as [|d ds] eqn:F.
    + destruct (now g) as [|q|q k]; try tauto. subst q. simpl in SP. inversion SP as [|? y ? ? (_ & _ & B & _) SP']; subst. exact B.
    + assert (start d = p) as <- by (destruct (now g); tauto). cbn [app] in SP. inversion SP as [|? y ? ? (_ & _ & B & _) SP']; subst. exact B.
Qed.
Print Assumptions path_end_point.

(** a path with a line that is too short *)
Example path_end_ex : exists np, forall f, convert (S f) 1 [Moveto (0, 0); Lineto (10, 0); Rlineto (1 / 2, 0)] = Ok np /\
  items (hd (empty_nsp None) np) = [Line (0, 0) (10, 0)] /\ path_atend np = Some (10 + 1 / 2, 0 + 0).
Proof.
  eexists. intros f. split; [|split].
  - unfold convert. cbn [create_normpath createcontext]. unfold point_sub, make, extend. cbn [extend_with bind].
    rewrite (append_line f 1) by (simpl; auto; lra). cbn [skipped empty_nsp atbegin_pt].
    rewrite dist_self, leb_no by lra. cbn [bind updates update_normpath update_simple add_item last_sub rev app snd current].
    rewrite (append_line f 1) by (simpl; auto; lra). cbn [skipped empty_nsp atbegin_pt with_skipped].
    rewrite (dist_is (0, 0) (10, 0) 10) by (simpl; lra). rewrite leb_yes by lra.
    cbn [bind removelast app update_simple add_item last_sub rev current atend_pt plus_pt fst snd].
    rewrite (append_line f 1) by (simpl; auto; lra). unfold plus_pt; cbn [fst snd skipped empty_nsp atbegin_pt with_skipped push].
    rewrite (dist_is (10, 0) (10 + 1 / 2, 0 + 0) (1 / 2)) by (simpl; lra). rewrite leb_no by lra. reflexivity.
  - reflexivity.
  - reflexivity.
Qed.
