(** Splitting of paths. *)
From Coq Require Import Reals Lra Lia ZArith Bool List.
From Verif Require Import PyDict TrafoModel BboxModel CurveModel CurveSpec CurveProofs2 CurveProps NormsubModel NormsubSpec
  NormsubProofs NormsubProofs4 NormsubProofs5 NormsubProps NormsubProps2 NormpathModel NormpathSpec NormpathProofs NormpathProps NormpathProps2.
Import ListNotations.
Open Scope R_scope.

Local Notation pt := (R * R)%type.

(** the paths lead from x through the points ys *)
Fixpoint runs (x : pt) (rs : list normpath) (ys : list pt) : Prop :=
  match rs, ys with
  | [], [] => True
  | r :: rs', y :: ys' => path_atbegin r = Some x /\ path_atend r = Some y /\ runs y rs' ys'
  | _, _ => False
  end.
(** open subpaths with items *)
Definition simple (s : nsp) : Prop := exists e p q, epsilon s = Some e /\ connected p (items s) q /\ items s <> [] /\ closed s = false /\ skipped s = None.
Definition point_of (np : normpath) (p : param) (x : pt) : Prop := exists s, nth_error np (fst p) = Some s /\ on_path (items s) (snd p) x.

Lemma last_cons {A} (y : A) ys x : last (y :: ys) x = last ys y.
Proof. revert y x. induction ys as [|a ys IH]; intros y x; auto. change (last (a :: ys) x = last (a :: ys) y). now rewrite !IH. Qed.
Lemma runs_app x rs ys rs' ys' : runs x rs ys -> runs (last ys x) rs' ys' -> runs x (rs ++ rs') (ys ++ ys').
Proof.
  revert x ys. induction rs as [|r rs IH]; intros x [|y ys]; cbn [runs app]; auto; try tauto. intros (B & E & R) R'. split; auto. split; auto. apply IH; auto.
  now rewrite last_cons in R'.
Qed.
Lemma path_single g : path_atbegin [g] = nsp_atbegin g /\ path_atend [g] = nsp_atend g.
Proof. auto. Qed.
(** the new pieces *)
Lemma add_pieces_runs s gs ts c1 c0 z lst done ys x0 done' last' b :
  simple s -> (exists t u, ts = t :: u) ->
  (forall k r t u, nth_error gs k = Some r -> nth_error (c0 :: ts ++ [c1]) k = Some t -> nth_error (c0 :: ts ++ [c1]) (S k) = Some u ->
    exists x y, on_path (items s) t x /\ on_path (items s) u y /\ nsp_atbegin r = Some x /\ nsp_atend r = Some y) ->
  length (c0 :: ts ++ [c1]) = S (length gs) ->
  runs x0 done ys -> z = last ys x0 -> (lst = [] -> on_path (items s) c0 z) -> (lst <> [] -> path_atbegin lst = Some z) ->
  on_path (items s) c1 b ->
  add_pieces gs done lst = Ok (done', last') ->
  exists xs, Forall2 (fun t x => on_path (items s) t x) ts xs /\ runs x0 done' (ys ++ xs) /\ last' <> [] /\
    path_atbegin last' = Some (last (ys ++ xs) x0) /\ path_atend last' = Some b.
Proof.
  intros (e & p & q & _ & C & N & _ & _) (t0 & u0 & ->) H L R Hz Z1 Z2 Hb A. apply chained_connected in C.
  assert (U : forall t x y, on_path (items s) t x -> on_path (items s) t y -> x = y) by (intros; eapply on_path_unique; eauto).
  destruct gs as [|g gs]; [simpl in L; discriminate|]. cbn [add_pieces] in A. cbv zeta in A.
  set (all := (lst ++ [g]) :: map (fun g => [g]) gs) in A. assert (A1 : done' = done ++ removelast all) by congruence. assert (A2 : last' = last all []) by congruence.
  clear A. subst done' last' all.
  (* the pieces after the first *)
  assert (G : forall gs ts c0 x, on_path (items s) c0 x ->
     (forall k r t u, nth_error gs k = Some r -> nth_error (c0 :: ts ++ [c1]) k = Some t -> nth_error (c0 :: ts ++ [c1]) (S k) = Some u ->
        exists x y, on_path (items s) t x /\ on_path (items s) u y /\ nsp_atbegin r = Some x /\ nsp_atend r = Some y) ->
     length (c0 :: ts ++ [c1]) = S (length gs) ->
     exists xs, Forall2 (fun t x => on_path (items s) t x) ts xs /\ runs x (map (fun g => [g]) gs) (xs ++ [b])).
  { clear - U Hb. induction gs as [|g gs IH]; intros ts c0 x Hx H L.
    - cbn [length] in L. rewrite app_length in L. simpl in L. lia.
    - destruct ts as [|t ts].
      + simpl in L. destruct gs; [|simpl in L; lia]. destruct (H 0%nat g c0 c1 eq_refl eq_refl eq_refl) as (x' & y & O1 & O2 & B & E).
        rewrite (U _ _ _ O1 Hx) in B. rewrite (U _ _ _ O2 Hb) in E. exists []. split; auto. simpl. auto.
      + destruct (H 0%nat g c0 t eq_refl eq_refl eq_refl) as (x' & y & O1 & O2 & B & E). rewrite (U _ _ _ O1 Hx) in B.
        destruct (IH ts t y O2) as (xs & F & Rn).
        * intros k r t' u' K1 K2 K3. apply (H (S k) r t' u'); auto.
        * simpl in *. lia.
        * exists (y :: xs). split; [constructor; auto|]. simpl. auto. }
  destruct (H 0%nat g c0 t0 eq_refl eq_refl eq_refl) as (x' & y & O1 & O2 & B & E).
  destruct (G gs u0 t0 y O2) as (xs & F & Rn).
  { intros k r t' u' K1 K2 K3. apply (H (S k) r t' u'); auto. }
  { simpl in *. lia. }
  exists (y :: xs). split; [constructor; auto|].
  assert (B' : path_atbegin (lst ++ [g]) = Some z).
  { destruct lst as [|a lst]; [|rewrite path_atbegin_app by discriminate; apply Z2; discriminate]. simpl. rewrite B. f_equal. apply (U c0); auto. }
  assert (E' : path_atend (lst ++ [g]) = Some y) by (rewrite path_atend_app; auto).
  assert (Ngs : gs <> []). { intros ->. simpl in L. rewrite app_length in L. simpl in L. lia. }
  destruct (exists_last Ngs) as (gs0 & gl & Eg). rewrite Eg in *. rewrite map_app in Rn. cbn [map] in *. rewrite map_app. cbn [map].
  change ((lst ++ [g]) :: map (fun g => [g]) gs0 ++ [[gl]]) with (((lst ++ [g]) :: map (fun g => [g]) gs0) ++ [[gl]]).
  rewrite removelast_last, last_last.
  assert (S1 : forall rs ws x r w, runs x (rs ++ [r]) (ws ++ [w]) -> runs x rs ws /\ path_atbegin r = Some (last ws x) /\ path_atend r = Some w).
  { clear. induction rs as [|r0 rs IH]; intros [|w0 ws] x r w; simpl.
    - tauto.
    - destruct (ws ++ [w]) eqn:Z; [destruct ws; discriminate|]. simpl. tauto.
    - destruct (rs ++ [r]) eqn:Z; [destruct rs; discriminate|]. simpl. tauto.
    - intros (A1 & A2 & A3). destruct (IH ws w0 r w A3) as (R1 & R2 & R3). split; auto. split; auto. rewrite R2. f_equal. symmetry. apply (last_cons w0 ws x). }
  destruct (S1 _ _ _ _ _ Rn) as (R1 & R2 & R3).
  split; [|split; [discriminate|split; [|auto]]].
  - apply runs_app with (1 := R). simpl. rewrite <- Hz. auto.
  - rewrite R2. f_equal. clear. revert x0. induction ys as [|a ys IH]; intros x0; [symmetry; apply last_cons|]. simpl app. rewrite last_cons. apply IH.
Qed.
Lemma simple_ends s : simple s -> exists a b, nsp_atbegin s = Some a /\ nsp_atend s = Some b /\ on_path (items s) 0 a /\ on_path (items s) (INR (length (items s))) b.
Proof.
  intros (e & p & q & _ & C & N & _ & K). unfold nsp_atbegin, nsp_atend, lastitem. rewrite K. destruct (items s) as [|i l] eqn:E; [congruence|]. rewrite <- E in *.
  exists (atbegin_pt i). destruct (exists_last N) as (l' & j & El). exists (atend_pt j). split; auto. split; [rewrite El, rev_unit; reflexivity|].
  destruct (begin_at i) as [Bi _]. destruct (begin_at j) as [_ Ej]. split.
  - exists 0%nat, i. rewrite E. split; auto. split; [rewrite <- Bi; f_equal; simpl; lra|]. simpl. split; auto. right; lra.
  - exists (length l'), j. rewrite El, app_length. simpl length. rewrite nth_error_app2, Nat.sub_diag by lia. split; auto.
    rewrite plus_INR. simpl INR. split; [rewrite <- Ej; f_equal; lra|]. split; [right; lra|left; lia].
Qed.
Lemma segments_simple fuel s params gs : simple s -> nsp_segments fuel s params = Ok gs ->
  length params = S (length gs) /\
  forall k r t u, nth_error gs k = Some r -> nth_error params k = Some t -> nth_error params (S k) = Some u ->
    exists x y, on_path (items s) t x /\ on_path (items s) u y /\ nsp_atbegin r = Some x /\ nsp_atend r = Some y.
Proof.
  intros (e & p & q & E & C & N & Hc & _) G. destruct (segments_ends fuel e s p q params gs E C N (or_introl Hc) G) as [L H]. split; auto.
  intros k r t u H1 H2 H3. destruct (H k r t u H1 H2 H3) as (x & y & O1 & O2 & B & D & _). exists x, y. auto.
Qed.
Lemma split_loop_runs fuel np x0 xe : (forall s, In s np -> simple s) -> path_atend np = Some xe ->
  forall params done lst c0 ts k result ys, (exists t u, ts = t :: u) -> runs x0 done ys ->
  (lst = [] -> forall s, nth_error np k = Some s -> on_path (items s) c0 (last ys x0)) -> (lst <> [] -> path_atbegin lst = Some (last ys x0)) ->
  split_loop fuel np params done lst (c0 :: ts) (Some k) = Ok result ->
  exists xs, Forall2 (point_of np) (map (pair k) ts ++ params) xs /\ runs x0 result (ys ++ xs ++ [xe]).
Proof.
  intros Sm Xe. induction params as [|[i t] params IH]; intros done lst c0 ts k result ys T R Z1 Z2 E; cbn [split_loop] in E.
  - destruct (nth_error np k) as [s|] eqn:Hk; [|discriminate]. assert (Ss : simple s) by (apply Sm; eapply nth_error_In; eauto).
    destruct (nsp_segments fuel s ((c0 :: ts) ++ [INR (length (items s))])) as [gs| |] eqn:G; try discriminate. cbn [bind] in E.
    destruct (add_pieces gs done lst) as [[done' last']| |] eqn:A; try discriminate. cbn [bind] in E.
    assert (result = done' ++ [last' ++ skipn (S k) np]) as -> by congruence. clear E.
    destruct (segments_simple _ _ _ _ Ss G) as [L H]. destruct (simple_ends s Ss) as (a & b & _ & Hb & _ & Ob).
    destruct (add_pieces_runs s gs ts (INR (length (items s))) c0 (last ys x0) lst done ys x0 done' last' b Ss T H L R eq_refl (fun Q => Z1 Q s eq_refl) Z2 Ob A) as (xs & F & R' & N' & B' & E').
    exists xs. rewrite app_nil_r. split.
    + clear - F Hk. induction F as [|t x ts xs H _ IH]; simpl; constructor; auto. exists s. auto.
    + rewrite app_assoc. apply runs_app with (1 := R'). cbn [runs]. split; [rewrite path_atbegin_app; auto|]. split; auto.
      rewrite <- Xe. rewrite <- (firstn_skipn (S k) np) at 2. destruct (skipn (S k) np) as [|y l] eqn:Sk.
      * rewrite !app_nil_r. rewrite E', <- Hb. replace (firstn (S k) np) with (firstn k np ++ [s]); [now rewrite path_atend_app|].
        clear - Hk. revert np Hk. induction k as [|k IH]; intros [|x np] H; try discriminate; simpl in *; [congruence|]. f_equal. now apply IH.
      * rewrite !path_atend_app2 by discriminate. reflexivity.
  - destruct (Nat.eqb_spec i k) as [->|Nk].
    + destruct (IH done lst c0 (ts ++ [t]) k result ys) as (xs & F & Rn); auto.
      * destruct T as (t1 & u1 & ->). exists t1, (u1 ++ [t]). auto.
      * exists xs. split; auto. rewrite map_app in F. simpl in F. now rewrite <- app_assoc in F.
    + destruct (nth_error np k) as [s|] eqn:Hk; [|discriminate]. destruct (nth_error np i) as [s'|] eqn:Hi; [|discriminate].
      assert (Ss : simple s) by (apply Sm; eapply nth_error_In; eauto). assert (Ss' : simple s') by (apply Sm; eapply nth_error_In; eauto).
      set (c1 := if (k <? i)%nat then INR (length (items s)) else 0) in E.
      destruct (nsp_segments fuel s ((c0 :: ts) ++ [c1])) as [gs| |] eqn:G; try discriminate. cbn [bind] in E.
      destruct (add_pieces gs done lst) as [[done' last']| |] eqn:A; try discriminate. cbn [bind] in E.
      destruct (segments_simple _ _ _ _ Ss G) as [L H].
      assert (exists b, on_path (items s) c1 b) as (b & Ob) by (destruct (simple_ends s Ss) as (a & b & _ & _ & Oa & Ob); unfold c1; destruct (k <? i)%nat; eauto).
      destruct (add_pieces_runs s gs ts c1 c0 (last ys x0) lst done ys x0 done' last' b Ss T H L R eq_refl (fun Q => Z1 Q s eq_refl) Z2 Ob A) as (xs & F & R' & N' & B' & E').
      assert (K : exists more c, split_loop fuel np params done' (last' ++ more) [c; t] (Some i) = Ok result).
      { destruct (k <? i)%nat; [eauto|]. destruct (all_ok (nsp_reversed fuel) _) as [back| |] eqn:Ab; try discriminate. cbn [bind] in E. eauto. }
      destruct K as (more & c & K). destruct (IH done' (last' ++ more) c [t] i result (ys ++ xs)) as (xs' & F' & Rn); eauto.
      * intros Q. apply app_eq_nil in Q as [Q _]. congruence.
      * intros _. rewrite path_atbegin_app; auto.
      * exists (xs ++ xs'). split; [|now rewrite <- !app_assoc in *]. apply Forall2_app; auto.
        clear - F Hk. induction F as [|t x ts xs H _ IH]; simpl; constructor; auto. exists s. auto.
Qed.
(** C76: splitting a path of open subpaths gives pieces which lead from its begin through
    the points at the parameters, in the given order, to its end. *)
Theorem path_split_runs : forall fuel np params result, np <> [] -> (forall s, In s np -> simple s) -> path_split fuel np params = Ok result ->
  exists b e xs, path_atbegin np = Some b /\ path_atend np = Some e /\ Forall2 (point_of np) params xs /\ runs b result (xs ++ [e]).
Proof.
  intros fuel np params result N Sm E.
  assert (exists b, path_atbegin np = Some b) as (b & Hb).
  { destruct np as [|s np]; [congruence|]. destruct (simple_ends s (Sm s (or_introl eq_refl))) as (a & _ & H & _). exists a. auto. }
  assert (exists e, path_atend np = Some e) as (e & He).
  { destruct (exists_last N) as (l & s & ->). rewrite path_atend_app. destruct (simple_ends s) as (_ & c & _ & H & _); [apply Sm; apply in_or_app; right; now left|]. exists c. auto. }
  exists b, e. destruct params as [|[i t] params].
  - injection E as <-. exists []. repeat split; auto.
  - unfold path_split in E. cbn [split_loop] in E.
    destruct (split_loop_runs fuel np b e Sm He params [] (firstn i np) 0 [t] i result []) as (xs & F & R); eauto.
    + exact I.
    + intros Q s Hs. destruct i as [|i]; [|destruct np; [congruence|discriminate]]. destruct np as [|s0 np]; [congruence|]. injection Hs as <-.
      destruct (simple_ends s0 (Sm s0 (or_introl eq_refl))) as (a & _ & H & _ & O & _). simpl in Hb. rewrite H in Hb. injection Hb as <-. exact O.
    + intros Q. destruct np as [|s0 np]; [congruence|]. destruct i as [|i]; [now destruct Q|]. exact Hb.
Qed.
Print Assumptions path_split_runs.
Lemma two_subpaths_simple : forall s, In s two_subpaths -> simple s.
Proof.
  intros s [<-|[<-|[]]]; exists 1.
  - exists (0, 0), (4, 3). split; auto. split; [apply two_lines_connected|]. split; [discriminate|auto].
  - exists (0, 1), (0, 6). split; auto. split; [apply chained_connected; simpl; auto|]. split; [discriminate|auto].
Qed.
Lemma single_segments t a b (k : option item) l c : 0 < t < 1 -> Line a b = l -> distance a b * t >= 1 -> distance a b * (1 - t) >= 1 -> c = at_pt l t ->
  nsp_segments 1 (mknsp [l] false (Some 1) k) [0; t; 1] = Ok [mknsp [Line a c] false (Some 1) None; mknsp [Line c b] false (Some 1) None].
Proof.
  intros Ht <- D1 D2 ->. destruct a as [ax ay], b as [bx by_].
  assert (P : forall u, 0 <= u <= 1 -> param_index 1 u = 0%nat).
  { intros u Hu. unfold param_index. destruct (ltb_spec 0 u); auto. apply Nat.min_0_r. }
  set (c := at_pt (Line (ax, ay) (bx, by_)) t).
  assert (Q : dist (ax, ay) c = distance (ax, ay) (bx, by_) * Rabs t /\ dist c (bx, by_) = distance (ax, ay) (bx, by_) * Rabs (1 - t)).
  { rewrite <- !distance_dist. unfold distance, c. simpl.
    rewrite <- !(sqrt_Rsqr_abs), <- !sqrt_mult; try apply Rle_0_sqr; try (pose proof (Rle_0_sqr (ax - bx)); pose proof (Rle_0_sqr (ay - by_)); unfold Rsqr in *; lra).
    split; f_equal; unfold Rsqr; ring. }
  assert (Ea : (ax + (bx - ax) * (0 - INR 0), ay + (by_ - ay) * (0 - INR 0)) = (ax, ay)) by (simpl; apply pair_eq; ring).
  assert (Eb : (ax + (bx - ax) * (1 - INR 0), ay + (by_ - ay) * (1 - INR 0)) = (bx, by_)) by (simpl; apply pair_eq; ring).
  assert (Ec : (ax + (bx - ax) * (t - INR 0), ay + (by_ - ay) * (t - INR 0)) = c) by (unfold c; simpl; apply pair_eq; ring).
  destruct Q as [Q1 Q2]. rewrite !Rabs_pos_eq in Q1, Q2 by lra.
  unfold nsp_segments. cbn [items closed epsilon segments_loop length]. rewrite !P by lra. cbn [Nat.eqb app nth_error]. unfold add_segments.
  cbn [item_segments pairs segment]. unfold line_segment. cbn [at_pt] in *. rewrite Ea, Eb, Ec.
  cbn [append epsilon empty_nsp]. unfold mismatch. cbn [skipped empty_nsp lastitem items rev closed with_skipped]. rewrite Q1, leb_yes by lra.
  cbn [bind more_segments]. unfold make, extend. cbn [extend_with append epsilon empty_nsp]. unfold mismatch. cbn [skipped empty_nsp lastitem items rev closed with_skipped].
  rewrite Q2, leb_yes by lra. reflexivity.
Qed.
Example path_split_ex : path_split 1 two_subpaths [(1%nat, 2 / 5)] =
  Ok [[mknsp two_lines false (Some 1) None; mknsp [Line (0, 1) (0, 3)] false (Some 1) None]; [mknsp [Line (0, 3) (0, 6)] false (Some 1) None]].
Proof.
  unfold path_split, two_subpaths. cbn [split_loop nth_error items length INR app]. 
  rewrite (single_segments (2 / 5) (0, 1) (0, 6) None _ (0, 3)); auto; try lra; try (rewrite line_five; lra).
  simpl. apply pair_eq; lra.
Qed.
(** A short line at the end of the path, which is not stored as an item, is lost: then the
    last piece does not end at the end of the path. *)
Theorem split_skipped_refuted : exists s r1 r2, extend 1 (empty_nsp (Some 1)) [Line (0, 0) (4, 0); Line (4, 0) (9 / 2, 0)] = Ok s /\
  path_split 1 [s] [(0%nat, 1 / 2)] = Ok [r1; r2] /\ path_atend [s] = Some (9 / 2, 0) /\ path_atend r2 = Some (4, 0).
Proof.
  exists (mknsp [Line (0, 0) (4, 0)] false (Some 1) (Some (Line (4, 0) (9 / 2, 0)))), [mknsp [Line (0, 0) (2, 0)] false (Some 1) None], [mknsp [Line (2, 0) (4, 0)] false (Some 1) None].
  assert (D4 : distance (0, 0) (4, 0) = 4) by (rewrite distance_dist; apply dist_is; simpl; lra).
  split; [|split; [|auto]].
  - unfold extend. cbn [extend_with]. lines_go. rewrite (dist_is (0, 0) (4, 0) 4) by (simpl; lra). rewrite leb_yes by lra. lines_go.
    rewrite (dist_is (4, 0) (9 / 2, 0) (1 / 2)) by (simpl; lra). rewrite leb_no by lra. reflexivity.
  - unfold path_split. cbn [split_loop nth_error items length INR app].
    rewrite (single_segments (1 / 2) (0, 0) (4, 0) _ _ (2, 0)); auto; try lra; try (rewrite D4; lra). simpl. apply pair_eq; lra.
Qed.
Print Assumptions split_skipped_refuted.
