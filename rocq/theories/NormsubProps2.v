(** Further properties of subpaths: reversal, transformation, queries, arc lengths,
    segments and bounding box. *)
From Coq Require Import Reals ZArith List Lra Lia Bool Arith.
From Verif Require Import PyDict TrafoModel BboxModel BboxSpec BboxProps RootsModel CurveModel CurveSpec CurveProofs CurveProofs2
  CurveProofs3 CurveProofs4 CurveProps NormsubModel NormsubSpec NormsubProofs NormsubProofs2 NormsubProofs3 NormsubProofs4 NormsubProofs5 NormsubProofs6
  NormsubProps ArcProps.
Import ListNotations.
Open Scope R_scope.

Local Notation pt := (R * R)%type.

(** ** reversal *)
Lemma make_fast e f l p q c : 0 < e -> chained p l q -> Forall (fast e) l -> (c = true -> p = q /\ l <> []) ->
  make (S (S f)) l c (Some e) = Ok (mknsp l c (Some e) None).
Proof.
  intros He C F Hc. unfold make. rewrite (extend_fast e (S f) l He (empty_nsp (Some e)) p p q); auto; [|reflexivity].
  cbn [bind items empty_nsp app]. destruct c; auto. destruct (Hc eq_refl) as [-> N]. now apply close_fast with q.
Qed.
Lemma rev_rev l : map item_reversed (rev (map item_reversed (rev l))) = l.
Proof. rewrite <- map_rev, rev_involutive, map_map. rewrite map_ext with (g := fun x => x); [apply map_id|]. intros []; auto. Qed.
Lemma fast_rev e l : 0 <= e -> Forall (fast e) l -> Forall (fast e) (map item_reversed (rev l)).
Proof.
  intros He F. rewrite Forall_forall in *. intros i I. apply in_map_iff in I as (j & <- & J). apply in_rev in J. apply fast_reversed; auto.
Qed.
Lemma speeds e l : 0 <= e -> (forall i, In i l -> speed_at_least e i) -> Forall (fast e) l.
Proof. intros He H. apply Forall_forall. intros i I. now apply fast_speed, H. Qed.

(** C53: the reversed subpath has the point of the original one at the parameter counted
    from the other end, and reversing it again gives the original subpath.  The subpath may
    be open or closed. *)
Theorem reversed_subpath : forall f e s p q, 0 < e -> epsilon s = Some e -> skipped s = None ->
  connected p (items s) q -> (forall i, In i (items s) -> speed_at_least e i) -> (closed s = true -> p = q /\ items s <> []) ->
  exists r, nsp_reversed (S (S f)) s = Ok r /\ closed r = closed s /\ length (items r) = length (items s) /\
    (forall t x, on_path (items r) t x <-> on_path (items s) (INR (length (items s)) - t) x) /\
    nsp_reversed (S (S f)) r = Ok s.
Proof.
  intros f e s p q He Es Ks C V Hc. apply chained_connected in C. apply speeds in V; [|lra].
  exists (mknsp (map item_reversed (rev (items s))) (closed s) (Some e) None).
  assert (C' := chained_rev _ _ _ C). unfold nsp_reversed. cbn [items closed epsilon]. rewrite Es.
  split; [|split; [auto|split; [|split]]].
  - apply make_fast with q p; auto; [apply fast_rev; auto; lra|]. intros H. destruct (Hc H) as [-> N]. split; auto.
    destruct (items s) as [|i l]; [congruence|]. simpl. rewrite map_app. destruct (map item_reversed (rev l)); discriminate.
  - now rewrite map_length, rev_length.
  - intros t x. apply on_path_rev.
  - rewrite rev_rev. rewrite (make_fast e f (items s) p q (closed s)); auto. destruct s; simpl in *; subst; auto.
Qed.
Print Assumptions reversed_subpath.
Lemma line_speed e p q : e <= dist p q -> 0 <= e -> speed_at_least e (Line p q).
Proof. intros H He. now apply fast_speed. Qed.
Definition two_lines : list item := [Line (0, 0) (4, 0); Line (4, 0) (4, 3)].
Lemma two_lines_speed : forall i, In i two_lines -> speed_at_least 1 i.
Proof.
  intros i [<-|[<-|[]]]; apply line_speed; try lra.
  - rewrite (dist_is (0, 0) (4, 0) 4) by (simpl; lra). lra.
  - rewrite (dist_is (4, 0) (4, 3) 3) by (simpl; lra). lra.
Qed.
Lemma two_lines_connected : connected (0, 0) two_lines (4, 3).
Proof. apply chained_connected. simpl. auto. Qed.
Example reversed_ex : nsp_reversed 2 (mknsp two_lines false (Some 1) None) = Ok (mknsp [Line (4, 3) (4, 0); Line (4, 0) (0, 0)] false (Some 1) None).
Proof.
  unfold nsp_reversed. cbn [items closed epsilon]. apply (make_fast 1 0 _ (4, 3) (0, 0)); [lra| | |discriminate].
  - simpl. auto.
  - apply (fast_rev 1 two_lines); [lra|]. apply speeds; [lra|apply two_lines_speed].
Qed.
(** without epsilon all open subpaths are reversed *)
Theorem reversed_without_epsilon : forall f s, epsilon s = None -> closed s = false -> skipped s = None ->
  exists r, nsp_reversed (S f) s = Ok r /\ (forall t x, on_path (items r) t x <-> on_path (items s) (INR (length (items s)) - t) x) /\
    nsp_reversed (S f) r = Ok s.
Proof.
  intros f s Es Hc Ks.
  assert (G : forall l s, epsilon s = None -> extend (S f) s l = Ok (mknsp (items s ++ l) (closed s) None (skipped s))).
  { induction l as [|i l IH]; intros s0 E0; unfold extend; cbn [extend_with].
    - rewrite app_nil_r. destruct s0; simpl in *; subst; auto.
    - cbn [append]. rewrite E0. cbn [bind]. unfold extend in IH. rewrite IH by auto. cbn [push items closed skipped]. now rewrite <- app_assoc. }
  exists (mknsp (map item_reversed (rev (items s))) false None None).
  unfold nsp_reversed, make. cbn [items closed epsilon]. rewrite Es, Hc, !G by auto. cbn [bind items empty_nsp app closed skipped].
  split; auto. split; [intros t x; apply on_path_rev|]. rewrite rev_rev. destruct s; simpl in *; subst; auto.
Qed.
Print Assumptions reversed_without_epsilon.
Example reversed_without_epsilon_ex : nsp_reversed 1 (mknsp [Line (0, 0) (1, 0); Line (1, 0) (1, 0)] false None None) =
  Ok (mknsp [Line (1, 0) (1, 0); Line (1, 0) (0, 0)] false None None).
Proof. reflexivity. Qed.

(** C53: the skipped line is lost, so the reversed subpath begins somewhere else; a subpath
    with nothing but a skipped line becomes empty. *)
Theorem reversed_skipped_refuted :
  (exists s r, extend 1 (empty_nsp (Some 1)) [Line (0, 0) (4, 0); Line (4, 0) (9 / 2, 0)] = Ok s /\ nsp_atend s = Some (9 / 2, 0) /\
     nsp_reversed 1 s = Ok r /\ nsp_atbegin r = Some (4, 0)) /\
  (exists s r, extend 1 (empty_nsp (Some 1)) [Line (0, 0) (1 / 2, 0)] = Ok s /\ nsp_atend s = Some (1 / 2, 0) /\
     nsp_reversed 1 s = Ok r /\ nsp_atbegin r = None).
Proof.
  split.
  - exists (mknsp [Line (0, 0) (4, 0)] false (Some 1) (Some (Line (4, 0) (9 / 2, 0)))), (mknsp [Line (4, 0) (0, 0)] false (Some 1) None).
    split; [|split; [auto|split; [|auto]]].
    + unfold extend. cbn [extend_with]. lines_go. rewrite (dist_is (0, 0) (4, 0) 4) by (simpl; lra). rewrite leb_yes by lra. lines_go.
      rewrite (dist_is (4, 0) (9 / 2, 0) (1 / 2)) by (simpl; lra). rewrite leb_no by lra. reflexivity.
    + unfold nsp_reversed, make, extend. cbn [items closed epsilon rev app map item_reversed extend_with]. lines_go.
      rewrite (dist_is (4, 0) (0, 0) 4) by (simpl; lra). rewrite leb_yes by lra. reflexivity.
  - exists (mknsp [] false (Some 1) (Some (Line (0, 0) (1 / 2, 0)))), (empty_nsp (Some 1)). split; [|auto].
    unfold extend. cbn [extend_with]. lines_go. rewrite (dist_is (0, 0) (1 / 2, 0) (1 / 2)) by (simpl; lra). rewrite leb_no by lra. reflexivity.
Qed.
Print Assumptions reversed_skipped_refuted.
(** C53: without epsilon the reversal of a closed subpath gets an additional line. *)
Theorem reversed_closed_refuted : forall l, l <> [] -> exists r extra, nsp_reversed 1 (mknsp l true None None) = Ok r /\
  items r = map item_reversed (rev l) ++ [extra] /\ closed r = true.
Proof.
  intros l N. unfold nsp_reversed. cbn [items closed epsilon].
  assert (G : forall l s, epsilon s = None -> extend 1 s l = Ok (mknsp (items s ++ l) (closed s) None (skipped s))).
  { clear. induction l as [|i l IH]; intros s0 E0; unfold extend; cbn [extend_with].
    - rewrite app_nil_r. destruct s0; simpl in *; subst; auto.
    - cbn [append]. rewrite E0. cbn [bind]. unfold extend in IH. rewrite IH by auto. cbn [push items closed skipped]. now rewrite <- app_assoc. }
  unfold make. rewrite G by auto. cbn [bind items empty_nsp app closed skipped]. set (l' := map item_reversed (rev l)).
  assert (N' : l' <> []).
  { unfold l'. destruct l as [|i l]; [congruence|]. simpl. rewrite map_app. destruct (map item_reversed (rev l)); discriminate. }
  clearbody l'. unfold close. cbn [closed items]. destruct (lastitem l') as [k|] eqn:L; [|apply lastitem_none in L; congruence].
  destruct l' as [|i l']; [congruence|]. cbn [append epsilon bind push items closed skipped flush].
  eexists. eexists. split; [reflexivity|]. split; reflexivity.
Qed.
Print Assumptions reversed_closed_refuted.
Example reversed_closed_ex : nsp_reversed 1 (mknsp [Line (0, 0) (4, 0); Line (4, 0) (0, 0)] true None None) =
  Ok (mknsp [Line (0, 0) (4, 0); Line (4, 0) (0, 0); Line (0, 0) (0, 0)] true None None).
Proof. reflexivity. Qed.

(** ** transformation *)
(** C54: transforming by a transformation which does not shrink distances gives the
    transformed points at the same parameters. *)
Theorem transformed_subpath : forall f e m s p q, 0 < e -> (forall x y, distance x y <= distance (apply_pt m x) (apply_pt m y)) ->
  epsilon s = Some e -> skipped s = None -> connected p (items s) q -> (forall i, In i (items s) -> speed_at_least e i) ->
  (closed s = true -> p = q /\ items s <> []) ->
  exists r, nsp_transformed (S (S f)) m s = Ok r /\ closed r = closed s /\ length (items r) = length (items s) /\
    forall t x, on_path (items s) t x -> on_path (items r) t (apply_pt m x).
Proof.
  intros f e m s p q He M Es Ks C V Hc. apply chained_connected in C. apply speeds in V; [|lra].
  exists (mknsp (map (item_transformed m) (items s)) (closed s) (Some e) None). cbn [closed items].
  split; [|split; [auto|split; [now rewrite map_length|]]].
  - assert (F : Forall (fast e) (map (item_transformed m) (items s))).
    { rewrite Forall_forall in *. intros i I. apply in_map_iff in I as (j & <- & J). apply fast_transformed; auto. lra. }
    pose proof (chained_transformed m _ _ _ C) as C'.
    assert (Hc' : closed s = true -> apply_pt m p = apply_pt m q /\ map (item_transformed m) (items s) <> []).
    { intros H. destruct (Hc H) as [-> N]. split; auto. destruct (items s); [congruence|discriminate]. }
    pose proof (make_fast e f _ _ _ (closed s) He C' F Hc') as K. unfold make in K. unfold nsp_transformed. rewrite Es, Ks.
    exact K.
  - intros t x. apply on_path_map. intros i u. destruct i as [[x0 y0] [x1 y1]|[x0 y0] [x1 y1] [x2 y2] [x3 y3]]; simpl; unfold apply_pt, curve_coord; simpl; pairs_ring.
Qed.
Print Assumptions transformed_subpath.
Example transformed_ex : exists r, nsp_transformed 2 (mktrafo 0 (-2) 2 0 1 1) (mknsp two_lines false (Some 1) None) = Ok r /\
  on_path (items r) (3 / 2) (-2, 9).
Proof.
  destruct (transformed_subpath 0 1 (mktrafo 0 (-2) 2 0 1 1) (mknsp two_lines false (Some 1) None) (0, 0) (4, 3)) as (r & X & _ & _ & O); auto; try lra.
  - intros x y. unfold distance, apply_pt. simpl. apply sqrt_le_1_alt. pose proof (Rle_0_sqr (fst x - fst y)). pose proof (Rle_0_sqr (snd x - snd y)). unfold Rsqr in *. lra.
  - exact two_lines_connected.
  - exact two_lines_speed.
  - discriminate.
  - exists r. split; auto. replace (-2, 9) with (apply_pt (mktrafo 0 (-2) 2 0 1 1) (4, 3 / 2)).
    + apply O. exists 1%nat, (Line (4, 0) (4, 3)). split; auto. split; [simpl; apply pair_eq; lra|]. simpl. split; [right; lra|auto].
    + unfold apply_pt. simpl. apply pair_eq; lra.
Qed.
(** C54: the end points of an open subpath, also of one with a skipped line, are transformed
    by any transformation. *)
Theorem transformed_ends : forall fuel e l p q s m r, l <> [] -> connected p l q -> extend fuel (empty_nsp (Some e)) l = Ok s ->
  nsp_transformed fuel m s = Ok r -> nsp_atbegin r = Some (apply_pt m p) /\ nsp_atend r = Some (apply_pt m q) /\ closed r = false.
Proof.
  intros fuel e l p q s m r N C X T. apply chained_connected in C.
  destruct (extend_leads e fuel l (empty_nsp (Some e)) p p q s eq_refl eq_refl (leads_empty e p) C X) as ((x & Cx & Kx) & E1 & H1).
  pose proof (extend_nonempty _ _ _ _ X N) as Ns. unfold nsp_transformed in T. rewrite E1, H1 in T.
  destruct (extend fuel (empty_nsp (Some e)) (map (item_transformed m) (items s))) as [s'| |] eqn:X'; cbn [bind] in T; try discriminate.
  destruct (extend_leads e fuel _ (empty_nsp (Some e)) _ _ _ s' eq_refl eq_refl (leads_empty e (apply_pt m p)) (chained_transformed m _ _ _ Cx) X') as (L' & E' & H').
  destruct (skipped s) as [k|].
  - destruct Kx as (x0 & y0 & -> & -> & -> & _). cbn [item_transformed] in T.
    destruct (append_leads e fuel s' (Line (apply_pt m x) (apply_pt m q)) _ _ r E' L' (fun _ => eq_refl) T) as (Lr & Er & Hr). split; [|split; [|auto]];
    apply (leads_ends e r _ _ Lr (append_progress _ _ _ _ T)).
  - injection T as <-. simpl in Kx. subst x. assert (Nm : map (item_transformed m) (items s) <> []) by (destruct (items s); [now destruct Ns|discriminate]).
    split; [|split; [|auto]]; apply (leads_ends e s' _ _ L' (extend_nonempty _ _ _ _ X' Nm)).
Qed.
Print Assumptions transformed_ends.
(** two lines shrunk to half an epsilon each are joined, and keep the end points *)
Lemma shrunk : nsp_transformed 1 (mktrafo (1 / 8) 0 0 (1 / 8) 0 0) (mknsp [Line (0, 0) (4, 0); Line (4, 0) (8, 0)] false (Some 1) None) =
  Ok (mknsp [Line (0, 0) (1, 0)] false (Some 1) None).
Proof.
  unfold nsp_transformed, extend, apply_pt. cbn [items epsilon closed skipped map item_transformed extend_with apply_pt fst snd m00 m01 m10 m11 v0 v1]. unfold apply_pt. cbn [fst snd m00 m01 m10 m11 v0 v1].
  replace (1 / 8 * 0 + 0 * 0 + 0, 0 * 0 + 1 / 8 * 0 + 0) with (0, 0) by (apply pair_eq; lra).
  replace (1 / 8 * 4 + 0 * 0 + 0, 0 * 4 + 1 / 8 * 0 + 0) with (1 / 2, 0) by (apply pair_eq; lra).
  replace (1 / 8 * 8 + 0 * 0 + 0, 0 * 8 + 1 / 8 * 0 + 0) with (1, 0) by (apply pair_eq; lra). lines_go.
  rewrite (dist_is (0, 0) (1 / 2, 0) (1 / 2)) by (simpl; lra). rewrite leb_no by lra. lines_go.
  rewrite (dist_is (0, 0) (1, 0) 1) by (simpl; lra). rewrite leb_yes by lra. reflexivity.
Qed.
Example transformed_ends_ex : exists s r, extend 1 (empty_nsp (Some 1)) [Line (0, 0) (4, 0); Line (4, 0) (8, 0)] = Ok s /\
  nsp_transformed 1 (mktrafo (1 / 8) 0 0 (1 / 8) 0 0) s = Ok r /\ nsp_atend r = Some (1, 0).
Proof.
  eexists. eexists. split; [|split; [exact shrunk|reflexivity]].
  unfold extend. cbn [extend_with]. lines_go. rewrite (dist_is (0, 0) (4, 0) 4) by (simpl; lra). rewrite leb_yes by lra. lines_go.
  rewrite (dist_is (4, 0) (8, 0) 4) by (simpl; lra). rewrite leb_yes by lra. reflexivity.
Qed.
(** C54: transformations shrinking items below epsilon remove items and thus change the
    points at the parameters. *)
Theorem transformed_refuted : exists m s r t x y, nsp_transformed 1 m s = Ok r /\
  (forall i, In i (items s) -> speed_at_least 1 i) /\ connected (0, 0) (items s) (8, 0) /\ epsilon s = Some 1 /\
  on_path (items s) t x /\ on_path (items r) t y /\ y <> apply_pt m x.
Proof.
  exists (mktrafo (1 / 8) 0 0 (1 / 8) 0 0), (mknsp [Line (0, 0) (4, 0); Line (4, 0) (8, 0)] false (Some 1) None), (mknsp [Line (0, 0) (1, 0)] false (Some 1) None), 1, (4, 0), (1, 0).
  split; [exact shrunk|]. split; [|split; [|split; [|split; [|split]]]].
  - intros i [<-|[<-|[]]]; apply line_speed; try lra.
    + rewrite (dist_is (0, 0) (4, 0) 4) by (simpl; lra). lra.
    + rewrite (dist_is (4, 0) (8, 0) 4) by (simpl; lra). lra.
  - apply chained_connected. simpl. auto.
  - reflexivity.
  - exists 0%nat, (Line (0, 0) (4, 0)). split; auto. split; [simpl; apply pair_eq; lra|]. simpl. split; [auto|right; lra].
  - exists 0%nat, (Line (0, 0) (1, 0)). split; auto. split; [simpl; apply pair_eq; lra|]. simpl. auto.
  - intros H. apply (f_equal fst) in H. unfold apply_pt in H. simpl in H. lra.
Qed.
Print Assumptions transformed_refuted.

(** ** queries with lists of parameters *)
(** C55: the answers for a list of parameters are those for its members, in order, for every
    method of the items; the points are those of the path. *)
Theorem queries_independent : forall C (f : item -> R -> C) s params, items s <> [] ->
  nsp_query f s params = flat_map (fun t => nsp_query f s [t]) params /\
  Forall2 (fun t answer => exists k i, nth_error (items s) k = Some i /\ answer = Some (f i (t - INR k)) /\
             (k = 0%nat \/ INR k <= t) /\ (S k = length (items s) \/ t <= INR k + 1)) params (nsp_query f s params).
Proof.
  intros C f s params N. unfold nsp_query. destruct (items s) as [|i0 l] eqn:I; [congruence|]. rewrite <- I in *. split.
  - rewrite (query_list f (items s) params i0 N). induction params as [|t params IH]; auto. cbn [map flat_map]. rewrite IH.
    pose proof (query_list f (items s) [t] i0 N) as Q. cbn [map length] in *. rewrite Q. reflexivity.
  - rewrite (query_list f (items s) params i0 N). induction params as [|t params IH]; constructor; auto.
    destruct (param_index_spec (length (items s)) t) as (H1 & H2 & H3); [destruct (items s); [congruence|simpl; lia]|].
    exists (param_index (length (items s)) t), (nth (param_index (length (items s)) t) (items s) i0). split; [now apply nth_error_nth'|auto].
Qed.
Print Assumptions queries_independent.
Example queries_ex : nsp_query (fun i t => (i, t)) (mknsp two_lines false (Some 1) None) [5; -1; 5] =
  [Some (Line (4, 0) (4, 3), 5 - 1); Some (Line (0, 0) (4, 0), -1 - 0); Some (Line (4, 0) (4, 3), 5 - 1)].
Proof.
  assert (P5 : param_index 2 5 = 1%nat) by (unfold param_index; rewrite ltb_yes by lra; rewrite (floor_known 5 5) by lra; reflexivity).
  assert (P1 : param_index 2 (-1) = 0%nat) by (unfold param_index; rewrite ltb_no by lra; reflexivity).
  unfold nsp_query, distributeparams, distribute. cbn [items two_lines length distribute_from]. rewrite P5, P1. reflexivity.
Qed.
Theorem points_independent : forall s params, items s <> [] ->
  nsp_at s params = flat_map (fun t => nsp_at s [t]) params /\
  Forall2 (fun t answer => exists x, answer = Some x /\ on_path (items s) t x) params (nsp_at s params).
Proof.
  intros s params N. assert (E : forall l, nsp_at s l = nsp_query at_pt s l) by (intros l; unfold nsp_at, nsp_query; destruct (items s); [congruence|reflexivity]).
  destruct (queries_independent _ at_pt s params N) as [Q1 Q2]. split.
  - rewrite E, Q1. apply flat_map_ext. auto.
  - rewrite E. clear Q1. induction Q2 as [|t a params answers (k & i & H1 & H2 & H3 & H4) _ IH]; constructor; auto.
    exists (at_pt i (t - INR k)). split; auto. exists k, i. auto.
Qed.
Print Assumptions points_independent.
Example points_ex : exists s, make 2 two_lines false (Some 1) = Ok s /\ nsp_at s [1; 0; 3 / 2] = [Some (4, 0); Some (0, 0); Some (4, 3 / 2)].
Proof.
  exists (mknsp two_lines false (Some 1) None). split.
  - apply (make_fast 1 0 two_lines (0, 0) (4, 3)); [lra| |apply speeds; [lra|exact two_lines_speed]|discriminate]. simpl. auto.
  - assert (P1 : param_index 2 1 = 1%nat) by (unfold param_index; rewrite ltb_yes by lra; rewrite (floor_known 1 1) by lra; reflexivity).
    assert (P0 : param_index 2 0 = 0%nat) by (unfold param_index; rewrite ltb_no by lra; reflexivity).
    assert (P3 : param_index 2 (3 / 2) = 1%nat) by (unfold param_index; rewrite ltb_yes by lra; rewrite (floor_known (3 / 2) 1) by lra; reflexivity).
    unfold nsp_at, distributeparams, distribute. cbn [items two_lines length distribute_from]. rewrite P1, P0, P3. simpl.
    unfold collect, two_lines. cbn [fold_left repeat combine item_method nth_error map set_nth at_pt fst snd].
    apply f_equal2; [|apply f_equal2; [|apply f_equal2; [|reflexivity]]]; f_equal; apply pair_eq; lra.
Qed.
(** The point at a parameter is determined by the items, also at the ends of items. *)
Theorem point_unique : forall p l q t x y, connected p l q -> on_path l t x -> on_path l t y -> x = y.
Proof. intros p l q t x y C. apply chained_connected in C. now apply on_path_unique with p q. Qed.
Print Assumptions point_unique.
Example point_unique_ex : forall x, on_path two_lines 1 x -> x = (4, 0).
Proof.
  intros x H. apply (point_unique _ _ _ 1 x (4, 0) two_lines_connected H).
  exists 0%nat, (Line (0, 0) (4, 0)). split; auto. split; [simpl; apply pair_eq; lra|]. simpl. split; [auto|right; lra].
Qed.
(** A subpath with only a skipped line gives its begin for all parameters. *)
Theorem points_skipped : forall fuel e l p q s params, l <> [] -> connected p l q -> extend fuel (empty_nsp (Some e)) l = Ok s -> items s = [] ->
  nsp_at s params = map (fun _ => Some p) params.
Proof.
  intros fuel e l p q s params N C X I. destruct (subpath_connected fuel e l p q s N C X) as (_ & _ & _ & m & Cm & K).
  pose proof (extend_nonempty _ _ _ _ X N) as Ns. unfold nsp_at. rewrite I in *. simpl in Cm. subst m.
  destruct (skipped s) as [k|]; [|now destruct Ns]. destruct K as (_ & <- & _). destruct (begin_at k) as [-> _]. auto.
Qed.
Print Assumptions points_skipped.
Example points_skipped_ex : exists s, extend 1 (empty_nsp (Some 1)) [Line (3, 0) (3, 1 / 2)] = Ok s /\ nsp_at s [0; 1] = [Some (3, 0); Some (3, 0)].
Proof.
  exists (mknsp [] false (Some 1) (Some (Line (3, 0) (3, 1 / 2)))). split; [|reflexivity].
  unfold extend. cbn [extend_with]. lines_go. rewrite (dist_is (3, 0) (3, 1 / 2) (1 / 2)) by (simpl; lra). rewrite leb_no by lra. reflexivity.
Qed.

(** ** arc lengths *)
(** C49: the total is the sum of the lengths of the lines; every length is converted to the
    parameter having this arc length, whatever the other lengths in the list are. *)
Theorem arclen_to_param : forall ls lengths, ls <> [] -> (forall p q, In (p, q) ls -> 0 < distance p q) ->
  lines_arclen ls = total_length ls /\ snd (nsp_arclentoparam ls lengths) = total_length ls /\
  Forall2 (fun x answer => exists t, answer = Some t /\ arc_length_at ls t x) lengths (fst (nsp_arclentoparam ls lengths)).
Proof.
  intros ls lengths N P. split; [apply lines_arclen_total|].
  destruct (arclentoparam_loop_ok ls 0 (map (fun l => (l, None)) lengths) 0) as [E1 E2].
  unfold nsp_arclentoparam. destruct (arclentoparam_loop 0 ls _ 0) as [st total]. simpl in *. split; [lra|]. rewrite E1, map_map.
  assert (F : Forall (fun l => 0 < len l) ls) by (apply Forall_forall; intros [a b] H; now apply P).
  clear E1. induction lengths as [|x lengths IH]; simpl; constructor; auto. now apply a2p_spec.
Qed.
Print Assumptions arclen_to_param.
(** C49: every parameter is converted to the arc length up to it. *)
Theorem param_to_arclen : forall ls params, ls <> [] ->
  snd (nsp_paramtoarclen ls params) = total_length ls /\
  Forall2 (fun t answer => exists x, answer = Some x /\ arc_length_at ls t x) params (fst (nsp_paramtoarclen ls params)).
Proof.
  intros ls params N. rewrite nsp_paramtoarclen_ok by auto. split; auto. simpl. induction params as [|t params IH]; simpl; constructor; auto.
  exists (p2a ls t). split; auto. now apply p2a_spec.
Qed.
Print Assumptions param_to_arclen.
(** C49: thus both conversions are inverse to each other on arbitrary lists. *)
Theorem arclen_roundtrip : forall ls xs, ls <> [] -> (forall p q, In (p, q) ls -> 0 < distance p q) ->
  (exists ts, fst (nsp_arclentoparam ls xs) = map Some ts /\ fst (nsp_paramtoarclen ls ts) = map Some xs) /\
  (exists ys, fst (nsp_paramtoarclen ls xs) = map Some ys /\ fst (nsp_arclentoparam ls ys) = map Some xs).
Proof.
  intros ls xs N P. assert (F : Forall (fun l => 0 < len l) ls) by (apply Forall_forall; intros [a b] H; now apply P).
  assert (G : forall (Q S : R -> R -> Prop) l a, Forall2 (fun x answer => exists t, answer = Some t /\ Q x t) l a -> exists ts, a = map Some ts /\ Forall2 Q l ts).
  { clear. intros Q S l a H. induction H as [|x y l a (t & -> & Ht) _ (ts & -> & IH)]; [exists []; auto|]. exists (t :: ts). split; auto. }
  assert (U : forall (Q S : R -> R -> Prop) l ts us, (forall x t u, Q x t -> S t u -> u = x) -> Forall2 Q l ts -> Forall2 S ts us -> us = l).
  { clear. intros Q S l ts us H F. revert us. induction F as [|x t l ts Hq _ IH]; intros us K; inversion K; subst; auto. f_equal; eauto. }
  split.
  - destruct (arclen_to_param ls xs N P) as (_ & _ & A). apply G in A as (ts & E & A); [|exact (fun _ _ => True)]. exists ts. split; auto.
    destruct (param_to_arclen ls ts N) as [_ B]. apply G in B as (us & E' & B); [|exact (fun _ _ => True)]. rewrite E'. f_equal.
    refine (U _ _ _ _ _ _ A B). intros x t u H1 H2. simpl in *. exact (arc_length_unique ls t u x H2 H1).
  - destruct (param_to_arclen ls xs N) as [_ A]. apply G in A as (ys & E & A); [|exact (fun _ _ => True)]. exists ys. split; auto.
    destruct (arclen_to_param ls ys N P) as (_ & _ & B). apply G in B as (us & E' & B); [|exact (fun _ _ => True)]. rewrite E'. f_equal.
    refine (U _ _ _ _ _ _ A B). intros t x u H1 H2. simpl in *. exact (arc_length_param_unique ls u t x F H2 H1).
Qed.
Print Assumptions arclen_roundtrip.
(** C49: an arc length is positive and below the total exactly inside. *)
Theorem arclen_monotone : forall ls t u x y, (forall p q, In (p, q) ls -> 0 < distance p q) -> arc_length_at ls t x -> arc_length_at ls u y -> (t < u <-> x < y).
Proof.
  intros ls t u x y P H1 H2. assert (F : Forall (fun l => 0 < len l) ls) by (apply Forall_forall; intros [a b] H; now apply P).
  split; intros L; [exact (arc_length_mono ls t u x y F H1 H2 L)|]. destruct (Rlt_or_le t u) as [?|[K| ->]]; auto.
  - pose proof (arc_length_mono ls u t y x F H2 H1 K). lra.
  - rewrite (arc_length_unique ls t x y H1 H2) in L. lra.
Qed.
Print Assumptions arclen_monotone.
Definition two_parts : list (pt * pt) := [((0, 0), (4, 0)); ((4, 0), (4, 3))].
Lemma two_parts_pos : forall p q, In (p, q) two_parts -> 0 < distance p q.
Proof.
  intros p q [H|[H|[]]]; injection H as <- <-; rewrite distance_dist.
  - rewrite (dist_is (0, 0) (4, 0) 4) by (simpl; lra). lra.
  - rewrite (dist_is (4, 0) (4, 3) 3) by (simpl; lra). lra.
Qed.
Lemma total_two : total_length two_parts = 7.
Proof.
  unfold total_length, two_parts. cbn [map fold_right fst snd]. rewrite !distance_dist.
  rewrite (dist_is (0, 0) (4, 0) 4), (dist_is (4, 0) (4, 3) 3) by (simpl; lra). lra.
Qed.
Example arclen_ex : fst (nsp_arclentoparam two_parts [10; 2; 4; -4]) = [Some 3; Some (1 / 2); Some 1; Some (-1)] /\
  fst (nsp_paramtoarclen two_parts [3; 1 / 2; 1; -1]) = [Some 10; Some 2; Some 4; Some (-4)].
Proof.
  assert (L1 : line_arclen (0, 0) (4, 0) = 4) by (rewrite line_arclen_distance, distance_dist; apply dist_is; simpl; lra).
  assert (L2 : line_arclen (4, 0) (4, 3) = 3) by (rewrite line_arclen_distance, distance_dist; apply dist_is; simpl; lra).
  assert (A : fst (nsp_arclentoparam two_parts [10; 2; 4; -4]) = [Some 3; Some (1 / 2); Some 1; Some (-1)]).
  { unfold nsp_arclentoparam, two_parts. cbn [arclentoparam_loop map]. unfold line_arclentoparam. rewrite L1, L2.
    rewrite (ltb_no (10 - 4) 0), (ltb_yes (2 - 4) 0), (ltb_no (4 - 4) 0), (ltb_yes (-4 - 4) 0) by lra. cbn [orb]. rewrite !orb_true_r. cbn.
    apply f_equal2; [|apply f_equal2; [|apply f_equal2; [|apply f_equal2; [|reflexivity]]]]; f_equal; lra. }
  split; auto. destruct (arclen_roundtrip two_parts [10; 2; 4; -4] ltac:(discriminate) two_parts_pos) as ((ts & E & B) & _).
  rewrite A in E. destruct ts as [|a [|b [|c [|d [|? ?]]]]]; try discriminate. cbn [map] in *. injection E as <- <- <- <-. exact B.
Qed.

(** ** segments *)
(** C76: there is one segment between any two successive parameters; it goes from the point
    of the first to that of the second parameter, along the path backwards if the
    parameters decrease.  The subpath is open, or closed while the parameters do not go
    from one of its ends to the other. *)
Theorem segments_ends : forall fuel e s p q params result, epsilon s = Some e -> connected p (items s) q -> items s <> [] ->
  (closed s = false \/ (hd 0 params <> 0 /\ hd 0 params <> INR (length (items s)))) ->
  nsp_segments fuel s params = Ok result ->
  length params = S (length result) /\
  forall k r t u, nth_error result k = Some r -> nth_error params k = Some t -> nth_error params (S k) = Some u ->
    exists x y, on_path (items s) t x /\ on_path (items s) u y /\ nsp_atbegin r = Some x /\ nsp_atend r = Some y /\ closed r = false /\
      exists m, connected x (items r) m /\
        match skipped r with None => m = y | Some l => (exists a b, l = Line a b) /\ at_pt l 0 = m /\ at_pt l 1 = y /\ distance m y < e end.
Proof.
  intros fuel e s p q params result Es C N Hc. apply chained_connected in C. unfold nsp_segments.
  destruct params as [|t0 [|t1 params]]; try discriminate. destruct (items s) as [|i0 its] eqn:I; [congruence|]. rewrite <- I in *. clear I.
  destruct (segments_loop fuel s (t0 :: t1 :: params) [] (empty_nsp (epsilon s)) [] None) as [res| |] eqn:Run; cbn [bind]; try discriminate.
  assert (K : (closed s && (reqb t0 0 && reqb (last (t0 :: t1 :: params) 0) (INR (length (items s))) || reqb (last (t0 :: t1 :: params) 0) 0 && reqb t0 (INR (length (items s)))))%bool = false).
  { destruct Hc as [->|[H1 H2]]; auto. simpl in H1, H2. unfold reqb. destruct (Req_EM_T t0 0); [congruence|]. destruct (Req_EM_T t0 (INR (length (items s)))); [congruence|].
    rewrite andb_false_r. apply andb_false_r. }
  rewrite K. intros [= <-].
  assert (Nl : t1 :: params <> []) by discriminate.
  destruct (segments_loop_ok e s Es p q C fuel N _ _ _ Run Nl) as [L W]. rewrite map_length in L. split; auto.
  intros k r t u H1 H2 H3. specialize (W k r (the_pt s t) (the_pt s u) H1 (map_nth_error _ _ _ H2) (map_nth_error _ _ _ H3)).
  destruct W as (W1 & W2 & W3 & W4). exists (the_pt s t), (the_pt s u).
  assert (O : forall t, on_path (items s) t (the_pt s t)).
  { intros v. unfold the_pt. destruct (param_index_spec (length (items s)) v) as (G1 & G2 & G3); [destruct (items s); [congruence|simpl; lia]|].
    destruct (nth_error (items s) (param_index (length (items s)) v)) as [i|] eqn:G; [|apply nth_error_None in G; lia].
    exists (param_index (length (items s)) v), i. auto. }
  destruct (leads_ends e r _ _ W1 W4) as [B E]. split; auto. split; auto. split; auto. split; auto. split; auto. now apply leads_iff.
Qed.
Print Assumptions segments_ends.

Lemma segment_whole i : segment i 0 1 = i.
Proof.
  destruct i as [[x0 y0] [x1 y1]|[x0 y0] [x1 y1] [x2 y2] [x3 y3]]; simpl.
  - unfold line_segment. simpl. f_equal; apply pair_eq; ring.
  - unfold curve_segment, segment_coord, curve_coord. simpl. f_equal; apply pair_eq; field.
Qed.
Lemma index_at n k : (k < n)%nat -> param_index n (INR k) = k.
Proof.
  intros H. unfold param_index. destruct k as [|k]; [rewrite ltb_no by (simpl; lra); auto|].
  rewrite ltb_yes by (apply lt_0_INR; lia). rewrite (floor_known (INR (S k)) (Z.of_nat (S k))); [|rewrite <- INR_IZR_INZ; lra].
  rewrite Nat2Z.id. lia.
Qed.
Lemma index_end n : (0 < n)%nat -> param_index n (INR n) = (n - 1)%nat.
Proof.
  intros H. unfold param_index. rewrite ltb_yes by (apply lt_0_INR; lia).
  rewrite (floor_known (INR n) (Z.of_nat n)); [|rewrite <- INR_IZR_INZ; lra]. rewrite Nat2Z.id. lia.
Qed.
Example segments_ex : nsp_segments 1 (mknsp two_lines false (Some 1) None) [3 / 2; 1 / 4] =
  Ok [mknsp [Line (4, 3 / 2) (4, 0); Line (4, 0) (1, 0)] false (Some 1) None].
Proof.
  assert (P3 : param_index 2 (3 / 2) = 1%nat) by (unfold param_index; rewrite ltb_yes by lra; rewrite (floor_known (3 / 2) 1) by lra; reflexivity).
  assert (P1 : param_index 2 (1 / 4) = 0%nat) by (unfold param_index; rewrite ltb_yes by lra; rewrite (floor_known (1 / 4) 0) by lra; reflexivity).
  assert (R : segments_loop 1 (mknsp two_lines false (Some 1) None) [3 / 2; 1 / 4] [] (empty_nsp (Some 1)) [] None =
    Ok [mknsp [Line (4, 3 / 2) (4, 0); Line (4, 0) (1, 0)] false (Some 1) None]).
  { unfold two_lines. cbn [segments_loop items length epsilon]. rewrite P3, P1. cbn [Nat.eqb Nat.ltb Nat.leb app nth_error].
    unfold add_segments. cbn [item_segments pairs segment]. unfold line_segment. cbn [at_pt fst snd INR].
    replace (4 + (4 - 4) * (3 / 2 - 1), 0 + (3 - 0) * (3 / 2 - 1)) with (4, 3 / 2) by (apply pair_eq; lra).
    replace (4 + (4 - 4) * 0, 0 + (3 - 0) * 0) with (4, 0) by (apply pair_eq; lra).
    replace (0 + (4 - 0) * 1, 0 + (0 - 0) * 1) with (4, 0) by (apply pair_eq; lra).
    replace (0 + (4 - 0) * (1 / 4 - 0), 0 + (0 - 0) * (1 / 4 - 0)) with (1, 0) by (apply pair_eq; lra).
    lines_go. rewrite (dist_is (4, 3 / 2) (4, 0) (3 / 2)) by (simpl; lra). rewrite leb_yes by lra.
    cbn [bind more_segments Nat.sub firstn rev map]. unfold extend. lines_go.
    rewrite (dist_is (4, 0) (1, 0) 3) by (simpl; lra). rewrite leb_yes by lra. reflexivity. }
  unfold nsp_segments. cbn [items epsilon]. rewrite R. reflexivity.
Qed.
(** C76: the one segment of a closed subpath from its begin to its end is joined to itself,
    so the whole path appears twice. *)
Theorem segments_closed_refuted : forall f e s p, 0 < e -> epsilon s = Some e -> closed s = true -> items s <> [] ->
  connected p (items s) p -> (forall i, In i (items s) -> speed_at_least e i) ->
  exists r, nsp_segments (S f) s [0; INR (length (items s))] = Ok [r] /\ items r = items s ++ items s.
Proof.
  intros f e s p He Es Hc N C V. apply chained_connected in C. apply speeds in V; [|lra].
  exists (mknsp (items s ++ items s) false (Some e) None). split; auto.
  assert (R1 : segments_loop (S f) s [0; INR (length (items s))] [] (empty_nsp (epsilon s)) [] None = Ok [mknsp (items s) false (Some e) None]).
  { cbn [segments_loop]. rewrite Es. assert (P : (0 < length (items s))%nat) by (destruct (items s); [congruence|simpl; lia]).
    rewrite (index_at (length (items s)) 0 P : param_index _ 0 = 0%nat). rewrite (index_end _ P).
    assert (X := extend_fast e f (items s) He (empty_nsp (Some e)) p p p eq_refl eq_refl eq_refl eq_refl C V). cbn [items empty_nsp app] in X.
    assert (S1 : forall i last, nth_error (items s) 0 = Some i \/ True -> add_segments (S f) (Some e) i [0; 1] [] last = bind (append (S f) last i) (fun r => Ok ([], r))).
    { intros i last _. unfold add_segments. cbn [item_segments pairs]. rewrite segment_whole. cbn [more_segments]. reflexivity. }
    destruct (items s) as [|i0 l] eqn:I; [congruence|]. destruct l as [|i1 l] using rev_ind.
    - cbn [length Nat.sub Nat.eqb app nth_error INR]. rewrite Rminus_0_r, Rminus_0_r.
      rewrite S1 by auto. unfold extend in X. cbn [extend_with] in X.
      destruct (append (S f) (empty_nsp (Some e)) i0) as [s1| |]; cbn [bind] in X |- *; try discriminate. now injection X as ->.
    - clear IHl. assert (Ln : length (i0 :: l ++ [i1]) = S (S (length l))) by (simpl; rewrite app_length; simpl; lia). rewrite Ln.
      replace (S (S (length l)) - 1)%nat with (S (length l)) by lia.
      replace (Nat.eqb (S (length l)) 0) with false by auto. cbn [nth_error app Nat.ltb Nat.leb].
      replace (0 - INR 0) with 0 by (simpl; ring). rewrite S1 by auto.
      replace (S (length l) - 0 - 1)%nat with (length l) by lia. cbn [skipn].
      replace (firstn (length l) (l ++ [i1])) with l by (rewrite firstn_app, Nat.sub_diag, firstn_all, firstn_O, app_nil_r; auto).
      replace (INR (S (S (length l))) - INR (S (length l))) with 1 by (rewrite (S_INR (S (length l))); ring).
      rewrite nth_error_app2 by lia. rewrite Nat.sub_diag. cbn [nth_error].
      unfold extend in *. cbn [extend_with] in X.
      destruct (append (S f) (empty_nsp (Some e)) i0) as [s1| |]; cbn [bind] in X |- *; try discriminate.
      assert (A : forall l1 l2 s, extend_with (append (S f)) s (l1 ++ l2) = bind (extend_with (append (S f)) s l1) (fun s => extend_with (append (S f)) s l2)).
      { clear. induction l1 as [|i l1 IH]; intros l2 s; simpl app; cbn [extend_with bind]; auto. destruct (append (S f) s i); cbn [bind]; auto. }
      rewrite A in X. destruct (extend_with (append (S f)) s1 l) as [s2| |]; cbn [bind extend_with] in X |- *; try discriminate.
      rewrite S1 by auto. destruct (append (S f) s2 i1) as [s3| |]; cbn [bind] in X |- *; try discriminate. now injection X as ->. }
  unfold nsp_segments. destruct (items s) as [|i0 l] eqn:I; [congruence|]. rewrite <- I in *. rewrite R1. cbn [bind]. rewrite Hc. cbn [last].
  unfold reqb. destruct (Req_EM_T 0 0); [|lra]. destruct (Req_EM_T (INR (length (items s))) (INR (length (items s)))); [|lra]. reflexivity.
Qed.
Print Assumptions segments_closed_refuted.
Example segments_closed_ex : let l := two_lines ++ [Line (4, 3) (0, 0)] in
  exists r, nsp_segments 1 (mknsp l true (Some 1) None) [0; 3] = Ok [r] /\ length (items r) = 6%nat.
Proof.
  intros l. destruct (segments_closed_refuted 0 1 (mknsp l true (Some 1) None) (0, 0)) as (r & E & I); auto; try lra.
  - discriminate.
  - apply chained_connected. simpl. auto.
  - intros i [<-|[<-|[<-|[]]]]; try (apply two_lines_speed; simpl; auto; fail). apply line_speed; [|lra]. rewrite (dist_is (4, 3) (0, 0) 5) by (simpl; lra). lra.
  - exists r. replace 3 with (INR (length (items (mknsp l true (Some 1) None)))) by (simpl; lra). rewrite I. auto.
Qed.

(** ** bounding box *)
(** C77: the bounding box is the smallest box containing the points of all items. *)
Theorem subpath_bbox_smallest : forall s, smallest (nsp_bbox s) (fun x => exists i t, In i (items s) /\ 0 <= t <= 1 /\ x = at_pt i t).
Proof.
  intros s. unfold nsp_bbox. destruct (items s) as [|i l].
  - split; [intros ? H; discriminate|]. split; [intros x (j & t & [] & _)|]. intros c _ x H. now apply inside_none in H.
  - assert (G : forall l b (S : pt -> Prop), smallest b S ->
      smallest (fold_left (fun b j => biadd b (item_bbox j)) l b) (fun x => S x \/ exists j t, In j l /\ 0 <= t <= 1 /\ x = at_pt j t)).
    { clear. induction l as [|j l IH]; intros b S Sb; cbn [fold_left].
      - eapply smallest_iff; [|exact Sb]. intros x. split; auto. intros [H|(j & t & [] & _)]; auto.
      - specialize (IH (biadd b (item_bbox j)) (fun x => S x \/ exists t, 0 <= t <= 1 /\ x = at_pt j t)).
        eapply smallest_iff; [|apply IH].
        + intros x. split.
          * intros [[H|(t & H1 & H2)]|(k & t & H1 & H2 & H3)]; auto; right; [exists j, t|exists k, t]; simpl; auto.
          * intros [H|(k & t & [<-|H1] & H2 & H3)]; auto; [left; right; eauto|right; exists k, t; auto].
        + rewrite badd_biadd. pose proof (item_bbox_smallest j) as Sj. destruct Sb as (Pb & Ib & Lb). destruct Sj as (Pj & Ij & Lj).
          destruct (badd_smallest b (item_bbox j) Pb Pj) as (P & I & L). split; auto. split.
          * intros x [H|H]; apply I; [left; auto|right; auto].
          * intros c Hc. apply L. intros x [H|H]; [apply Lb; auto|apply Lj; auto]. }
    eapply smallest_iff; [|apply (G l _ _ (item_bbox_smallest i))].
    intros x. split.
    + intros [(t & H1 & H2)|(k & t & H1 & H2 & H3)]; [exists i, t|exists k, t]; simpl; auto.
    + intros (k & t & [<-|H1] & H2 & H3); [left; eauto|right; exists k, t; auto].
Qed.
Print Assumptions subpath_bbox_smallest.
Example subpath_bbox_ex : nsp_bbox (mknsp two_lines false (Some 1) None) = mkbbox (Some 0) 0 4 3.
Proof.
  unfold nsp_bbox. cbn [items two_lines fold_left item_bbox]. unfold biadd. simpl. repeat f_equal; mm; lra.
Qed.

(** ** splitting at slow points *)
Lemma pieces_trace_aux (o : pt * pt * pt * pt) ts : forall c prev,
  let u0 := match prev with None => 0 | Some u => u end in
  u0 <> 1 -> Forall (fun t => t <> 1) ts ->
  (forall v, at_pt (curve_of c) v = at_pt (curve_of o) (u0 + (1 - u0) * v)) ->
  forall j, (j <= length ts)%nat -> exists d, nth_error (pieces c prev ts) j = Some d /\
    forall v, at_pt (curve_of d) v = at_pt (curve_of o) (nth j (u0 :: ts) 0 + (nth j (ts ++ [1]) 0 - nth j (u0 :: ts) 0) * v).
Proof.
  induction ts as [|t ts IH]; intros c prev u0 N F T j J.
  - destruct j; [|simpl in J; lia]. exists c. split; auto.
  - inversion F as [|? ? F1 F2]; subst. cbn [pieces]. destruct c as [[[p0 p1] p2] p3].
    set (w := match prev with None => t | Some u => (t - u) / (1 - u) end).
    assert (W : u0 + (1 - u0) * w = t).
    { unfold w, u0 in *. destruct prev as [u|]; [field; lra|ring]. }
    destruct (split p0 p1 p2 p3 w) as [a b] eqn:S. destruct a as [[[a0 a1] a2] a3], b as [[[b0 b1] b2] b3].
    destruct (split_traces _ _ _ _ _ _ _ _ _ _ _ _ _ S) as (_ & _ & _ & _ & X).
    destruct j as [|j].
    + exists (a0, a1, a2, a3). split; auto. intros v. cbn [curve_of nth app]. rewrite (proj1 (X v)). cbn [curve_of] in T. rewrite T. f_equal. rewrite <- W. ring.
    + simpl in J. destruct (IH (b0, b1, b2, b3) (Some t) F1 F2) with (j := j) as (d & D1 & D2); [|lia|].
      * intros v. cbn [curve_of]. rewrite (proj2 (X v)). cbn [curve_of] in T. rewrite T. f_equal. rewrite <- W. ring.
      * exists d. split; auto.
Qed.
(** C52: a curve which is split at parameters other than 1 is replaced by curves tracing its
    parts between successive parameters. *)
Theorem split_pieces_trace : forall p0 p1 p2 p3 ts, Forall (fun t => t <> 1) ts ->
  length (pieces (p0, p1, p2, p3) None ts) = S (length ts) /\
  forall j, (j <= length ts)%nat -> exists q0 q1 q2 q3, nth_error (pieces (p0, p1, p2, p3) None ts) j = Some (q0, q1, q2, q3) /\
    let t := nth j (0 :: ts) 0 in let u := nth j (ts ++ [1]) 0 in
    forall v, at_pt (Curve q0 q1 q2 q3) v = at_pt (Curve p0 p1 p2 p3) (t + (u - t) * v).
Proof.
  intros p0 p1 p2 p3 ts F. split.
  - generalize (p0, p1, p2, p3) (@None R). clear F. induction ts as [|t ts IH]; intros [[[c0 c1] c2] c3] prev; cbn [pieces]; auto.
    destruct (split _ _ _ _ _). simpl. now rewrite IH.
  - intros j J. assert (A := pieces_trace_aux (p0, p1, p2, p3) ts (p0, p1, p2, p3) None). cbv zeta iota in A.
    assert (A0 : 0 <> 1) by lra. destruct (A A0 F) with (j := j) as (d & D1 & D2); auto.
    + intros v. f_equal. ring.
    + destruct d as [[[q0 q1] q2] q3]. exists q0, q1, q2, q3. split; auto.
Qed.
Print Assumptions split_pieces_trace.
Example split_pieces_ex : exists q0 q1 q2 q3, nth_error (pieces ((0, 0), (0, 8), (8, 8), (8, 0)) None [1 / 4; 1 / 2]) 1 = Some (q0, q1, q2, q3) /\ q3 = (4, 6).
Proof.
  cbn [pieces]. unfold split. cbn. repeat eexists. simpl. unfold mix. simpl. f_equal; field.
Qed.
