(** C56: parameters of paths, their order and their arithmetic. *)
From Coq Require Import Reals Lra Lia ZArith Bool List.
From Verif Require Import PyDict BboxModel CurveModel CurveSpec CurveProofs2 NormsubModel NormsubSpec NormsubProofs NormsubProofs4 NormsubProofs5
  NormsubProps NormsubProps2 NormpathModel NormpathSpec NormpathProofs.
Import ListNotations.
Open Scope R_scope.

Local Notation pt := (R * R)%type.

Lemma reqb_spec x y : reflect (x = y) (reqb x y).
Proof. unfold reqb. destruct (Req_EM_T x y); constructor; auto. Qed.
Lemma param_ltb_iff p q : param_ltb p q = true <-> before p q.
Proof.
  unfold param_ltb, before. destruct (Nat.ltb_spec (fst p) (fst q)) as [L|L]; simpl; [intuition|].
  destruct (Nat.eqb_spec (fst p) (fst q)) as [E|E]; simpl; [|split; [discriminate|intros [?|[? _]]; lia]].
  destruct (ltb_spec (snd p) (snd q)); split; auto; try discriminate; intros [?|[_ ?]]; [lia|lra].
Qed.
Lemma param_eqb_iff p q : param_eqb p q = true <-> p = q.
Proof.
  destruct p as [i t], q as [j u]. unfold param_eqb. simpl. destruct (Nat.eqb_spec i j) as [->|E]; simpl; [|split; [discriminate|congruence]].
  destruct (reqb_spec t u) as [->|E]; split; auto; try discriminate. congruence.
Qed.
Lemma before_cases p q : before p q \/ p = q \/ before q p.
Proof.
  destruct p as [i t], q as [j u]. unfold before. simpl. destruct (lt_eq_lt_dec i j) as [[L| ->]|L]; auto.
  destruct (Rtotal_order t u) as [L|[->|L]]; auto.
Qed.
Lemma before_irrefl p : ~ before p p.
Proof. intros [H|[_ H]]; [lia|lra]. Qed.
Lemma before_trans p q r : before p q -> before q r -> before p r.
Proof. unfold before. intros [?|[? ?]] [?|[? ?]]; try (left; lia). right. split; [lia|lra]. Qed.

(** The comparison operators describe one total order: of the subpaths first, then of the
    parameters within them. *)
Theorem parameters_ordered : forall p q r : param,
  (param_ltb p q = true <-> before p q) /\ (param_eqb p q = true <-> p = q) /\
  (param_leb p q = true <-> before p q \/ p = q) /\ (param_gtb p q = true <-> before q p) /\ (param_geb p q = true <-> before q p \/ p = q) /\
  (param_leb p q = true -> param_leb q r = true -> param_leb p r = true) /\
  (param_leb p q = true \/ param_leb q p = true) /\ (param_leb p q = true -> param_leb q p = true -> p = q).
Proof.
  intros p q r.
  assert (L : forall p q, param_leb p q = true <-> before p q \/ p = q).
  { intros. unfold param_leb. rewrite orb_true_iff, param_ltb_iff, param_eqb_iff. tauto. }
  assert (T := before_cases p q). assert (Ir := before_irrefl).
  assert (A : before p q -> before q p -> False) by (intros H K; exact (Ir _ (before_trans _ _ _ H K))).
  split; [apply param_ltb_iff|]. split; [apply param_eqb_iff|]. split; [apply L|]. split; [|split; [|split; [|split]]].
  - unfold param_gtb. rewrite andb_true_iff, !negb_true_iff, <- !not_true_iff_false, param_ltb_iff, param_eqb_iff.
    split; [tauto|]. intros H. split; [auto|]. intros ->. exact (Ir _ H).
  - unfold param_geb. rewrite negb_true_iff, <- not_true_iff_false, param_ltb_iff. split; [tauto|]. intros [H| ->]; auto.
  - rewrite !L. intros [H| ->] [K| ->]; auto. left. now apply before_trans with q.
  - rewrite !L. destruct T as [?|[->|?]]; auto.
  - rewrite !L. intros [H| ->]; auto. intros [K| ->]; auto. destruct (A H K).
Qed.
Print Assumptions parameters_ordered.
Example parameters_ordered_ex : param_ltb (0%nat, 7) (1%nat, 0) = true /\ param_geb (1%nat, 3) (1%nat, 2) = true.
Proof.
  split; [reflexivity|]. apply (parameters_ordered (1%nat, 3) (1%nat, 2) (0%nat, 0)). left. right. simpl. split; [auto|lra].
Qed.

Lemma proper_total ls : ls <> [] -> Forall (fun l => 0 < len l) ls -> 0 < total_length ls.
Proof. intros N F. destruct ls as [|l ls]; [congruence|]. inversion F; subst. rewrite total_cons. pose proof (total_nonneg ls). lra. Qed.
Lemma q2a_p2a ls t : ls <> [] -> q2a ls t = p2a ls t.
Proof. destruct ls; auto. congruence. Qed.
Lemma pp2a_ok np p : proper_lines np -> (fst p < length np)%nat -> path_length_at np p (pp2a np p).
Proof.
  intros [N P] L. destruct (P (nth (fst p) np [])) as [N' _]; [now apply nth_In|].
  exists (nth (fst p) np []), (p2a (nth (fst p) np []) (snd p)). split; [now apply nth_error_nth'|]. split; [now apply p2a_spec|].
  unfold pp2a. now rewrite q2a_p2a.
Qed.
Lemma path_length_unique np p x y : path_length_at np p x -> path_length_at np p y -> x = y.
Proof. intros (ls & a & E & A & ->) (ls' & b & E' & B & ->). rewrite E in E'. injection E' as <-. now rewrite (arc_length_unique _ _ _ _ A B). Qed.

(** For paths of lines of positive length, each length is turned into a parameter on the
    path, at which the arc length from the begin of the path is this length.  The other
    lengths of a list have no influence. *)
Theorem path_lengths_to_params : forall np xs, proper_lines np ->
  Forall2 (fun x answer => exists p, answer = Some (fst p, Some (snd p)) /\ on_subpath np p /\ path_length_at np p x) xs (path_arclentoparam np xs).
Proof.
  intros np xs P. rewrite path_arclentoparam_ok. destruct (proper_lines_iff np P) as [N F]. induction xs as [|x xs IH]; simpl; constructor; auto.
  destruct (pa2p_ok np F N 0 x (or_introl eq_refl)) as (j & ls & t & E & Hj & A & H1 & H2). simpl plus in *.
  exists (j, t). split; [exact E|]. split.
  - exists ls. simpl. auto.
  - exists ls, (x - path_length (firstn j np)). split; auto. split; auto. simpl. ring.
Qed.
Print Assumptions path_lengths_to_params.
Theorem path_params_to_lengths : forall np ps, proper_lines np -> ps <> [] -> (forall p, In p ps -> (fst p < length np)%nat) ->
  exists answers, path_paramtoarclen np ps = Some answers /\
    Forall2 (fun p answer => exists x, answer = Some x /\ path_length_at np p x) ps answers.
Proof.
  intros np ps P N H. rewrite path_paramtoarclen_ok by auto. eexists. split; [reflexivity|]. clear N. induction ps as [|p ps IH]; simpl; constructor.
  - exists (pp2a np p). split; auto. apply pp2a_ok; auto. apply H. now left.
  - apply IH. intros q I. apply H. now right.
Qed.
Print Assumptions path_params_to_lengths.

Lemma to_arclen_ok np p : proper_lines np -> (fst p < length np)%nat -> exists x, to_arclen np p = Some x /\ path_length_at np p x.
Proof.
  intros P L. exists (pp2a np p). split; [|now apply pp2a_ok]. unfold to_arclen. rewrite path_paramtoarclen_ok; [reflexivity|discriminate|].
  intros q [<-|[]]. exact L.
Qed.
Lemma on_subpath_lt np p : on_subpath np p -> (fst p < length np)%nat.
Proof. intros (ls & E & _). apply nth_error_Some. congruence. Qed.
Lemma to_param_ok np x : proper_lines np -> exists p, to_param np x = Some p /\ on_subpath np p /\ to_arclen np p = Some x.
Proof.
  intros P. pose proof (path_lengths_to_params np [x] P) as H. unfold to_param. destruct (path_arclentoparam np [x]) as [|a [|]]; inversion H as [|? ? ? ? H1 H2]; subst; [|inversion H2].
  destruct H1 as ([k t] & -> & O & A). exists (k, t). split; auto. split; auto.
  destruct (to_arclen_ok np (k, t) P (on_subpath_lt _ _ O)) as (y & E & B). rewrite E. f_equal. now apply path_length_unique with np (k, t).
Qed.
Lemma path_length_firstn_le np j k : (j <= k)%nat -> path_length (firstn j np) <= path_length (firstn k np).
Proof.
  revert np k. induction j as [|j IH]; intros np k H; [apply path_nonneg|]. destruct k as [|k]; [lia|]. destruct np as [|l np]; [simpl; lra|].
  rewrite !firstn_cons, !path_cons. specialize (IH np k ltac:(lia)). lra.
Qed.
Lemma arc_end ls : ls <> [] -> arc_length_at ls (INR (length ls)) (total_length ls).
Proof.
  intros N. destruct (exists_last N) as (ls' & l & ->). exists (length ls'), l. rewrite app_length. simpl length.
  rewrite nth_error_app2, Nat.sub_diag by lia. split; auto. rewrite firstn_app, firstn_all, Nat.sub_diag. simpl firstn. rewrite app_nil_r.
  rewrite total_app, plus_INR. split; [rewrite total_cons; unfold total_length, len; simpl; ring|]. split; [right; simpl; lra|left; lia].
Qed.
Lemma arc_begin ls : ls <> [] -> arc_length_at ls 0 0.
Proof.
  intros N. destruct ls as [|l ls]; [congruence|]. exists 0%nat, l. split; auto. split; [unfold total_length; simpl; ring|]. simpl. split; auto. right. lra.
Qed.
Lemma before_length np p q x y : proper_lines np -> on_subpath np p -> on_subpath np q -> path_length_at np p x -> path_length_at np q y -> before p q -> x < y.
Proof.
  intros P (ls & E & O1 & O2) (ls' & E' & O1' & O2') (ls1 & a & E1 & A & ->) (ls2 & b & E2 & B & ->) H.
  rewrite E in E1. injection E1 as <-. rewrite E' in E2. injection E2 as <-. destruct (proper_lines_iff np P) as [_ F]. unfold proper_lines' in F. rewrite Forall_forall in F.
  destruct (F ls (nth_error_In _ _ E)) as [N1 F1]. destruct (F ls' (nth_error_In _ _ E')) as [N2 F2].
  destruct H as [H|[H1 H2]].
  - assert (L : (fst q < length np)%nat) by (apply nth_error_Some; congruence).
    assert (a < total_length ls). { apply (arc_length_mono ls (snd p) (INR (length ls)) a (total_length ls) F1 A (arc_end ls N1)). destruct O2 as [O2|O2]; [lia|auto]. }
    assert (0 <= b). { destruct O1' as [O1'|[O1'|O1']]; [lia| |].
      - apply Rlt_le, (arc_length_mono ls' 0 (snd q) 0 b F2 (arc_begin ls' N2) B O1').
      - rewrite <- O1' in B. rewrite (arc_length_unique ls' 0 b 0 B (arc_begin ls' N2)). lra. }
    pose proof (path_length_firstn_le np (S (fst p)) (fst q) ltac:(lia)) as M. rewrite (nth_path_length np (fst p) ls E) in M. lra.
  - rewrite H1 in *. rewrite E in E'. injection E' as <-. pose proof (arc_length_mono ls (snd p) (snd q) a b F1 A B H2). lra.
Qed.

(** The order agrees with the arc length: of two parameters on the path the smaller one has
    the smaller arc length. *)
Theorem order_is_arc_length : forall np p q, proper_lines np -> on_subpath np p -> on_subpath np q ->
  exists x y, to_arclen np p = Some x /\ to_arclen np q = Some y /\
    (param_ltb p q = true <-> x < y) /\ (param_leb p q = true <-> x <= y) /\ (param_eqb p q = true <-> x = y) /\
    param_lt_length np p y = Some (param_ltb p q) /\ param_eq_length np p y = Some (param_eqb p q).
Proof.
  intros np p q P Hp Hq. destruct (to_arclen_ok np p P (on_subpath_lt _ _ Hp)) as (x & E & A). destruct (to_arclen_ok np q P (on_subpath_lt _ _ Hq)) as (y & E' & B).
  exists x, y. split; auto. split; auto. destruct (parameters_ordered p q p) as (O1 & O2 & O3 & _).
  assert (H1 := before_length np p q x y P Hp Hq A B). assert (H2 := before_length np q p y x P Hq Hp B A).
  assert (H3 : p = q -> x = y) by (intros ->; now apply path_length_unique with np q).
  destruct (before_cases p q) as [T|[T|T]].
  - specialize (H1 T). assert (N : p <> q) by (intros K; specialize (H3 K); lra).
    assert (K1 : param_ltb p q = true) by tauto. assert (K2 : param_eqb p q = false) by (apply not_true_iff_false; tauto).
    unfold param_lt_length, param_eq_length. rewrite E. simpl. rewrite K1, K2, ltb_yes by auto. unfold reqb. destruct (Req_EM_T x y); [lra|].
    rewrite O3. repeat split; auto; intros; try lra; try discriminate; auto.
  - specialize (H3 T). assert (K2 : param_eqb p q = true) by tauto. assert (K1 : param_ltb p q = false) by (apply not_true_iff_false; rewrite O1, T; apply before_irrefl).
    unfold param_lt_length, param_eq_length. rewrite E. simpl. rewrite K1, K2, ltb_no by lra. unfold reqb. destruct (Req_EM_T x y); [|lra].
    rewrite O3. repeat split; auto; intros; try lra; try discriminate; auto.
  - specialize (H2 T). assert (N : p <> q) by (intros K; specialize (H3 K); lra). assert (N2 : ~ before p q) by (intros K; specialize (H1 K); lra).
    assert (K1 : param_ltb p q = false) by (apply not_true_iff_false; tauto). assert (K2 : param_eqb p q = false) by (apply not_true_iff_false; tauto).
    unfold param_lt_length, param_eq_length. rewrite E. simpl. rewrite K1, K2, ltb_no by lra. unfold reqb. destruct (Req_EM_T x y); [lra|].
    rewrite O3. repeat split; auto; intros; try lra; try discriminate; try tauto.
Qed.
Print Assumptions order_is_arc_length.

(** Adding and subtracting lengths or parameters, and multiplying by a number, moves the arc
    length accordingly, also beyond both ends of the path. *)
Theorem parameter_arithmetic : forall np p q x, proper_lines np -> (fst p < length np)%nat -> (fst q < length np)%nat ->
  exists a b, path_length_at np p a /\ path_length_at np q b /\
    (forall operation value, In (operation, value)
       [(param_add np p (inr x), a + x); (param_add np p (inl q), a + b); (param_sub np p (inr x), a - x); (param_sub np p (inl q), a - b);
        (param_rsub np x p, x - a); (param_mul np p x, a * x); (param_neg np p, - a)] ->
     exists r, operation = Some r /\ on_subpath np r /\ to_arclen np r = Some value /\ path_length_at np r value).
Proof.
  intros np p q x P Hp Hq. destruct (to_arclen_ok np p P Hp) as (a & E & A). destruct (to_arclen_ok np q P Hq) as (b & E' & B).
  exists a, b. split; auto. split; auto.
  assert (G : forall v, exists r, to_param np v = Some r /\ on_subpath np r /\ to_arclen np r = Some v /\ path_length_at np r v).
  { intros v. destruct (to_param_ok np v P) as (r & R1 & R2 & R3). exists r. split; auto. split; auto. split; auto.
    destruct (to_arclen_ok np r P (on_subpath_lt _ _ R2)) as (y & E3 & C). rewrite R3 in E3. injection E3 as ->. auto. }
  intros o v H. unfold param_add, param_sub, param_rsub, param_mul, param_neg, other_arclen in H. rewrite E, E' in H. simpl in H.
  repeat (destruct H as [H|H]; [injection H as <- <-; try apply G; replace (x - a) with (- a + x) by ring; apply G|]). destruct H.
Qed.
Print Assumptions parameter_arithmetic.
Definition two_paths : linepath := [two_parts; [((0, 1), (0, 6))]].
Lemma line_five : distance (0, 1) (0, 6) = 5.
Proof. rewrite distance_dist. apply dist_is; simpl; lra. Qed.
Lemma two_paths_proper : proper_lines two_paths.
Proof.
  split; [discriminate|]. intros ls [<-|[<-|[]]].
  - split; [discriminate|]. apply two_parts_pos.
  - split; [discriminate|]. intros p q [H|[]]. injection H as <- <-. rewrite line_five. lra.
Qed.
Example arithmetic_ex : param_add two_paths (0%nat, 1) (inr 8) = Some (1%nat, 1) /\ param_sub two_paths (1%nat, 0) (inr 3) = Some (0%nat, 1).
Proof.
  assert (L1 : len ((0, 0), (4, 0)) = 4) by (unfold len; rewrite distance_dist; apply dist_is; simpl; lra).
  assert (L2 : len ((4, 0), (4, 3)) = 3) by (unfold len; rewrite distance_dist; apply dist_is; simpl; lra).
  assert (L3 : len ((0, 1), (0, 6)) = 5) by (unfold len; simpl fst; simpl snd; apply line_five).
  assert (A1 : to_arclen two_paths (0%nat, 1) = Some 4).
  { destruct (to_arclen_ok two_paths (0%nat, 1) two_paths_proper) as (y & E & B); [simpl; lia|]. rewrite E. f_equal. apply (path_length_unique two_paths (0%nat, 1)); auto.
    exists two_parts, 4. split; auto. split; [|unfold path_length, total_length; simpl; lra]. exists 0%nat, ((0, 0), (4, 0)). split; auto. fold (len ((0,0),(4,0))). rewrite L1. split; [unfold total_length; simpl; lra|]. simpl. split; auto. right; lra. }
  assert (A2 : to_arclen two_paths (1%nat, 0) = Some 7).
  { destruct (to_arclen_ok two_paths (1%nat, 0) two_paths_proper) as (y & E & B); [simpl; lia|]. rewrite E. f_equal. apply (path_length_unique two_paths (1%nat, 0)); auto.
    exists [((0, 1), (0, 6))], 0. split; auto. split; [|change (firstn (fst (1%nat, 0)) two_paths) with [two_parts]; rewrite path_cons, total_two; unfold path_length, total_length; simpl; lra]. apply arc_begin. discriminate. }
  unfold param_add, param_sub, other_arclen. rewrite A1, A2. cbn [obind]. unfold to_param. rewrite !path_arclentoparam_ok.
  assert (T : total_length two_parts = 7) by apply total_two. assert (T5 : total_length [((0, 1), (0, 6))] = 5) by (rewrite total_cons, L3; unfold total_length; simpl; lra).
  unfold two_paths. cbn [map pa2p]. rewrite T. rewrite ltb_no by lra. rewrite (ltb_yes (7 - 3 - 7) 0) by lra. rewrite orb_true_r. cbn [orb].
  split.
  - unfold a2p. rewrite L3, orb_true_r. do 2 f_equal. simpl. lra.
  - unfold two_parts, a2p. rewrite L1, L2. rewrite ltb_no by lra. cbn [orb]. rewrite orb_true_r. do 2 f_equal. simpl. lra.
Qed.

(** It fails if the last subpath consists of a short line only, which is not stored: then no
    parameter is found for the end of the path. *)
Theorem last_subpath_short_refuted : forall np x, np <> [] -> path_length np <= x -> to_param (np ++ [[]]) x = None.
Proof.
  intros np x N H. unfold to_param. rewrite path_arclentoparam_ok. cbn [map].
  assert (G : forall np k x, np <> [] -> path_length np <= x -> exists j, pa2p k (np ++ [[]]) x = Some (j, None)).
  { clear. induction np as [|ls np IH]; intros k x N H; [congruence|]. rewrite path_cons in H. pose proof (path_nonneg np). simpl app. cbn [pa2p].
    rewrite ltb_no by lra. cbn [orb]. destruct (np ++ [[]]) as [|a b] eqn:Z; [destruct np; discriminate|]. rewrite <- Z. destruct np as [|m np].
    - simpl. exists (S k). rewrite orb_true_r. reflexivity.
    - rewrite Z. apply IH; [discriminate|lra]. }
  destruct (G np 0%nat x N H) as (j & ->). reflexivity.
Qed.
Print Assumptions last_subpath_short_refuted.
Example last_subpath_short_ex : to_param [two_parts; []] 7 = None.
Proof. apply (last_subpath_short_refuted [two_parts]); [discriminate|]. rewrite path_cons, total_two. unfold path_length, total_length. simpl. lra. Qed.
