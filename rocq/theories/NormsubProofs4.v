(** Queries with lists of parameters; reversed and transformed subpaths. *)
From Coq Require Import Reals ZArith List Lra Lia Bool Arith.
From Verif Require Import PyDict TrafoModel BboxModel RootsModel CurveModel CurveSpec CurveProofs CurveProofs2 CurveProofs3 CurveProofs4
  NormsubModel NormsubSpec NormsubProofs NormsubProofs2 NormsubProofs3.
Import ListNotations.
Open Scope R_scope.

Local Notation pt := (R * R)%type.

(** ** distributing and collecting *)
Lemma dset_In {V} k (v : V) k' v' d : In (k', v') (dset Nat.eqb k v d) -> (k', v') = (k, v) \/ In (k', v') d.
Proof.
  induction d as [|[a b] d IH]; simpl; [intros [H|[]]; auto|].
  destruct (Nat.eqb_spec k a).
  - subst. intros [[= <- <-]|H]; auto.
  - intros [H|H]; auto. destruct (IH H); auto.
Qed.
Lemma combine_app {A B} (a a' : list A) (b b' : list B) : length a = length b -> combine (a ++ a') (b ++ b') = combine a b ++ combine a' b'.
Proof.
  revert b. induction a as [|x a IH]; intros [|y b]; simpl; try discriminate; auto. intros H. f_equal. apply IH. lia.
Qed.
Lemma nth_error_ext {A} : forall l l' : list A, (forall j, nth_error l j = nth_error l' j) -> l = l'.
Proof.
  induction l as [|x l IH]; intros [|y l'] H; auto.
  - specialize (H 0%nat). discriminate.
  - specialize (H 0%nat). discriminate.
  - f_equal; [specialize (H 0%nat); simpl in H; congruence|]. apply IH. intros j. apply (H (S j)).
Qed.
Section Collect.
  Context {A B C : Type} (index : A -> nat) (sub : A -> B) (all : list A).
  Definition entry_ok (x : nat * (list nat * list B)) : Prop :=
    length (fst (snd x)) = length (snd (snd x)) /\
    forall j b, In (j, b) (combine (fst (snd x)) (snd (snd x))) -> exists p, nth_error all j = Some p /\ index p = fst x /\ sub p = b.
  Definition covered (k : nat) (d : list (nat * (list nat * list B))) : Prop :=
    forall j p, (j < k)%nat -> nth_error all j = Some p ->
      exists ix ss, dget Nat.eqb (index p) d = Some (ix, ss) /\ In (j, sub p) (combine ix ss).
  Lemma distribute_ok : forall ps k d, (forall j p, nth_error ps j = Some p -> nth_error all (k + j) = Some p) ->
    (forall x, In x d -> entry_ok x) -> covered k d ->
    (forall x, In x (distribute_from index sub k ps d) -> entry_ok x) /\ covered (k + length ps) (distribute_from index sub k ps d).
  Proof.
    induction ps as [|p ps IH]; intros k d N H1 H2; cbn [distribute_from].
    - simpl. rewrite Nat.add_0_r. auto.
    - set (en := match dget Nat.eqb (index p) d with Some e => e | None => ([], []) end).
      assert (Np : nth_error all k = Some p) by (rewrite <- (Nat.add_0_r k); apply N; auto).
      assert (En : entry_ok (index p, en)).
      { unfold en. destruct (dget Nat.eqb (index p) d) as [e|] eqn:G.
        - apply H1. exact (dget_In Nat.eqb Nat.eqb_spec _ _ _ G).
        - split; simpl; auto. tauto. }
      destruct En as [E1 E2]. simpl in E1, E2.
      replace (k + length (p :: ps))%nat with (S k + length ps)%nat by (simpl; lia).
      apply IH.
      + intros j q Hj. replace (S k + j)%nat with (k + S j)%nat by lia. apply N. exact Hj.
      + intros [k' v'] Hin. apply dset_In in Hin as [[= -> ->]|Hin]; [|auto]. split; simpl.
        * rewrite !app_length. simpl. lia.
        * intros j b. rewrite combine_app by auto. rewrite in_app_iff. simpl. intros [Hb|[[= <- <-]|[]]]; [|eauto]. apply E2. exact Hb.
      + intros j q Hj Hq. destruct (Nat.eq_dec (index q) (index p)) as [Eq|Nq].
        * rewrite Eq, (dget_dset_same Nat.eqb Nat.eqb_spec). eexists _, _. split; [reflexivity|]. rewrite combine_app by auto. apply in_or_app.
          destruct (Nat.eq_dec j k) as [->|Nj]; [right; left; congruence|left].
          destruct (H2 j q) as (ix & ss & G & I); [lia|auto|]. unfold en. rewrite <- Eq, G. exact I.
        * rewrite (dget_dset_other Nat.eqb Nat.eqb_spec) by auto. apply H2; auto.
          destruct (Nat.eq_dec j k) as [->|Nj]; [|lia]. rewrite Np in Hq. injection Hq as <-. congruence.
  Qed.

  Context (method : nat -> list B -> list C) (g : nat -> B -> C).
  Hypothesis Hm : forall p bs, In p all -> method (index p) bs = map (g (index p)) bs.

  Lemma combine_map (ix : list nat) (bs : list B) (f : B -> C) : combine ix (map f bs) = map (fun '(j, b) => (j, f b)) (combine ix bs).
  Proof. revert bs. induction ix as [|i ix IH]; intros [|b bs]; simpl; auto. now rewrite IH. Qed.
  Lemma set_nth_length {X} k (x : X) l : length (set_nth k x l) = length l.
  Proof. revert k. induction l as [|y l IH]; intros [|k]; simpl; auto. Qed.
  Lemma nth_set_nth {X} k (x : X) l j : nth_error (set_nth k x l) j = if Nat.eqb k j then if Nat.ltb j (length l) then Some x else None else nth_error l j.
  Proof.
    revert k j. induction l as [|y l IH]; intros [|k] [|j]; simpl; auto.
    - destruct (Nat.eqb k j); auto.
    - rewrite IH. destruct (Nat.eqb_spec k j); auto.
  Qed.
  Definition sets (l : list (nat * C)) (r : list (option C)) := fold_left (fun result '(index, value) => set_nth index (Some value) result) l r.
  Lemma sets_length l r : length (sets l r) = length r.
  Proof. revert r. unfold sets. induction l as [|[j c] l IH]; simpl; intros r; auto. rewrite IH. apply set_nth_length. Qed.
  Lemma sets_other l r j : ~ In j (map fst l) -> nth_error (sets l r) j = nth_error r j.
  Proof.
    revert r. unfold sets. induction l as [|[j0 c] l IH]; simpl; intros r N; auto. rewrite IH by tauto. rewrite nth_set_nth.
    destruct (Nat.eqb_spec j0 j); auto. tauto.
  Qed.
  Lemma sets_value l r j v : (j < length r)%nat -> (forall c, In (j, c) l -> c = v) -> In j (map fst l) \/ nth_error r j = Some (Some v) ->
    nth_error (sets l r) j = Some (Some v).
  Proof.
    revert r. unfold sets. induction l as [|[j0 c] l IH]; simpl; intros r Hj Hc H; [tauto|].
    apply IH; [rewrite set_nth_length; auto|auto|]. rewrite nth_set_nth. destruct (Nat.eqb_spec j0 j) as [->|N].
    - right. rewrite (proj2 (Nat.ltb_lt _ _) Hj). f_equal. f_equal. auto.
    - tauto.
  Qed.
  Lemma collect_app d : forall r, fold_left (fun result '(key, (indices, params)) =>
               fold_left (fun result '(index, value) => set_nth index (Some value) result) (combine indices (method key params)) result) d r =
    sets (flat_map (fun '(key, (indices, params)) => combine indices (method key params)) d) r.
  Proof.
    induction d as [|[key [ix ss]] d IH]; simpl; intros r; auto. rewrite IH. unfold sets. now rewrite fold_left_app.
  Qed.
  Theorem collect_distribute : collect method (length all) (distribute index sub all) = map (fun p => Some (g (index p) (sub p))) all.
  Proof.
    unfold collect. rewrite collect_app. destruct (distribute_ok all 0 []) as [E V]; [auto|simpl; tauto|intros j p H; lia|].
    change (distribute_from index sub 0 all []) with (distribute index sub all) in *. simpl in V.
    set (d := distribute index sub all) in *.
    apply nth_error_ext. intros j. destruct (nth_error all j) as [p|] eqn:P.
    - assert (Hj : (j < length all)%nat) by (apply nth_error_Some; congruence).
      rewrite (map_nth_error _ j all P). apply sets_value.
      + rewrite repeat_length. auto.
      + intros c Hc. apply in_flat_map in Hc as ([key [ix ss]] & Hd & Hc). destruct (E _ Hd) as [L F]. simpl in *.
        assert (exists p', In p' all /\ index p' = key) as (p' & I' & <-).
          { destruct ix; [destruct Hc|]. destruct ss; [discriminate|]. destruct (F n b) as (p' & N' & I' & _); [left; auto|]. exists p'. split; auto. eapply nth_error_In; eauto. }
          rewrite (Hm p' ss I'), combine_map in Hc. apply in_map_iff in Hc as ([j' b] & [= -> <-] & Hc). destruct (F j b Hc) as (q & Q & <- & <-).
          rewrite P in Q. injection Q as ->. auto.
      + left. destruct (V j p Hj P) as (ix & ss & G & I). apply in_map_iff. exists (j, g (index p) (sub p)). split; auto.
        apply in_flat_map. exists (index p, (ix, ss)). split; [exact (dget_In Nat.eqb Nat.eqb_spec _ _ _ G)|].
        rewrite (Hm p) by (eapply nth_error_In; eauto). rewrite combine_map. apply in_map_iff. exists (j, sub p). auto.
    - assert (Hj : (length all <= j)%nat) by (apply nth_error_None; auto).
      transitivity (@None (option C)); [|symmetry; apply nth_error_None; rewrite map_length; auto].
      apply nth_error_None. rewrite sets_length, repeat_length. auto.
  Qed.
End Collect.

(** ** the point at a parameter *)
Lemma floor_bounds t : IZR (floor t) <= t < IZR (floor t) + 1.
Proof. unfold floor. destruct (base_Int_part t). lra. Qed.
Lemma param_index_spec n t : (0 < n)%nat -> (param_index n t < n)%nat /\
  (param_index n t = 0%nat \/ INR (param_index n t) <= t) /\ (S (param_index n t) = n \/ t <= INR (param_index n t) + 1).
Proof.
  intros Hn. unfold param_index. destruct (ltb_spec 0 t) as [P|P].
  - destruct (floor_bounds t) as [F1 F2]. assert (0 <= floor t)%Z by (apply Z.lt_succ_r; apply lt_IZR; rewrite succ_IZR; lra).
    assert (E : INR (Z.to_nat (floor t)) = IZR (floor t)) by (rewrite INR_IZR_INZ, Z2Nat.id; auto).
    destruct (Nat.min_spec (Z.to_nat (floor t)) (n - 1)) as [[L ->]|[L ->]].
    + split; [lia|]. rewrite E. split; [right|right]; lra.
    + split; [lia|]. split; [|left; lia]. right. apply le_INR in L. lra.
  - split; auto. split; auto. right. simpl. lra.
Qed.
Definition point_at (l : list item) (t : R) : option pt :=
  option_map (fun i => at_pt i (t - INR (param_index (length l) t))) (nth_error l (param_index (length l) t)).
Lemma item_method_ok {C} (f : item -> R -> C) l p (dflt : item) : l <> [] ->
  forall bs, item_method f l (param_index (length l) p) bs = map (f (nth (param_index (length l) p) l dflt)) bs.
Proof.
  intros N bs. unfold item_method. destruct (param_index_spec (length l) p) as [H _]; [destruct l; [congruence|simpl; lia]|].
  rewrite (nth_error_nth' l dflt H). auto.
Qed.
Lemma query_list {C} (f : item -> R -> C) l params (dflt : item) : l <> [] ->
  collect (item_method f l) (length params) (distributeparams (length l) params) =
  map (fun t => Some (f (nth (param_index (length l) t) l dflt) (t - INR (param_index (length l) t)))) params.
Proof.
  intros N. unfold distributeparams.
  rewrite (collect_distribute (param_index (length l)) _ params (item_method f l) (fun k => f (nth k l dflt))).
  - reflexivity.
  - intros p bs _. now apply item_method_ok.
Qed.
Lemma on_path_at l t dflt : l <> [] -> on_path l t (at_pt (nth (param_index (length l) t) l dflt) (t - INR (param_index (length l) t))).
Proof.
  intros N. destruct (param_index_spec (length l) t) as (H1 & H2 & H3); [destruct l; [congruence|simpl; lia]|].
  exists (param_index (length l) t), (nth (param_index (length l) t) l dflt). split; [apply nth_error_nth'; auto|]. auto.
Qed.

Lemma chained_nth l : forall b q k i j, chained b l q -> nth_error l k = Some i -> nth_error l (S k) = Some j -> atend_pt i = atbegin_pt j.
Proof.
  induction l as [|x l IH]; intros b q [|k] i j C H1 H2; simpl in *; try discriminate.
  - injection H1 as ->. destruct l as [|y l]; [discriminate|]. injection H2 as ->. simpl in C. symmetry. apply C.
  - apply (IH (atend_pt x) q k); auto. apply C.
Qed.
(** the point is determined by the parameter *)
Lemma on_path_unique b l q t p p' : chained b l q -> on_path l t p -> on_path l t p' -> p = p'.
Proof.
  intros C (k & i & Hk & Hp & K1 & K2) (k' & i' & Hk' & Hp' & K1' & K2').
  assert (G : forall k i k' i' p p', nth_error l k = Some i -> nth_error l k' = Some i' -> p = at_pt i (t - INR k) -> p' = at_pt i' (t - INR k') ->
      (S k = length l \/ t <= INR k + 1) -> (k' = 0%nat \/ INR k' <= t) -> (k < k')%nat -> p = p').
  { clear -C. intros k i k' i' p p' Hk Hk' Hp Hp' K2 K1' L.
    assert (Lk' : (k' < length l)%nat) by (apply nth_error_Some; congruence).
    assert (T1 : t <= INR k + 1) by (destruct K2; [lia|auto]). assert (T2 : INR k' <= t) by (destruct K1'; [lia|auto]).
    assert (INR (S k) <= INR k') by (apply le_INR; lia). rewrite S_INR in *.
    assert (k' = S k) as ->. { apply INR_eq. rewrite S_INR. lra. }
    assert (E : t = INR k + 1) by (rewrite S_INR in *; lra).
    subst p p'. rewrite S_INR in *. replace (t - INR k) with 1 by lra. replace (t - (INR k + 1)) with 0 by lra.
    destruct (begin_at i) as [_ ->]. destruct (begin_at i') as [-> _]. eapply chained_nth; eauto. }
  destruct (lt_eq_lt_dec k k') as [[L| ->]|L].
  - apply (G k i k' i' p p'); auto.
  - rewrite Hk in Hk'. injection Hk' as ->. congruence.
  - symmetry. apply (G k' i' k i p' p); auto.
Qed.
Lemma on_path_rev l t p : on_path (map item_reversed (rev l)) t p <-> on_path l (INR (length l) - t) p.
Proof.
  assert (G : forall l t p, on_path l t p -> on_path (map item_reversed (rev l)) (INR (length l) - t) p).
  { clear. intros l t p (k & i & Hk & -> & K1 & K2). assert (L : (k < length l)%nat) by (apply nth_error_Some; congruence).
    exists (length l - 1 - k)%nat, (item_reversed i).
    assert (E : INR (length l - 1 - k) = INR (length l) - 1 - INR k) by (rewrite !minus_INR by lia; reflexivity).
    split; [|split; [|split]].
    - apply map_nth_error. rewrite (nth_error_nth' (rev l) i) by (rewrite rev_length; lia). f_equal.
      rewrite rev_nth by lia. replace (length l - S (length l - 1 - k))%nat with k by lia. apply nth_error_nth with (d := i) in Hk. auto.
    - rewrite E. replace (INR (length l) - t - (INR (length l) - 1 - INR k)) with (1 - (t - INR k)) by ring.
      destruct i as [[x0 y0] [x1 y1]|[x0 y0] [x1 y1] [x2 y2] [x3 y3]]; simpl; unfold curve_coord; pairs_ring.
    - rewrite E. destruct K2 as [K2|K2]; [left; lia|right; lra].
    - rewrite E, map_length, rev_length. destruct K1 as [->|K1]; [left; lia|right; lra]. }
  assert (I : forall l, map item_reversed (rev (map item_reversed (rev l))) = l).
  { clear. intros l. rewrite <- map_rev, rev_involutive, map_map. rewrite map_ext with (g := fun x => x); [apply map_id|]. intros []; auto. }
  split; intros H.
  - specialize (G _ _ _ H). rewrite I, map_length, rev_length in G. exact G.
  - specialize (G _ _ _ H). replace (INR (length l) - (INR (length l) - t)) with t in G by ring. exact G.
Qed.
Lemma on_path_map (f : item -> item) (g : pt -> pt) l t p : (forall i u, at_pt (f i) u = g (at_pt i u)) -> on_path l t p -> on_path (map f l) t (g p).
Proof.
  intros F (k & i & Hk & -> & K1 & K2). exists k, (f i). split; [now apply map_nth_error|]. split; [now rewrite F|]. rewrite map_length. auto.
Qed.

(** ** reversed and transformed items stay fast *)
Lemma velocity_rev i t : velocity (item_reversed i) t = vscale (-1) (velocity i (1 - t)).
Proof.
  destruct i as [[x0 y0] [x1 y1]|[x0 y0] [x1 y1] [x2 y2] [x3 y3]]; simpl; unfold vscale, tangent_coord; simpl; pairs_ring.
Qed.
Lemma fast_reversed e i : 0 <= e -> fast e i -> fast e (item_reversed i).
Proof.
  intros He F. apply nrm_fast; auto. intros t Ht. rewrite velocity_rev, nrm_scale.
  replace (Rabs (-1)) with 1 by (rewrite Rabs_left; lra). rewrite Rmult_1_l. apply fast_nrm; auto. lra.
Qed.
Lemma velocity_trafo m i t : velocity (item_transformed m i) t = vsub (apply_pt m (velocity i t)) (apply_pt m (0, 0)).
Proof.
  destruct i as [[x0 y0] [x1 y1]|[x0 y0] [x1 y1] [x2 y2] [x3 y3]]; simpl; unfold vsub, apply_pt, tangent_coord; simpl; pairs_ring.
Qed.
Lemma fast_transformed e m i : 0 <= e -> (forall p q, distance p q <= distance (apply_pt m p) (apply_pt m q)) -> fast e i -> fast e (item_transformed m i).
Proof.
  intros He M F. apply nrm_fast; auto. intros t Ht. rewrite velocity_trafo, <- distance_nrm.
  apply Rle_trans with (distance (0, 0) (velocity i t)).
  - rewrite distance_nrm. replace (vsub (velocity i t) (0, 0)) with (velocity i t) by (destruct (velocity i t); unfold vsub; simpl; apply pair_eq; ring).
    now apply fast_nrm.
  - apply M.
Qed.
Lemma chained_transformed m l : forall p q, chained p l q -> chained (apply_pt m p) (map (item_transformed m) l) (apply_pt m q).
Proof.
  induction l as [|i l IH]; simpl; intros p q; [congruence|]. intros [<- C]. split; [destruct i; auto|].
  replace (atend_pt (item_transformed m i)) with (apply_pt m (atend_pt i)) by (destruct i; auto). auto.
Qed.
