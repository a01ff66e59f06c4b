(** * Density graphs show the points of the data where they are (C105) *)

From Coq Require Import Reals Bool List Lra Lia Permutation Sorted.
From Verif Require Import Graph3dModel TrafoModel GridModel GridSpec ImagePlaceModel ImagePlaceSpec.
Import ListNotations.
Open Scope R_scope.

Lemma eqR_true a b : eqR a b = true <-> a = b.
Proof. unfold eqR. destruct (Req_EM_T a b); split; congruence. Qed.
Lemma near_test e h v : (leb (h - e) v && leb v (h + e))%bool = true <-> near e v h.
Proof.
  unfold leb, near. unfold Rabs. destruct (Rle_dec (h - e) v), (Rle_dec v (h + e)), (Rcase_abs (v - h)); cbn; split; intros; try discriminate; try reflexivity; lra.
Qed.
Lemma near_sym e a b : near e a b -> near e b a.
Proof. unfold near. rewrite Rabs_minus_sym. auto. Qed.
Lemma near_refl e a : 0 <= e -> near e a a.
Proof. unfold near. replace (a - a) with 0 by ring. rewrite Rabs_R0. auto. Qed.

Lemma snap_spec e vs v w vs' : 0 <= e -> snap e vs v = (w, vs') ->
  near e v w /\ In w vs' /\ (vs' = vs \/ vs' = vs ++ [v] /\ w = v /\ forall h, In h vs -> ~ near e v h).
Proof.
  intros E. unfold snap. destruct (existsb _ vs) eqn:X.
  - intros [= <- <-]. apply existsb_exists in X as (h & I & Q). apply eqR_true in Q. subst. split; [apply near_refl, E|]. auto.
  - destruct (find _ vs) as [h|] eqn:F; intros [= <- <-].
    + apply find_some in F as (I & Q). apply near_test in Q. auto.
    + split; [apply near_refl, E|]. split; [apply in_or_app; right; left; reflexivity|]. right. repeat split. intros h I N.
      apply near_test in N. rewrite (find_none _ _ F h I) in N. discriminate.
Qed.
Lemma apart_snoc e vs v : apart e vs -> (forall h, In h vs -> ~ near e v h) -> apart e (vs ++ [v]).
Proof.
  intros A H i j a b I J IJ N.
  assert (forall k x, nth_error (vs ++ [v]) k = Some x -> (k < length vs)%nat /\ nth_error vs k = Some x \/ k = length vs /\ x = v) as D.
  { intros k x K. destruct (Nat.lt_ge_cases k (length vs)) as [L|L]; [left; rewrite nth_error_app1 in K by exact L; auto|].
    right. rewrite nth_error_app2 in K by exact L. destruct (k - length vs)%nat as [|n] eqn:Q; [|destruct n; discriminate K]. cbn in K. split; [lia|congruence]. }
  destruct (D _ _ I) as [(L & I')|(-> & ->)], (D _ _ J) as [(L' & J')|(-> & ->)].
  - exact (A i j a b I' J' IJ N).
  - apply (H a); [eapply nth_error_In; eauto|apply near_sym, N].
  - apply (H b); [eapply nth_error_In; eauto|exact N].
  - lia.
Qed.

Section Density.
  Variable D C : Type.
  Notation point := (point D C).
  Notation grid := (grid D).

  (** the data with a position: x, y and the color *)
  Definition placed (p : point) : list (R * R * C) := match coords D C p with Some (x, y) => [(x, y, color D C p)] | None => [] end.
  Definition all_placed (ps : list point) : list (R * R * C) := flat_map placed ps.

  Lemma draw_none e ps : fold_left (draw_point D C e) ps None = None.
  Proof. induction ps; auto. Qed.
  Lemma draw_snoc e ps p : draw_points D C e (ps ++ [p]) = draw_point D C e (draw_points D C e ps) p.
  Proof. unfold draw_points. rewrite fold_left_app. reflexivity. Qed.

  (** each point with a position belongs to a value of the grid in both directions, which is the same up to [epsilon], the values
      of the grid are different, and all of them are coordinates of points *)
  Theorem grid_values : forall epsilon ps g colors, 0 <= epsilon -> draw_points D C epsilon ps = Some (g, colors) ->
    apart epsilon (values1 D g) /\ apart epsilon (values2 D g) /\
    (forall p x y, In p ps -> coords D C p = Some (x, y) ->
       (exists a, In a (values1 D g) /\ near epsilon x a) /\ (exists b, In b (values2 D g) /\ near epsilon y b)) /\
    (forall a, In a (values1 D g) -> exists p y, In p ps /\ coords D C p = Some (a, y)) /\
    (forall b, In b (values2 D g) -> exists p x, In p ps /\ coords D C p = Some (x, b)).
  Proof.
    intros e ps g colors E. revert g colors. induction ps as [|p ps IH] using rev_ind; intros g colors.
    - intros [= <- <-]. cbn. repeat split; try (intros i j a b I; destruct i; discriminate I); contradiction.
    - rewrite draw_snoc. destruct (draw_points D C e ps) as [[g0 c0]|] eqn:S; [|discriminate]. specialize (IH g0 c0 eq_refl). destruct IH as (A1 & A2 & H & B1 & B2).
      cbn [draw_point]. unfold density_point, grid_point. destruct (coords D C p) as [[x y]|] eqn:K.
      + destruct (snap e (values1 D g0) x) as [a vs1] eqn:S1. destruct (snap e (values2 D g0) y) as [b vs2] eqn:S2. cbn. intros [= <- <-]. cbn.
        apply snap_spec in S1 as (N1 & I1 & W1); [|exact E]. apply snap_spec in S2 as (N2 & I2 & W2); [|exact E].
        assert (forall h, In h (values1 D g0) -> In h vs1) as Sub1 by (destruct W1 as [->|(-> & _)]; auto using in_or_app).
        assert (forall h, In h (values2 D g0) -> In h vs2) as Sub2 by (destruct W2 as [->|(-> & _)]; auto using in_or_app).
        refine (conj _ (conj _ (conj _ (conj _ _)))).
        * destruct W1 as [->|(-> & _ & W)]; [exact A1|apply apart_snoc; auto].
        * destruct W2 as [->|(-> & _ & W)]; [exact A2|apply apart_snoc; auto].
        * intros q x' y' Q. apply in_app_or in Q as [Q|[<-|[]]]; intros Kq.
          -- destruct (H q x' y' Q Kq) as ((a' & ? & ?) & b' & ? & ?). split; eexists; eauto.
          -- rewrite K in Kq. injection Kq as <- <-. split; eauto.
        * intros h I. assert (In h (values1 D g0) \/ h = x) as [I'| ->].
          { destruct W1 as [->|(-> & -> & _)]; [auto|]. apply in_app_or in I as [I|[I|[]]]; auto. }
          -- destruct (B1 h I') as (q & y' & Q & Kq). exists q, y'. split; [apply in_or_app; auto|exact Kq].
          -- exists p, y. split; [apply in_or_app; right; left; reflexivity|exact K].
        * intros h I. assert (In h (values2 D g0) \/ h = y) as [I'| ->].
          { destruct W2 as [->|(-> & -> & _)]; [auto|]. apply in_app_or in I as [I|[I|[]]]; auto. }
          -- destruct (B2 h I') as (q & y' & Q & Kq). exists q, y'. split; [apply in_or_app; auto|exact Kq].
          -- exists p, x. split; [apply in_or_app; right; left; reflexivity|exact K].
      + destruct (current D g0); [|discriminate]. intros [= <- <-]. refine (conj A1 (conj A2 (conj _ (conj _ _)))).
        * intros q x' y' Q Kq. apply in_app_or in Q as [Q|[<-|[]]]; [eauto|congruence].
        * intros h I. destruct (B1 h I) as (q & y' & Q & Kq). exists q, y'. split; [apply in_or_app; auto|exact Kq].
        * intros h I. destruct (B2 h I) as (q & y' & Q & Kq). exists q, y'. split; [apply in_or_app; auto|exact Kq].
  Qed.

  Lemma lookup_cons {X} (k k' : R * R) (x : X) d : lookup k ((k', x) :: d) = if (eqR (fst k') (fst k) && eqR (snd k') (snd k))%bool then Some x else lookup k d.
  Proof. unfold lookup. cbn. destruct (_ && _)%bool; reflexivity. Qed.
  Lemma same_key (a b a' b' : R) : (eqR a' a && eqR b' b)%bool = true <-> a' = a /\ b' = b.
  Proof. rewrite andb_true_iff, !eqR_true. tauto. Qed.

  Definition xs (ps : list point) := map (fun p => fst (fst p)) (all_placed ps).
  Definition ys (ps : list point) := map (fun p => snd (fst p)) (all_placed ps).
  Lemma in_xs ps p x y : In p ps -> coords D C p = Some (x, y) -> In x (xs ps) /\ In y (ys ps).
  Proof.
    intros I K. assert (In (x, y, color D C p) (all_placed ps)).
    { apply in_flat_map. exists p. split; [exact I|]. unfold placed. rewrite K. left. reflexivity. }
    split; apply in_map_iff; exists (x, y, color D C p); auto.
  Qed.
  Lemma placed_snoc ps p : all_placed (ps ++ [p]) = all_placed ps ++ placed p.
  Proof. unfold all_placed. rewrite flat_map_app. cbn. rewrite app_nil_r. reflexivity. Qed.

  Lemma trace e ps g colors : 0 <= e -> draw_points D C e ps = Some (g, colors) -> Forall (fun p => coords D C p <> None) ps ->
    map fst colors = map fst (data12 D g) /\
    Forall2 (fun k q => snd k = snd q /\ near e (fst (fst q)) (fst (fst k)) /\ near e (snd (fst q)) (snd (fst k))) colors (rev (all_placed ps)) /\
    Forall (fun k => In (fst (fst k)) (values1 D g) /\ In (snd (fst k)) (values2 D g)) colors.
  Proof.
    intros E. revert g colors. induction ps as [|p ps IH] using rev_ind; intros g colors.
    - intros [= <- <-] _. cbn. auto.
    - rewrite draw_snoc. destruct (draw_points D C e ps) as [[g0 c0]|] eqn:S; [|discriminate]. intros Q F. apply Forall_app in F as (F & Fp).
      destruct (IH g0 c0 eq_refl F) as (K0 & M0 & V0). inversion_clear Fp as [|? ? Kp _]. rewrite placed_snoc. unfold placed.
      unfold draw_point, density_point, grid_point in Q. destruct (coords D C p) as [[x y]|]; [|congruence].
      destruct (snap e (values1 D g0) x) as [a vs1] eqn:S1. destruct (snap e (values2 D g0) y) as [b vs2] eqn:S2. cbn in Q. injection Q as <- <-.
      apply snap_spec in S1 as (N1 & I1 & W1); [|exact E]. apply snap_spec in S2 as (N2 & I2 & W2); [|exact E].
      cbn. refine (conj _ (conj _ _)).
      + f_equal. exact K0.
      + rewrite rev_app_distr. cbn. constructor; [cbn; auto|exact M0].
      + constructor; [cbn; auto|]. eapply Forall_impl; [|exact V0]. cbn. intros k [A B]. split.
        * destruct W1 as [->|(-> & _)]; auto using in_or_app.
        * destruct W2 as [->|(-> & _)]; auto using in_or_app.
  Qed.

  Lemma lookup_shows e a b (l : list ((R * R) * C)) qs : Forall2 (fun k q => snd k = snd q /\ (fst k = (a, b) <-> here C e a b q)) l qs ->
    shows C e a b (rev qs) (lookup (a, b) l).
  Proof.
    induction 1 as [|[[a' b'] c] [[x y] c'] l qs [Hc Hk] F IH].
    - cbn. constructor.
    - rewrite lookup_cons. cbn [fst snd] in *. subst c'. destruct (eqR a' a && eqR b' b)%bool eqn:Q.
      + apply same_key in Q as [-> ->]. cbn. exists (rev qs), x, y, []. split; [reflexivity|]. split; [apply Hk; reflexivity|constructor].
      + assert (~ here C e a b (x, y, c)) as N by (intros H; apply Hk in H; injection H as -> ->; rewrite (proj2 (same_key a b a b)) in Q by auto; discriminate).
        cbn [rev]. destruct (lookup (a, b) l) as [c0|]; cbn in *.
        * destruct IH as (p1 & x0 & y0 & p2 & -> & H & Fp). exists p1, x0, y0, (p2 ++ [(x, y, c)]). rewrite <- app_assoc. split; [reflexivity|]. split; [exact H|].
          apply Forall_app. split; [exact Fp|]. constructor; [exact N|constructor].
        * apply Forall_app. split; [exact IH|]. constructor; [exact N|constructor].
  Qed.
  Lemma lookup_keys {X Y} k (l : list ((R * R) * X)) (l' : list ((R * R) * Y)) : map fst l = map fst l' -> lookup k l = None <-> lookup k l' = None.
  Proof.
    revert l'. induction l as [|[q x] l IH]; intros [|[q' y] l'] Q; try discriminate; [tauto|]. injection Q as <- Q. rewrite !lookup_cons.
    destruct (_ && _)%bool; [split; discriminate|]. apply IH, Q.
  Qed.
  Lemma apart_eq e l a b : apart e l -> In a l -> In b l -> near e a b -> a = b.
  Proof.
    intros A I J N. apply In_nth_error in I as (i & I). apply In_nth_error in J as (j & J). destruct (Nat.eq_dec i j) as [->|H]; [congruence|].
    exfalso. exact (A i j a b I J H N).
  Qed.

  (** If all points have positions, each pixel shows the last point of the data at its position, and is empty if there is none. *)
  Theorem density_shows : forall epsilon ps g colors, 0 <= epsilon -> draw_points D C epsilon ps = Some (g, colors) ->
    Forall (fun p => coords D C p <> None) ps -> clustered epsilon (xs ps) -> clustered epsilon (ys ps) ->
    forall a b, In a (values1 D g) -> In b (values2 D g) -> shows C epsilon a b (all_placed ps) (pixel D C Some g colors a b).
  Proof.
    intros e ps g colors E DP All Cx Cy a b Ia Ib. destruct (grid_values e ps g colors E DP) as (A1 & A2 & _ & B1 & B2).
    destruct (trace e ps g colors E DP All) as (K & M & V).
    assert (pixel D C Some g colors a b = lookup (a, b) colors) as ->.
    { unfold pixel. pose proof (lookup_keys (a, b) _ _ K) as [L1 L2]. destruct (lookup (a, b) (data12 D g)); destruct (lookup (a, b) colors); auto. rewrite L2; auto. }
    rewrite <- (rev_involutive (all_placed ps)). apply lookup_shows.
    assert (forall h, In h (values1 D g) -> In h (xs ps)) as V1 by (intros h H; destruct (B1 h H) as (p & y & Ip & Kp); apply (in_xs ps p h y Ip Kp)).
    assert (forall h, In h (values2 D g) -> In h (ys ps)) as V2 by (intros h H; destruct (B2 h H) as (p & x & Ip & Kp); apply (in_xs ps p x h Ip Kp)).
    assert (Forall (fun q => In (fst (fst q)) (xs ps) /\ In (snd (fst q)) (ys ps)) (rev (all_placed ps))) as Vq.
    { apply Forall_forall. intros q Q. apply in_rev in Q. unfold xs, ys. split; apply in_map_iff; exists q; auto. }
    clear K DP. induction M as [|k q l qs (Hc & H1 & H2) F IH]; [constructor|].
    inversion_clear V as [|? ? (U1 & U2) V']. inversion_clear Vq as [|? ? (X1 & X2) Vq']. constructor; [|apply IH; assumption].
    split; [exact Hc|]. destruct k as [[a' b'] c]. destruct q as [[xq yq] cq]. cbn in *. unfold here. cbn. split.
    - intros [= -> ->]. auto.
    - intros [N1 N2]. f_equal.
      + apply (apart_eq e (values1 D g)); auto. apply (Cx a' xq a); auto. apply near_sym, H1.
      + apply (apart_eq e (values2 D g)); auto. apply (Cy b' yq b); auto. apply near_sym, H2.
  Qed.
End Density.
Print Assumptions grid_values.
Print Assumptions density_shows.

(** A point without a position takes away the color of the point before: (0, 0) is shown in the color of the second point. *)
Theorem density_shows_refuted : exists ps g colors, draw_points unit nat 0.1 ps = Some (g, colors) /\
  clustered 0.1 (xs unit nat ps) /\ clustered 0.1 (ys unit nat ps) /\ In 0 (values1 unit g) /\ In 0 (values2 unit g) /\
  ~ shows nat 0.1 0 0 (all_placed unit nat ps) (pixel unit nat Some g colors 0 0).
Proof.
  exists [mkpoint unit nat (Some (0, 0)) tt 1%nat; mkpoint unit nat None tt 2%nat]. exists (mkgrid unit [0] [0] [((0, 0), tt)] (Some (0, 0))), [((0, 0), 2%nat); ((0, 0), 1%nat)]. split; [reflexivity|].
  assert (clustered 0.1 [0]) as Cl by (intros a b c [<-|[]] [<-|[]] [<-|[]]; auto).
  split; [exact Cl|]. split; [exact Cl|]. split; [left; reflexivity|]. split; [left; reflexivity|].
  unfold pixel. cbn [data12]. rewrite !lookup_cons. cbn [fst snd]. rewrite (proj2 (same_key 0 0 0 0)) by auto.
  cbn. intros (ps1 & x & y & ps2 & Q & _). destruct ps1 as [|? [|]]; discriminate.
Qed.
Print Assumptions density_shows_refuted.
(** and if the first point is without a position, an exception occurs *)
Theorem density_first_refuted : exists ps, all_placed unit nat ps <> [] /\ draw_points unit nat 0.1 ps = None.
Proof. exists [mkpoint unit nat None tt 2%nat; mkpoint unit nat (Some (0, 0)) tt 1%nat]. split; [discriminate|reflexivity]. Qed.
Print Assumptions density_first_refuted.

Lemma eqR_false a b : a <> b -> eqR a b = false.
Proof. unfold eqR. destruct (Req_EM_T a b); tauto. Qed.
(** the second point is in the same column as the first, and the third at the same position as the first *)
Example density_ex : exists g colors,
  draw_points unit nat 0.1 [mkpoint unit nat (Some (0, 0)) tt 1%nat; mkpoint unit nat (Some (0.05, 1)) tt 2%nat; mkpoint unit nat (Some (0, 0.02)) tt 3%nat] = Some (g, colors) /\
  values1 unit g = [0] /\ values2 unit g = [0; 1] /\ pixel unit nat Some g colors 0 0 = Some 3%nat /\ pixel unit nat Some g colors 0 1 = Some 2%nat.
Proof.
  assert (forall v, snap 0.1 [] v = (v, [v])) as A by reflexivity.
  assert (forall v vs, snap 0.1 (v :: vs) v = (v, v :: vs)) as B by (intros; unfold snap; cbn [existsb]; rewrite (proj2 (eqR_true v v) eq_refl); reflexivity).
  assert (snap 0.1 [0] 0.05 = (0, [0])) as A1.
  { unfold snap. cbn [existsb find]. rewrite eqR_false by lra. cbn [orb]. rewrite (proj2 (near_test 0.1 0 0.05)) by (unfold near; rewrite Rabs_right; lra). reflexivity. }
  assert (snap 0.1 [0] 1 = (1, [0; 1])) as A2.
  { unfold snap. cbn [existsb find]. rewrite eqR_false by lra. cbn [orb]. destruct (_ && _)%bool eqn:Q; [|reflexivity]. apply near_test in Q. unfold near in Q. rewrite Rabs_right in Q; lra. }
  assert (snap 0.1 [0; 1] 0.02 = (0, [0; 1])) as A3.
  { unfold snap. cbn [existsb find]. rewrite (eqR_false 0), (eqR_false 1) by lra. cbn [orb]. rewrite (proj2 (near_test 0.1 0 0.02)) by (unfold near; rewrite Rabs_right; lra). reflexivity. }
  do 2 eexists. split.
  - unfold draw_points. cbn [fold_left draw_point]. unfold density_point, grid_point, new_grid.
    cbn [coords values1 values2 data12 current]. rewrite !A. cbn [coords values1 values2 data12 current].
    cbn [draw_point]. unfold density_point, grid_point. cbn [coords values1 values2 data12 current]. rewrite A1, A2. cbn [coords values1 values2 data12 current].
    cbn [draw_point]. unfold density_point, grid_point. cbn [coords values1 values2 data12 current].
    rewrite B, A3. cbn [coords values1 values2 data12 current color content]. reflexivity.
  - cbn [values1 values2]. split; [reflexivity|]. split; [reflexivity|]. unfold pixel. cbn [data12]. rewrite !lookup_cons. cbn [fst snd].
    rewrite !(proj2 (eqR_true 0 0) eq_refl), !(proj2 (eqR_true 1 1) eq_refl), !(eqR_false 0 1) by lra. split; reflexivity.
Qed.
