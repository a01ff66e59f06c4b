(** The path returned for an elliptic arc joins its end points. *)
From Coq Require Import Reals Bool List Lra Lia.
From Verif Require Import TrafoModel BboxModel CurveModel CurveSpec CurveProofs2 CurveProofs4 ArcModel NormsubModel NormsubSpec NormsubProofs NormsubProofs2 NormsubProofs4 NormsubProps NormpathModel PathModel PathSpec PathNormModel PathNormSpec PathNormProofs PathNormProps PathEndProps SvgInModel SvgInProofs SvgArcProps.
Import ListNotations.
Open Scope R_scope.

Local Notation pt := (R * R)%type.

Definition runs (e : R) (s : nsp) (b q : pt) : Prop := leads e s b q /\ epsilon s = Some e /\ closed s = false.
Definition filled (s : nsp) : Prop := skipped s = None -> items s <> [].

Lemma runs_transformed fuel e m s b q r : runs e s b q -> nsp_transformed fuel m s = Ok r ->
  runs e r (apply_pt m b) (apply_pt m q) /\ (filled s -> filled r).
Proof.
  intros ((x & Cx & Kx) & E1 & H1) T. unfold nsp_transformed in T. rewrite E1, H1 in T.
  destruct (extend fuel (empty_nsp (Some e)) (map (item_transformed m) (items s))) as [s'| |] eqn:X'; cbn [bind] in T; try discriminate.
  destruct (extend_leads e fuel _ (empty_nsp (Some e)) _ _ _ s' eq_refl eq_refl (leads_empty e (apply_pt m b)) (chained_transformed m _ _ _ Cx) X') as (L' & E' & H').
  destruct (skipped s) as [k|] eqn:Sk.
  - destruct Kx as (x0 & y0 & -> & -> & -> & _). cbn [item_transformed] in T.
    split; [exact (append_leads e fuel s' (Line (apply_pt m x) (apply_pt m q)) _ _ r E' L' (fun _ => eq_refl) T)|].
    intros _. exact (append_progress _ _ _ _ T).
  - injection T as <-. simpl in Kx. subst x. split; [split; auto|]. intros F.
    unfold filled. apply (extend_nonempty _ _ _ _ X'). specialize (F Sk). destruct (items s); [congruence|discriminate].
Qed.
Lemma runs_ends e s b q : runs e s b q -> filled s -> nsp_atbegin s = Some b /\ nsp_atend s = Some q.
Proof. intros (L & _) F. exact (leads_ends e s b q L F). Qed.
Lemma filled_begin s p : nsp_atbegin s = Some p -> filled s.
Proof. unfold nsp_atbegin, filled. destruct (items s), (skipped s); discriminate || auto; congruence. Qed.
Lemma made_runs fuel e l s b q : chained b l q -> make fuel l false (Some e) = Ok s -> runs e s b q.
Proof.
  intros C M. unfold make in M. destruct (extend fuel (empty_nsp (Some e)) l) as [s'| |] eqn:X; try discriminate. cbn [bind] in M. injection M as <-.
  exact (extend_leads e fuel l (empty_nsp (Some e)) b b q s' eq_refl eq_refl (leads_empty e b) C X).
Qed.

Section Arcs.
  Variables (fuel : nat) (e : R).

  (** the arc on the unit circle; reversing loses a short end *)
  Lemma unit_runs (fS : bool) a np : 0 < e -> convert fuel e [unit_arc fS a] = Ok np ->
    exists s b q, np = [s] /\ runs e s b q /\ q = (cos (theta2 a), sin (theta2 a)) /\ distance b (cos (theta1 a), sin (theta1 a)) < e /\
      (fS = true -> b = (cos (theta1 a), sin (theta1 a))).
  Proof.
    intros He.
    assert (PT : forall t, arcpoint 0 0 1 (t * 180 / PI) = (cos t, sin t)).
    { intros t. unfold arcpoint, radians. replace (PI * (t * 180 / PI) / 180) with t by (field; apply PI_neq0). f_equal; ring. }
    assert (Z : forall p, distance p p < e) by (intros p; rewrite distance_dist, dist_self; auto).
    unfold unit_arc, convert. destruct fS; cbn [create_normpath createcontext updates].
    - destruct (arc_items_chained 0 0 1 (theta1 a * 180 / PI) (theta2 a * 180 / PI)) as [C _]. rewrite !PT in C.
      destruct (make _ _ _ _) as [s| |] eqn:M; try discriminate. cbn [bind fst]. intros [= <-].
      exists s, (cos (theta1 a), sin (theta1 a)), (cos (theta2 a), sin (theta2 a)). repeat split; auto; apply (made_runs _ _ _ _ _ _ C M).
    - destruct (arc_items_chained 0 0 1 (theta2 a * 180 / PI) (theta1 a * 180 / PI)) as [C _]. rewrite !PT in C.
      destruct (make _ _ _ _) as [s0| |] eqn:M; try discriminate. cbn [bind].
      destruct (made_runs _ _ _ _ _ _ C M) as ((x & Cx & Kx) & E0 & H0).
      unfold path_reversed. cbn [rev app all_ok]. unfold nsp_reversed. rewrite E0, H0.
      destruct (make fuel (map item_reversed (rev (items s0))) false (Some e)) as [s| |] eqn:M'; try discriminate. cbn [bind fst]. intros [= <-].
      exists s, x, (cos (theta2 a), sin (theta2 a)). split; auto. split; [exact (made_runs _ _ _ _ _ _ (chained_rev _ _ _ Cx) M')|]. split; auto.
      split; [|discriminate]. destruct (skipped s0) as [k|]; [|simpl in Kx; now rewrite Kx].
      destruct Kx as (p0 & p1 & -> & -> & -> & D). now rewrite distance_dist.
  Qed.
  Lemma distance_add p q v : distance (fst p + fst v, snd p + snd v) (fst q + fst v, snd q + snd v) = distance p q.
  Proof. unfold distance. cbn [fst snd]. f_equal. ring. Qed.
End Arcs.

Lemma ellipse_stretch a phi p q : 0 <= rad_x a -> 0 <= rad_y a ->
  distance (apply_pt (ellipse_trafo a phi) p) (apply_pt (ellipse_trafo a phi) q) <= Rmax (rad_x a) (rad_y a) * distance p q.
Proof.
  intros X Y. assert (M : 0 <= Rmax (rad_x a) (rad_y a)) by (eapply Rle_trans; [exact X|apply Rmax_l]).
  set (m := Rmax (rad_x a) (rad_y a)) in *. unfold distance.
  assert (S2 := sin2_cos2 (radians phi)). unfold Rsqr in S2.
  rewrite <- (sqrt_Rsqr m M), <- sqrt_mult; [|apply Rle_0_sqr|apply Rplus_le_le_0_compat; rewrite <- Rsqr_pow2; apply Rle_0_sqr].
  apply sqrt_le_1_alt. unfold apply_pt, ellipse_trafo, tmul. cbn -[cos sin radians pow Rmult Rplus].
  set (c := cos (radians phi)) in *. set (s := sin (radians phi)) in *.
  set (dx := fst p - fst q). set (dy := snd p - snd q).
  match goal with |- ?L <= _ => replace L with ((s * s + c * c) * ((rad_x a * dx) ^ 2 + (rad_y a * dy) ^ 2)) by (unfold dx, dy; ring) end.
  rewrite S2, Rmult_1_l. unfold Rsqr. 
  assert (H : forall r d, 0 <= r <= m -> (r * d) ^ 2 <= m * m * d ^ 2).
  { intros r d [R0 R1]. replace ((r * d) ^ 2) with (r * r * d ^ 2) by ring. apply Rmult_le_compat_r; [rewrite <- Rsqr_pow2; apply Rle_0_sqr|]. apply Rmult_le_compat; lra. }
  assert (H1 := H (rad_x a) dx (conj X (Rmax_l _ _))). assert (H2 := H (rad_y a) dy (conj Y (Rmax_r _ _))). lra.
Qed.

(** The path for an arc, if it is returned at all, is one open subpath from the first point to the second point when
    the sweep flag is set.  Otherwise the second point is missed by not more than epsilon times the radius. *)
Theorem svg_arc_ends : forall fuel e p1 p2 fA fS rx ry phi np, 0 < e -> p1 <> p2 ->
  endpointarc fuel e p1 p2 fA fS rx ry phi = Ok np ->
  exists s q, np = [s] /\ closed s = false /\ nsp_atbegin s = Some p1 /\ nsp_atend s = Some q /\ (fS = true \/ rx = 0 \/ ry = 0 -> q = p2) /\
    forall a, rx <> 0 -> ry <> 0 -> center_params p1 p2 fA fS rx ry phi = Some a -> distance q p2 <= Rmax (rad_x a) (rad_y a) * e.
Proof.
  intros fuel e p1 p2 fA fS rx ry phi np He D E. unfold endpointarc in E.
  destruct (eqb rx 0 || eqb ry 0)%bool eqn:Z.
  - assert (R0 : rx = 0 \/ ry = 0).
    { apply orb_true_iff in Z. unfold eqb in Z. destruct (Req_EM_T rx 0), (Req_EM_T ry 0); auto. destruct Z; discriminate. }
    assert (O : obey_all (mkgstate [] NoPoint) (outputPS [Moveto p1; Lineto p2]) = Some (mkgstate [] (Drawing p1 [SegLine p2]))) by reflexivity.
    assert (SP := normpath_subpaths fuel e p1 [Lineto p2] _ np He eq_refl O E).
    inversion SP as [|d0 s l1 l2 (SC & _ & SB & SA & _) SN]; subst. inversion SN; subst. cbn in SC, SB, SA.
    exists s, p2. repeat split; auto. intros a X Y. tauto.
  - apply orb_false_iff in Z as [ZX ZY]. unfold eqb in ZX, ZY.
    destruct (Req_EM_T rx 0) as [|RX]; [discriminate|]. destruct (Req_EM_T ry 0) as [|RY]; [discriminate|].
    destruct (svg_arc_center p1 p2 fA fS rx ry phi RX RY D) as (a & m & k & d & j & C & E1 & E2 & K & AX & AY & _).
    rewrite C in E. destruct (convert fuel e [unit_arc fS a]) as [u| |] eqn:U; try discriminate. cbn [bind] in E.
    destruct (unit_runs fuel e fS a u He U) as (s0 & b & q0 & -> & R0 & -> & B0 & BS).
    unfold path_transformed in E. cbn [all_ok] in E.
    destruct (nsp_transformed fuel (ellipse_trafo a phi) s0) as [s1| |] eqn:T1; try discriminate. cbn [bind path_atbegin] in E.
    destruct (runs_transformed _ _ _ _ _ _ _ R0 T1) as [R1 _].
    destruct (nsp_atbegin s1) as [q|] eqn:B1; [|discriminate]. assert (F1 := filled_begin _ _ B1).
    destruct (runs_ends _ _ _ _ R1 F1) as [B1' _]. rewrite B1 in B1'. injection B1' as ->.
    cbn [all_ok] in E. match type of E with context [nsp_transformed fuel ?t s1] => destruct (nsp_transformed fuel t s1) as [s2| |] eqn:T2; try discriminate end. cbn [bind] in E. injection E as <-.
    destruct (runs_transformed _ _ _ _ _ _ _ R1 T2) as [R2 F2]. destruct (runs_ends _ _ _ _ R2 (F2 F1)) as [B2 A2].
    set (T := ellipse_trafo a phi) in *.
    set (v := (fst p1 - fst (apply_pt T b), snd p1 - snd (apply_pt T b))) in *.
    assert (TR : forall x, apply_pt (translate_pt (fst v) (snd v)) x = (fst x + fst v, snd x + snd v)) by (intros x; unfold apply_pt, translate_pt; cbn; f_equal; ring).
    change (fst p1 - fst (apply_pt T b)) with (fst v) in B2, A2. change (snd p1 - snd (apply_pt T b)) with (snd v) in B2, A2.
    rewrite TR in B2, A2.
    assert (P1 : (fst (apply_pt T b) + fst v, snd (apply_pt T b) + snd v) = p1) by (unfold v; cbn [fst snd]; destruct p1; cbn [fst snd]; f_equal; ring).
    rewrite P1 in B2.
    assert (EV : forall t, ellipse_at m (rad_x a) (rad_y a) phi t = (fst (apply_pt T (cos t, sin t)) + fst m, snd (apply_pt T (cos t, sin t)) + snd m)).
    { intros t. unfold T. rewrite svg_arc_trafo. unfold ellipse_at. cbn [fst snd]. f_equal; ring. }
    assert (Q : forall b', b' = (cos (theta1 a), sin (theta1 a)) ->
      p2 = (fst (apply_pt T (cos (theta2 a), sin (theta2 a))) + (fst p1 - fst (apply_pt T b')), snd (apply_pt T (cos (theta2 a), sin (theta2 a))) + (snd p1 - snd (apply_pt T b')))).
    { intros b' ->. rewrite EV in E1, E2. rewrite <- E2 at 1. rewrite <- E1. cbn [fst snd]. f_equal; ring. }
    exists s2, (fst (apply_pt T (cos (theta2 a), sin (theta2 a))) + fst v, snd (apply_pt T (cos (theta2 a), sin (theta2 a))) + snd v).
    split; auto. split; [apply R2|]. split; auto. split; auto. split.
    + intros [H|[H|H]]; [|congruence|congruence]. rewrite (Q b (BS H)) at 1. reflexivity.
    + intros a' _ _ C'. assert (a' = a) as -> by congruence.
      assert (X0 : 0 <= rad_x a) by (rewrite AX; apply Rmult_le_pos; [lra|apply Rabs_pos]). assert (Y0 : 0 <= rad_y a) by (rewrite AY; apply Rmult_le_pos; [lra|apply Rabs_pos]).
      apply Rle_trans with (Rmax (rad_x a) (rad_y a) * distance b (cos (theta1 a), sin (theta1 a))).
      * eapply Rle_trans; [|apply (ellipse_stretch a phi _ _ X0 Y0)]. fold T. rewrite (Q _ eq_refl). right.
        set (w := apply_pt T (cos (theta2 a), sin (theta2 a))). set (x := apply_pt T b). set (y := apply_pt T (cos (theta1 a), sin (theta1 a))). unfold distance, v. fold x. cbn [fst snd]. f_equal. ring.
      * apply Rmult_le_compat_l; [eapply Rle_trans; [exact X0|apply Rmax_l]|lra].
Qed.
Print Assumptions svg_arc_ends.
