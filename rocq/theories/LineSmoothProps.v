(** * Smoothed lines: what the deformer draws *)
From Coq Require Import Reals List Bool PeanoNat Lra Lia.
From Verif Require Import CurveModel CurveProofs4 PathModel MpModel MpSpec MpProofs MpProofs2 MpProofs3 MpProofs4 MpProofs5 MpProofs6 MpProofs7 MpProps MpPathProps LineSmoothModel.
Import ListNotations.
Local Open Scope R_scope.
Local Notation pt := (R * R)%type.

(** A curve arriving at p from b and one leaving p towards a have a common tangent there. *)
Definition smooth_at (b p a : pt) : Prop :=
  exists ux uy v w, ux ^ 2 + uy ^ 2 = 1 /\ 0 < v /\ 0 < w /\
    a = (fst p + v * ux, snd p + v * uy) /\ b = (fst p - w * ux, snd p - w * uy).
(** points which MetaPost does not take for the same *)
Definition apart (eps : R) (p q : pt) : Prop := eps ^ 2 <= (fst q - fst p) ^ 2 + (snd q - snd p) ^ 2.
(** the curve i *)
Definition curve_at (cs : list pathitem) (i : nat) (a b p : pt) : Prop := nth_error cs i = Some (Curveto a b p).

Lemma pair_inj {A B} {a a' : A} {b b' : B} : (a, b) = (a', b') -> a = a' /\ b = b'.
Proof. intros E. injection E as -> ->. split; reflexivity. Qed.
Lemma triple_inj {A B C} {a a' : A} {b b' : B} {c c' : C} : (a, b, c) = (a', b', c') -> a = a' /\ b = b' /\ c = c'.
Proof. intros E. injection E as -> -> ->. repeat split; reflexivity. Qed.
Lemma Some_inj {A} {a b : A} : Some a = Some b -> a = b.
Proof. intros E. injection E as ->. reflexivity. Qed.

Section Smoothed.
  Variables (eps : R) (s : linesmoothed) (n : nsubpath).
  Hypothesis eps0 : 0 < eps.
  Hypothesis some : n_ends n <> [].
  Hypothesis closes : n_closed n = true -> last (n_ends n) (n_first n) = n_first n.
  Hypothesis lcurl0 : forall c, s_lcurl s = Some c -> 0 <= c.
  Hypothesis rcurl0 : forall c, s_rcurl s = Some c -> 0 <= c.

  Let es := smooth_elements s n.
  Let N := length es.
  Let m := length (n_ends n).
  Let P (i : nat) : pt := nth i (n_first n :: n_ends n) (n_first n).
  Let L := tensioncurve (s_tension s) false None None.

  Lemma m0 : (0 < m)%nat.
  Proof. unfold m. destruct (n_ends n); [congruence|cbn; lia]. Qed.

  Lemma removelast_length {A} (l : list A) : length (removelast l) = (length l - 1)%nat.
  Proof. induction l as [|a [|b l] IH]; [reflexivity..|]. cbn [removelast length] in *. rewrite IH. lia. Qed.
  Lemma last_nth {A} (l : list A) d : l <> [] -> last l d = nth (length l - 1) l d.
  Proof. induction l as [|a [|b l] IH]; [congruence|reflexivity|]. intros _. change (last (a :: b :: l) d) with (last (b :: l) d). rewrite IH by discriminate. cbn [length]. rewrite !Nat.sub_succ, !Nat.sub_0_r. reflexivity. Qed.
  Lemma removelast_nth {A} (l : list A) d i : (i < length l - 1)%nat -> nth i (removelast l) d = nth i l d.
  Proof.
    revert i. induction l as [|a [|b l] IH]; intros i H; [cbn in H; lia..|]. destruct i as [|i]; [reflexivity|].
    change (removelast (a :: b :: l)) with (a :: removelast (b :: l)). cbn [nth]. rewrite IH by (cbn [length] in *; lia). reflexivity.
  Qed.

  Lemma N_is : N = (m + (if n_closed n then 0 else 1))%nat.
  Proof. unfold N, es, smooth_elements. cbn [length]. rewrite app_length, map_length, removelast_length. fold m. pose proof m0. destruct (n_closed n); cbn [length]; lia. Qed.

  Lemma es_nth i : (i < N)%nat -> nth i es (smoothknot 0 0, None) =
    if Nat.eqb i 0 then (first_knot s n, Some L) else if Nat.ltb i m then (smoothknot (fst (P i)) (snd (P i)), Some L) else (last_knot s n, None).
  Proof.
    intros H. pose proof N_is as Ni. unfold es, smooth_elements. fold L. destruct i as [|i]; [reflexivity|]. cbn [nth Nat.eqb].
    assert (length (map (fun p : pt => (smoothknot (fst p) (snd p), Some L)) (removelast (n_ends n))) = (m - 1)%nat) as Le by (rewrite map_length; apply removelast_length).
    destruct (Nat.ltb_spec (S i) m) as [Q|Q].
    - rewrite app_nth1 by lia. rewrite (nth_indep _ _ ((fun p : pt => (smoothknot (fst p) (snd p), Some L)) (n_first n))) by lia. rewrite (map_nth (fun p : pt => (smoothknot (fst p) (snd p), Some L))).
      rewrite removelast_nth by (fold m; lia). reflexivity.
    - rewrite app_nth2 by lia. rewrite Le. destruct (n_closed n); [lia|]. replace (i - (m - 1))%nat with 0%nat by lia. reflexivity.
  Qed.
  Lemma knot_is i : (i < N)%nat -> knot_of es i = if Nat.eqb i 0 then first_knot s n else if Nat.ltb i m then smoothknot (fst (P i)) (snd (P i)) else last_knot s n.
  Proof. intros H. unfold knot_of. change (smoothknot 0 0) with (fst (smoothknot 0 0, @None link)). rewrite map_nth, es_nth by exact H. destruct (Nat.eqb i 0), (Nat.ltb i m); reflexivity. Qed.
  Lemma link_is i : (i < N)%nat -> link_of es i = if Nat.ltb i m then Some L else None.
  Proof.
    intros H. unfold link_of. change (@None link) with (snd (smoothknot 0 0, @None link)) at 1. rewrite map_nth, es_nth by exact H.
    destruct (Nat.eqb_spec i 0) as [->|]; [|destruct (Nat.ltb i m); reflexivity]. pose proof m0. destruct (Nat.ltb_spec 0 m); [reflexivity|lia].
  Qed.
  Lemma L_is : exists t, 3 / 4 <= t /\ L = Tension t t.
  Proof. exists (Rmax 0.75 (Rabs (s_tension s))). split; [eapply Rle_trans; [|apply Rmax_l]; lra|reflexivity]. Qed.

  Lemma place_is i : (i < N)%nat -> (kx (knot_of es i), ky (knot_of es i)) = P i.
  Proof.
    intros H. rewrite knot_is by exact H. destruct (Nat.eqb_spec i 0) as [->|I0].
    - unfold first_knot, P. cbn [nth]. destruct (n_first n) as [x y]. destruct (n_closed n); [reflexivity|]. destruct (s_lcurl s); reflexivity.
    - destruct (Nat.ltb_spec i m) as [Q|Q]; [destruct (P i); reflexivity|].
      pose proof N_is as Ni. assert (i = m) as -> by (destruct (n_closed n); lia).
      unfold last_knot, P. destruct m as [|m'] eqn:Em; [lia|]. cbn [nth]. replace m' with (length (n_ends n) - 1)%nat by (fold m; lia). rewrite <- last_nth by exact some.
      destruct (last (n_ends n) (n_first n)) as [x y]. destruct (s_rcurl s); reflexivity.
  Qed.

  Lemma after_is i : (i < m)%nat -> (after N i < N)%nat /\ P (after N i) = P (S i) /\ (after N i = S i \/ after N i = 0%nat /\ n_closed n = true /\ i = (m - 1)%nat).
  Proof.
    intros H. pose proof m0 as M0. pose proof N_is as Ni. assert (0 < N)%nat as N0 by (destruct (n_closed n); lia). split; [apply after_lt, N0|]. unfold after. rewrite Nat.add_1_r.
    destruct (Nat.eq_dec (S i) N) as [Q|Q].
    - rewrite Q, Nat.mod_same by lia. destruct (n_closed n) eqn:C; [|lia]. split; [|right; split; [reflexivity|split; [reflexivity|lia]]].
      unfold P. cbn [nth]. rewrite <- (closes eq_refl) at 1. rewrite last_nth by exact some. fold m. replace N with (S (m - 1)) by lia. cbn [nth]. reflexivity.
    - rewrite Nat.mod_small by (destruct (n_closed n); lia). split; [reflexivity|left; reflexivity].
  Qed.

  Lemma knots_types i : (i < N)%nat ->
    (ltype (knot_of es i) = Open <-> rtype (knot_of es i) = Open) /\
    ((i < m)%nat -> value (rtype (knot_of es i)) (rx (knot_of es i))) /\
    ((0 < i)%nat \/ n_closed n = true -> value (ltype (knot_of es i)) (lx (knot_of es i))) /\
    (i = m -> rtype (knot_of es i) = Endpoint) /\ (i = 0%nat -> n_closed n = false -> ltype (knot_of es i) = Endpoint).
  Proof.
    intros H. rewrite knot_is by exact H. pose proof N_is as Ni. pose proof m0 as M0. destruct (Nat.eqb_spec i 0) as [->|I0].
    - unfold first_knot. destruct (n_first n) as [x y]. destruct (n_closed n) eqn:C.
      + cbn. repeat split; trivial; try discriminate; lia.
      + destruct (s_lcurl s) as [c|] eqn:E; cbn; (split; [split; discriminate|]); (split; [intros _; eexists; eauto|]); (split; [intros [?|?]; [lia|discriminate]|]); split; [lia|trivial|lia|trivial].
    - destruct (Nat.ltb_spec i m) as [Q|Q]; [cbn; repeat split; trivial; try discriminate; lia|].
      unfold last_knot. destruct (last (n_ends n) (n_first n)) as [x y]. destruct (s_rcurl s) as [c|] eqn:E; cbn; (split; [split; discriminate|]); (split; [lia|]); (split; [intros _; eexists; eauto|]); (split; [trivial|lia]).
  Qed.

  Lemma smooth_sensible : sensible es.
  Proof.
    pose proof m0 as M0. pose proof N_is as Ni. split; [fold N; destruct (n_closed n); lia|]. fold N. intros i H. cbn zeta.
    destruct (knots_types i H) as (O1 & V1 & _ & E1 & _). split; [exact O1|]. rewrite link_is by exact H. destruct (Nat.ltb_spec i m) as [Q|Q].
    - destruct L_is as (t & T & EL). rewrite EL. destruct (after_is i Q) as (A & _ & B). destruct (knots_types _ A) as (_ & _ & V2 & _). split; [apply V1, Q|]. split.
      + apply V2. destruct B as [B|(_ & B & _)]; [left; lia|right; exact B].
      + rewrite Rabs_pos_eq by lra. split; exact T.
    - assert (i = m) as -> by (destruct (n_closed n); lia). split; [apply E1; reflexivity|].
      assert (n_closed n = false) as C by (destruct (n_closed n); [lia|reflexivity]). assert (after N m = 0%nat) as A by (unfold after; rewrite Ni, C, Nat.mod_same; lia).
      rewrite A. destruct (knots_types 0 ltac:(lia)) as (_ & _ & _ & _ & E2). apply E2; [reflexivity|exact C].
  Qed.

  Lemma far_chord K i : described es K -> (i < m)%nat -> (i < N)%nat -> (chord_x N K i, chord_y N K i) = (fst (P (S i)) - fst (P i), snd (P (S i)) - snd (P i)).
  Proof.
    intros De H H'. destruct (De i H') as (X & Y & _). destruct (after_is i H) as (A & Pa & _). destruct (De _ A) as (X' & Y' & _). unfold chord_x, chord_y. fold N in X', Y'. rewrite X, Y, X', Y'.
    pose proof (place_is i H') as Q. pose proof (place_is _ A) as Q'. rewrite Pa in Q'. rewrite <- Q, <- Q'. reflexivity.
  Qed.

  Lemma lt_N i : (i < m)%nat -> (i < N)%nat.
  Proof. rewrite N_is. lia. Qed.

  Lemma curve_free K i : described es K -> (i < m)%nat -> apart eps (P i) (P (S i)) ->
    free N eps K i /\ 0 < chord N K i /\ exists t, 3 / 4 <= t /\ tension_out K i = t /\ tension_in N K i = t.
  Proof.
    intros De H Ap. pose proof (lt_N i H) as H'. pose proof (far_chord K i De H H') as Ch. destruct (pair_inj Ch) as [Cx Cy]. destruct (De i H') as (_ & _ & R1 & L1). fold N in L1.
    rewrite link_is in R1, L1 by exact H'. destruct (Nat.ltb_spec i m) as [_|]; [|lia]. destruct L_is as (t & T & EL). rewrite EL in R1, L1. cbn [out_side in_side] in R1, L1.
    apply triple_inj in R1. destruct R1 as (R1 & R2 & R3). apply triple_inj in L1. destruct L1 as (L1 & L2 & L3). destruct (knots_types i H') as (_ & V & _). specialize (V H). unfold apart in Ap. assert (0 < eps ^ 2) by (apply pow_lt, eps0).
    split; [split|split].
    - rewrite R1. unfold unset. destruct (rtype (knot_of es i)); cbn in V; tauto.
    - unfold short. rewrite Cx, Cy. lra.
    - unfold chord. apply sqrt_lt_R0. rewrite Cx, Cy. lra.
    - exists t. split; [exact T|]. unfold tension_out, tension_in. rewrite R3, L3. split; reflexivity.
  Qed.

  Lemma smoothed_curves its : deformsubpath eps s n = Some its ->
    exists K K' theta phi cs, described es K /\
      (forall i, (i < N)%nat -> free N eps K i -> begins N eps K theta phi i /\ ends N eps K theta phi i /\ ~ (cos (theta i) = -1 /\ cos (phi i) = -1)) /\
      (forall i, (i < N)%nat -> segment_result N eps K theta phi K' i) /\
      its = Moveto (P 0) :: cs ++ (if n_closed n then [Closepath] else []) /\ length cs = m /\
      forall i, (i < m)%nat -> exists a b c d, rx (K' i) = Some a /\ ry (K' i) = Some b /\ lx (K' (after N i)) = Some c /\ ly (K' (after N i)) = Some d /\ curve_at cs i (a, b) (c, d) (P (S i)).
  Proof.
    intros E. destruct (metapost_path es eps smooth_sensible eps0) as (K & theta & phi & De & BE & Fail & Res). fold N in BE, Fail, Res.
    destruct (Res its E) as (K' & front & tail & Pl & Sg & Ei & Le & F0 & Dr & T1 & T2). pose proof m0 as M0. pose proof N_is as Ni. assert (0 < N)%nat as N0 by (destruct (n_closed n); lia).
    destruct front as [|f0 front]; [cbn in Le; lia|]. cbn [nth_error] in F0. apply Some_inj in F0. subst f0. rewrite place_is in Ei by exact N0. cbn [length] in Le.
    exists K, K', theta, phi. assert (forall i, (i < N)%nat -> free N eps K i -> begins N eps K theta phi i /\ ends N eps K theta phi i /\ ~ (cos (theta i) = -1 /\ cos (phi i) = -1)) as BE'.
    { intros i H F. destruct (BE i H F) as [B1 B2]. split; [exact B1|]. split; [exact B2|]. intros [Q1 Q2]. unfold deformsubpath in E. fold es in E. destruct Fail as [_ Fail]. rewrite Fail in E; [discriminate|]. exists i. auto. }
    assert (forall i it, (i < m)%nat -> drawn K' (Some L) i (after N i) it -> exists a b c d, rx (K' i) = Some a /\ ry (K' i) = Some b /\ lx (K' (after N i)) = Some c /\ ly (K' (after N i)) = Some d /\ it = Curveto (a, b) (c, d) (P (S i))) as Cu.
    { intros i it H D. destruct L_is as (t & _ & EL). rewrite EL in D. destruct D as (a & b & c & d & A1 & A2 & A3 & A4 & ->). exists a, b, c, d. do 4 (split; [assumption|]). f_equal.
      destruct (after_is i H) as (A & Pa & _). destruct (Pl (after N i)) as [-> ->]. destruct (De _ A) as (-> & -> & _). rewrite place_is by exact A. exact Pa. }
    assert (n_closed n = true \/ n_closed n = false) as [C|C] by (case (n_closed n); auto); rewrite C in Ni |- *.
    - assert (is_curve (link_of es (N - 1))) as IC. { rewrite link_is by lia. destruct (Nat.ltb_spec (N - 1) m); [|lia]. destruct L_is as (t & _ & EL). rewrite EL. exact I. }
      destruct (T2 IC) as (it & D & T3 & _). assert (forall i, (i < N)%nat -> is_curve (link_of es i)) as All.
      { intros i H. rewrite link_is by exact H. destruct (Nat.ltb_spec i m); [|lia]. destruct L_is as (t & _ & EL). rewrite EL. exact I. }
      rewrite (T3 All) in Ei. exists (front ++ [it]). split; [exact De|]. split; [exact BE'|]. split; [exact Sg|]. split; [rewrite Ei; cbn [app]; rewrite <- app_assoc; reflexivity|].
      split; [rewrite app_length; cbn [length]; lia|]. intros i H. destruct (Nat.eq_dec (S i) N) as [Q|Q].
      + assert (after N i = 0%nat) as A by (unfold after; rewrite Nat.add_1_r, Q; apply Nat.mod_same; lia). rewrite link_is in D by lia. destruct (Nat.ltb_spec (N - 1) m); [|lia]. replace (N - 1)%nat with i in D by lia. rewrite <- A in D at 1.
        destruct (Cu i it H D) as (a & b & c & d & A1 & A2 & A3 & A4 & Et). exists a, b, c, d. do 4 (split; [assumption|]). unfold curve_at. rewrite nth_error_app2 by lia. replace (i - length front)%nat with 0%nat by lia. cbn. rewrite Et. reflexivity.
      + assert (after N i = S i) as A by (unfold after; rewrite Nat.add_1_r; apply Nat.mod_small; lia). destruct (Dr i ltac:(lia)) as (it' & En & D'). cbn [nth_error] in En. rewrite link_is in D' by lia. destruct (Nat.ltb_spec i m); [|lia]. rewrite <- A in D'.
        destruct (Cu i it' H D') as (a & b & c & d & A1 & A2 & A3 & A4 & Et). exists a, b, c, d. do 4 (split; [assumption|]). unfold curve_at. rewrite nth_error_app1 by lia. rewrite En, Et. reflexivity.
    - assert (~ is_curve (link_of es (N - 1))) as IC. { rewrite link_is by lia. destruct (Nat.ltb_spec (N - 1) m); [lia|]. intros []. }
      rewrite (T1 IC), app_nil_r in Ei. exists front. split; [exact De|]. split; [exact BE'|]. split; [exact Sg|]. split; [rewrite app_nil_r; exact Ei|]. split; [lia|]. intros i H.
      assert (after N i = S i) as A by (unfold after; rewrite Nat.add_1_r; apply Nat.mod_small; lia). destruct (Dr i ltac:(lia)) as (it' & En & D'). cbn [nth_error] in En. rewrite link_is in D' by lia. destruct (Nat.ltb_spec i m); [|lia]. rewrite <- A in D'.
      destruct (Cu i it' H D') as (a & b & c & d & A1 & A2 & A3 & A4 & Et). exists a, b, c, d. do 4 (split; [assumption|]). unfold curve_at. rewrite En, Et. reflexivity.
  Qed.

  (** one knot *)
  Lemma joint K K' theta phi j : described es K ->
    (forall i, (i < N)%nat -> free N eps K i -> begins N eps K theta phi i /\ ends N eps K theta phi i /\ ~ (cos (theta i) = -1 /\ cos (phi i) = -1)) ->
    (forall i, (i < N)%nat -> segment_result N eps K theta phi K' i) -> (j < m)%nat -> (after N j < m)%nat -> rtype (knot_of es (after N j)) = Open ->
    apart eps (P j) (P (S j)) -> apart eps (P (S j)) (P (S (after N j))) -> forall a b c d,
    rx (K' (after N j)) = Some a -> ry (K' (after N j)) = Some b -> lx (K' (after N j)) = Some c -> ly (K' (after N j)) = Some d -> smooth_at (c, d) (P (S j)) (a, b).
  Proof.
    intros De BE Sg H H2 Op A1 A2 a b c d Ea Eb Ec Ed. pose proof (lt_N _ H) as HN. pose proof (lt_N _ H2) as HN2. set (k := after N j) in *. assert (P k = P (S j)) as Pk by (apply after_is, H). rewrite <- Pk in A2 |- *.
    destruct (curve_free K j De H A1) as (Fj & Cj & t & T & _ & Tj). destruct (curve_free K k De H2 A2) as (Fk & Ck & t' & T' & Tk & _).
    destruct (BE k HN2 Fk) as (Bk & _ & Nk). destruct (BE j HN Fj) as (_ & _ & Nj). destruct (De k HN2) as (X & Y & R1 & _). rewrite link_is in R1 by exact HN2. destruct (Nat.ltb_spec k m); [|lia]. destruct L_is as (t2 & _ & EL). rewrite EL in R1. cbn [out_side] in R1. apply triple_inj in R1. destruct R1 as (R1 & _ & _).
    unfold begins in Bk. rewrite R1, Op in Bk. destruct Bk as [Bk _]. assert (before N k = j) as Bf by (apply before_after; lia). rewrite Bf in Bk. destruct (Bk Fj) as [Dir _].
    destruct (Sg k HN2) as (Chk & _). destruct (Chk Fk) as (_ & _ & v & _ & V & _ & X1 & X2 & _ & _). destruct (Sg j HN) as (Chj & _). destruct (Chj Fj) as (_ & _ & _ & w & _ & W & _ & _ & Y1 & Y2). fold k in Y1, Y2.
    rewrite Tk in V. rewrite Tj in W. assert (0 < v) as V0. { apply (has_speed_range t' (theta k) (phi k) v); [rewrite Rabs_pos_eq; lra|exact Nk|exact V|lra]. }
    assert (0 < w) as W0. { apply (has_speed_range t (phi j) (theta j) w); [rewrite Rabs_pos_eq; lra|tauto|exact W|lra]. }
    pose proof (leaves_dir N K k (theta k) Ck) as Lv. unfold leaves, arrives in Dir. destruct (pair_inj Dir) as [Ax Ay]. unfold leaves in Lv. destruct (pair_inj Lv) as [Lx Ly].
    pose proof (place_is k HN2) as Pl. assert (kx (K k) = fst (P k) /\ ky (K k) = snd (P k)) as [Xk Yk] by (rewrite X, Y, <- Pl; split; reflexivity).
    exists (cos (n_arg (chord_x N K k) (chord_y N K k) + theta k)), (sin (n_arg (chord_x N K k) (chord_y N K k) + theta k)), (v * chord N K k), (w * chord N K j).
    split; [pose proof (sin2_cos2 (n_arg (chord_x N K k) (chord_y N K k) + theta k)) as Q; unfold Rsqr in Q; lra|].
    split; [apply Rmult_lt_0_compat; lra|]. split; [apply Rmult_lt_0_compat; lra|]. rewrite Ea in X1. rewrite Eb in X2. rewrite Ec in Y1. rewrite Ed in Y2.
    apply Some_inj in X1. subst a. apply Some_inj in X2. subst b. apply Some_inj in Y1. subst c. apply Some_inj in Y2. subst d. rewrite Xk, Yk. rewrite <- Lx, <- Ly.
    split.
    - apply (f_equal2 pair); field; lra.
    - rewrite <- Ax, <- Ay. apply (f_equal2 pair); field; lra.
  Qed.

  (** The smoothed path begins where the subpath does, goes through the end points of its items in their order by curves, and
      is closed if the subpath is.  The curves join smoothly, except at points which MetaPost takes for the same as their
      neighbours, also where a closed path joins itself.  Without curls, the ends have the directions of the subpath. *)
  Theorem smoothed_path its : deformsubpath eps s n = Some its ->
    exists cs, its = Moveto (n_first n) :: cs ++ (if n_closed n then [Closepath] else []) /\
      Forall2 (fun c p => exists a b, c = Curveto a b p) cs (n_ends n) /\
      (forall i a b p a' b' p', curve_at cs i a b p -> curve_at cs (S i) a' b' p' -> apart eps (nth i (n_first n :: n_ends n) (n_first n)) p -> apart eps p p' -> smooth_at b p a') /\
      (n_closed n = true -> (1 < length cs)%nat -> forall a b p a' b' p', curve_at cs (length cs - 1) a b p -> curve_at cs 0 a' b' p' ->
         apart eps (nth (length cs - 1) (n_first n :: n_ends n) (n_first n)) p -> apart eps p p' -> smooth_at b p a') /\
      (n_closed n = false -> s_lcurl s = None -> fst (n_dir0 n) ^ 2 + snd (n_dir0 n) ^ 2 = 1 -> forall a b p, curve_at cs 0 a b p -> apart eps (n_first n) p ->
         exists v, 0 < v /\ a = (fst (n_first n) + v * fst (n_dir0 n), snd (n_first n) + v * snd (n_dir0 n))) /\
      (n_closed n = false -> s_rcurl s = None -> fst (n_dir1 n) ^ 2 + snd (n_dir1 n) ^ 2 = 1 -> forall a b p, curve_at cs (length cs - 1) a b p -> apart eps (nth (length cs - 1) (n_first n :: n_ends n) (n_first n)) p ->
         exists v, 0 < v /\ b = (fst p - v * fst (n_dir1 n), snd p - v * snd (n_dir1 n))).
  Proof.
    intros E. destruct (smoothed_curves its E) as (K & K' & theta & phi & cs & De & BE & Sg & Ei & Le & Cs). exists cs. pose proof m0 as M0. pose proof N_is as Ni.
    assert (forall i a b p, curve_at cs i a b p -> (i < m)%nat /\ rx (K' i) = Some (fst a) /\ ry (K' i) = Some (snd a) /\ lx (K' (after N i)) = Some (fst b) /\ ly (K' (after N i)) = Some (snd b) /\ p = P (S i)) as Inv.
    { intros i a b p C. assert (i < m)%nat as H. { rewrite <- Le. apply nth_error_Some. rewrite C. discriminate. } split; [exact H|]. destruct (Cs i H) as (x & y & z & w & A1 & A2 & A3 & A4 & C').
      unfold curve_at in C, C'. rewrite C in C'. injection C' as -> -> ->. repeat split; assumption. }
    assert (forall x y, x ^ 2 + y ^ 2 = 1 -> cos (atan2 y x) = x /\ sin (atan2 y x) = y) as At.
    { intros x y U. assert (hypot x y = 1) as Hy by (unfold hypot; replace (x * x + y * y) with 1 by lra; apply sqrt_1). destruct (cos_sin_atan2 y x) as [-> ->]; [lra|]. rewrite Hy. split; field. }
    split; [exact Ei|]. split; [|split; [|split; [|split]]].
    - assert (forall i, (i < m)%nat -> exists a b, nth_error cs i = Some (Curveto a b (nth i (n_ends n) (n_first n)))) as Q. { intros i H. destruct (Cs i H) as (a & b & c & d & _ & _ & _ & _ & C). exists (a, b), (c, d). exact C. }
      clear - Q Le. unfold m in *. revert Q Le. generalize (n_ends n). generalize (n_first n). intros x l Q Le. revert cs Le Q. induction l as [|p l IH]; intros [|c cs] Le Q; try discriminate; constructor.
      + destruct (Q 0%nat ltac:(cbn; lia)) as (a & b & C). cbn in C. injection C as ->. eauto.
      + apply IH; [cbn in Le; lia|]. intros i H. apply (Q (S i)). cbn. lia.
    - intros i a b p a' b' p' C1 C2 A1 A2. destruct (Inv _ _ _ _ C1) as (H1 & _ & _ & L1 & L2 & ->). destruct (Inv _ _ _ _ C2) as (H2 & R1 & R2 & _ & _ & ->). change (nth i (n_first n :: n_ends n) (n_first n)) with (P i) in A1.
      assert (after N i = S i) as A. { destruct (after_is i H1) as (_ & _ & [A|(_ & _ & A)]); [exact A|lia]. } destruct a' as [x y], b as [z w]. cbn [fst snd] in *.
      rewrite A in L1, L2. apply (joint K K' theta phi i De BE Sg H1); rewrite ?A; auto. rewrite knot_is by (apply lt_N; exact H2). cbn [Nat.eqb]. destruct (Nat.ltb_spec (S i) m); [reflexivity|lia].
    - intros C M a b p a' b' p' C1 C2 A1 A2. rewrite Le in *. destruct (Inv _ _ _ _ C1) as (H1 & _ & _ & L1 & L2 & ->). destruct (Inv _ _ _ _ C2) as (H2 & R1 & R2 & _ & _ & ->). change (nth (m - 1) (n_first n :: n_ends n) (n_first n)) with (P (m - 1)) in A1.
      assert (after N (m - 1) = 0%nat) as A. { rewrite C in Ni. unfold after. replace (m - 1 + 1)%nat with N by lia. apply Nat.mod_same. lia. } destruct a' as [x y], b as [z w]. cbn [fst snd] in *.
      rewrite A in L1, L2. apply (joint K K' theta phi (m - 1) De BE Sg H1); rewrite ?A; auto. rewrite knot_is by (apply lt_N; exact H2). cbn [Nat.eqb]. unfold first_knot. rewrite C. destruct (n_first n). reflexivity.
    - intros C Lc U a b p C1 A1. destruct (Inv _ _ _ _ C1) as (H1 & R1 & R2 & _ & _ & ->). change (n_first n) with (P 0) in A1. destruct (curve_free K 0 De H1 A1) as (F & Ch & t & T & To & _). pose proof (lt_N _ H1) as HN.
      destruct (BE _ HN F) as (B & _ & Nf). destruct (De _ HN) as (X & Y & R & _). rewrite link_is in R by exact HN. destruct (Nat.ltb_spec 0 m); [|lia]. destruct L_is as (t2 & _ & EL). rewrite EL in R. cbn [out_side] in R.
      pose proof (place_is 0 HN) as Pl. rewrite knot_is in R by exact HN. cbn [Nat.eqb] in R. unfold first_knot in R. rewrite C, Lc in R. destruct (n_first n) as [x0 y0] eqn:Ef. cbn in R. destruct (triple_inj R) as (Rt & Rx & Ry).
      unfold begins in B. rewrite Rt in B. specialize (B _ Rx). destruct (At _ _ U) as [-> ->] in B. unfold leaves in B. destruct (pair_inj B) as [Bx By].
      destruct (Sg 0%nat HN) as (Cho & _). destruct (Cho F) as (_ & _ & v & _ & V & _ & X1 & X2 & _ & _). rewrite To in V.
      assert (0 < v) as V0. { apply (has_speed_range t (theta 0%nat) (phi 0%nat) v); [rewrite Rabs_pos_eq; lra|exact Nf|exact V|lra]. }
      exists (v * chord N K 0). split; [apply Rmult_lt_0_compat; lra|]. rewrite R1 in X1. rewrite R2 in X2. apply Some_inj in X1. apply Some_inj in X2. destruct a as [ax ay]. cbn [fst snd] in *. rewrite X1, X2, X, Y, <- Bx, <- By. unfold P in Pl. cbn [nth] in Pl. destruct (pair_inj Pl) as [-> ->].
      apply (f_equal2 pair); field; lra.
    - intros C Rc U a b p C1 A1. rewrite Le in *. destruct (Inv _ _ _ _ C1) as (H1 & _ & _ & L1 & L2 & ->). change (nth (m - 1) (n_first n :: n_ends n) (n_first n)) with (P (m - 1)) in A1. destruct (curve_free K (m - 1) De H1 A1) as (F & Ch & t & T & _ & Ti). pose proof (lt_N _ H1) as HN.
      rewrite C in Ni. destruct (BE _ HN F) as (_ & B & Nf). destruct (De _ HN) as (_ & _ & _ & R). fold N in R. rewrite link_is in R by exact HN. destruct (Nat.ltb_spec (m - 1) m); [|lia]. destruct L_is as (t2 & _ & EL). rewrite EL in R. cbn [in_side] in R.
      assert (after N (m - 1) = m) as A by (unfold after; replace (m - 1 + 1)%nat with m by lia; apply Nat.mod_small; lia). replace (S (m - 1)) with m in * by lia. rewrite A in R, L1, L2.
      assert (m < N)%nat as HM by lia. pose proof (place_is m HM) as Pl. destruct (De _ HM) as (X & Y & _). rewrite (knot_is m HM) in R. destruct (Nat.eqb_spec m 0); [lia|]. rewrite Nat.ltb_irrefl in R. unfold last_knot in R. rewrite Rc in R. destruct (last (n_ends n) (n_first n)) as [x0 y0]. cbn in R. destruct (triple_inj R) as (Rt & Rx & Ry).
      unfold ends in B. cbn zeta in B. rewrite A, Rt in B. specialize (B _ Rx). destruct (At _ _ U) as [-> ->] in B. unfold arrives in B. destruct (pair_inj B) as [Bx By].
      destruct (Sg (m - 1)%nat HN) as (Cho & _). destruct (Cho F) as (_ & _ & _ & w & _ & W & _ & _ & X1 & X2). rewrite Ti in W. rewrite A in X1, X2.
      assert (0 < w) as W0. { apply (has_speed_range t (phi (m - 1)%nat) (theta (m - 1)%nat) w); [rewrite Rabs_pos_eq; lra|tauto|exact W|lra]. }
      exists (w * chord N K (m - 1)). split; [apply Rmult_lt_0_compat; lra|]. rewrite L1 in X1. rewrite L2 in X2. apply Some_inj in X1. apply Some_inj in X2. destruct b as [bx by']. cbn [fst snd] in *. rewrite X1, X2, X, Y, <- Bx, <- By, <- Pl. cbn [fst snd].
      apply (f_equal2 pair); field; lra.
  Qed.
End Smoothed.
Print Assumptions smoothed_path.

(** a bent line from (0, 0) to (1, 0) which leaves upwards and arrives downwards *)
Definition bent : nsubpath := mknsub (0, 0) [(1, 0)] false (0, 1) (0, Ropp 1).
Example smoothed_path_ex : deformsubpath (1 / 100) (new_linesmoothed 1 false None None) bent = Some [Moveto (0, 0); Curveto (0, 2 / 3) (1, 2 / 3) (1, 0)].
Proof.
  rewrite <- arch_drawn. unfold deformsubpath. f_equal. unfold smooth_elements, arch_path, bent, first_knot, last_knot. cbn [n_closed n_ends n_first n_dir0 n_dir1 s_lcurl s_rcurl s_tension new_linesmoothed removelast map app last fst snd].
  assert (atan2 1 0 = PI / 2) as ->. { unfold atan2. destruct (Rlt_dec 0 0); [lra|]. destruct (Rlt_dec 0 0); [lra|]. destruct (Rlt_dec 0 1); [reflexivity|lra]. }
  assert (atan2 (Ropp 1) 0 = - (PI / 2)) as ->. { unfold atan2. destruct (Rlt_dec 0 0); [lra|]. destruct (Rlt_dec 0 0); [lra|]. destruct (Rlt_dec 0 (Ropp 1)); [lra|]. destruct (Rlt_dec (Ropp 1) 0); [lra|lra]. }
  rewrite curve_is. unfold tensioncurve. rewrite (Rabs_pos_eq (Rabs 1)) by apply Rabs_pos. rewrite (Rabs_pos_eq 1) by lra. rewrite Rmax_right by lra. reflexivity.
Qed.

(** a triangle: closed, hence smooth everywhere *)
Definition tri : nsubpath := mknsub (0, 0) [(1, 0); (0, 1); (0, 0)] true (1, 0) (0, Ropp 1).
Example smooth_elements_ex : map (fun e => (kx (fst e), ky (fst e), rtype (fst e))) (smooth_elements (new_linesmoothed 1 false (Some 1) (Some 1)) tri) = [(0, 0, Open); (1, 0, Open); (0, 1, Open)] /\
  last (n_ends tri) (n_first tri) = n_first tri.
Proof. split; reflexivity. Qed.

(** The parameter atleast: the tension is negative then, but tensioncurve takes its absolute value, and is told about "at
    least" by another parameter which deformsubpath does not give.  So it has no effect at all. *)
Theorem linesmoothed_atleast_refuted : forall eps tension lcurl rcurl n,
  deformsubpath eps (new_linesmoothed tension true lcurl rcurl) n = deformsubpath eps (new_linesmoothed tension false lcurl rcurl) n.
Proof.
  intros. unfold deformsubpath. f_equal. unfold smooth_elements. f_equal; [|f_equal].
  - f_equal. f_equal. unfold tensioncurve. cbn [s_tension new_linesmoothed]. rewrite Rabs_Ropp. reflexivity.
  - apply map_ext. intros p. unfold tensioncurve. cbn [s_tension new_linesmoothed]. rewrite Rabs_Ropp. reflexivity.
Qed.
Print Assumptions linesmoothed_atleast_refuted.

(** A changed copy: only what is given changes. *)
Theorem linesmoothed_call s tension atleast lcurl rcurl :
  let s' := modified s tension atleast lcurl rcurl in
  Rabs (s_tension s') = Rabs (match tension with Some t => t | None => s_tension s end) /\
  (s_tension s <> 0 -> tension <> Some 0 -> (s_tension s' < 0 <-> match atleast with Some b => b = true | None => s_tension s < 0 end)) /\
  s_lcurl s' = match lcurl with Some c => c | None => s_lcurl s end /\ s_rcurl s' = match rcurl with Some c => c | None => s_rcurl s end.
Proof.
  cbn zeta. unfold modified, new_linesmoothed. cbn [s_tension s_lcurl s_rcurl]. split; [|split; [|split; reflexivity]].
  - destruct (match atleast with Some b => b | None => _ end); [rewrite Rabs_Ropp|]; apply Rabs_Rabsolu.
  - intros Z0 Z1. set (t := match tension with Some t => t | None => s_tension s end). assert (t <> 0) as T0 by (unfold t; destruct tension; congruence). pose proof (Rabs_pos_lt _ T0).
    destruct atleast as [[|]|]; [| |destruct (Rlt_dec (s_tension s) 0)]; split; intros; try lra; try reflexivity; discriminate.
Qed.
Print Assumptions linesmoothed_call.
Example linesmoothed_call_ex : modified (new_linesmoothed 2 true (Some 1) None) (Some 3) None None (Some (Some 0)) = mksmoothed (- Rabs 3) (Some 1) (Some 0).
Proof.
  unfold modified, new_linesmoothed. cbn [s_tension s_lcurl s_rcurl]. destruct (Rlt_dec (- Rabs 2) 0) as [|Q]; [reflexivity|]. rewrite Rabs_pos_eq in Q by lra. lra.
Qed.
