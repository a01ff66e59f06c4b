(** A curve with wrong curvatures at its ends. *)
From Coq Require Import Reals List Bool Lia Lra.
From Verif Require Import TrafoModel CurveModel CurveSpec CurveProofs2 CurveProofs3 CurveProofs4 RootsModel RootsSpec RootsProps DeformModel DeformProps DeformProps4.
Import ListNotations.
Open Scope R_scope.

Lemma three_zeros : forall p q x y z, x <> y -> y <> z -> x <> z -> x ^ 2 + p * x + q = 0 -> y ^ 2 + p * y + q = 0 -> z ^ 2 + p * z + q = 0 -> False.
Proof.
  intros p q x y z XY YZ XZ X Y Z.
  assert (A : (x - y) * (x + y + p) = 0) by (transitivity ((x ^ 2 + p * x + q) - (y ^ 2 + p * y + q)); [ring|lra]).
  assert (B : (x - z) * (x + z + p) = 0) by (transitivity ((x ^ 2 + p * x + q) - (z ^ 2 + p * z + q)); [ring|lra]).
  apply Rmult_integral in A. apply Rmult_integral in B. lra.
Qed.
Lemma distinct_roots : forall cs r1 r2 r3 r4, hd 0 cs <> 0 -> r1 < r2 -> r2 < r3 -> r3 < r4 ->
  (forall x, peval cs x = hd 0 cs * ((x - r1) * (x - r2) * (x - r3) * (x - r4))) -> no_double cs.
Proof.
  intros cs r1 r2 r3 r4 C L1 L2 L3 H (al & p & q & _ & K).
  assert (Z : forall r, (r - r1) * (r - r2) * (r - r3) * (r - r4) = 0 -> r <> al -> r ^ 2 + p * r + q = 0).
  { intros r R N. specialize (K r). rewrite H, R, Rmult_0_r in K. symmetry in K. apply Rmult_integral in K as [K|K]; [contradiction|].
    apply Rmult_integral in K as [K|K]; [|exact K]. exfalso. apply (pow_nonzero (r - al) 2); [lra|exact K]. }
  pose proof (Z r1 ltac:(ring)) as Z1. pose proof (Z r2 ltac:(ring)) as Z2. pose proof (Z r3 ltac:(ring)) as Z3. pose proof (Z r4 ltac:(ring)) as Z4.
  destruct (Req_dec r1 al) as [E1|E1]; [apply (three_zeros p q r2 r3 r4); try lra; (apply Z1 || apply Z2 || apply Z3 || apply Z4); lra|].
  destruct (Req_dec r2 al) as [E2|E2]; [apply (three_zeros p q r1 r3 r4); try lra; (apply Z1 || apply Z2 || apply Z3 || apply Z4); lra|].
  destruct (Req_dec r3 al) as [E3|E3]; [apply (three_zeros p q r1 r2 r4); try lra; (apply Z1 || apply Z2 || apply Z3 || apply Z4); lra|].
  apply (three_zeros p q r1 r2 r3); try lra; (apply Z1 || apply Z2 || apply Z3 || apply Z4); lra.
Qed.
Lemma sorted_first : forall ts P Q l, before ts P Q = true -> before ts Q P = false -> before ts P P = false -> before ts Q Q = false ->
  (forall x, In x l -> x = P \/ x = Q) -> In P l -> hd_error (sorted ts l) = Some P.
Proof.
  intros ts P Q l PQ QP PP QQ. unfold sorted.
  assert (G : forall l acc, (forall x, In x (l ++ acc) -> x = P \/ x = Q) -> (In P acc -> hd_error acc = Some P) -> In P (l ++ acc) ->
    hd_error (fold_left (fun l x => insert ts x l) l acc) = Some P).
  { clear l. induction l as [|x l IH]; intros acc A H I; [apply H; exact I|]. cbn [fold_left]. apply IH.
    - intros y Y. apply A. apply in_app_or in Y as [Y|Y]; [right; apply in_or_app; auto|]. apply insert_in in Y as [-> | Y]; [left; reflexivity|right; apply in_or_app; auto].
    - intros J. destruct acc as [|y acc]; [cbn in *; destruct J as [-> | []]; reflexivity|].
      assert (Ay : y = P \/ y = Q) by (apply A; right; apply in_or_app; right; left; reflexivity).
      destruct (A x (or_introl eq_refl)) as [-> | ->].
      + destruct Ay as [-> | ->]; cbn [insert]; rewrite ?PP, ?PQ; reflexivity.
      + apply insert_in in J as [-> | J]; [cbn [insert]; destruct Ay as [-> | ->]; rewrite ?PP, ?QQ, ?QP; [reflexivity|]|].
        * rewrite QQ in PQ. discriminate.
        * specialize (H J). cbn in H. injection H as ->. cbn [insert]. rewrite QP. reflexivity.
    - apply in_app_or in I as [[<- | I]|I]; apply in_or_app; [right|left|right]; auto; apply insert_in; auto. }
  intros A I. apply G; rewrite ?app_nil_r; auto. intros [].
Qed.

(** the example: in both equations T = 1, D = E = -13/8 and the curvatures are -7/4; a = b = 1 is a solution *)
Definition exA : pt := (0, 0).
Definition exB : pt := (-13 / 8, -13 / 8).
Definition exT1 : pt := (1, 0).
Definition exT2 : pt := (0, 1).
Lemma ex_T : cross exT1 exT2 = 1. Proof. unfold cross. cbn. ring. Qed.
Lemma ex_D : cross exT1 (minus exB exA) = -13 / 8. Proof. unfold cross, minus. cbn. field. Qed.
Lemma ex_E : cross exT2 (minus exA exB) = -13 / 8. Proof. unfold cross, minus. cbn. field. Qed.
Lemma ex_peval : forall x, peval (coeffs_a 1 1 1 (-13 / 8) (-13 / 8) (-7 / 4) (-7 / 4)) x =
  - (9261 / 512) * ((x - -19 / 21) * (x - -13 / 21) * (x - 11 / 21) * (x - 1)).
Proof. intros x. unfold coeffs_a. cbn. replace 3.375 with (27 / 8) by lra. replace 4.5 with (9 / 2) by lra. replace 1.5 with (3 / 2) by lra. replace 0.0 with 0 by lra. field. Qed.
Lemma ex_hd : hd 0 (coeffs_a 1 1 1 (-13 / 8) (-13 / 8) (-7 / 4) (-7 / 4)) = - (9261 / 512).
Proof. unfold coeffs_a. cbn [hd]. replace 3.375 with (27 / 8) by lra. field. Qed.
Lemma ex_same : coeffs_b 1 1 1 (-13 / 8) (-13 / 8) (-7 / 4) (-7 / 4) = coeffs_a 1 1 1 (-13 / 8) (-13 / 8) (-7 / 4) (-7 / 4).
Proof. reflexivity. Qed.
Lemma ex_nodouble : no_double (coeffs_a 1 1 1 (-13 / 8) (-13 / 8) (-7 / 4) (-7 / 4)).
Proof. apply (distinct_roots _ (-19 / 21) (-13 / 21) (11 / 21) 1); try lra. rewrite ex_hd. lra. intros x. rewrite ex_hd. apply ex_peval. Qed.
Lemma ex_candidates : candidates_b false 1 (-13 / 8) (-13 / 8) (-7 / 4) (-7 / 4) = candidates_a false 1 (-13 / 8) (-13 / 8) (-7 / 4) (-7 / 4) /\
  forall x, In x (candidates_a false 1 (-13 / 8) (-13 / 8) (-7 / 4) (-7 / 4)) <-> x = 1 \/ x = 11 / 21.
Proof.
  split; [reflexivity|]. intros x. rewrite in_a; [|lra|lra|intros sa sb [-> ->]; apply ex_nodouble].
  assert (Q : forall x, quartic_a 1 (-13 / 8) (-13 / 8) (-7 / 4) (-7 / 4) 1 1 x = - (9261 / 512) * ((x - -19 / 21) * (x - -13 / 21) * (x - 11 / 21) * (x - 1))).
  { intros y. unfold quartic_a. field. }
  split.
  - intros (sa & sb & [-> ->] & P & Z). rewrite Q in Z. apply Rmult_integral in Z as [Z|Z]; [lra|]. repeat (apply Rmult_integral in Z as [Z|Z]); lra.
  - intros X. exists 1, 1. split; [split; reflexivity|]. split; [lra|]. rewrite Q. destruct X as [-> | ->]; field.
Qed.

(** The curve made for two ends is not the one with these ends, although there is such a curve: the distances 11/21 and 11/21 belong to two different
    solutions, each of which has one negative distance.  (They are taken together, since the nearest candidate is taken even if none is near.) *)
Theorem endgeometry_refuted : exists A B tA tB cA cB, unit_vector tA /\ unit_vector tB /\
  (exists a b, 0 < a /\ 0 < b /\ item_curvature (end_curve A B tA tB a b) 0 = Some cA /\ item_curvature (end_curve A B tA tB a b) 1 = Some cB) /\
  exists c, normcurve_from_endgeometry A B tA tB (Fin cA) (Fin cB) = Some c /\ item_curvature c 0 <> Some cA /\ item_curvature c 1 <> Some cB.
Proof.
  exists exA, exB, exT1, exT2, (-7 / 4), (-7 / 4).
  assert (U1 : unit_vector exT1) by (unfold unit_vector; cbn; ring). assert (U2 : unit_vector exT2) by (unfold unit_vector; cbn; ring).
  split; [exact U1|]. split; [exact U2|]. split.
  - exists 1, 1. split; [lra|]. split; [lra|]. apply (end_curve_geometry exA exB exT1 exT2 1 1 (-7 / 4) (-7 / 4) U1 U2 ltac:(lra) ltac:(lra)). rewrite ex_T, ex_D, ex_E. split; field.
  - exists (end_curve exA exB exT1 exT2 (11 / 21) (11 / 21)). split.
    + destruct (general_case exA exB exT1 exT2 (-7 / 4) (-7 / 4) false) as (ts & Ti & C).
      * rewrite ex_T, Rabs_pos_eq; lra.
      * rewrite Rabs_left; lra.
      * rewrite Rabs_left; lra.
      * rewrite ex_T, ex_D, ex_E in C. unfold normcurve_from_endgeometry. rewrite C.
        assert (Tv : Rabs (fst ts) = 13 / 8 /\ Rabs (snd ts) = 13 / 8).
        { assert (In0 : intersection exA exB exT1 exT2 = Some (-13 / 8, 13 / 8)).
          { unfold intersection, exA, exB, exT1, exT2. cbn [fst snd]. replace (- (1) * 1 + 0 * 0) with (Ropp 1) by ring. destruct (Req_EM_T _ 0); [lra|]. do 2 f_equal; field. }
          rewrite In0 in Ti. injection Ti as <-. cbn [fst snd]. rewrite Rabs_left, Rabs_pos_eq by lra. split; lra. }
        destruct Tv as [-> ->].
        destruct ex_candidates as [Eb Ec].
        assert (Se : forall x, In x (exact_solutions false 1 (-13 / 8) (-13 / 8) (-7 / 4) (-7 / 4)) <-> x = (11 / 21, 11 / 21) \/ x = (1, 1)).
        { intros [a b]. unfold exact_solutions. rewrite Eb. destruct (candidates_a false 1 (-13 / 8) (-13 / 8) (-7 / 4) (-7 / 4)) as [|Y rest]; [exfalso; apply (proj2 (Ec 1)); auto|].
          assert (F1 : findnearest ((-13 / 8 - 1.5 * (-7 / 4) * 1 * Rabs 1) / 1) Y rest = 1).
          { rewrite Rabs_pos_eq by lra. replace ((-13 / 8 - 1.5 * (-7 / 4) * 1 * 1) / 1) with 1 by lra. apply findnearest_exact. apply Ec. auto. }
          assert (F2 : findnearest ((-13 / 8 - 1.5 * (-7 / 4) * (11 / 21) * Rabs (11 / 21)) / 1) Y rest = 11 / 21).
          { rewrite Rabs_pos_eq by lra. replace ((-13 / 8 - 1.5 * (-7 / 4) * (11 / 21) * (11 / 21)) / 1) with (-19 / 21) by lra.
            destruct (findnearest_nearest (-19 / 21) rest Y) as [I M]. specialize (M (11 / 21) (proj2 (Ec (11 / 21)) (or_intror eq_refl))).
            apply Ec in I as [I|I]; [|exact I]. rewrite I in M. rewrite !Rabs_left in M by lra. lra. }
          rewrite in_map_iff. split.
          - intros (a' & Q & I). apply Ec in I as [-> | ->]; injection Q as <- <-; [right; f_equal; exact F1|left; f_equal; exact F2].
          - intros [Q|Q]; injection Q as -> ->; [exists (11 / 21)|exists 1]; (split; [f_equal; [exact F2] || f_equal; exact F1|apply Ec; auto]). }
        assert (So : solutions false 1 (-13 / 8) (-13 / 8) (-7 / 4) (-7 / 4) = exact_solutions false 1 (-13 / 8) (-13 / 8) (-7 / 4) (-7 / 4)).
        { unfold solutions. destruct (exact_solutions false 1 (-13 / 8) (-13 / 8) (-7 / 4) (-7 / 4)); [exfalso; apply (proj2 (Se (1, 1))); auto|reflexivity]. }
        rewrite So.
        assert (H : hd_error (sorted (13 / 8, 13 / 8) (exact_solutions false 1 (-13 / 8) (-13 / 8) (-7 / 4) (-7 / 4))) = Some (11 / 21, 11 / 21)).
        { apply (sorted_first _ (11 / 21, 11 / 21) (1, 1)); [| | | |intros x; apply Se|apply Se; auto];
            unfold before, inside, ltb; cbn [fst snd]; repeat (match goal with |- context [Rlt_dec ?x ?y] => destruct (Rlt_dec x y); try lra end; cbn [andb negb]); reflexivity. }
        revert H. match goal with |- hd_error ?s = _ -> _ => destruct s as [|[a b] l] end; intros H; [discriminate|]. injection H as -> ->. reflexivity.
    + assert (K : forall cA cB, item_curvature (end_curve exA exB exT1 exT2 (11 / 21) (11 / 21)) 0 = Some cA -> item_curvature (end_curve exA exB exT1 exT2 (11 / 21) (11 / 21)) 1 = Some cB ->
        3 / 2 * cA * (11 / 21) ^ 2 + 11 / 21 * 1 = -13 / 8 /\ 3 / 2 * cB * (11 / 21) ^ 2 + 11 / 21 * 1 = -13 / 8).
      { intros cA cB H0 H1. destruct (end_curve_geometry exA exB exT1 exT2 (11 / 21) (11 / 21) cA cB U1 U2 ltac:(lra) ltac:(lra)) as (_ & _ & _ & _ & G & _).
        rewrite ex_T, ex_D, ex_E in G. apply G. auto. }
      assert (V : exists x y, item_curvature (end_curve exA exB exT1 exT2 (11 / 21) (11 / 21)) 0 = Some x /\ item_curvature (end_curve exA exB exT1 exT2 (11 / 21) (11 / 21)) 1 = Some y).
      { exists ((-13 / 8 - 11 / 21) / (3 / 2 * (11 / 21) ^ 2)), ((-13 / 8 - 11 / 21) / (3 / 2 * (11 / 21) ^ 2)).
        apply (end_curve_geometry exA exB exT1 exT2 (11 / 21) (11 / 21) _ _ U1 U2 ltac:(lra) ltac:(lra)). rewrite ex_T, ex_D, ex_E. split; field. }
      destruct V as (x & y & V0 & V1). destruct (K x y V0 V1) as [K0 K1]. rewrite V0, V1. split; intros Q; injection Q as ->; lra.
Qed.
Print Assumptions endgeometry_refuted.

(** the hypotheses of controldists_partial are met by this example: both solutions are in the list, the right one and the wrong one *)
Example ex_controldists : exists l, controldists exA exB exT1 exT2 (Fin (-7 / 4)) (Fin (-7 / 4)) false = Some l /\ In (1, 1) l.
Proof.
  destruct (controldists_partial exA exB exT1 exT2 (-7 / 4) (-7 / 4) false) as (l & L & C & _).
  - rewrite ex_T, Rabs_pos_eq; lra.
  - rewrite Rabs_left; lra.
  - rewrite Rabs_left; lra.
  - intros sa sb [-> ->]. rewrite ex_T, ex_D, ex_E. split; [|rewrite ex_same]; apply ex_nodouble.
  - exists 1, 1. split; [right; lra|]. rewrite ex_T, ex_D, ex_E. unfold solves. rewrite Rabs_pos_eq by lra. split; field.
  - exists l. split; [exact L|]. apply C; [right; lra|]. rewrite ex_T, ex_D, ex_E. unfold solves. rewrite Rabs_pos_eq by lra. split; field.
Qed.
(** a half circle from (0, 0) to (0, 2): the curve of the usual approximation has a = b and curvature 1 at both ends *)
Example ex_parallel : exists a, controldists (0, 0) (0, 2) (1, 0) (-1, 0) (Fin 1) (Fin 1) false = Some [(a, a)] /\ 3 / 2 * (a * a) = 2 /\ 0 < a.
Proof.
  unfold controldists, test_divisions, cross, minus. cbn [fst snd].
  replace (1 * 0 - 0 * -1) with 0 by ring. replace (1 * (2 - 0) - 0 * (0 - 0)) with 2 by ring. replace (-1 * (0 - 2) - 0 * (0 - 0)) with 2 by ring.
  assert (Z0 : is_zero 0 = true) by (apply is_zero_iff; rewrite Rabs_R0; lra). assert (Z1 : is_zero 1 = false) by (apply not_zero; rewrite Rabs_pos_eq; lra).
  rewrite Z0. unfold test_zeroT. rewrite Z1. exists (rootof 2 1). split; [reflexivity|].
  assert (P : 0 < rootof 2 1). { unfold rootof, sign. destruct (Rge_dec _ _); [|lra]. rewrite Rmult_1_r. apply sqrt_lt_R0. rewrite Rabs_pos_eq; lra. }
  split; [|exact P]. pose proof (rootof_square 2 1 ltac:(lra)) as H. rewrite Rabs_pos_eq in H by lra. lra.
Qed.

(** C122: the solution which is used has positive parameters if one has, then with the intersection of the tangents between the control points and the ends if one
    has, and is the shortest of those *)
Theorem first_solution : forall ts l x rest, sorted ts l = x :: rest -> forall y, In y l -> 0 < fst y -> 0 < snd y ->
  let within := fun z : R * R => 0 < fst ts < fst z /\ 0 < snd ts < snd z in
  In x l /\ 0 < fst x /\ 0 < snd x /\ (within y -> within x) /\ ((within x -> within y) -> fst x ^ 2 + snd x ^ 2 <= fst y ^ 2 + snd y ^ 2).
Proof.
  intros ts.
  set (pos := fun z : R * R => 0 < fst z /\ 0 < snd z). set (wi := fun z : R * R => 0 < fst ts < fst z /\ 0 < snd ts < snd z). set (err := fun z : R * R => fst z ^ 2 + snd z ^ 2).
  assert (L : forall a b, ltb a b = true <-> a < b) by (intros a b; unfold ltb; destruct (Rlt_dec a b); split; auto; discriminate).
  assert (Bf : forall a b, before ts a b = true <-> (pos a /\ ~ pos b) \/ (pos a /\ pos b /\ ((wi a /\ ~ wi b) \/ ((wi a <-> wi b) /\ err a < err b)))).
  { intros a b. unfold before.
    assert (I : forall z, inside ts z = true <-> wi z) by (intros z; unfold inside, wi; rewrite !andb_true_iff, !L; tauto).
    assert (P : forall z, ltb 0 (fst z) && ltb 0 (snd z) = true <-> pos z) by (intros z; unfold pos; rewrite !andb_true_iff, !L; tauto).
    pose proof (I a) as Ia. pose proof (I b) as Ib. pose proof (P a) as Pa. pose proof (P b) as Pb. pose proof (L (err a) (err b)) as Le. unfold err in Le. unfold err.
    destruct (ltb 0 (fst a) && ltb 0 (snd a)), (ltb 0 (fst b) && ltb 0 (snd b)), (inside ts a), (inside ts b), (ltb (fst a ^ 2 + snd a ^ 2) (fst b ^ 2 + snd b ^ 2)); cbn [andb negb] in *; intuition congruence. }
  assert (Tr : forall a b c, before ts a b = true -> before ts b c = true -> before ts a c = true).
  { intros a b c. rewrite !Bf. intros [[A1 A2]|(A1 & A2 & A3)] [[B1 B2]|(B1 & B2 & B3)]; try tauto. right. split; auto. split; auto.
    destruct A3 as [[A3 A4]|[A3 A4]], B3 as [[B3 B4]|[B3 B4]]; try tauto. right. split; [tauto|lra]. }
  assert (Ir : forall a, before ts a a = false).
  { intros a. destruct (before ts a a) eqn:E; auto. exfalso. apply Bf in E as [E|(_ & _ & [E|[_ E]])]; try tauto. lra. }
  assert (Mi : forall l x rest, sorted ts l = x :: rest -> forall y, In y l -> before ts y x = false).
  { unfold sorted. assert (G : forall l acc, (forall x rest, acc = x :: rest -> forall y, In y acc -> before ts y x = false) ->
      forall x rest, fold_left (fun l x => insert ts x l) l acc = x :: rest -> forall y, In y (x :: rest) -> before ts y x = false).
    { induction l as [|z l' IH]; cbn [fold_left]; intros acc H x rest E y Y.
      - apply (H x rest); auto. now rewrite E.
      - apply (IH (insert ts z acc)) with (rest := rest); auto. clear x rest E y Y. intros x rest E y Y. destruct acc as [|h acc]; cbn [insert] in E, Y.
        + injection E as <- <-. destruct Y as [<-|[]]. apply Ir.
        + destruct (before ts z h) eqn:B.
          * injection E as <- <-. destruct Y as [<-|Y]; [apply Ir|]. destruct (before ts y z) eqn:B2; auto. exfalso.
            pose proof (Tr y z h B2 B) as B3. rewrite (H h acc eq_refl y Y) in B3. discriminate.
          * injection E as <- <-. destruct Y as [<-|Y]; [apply Ir|]. apply insert_in in Y as [->|Y]; auto. apply (H h acc eq_refl). right. auto. }
    intros l x rest E y Y. apply (G l [] ltac:(discriminate) x rest E). rewrite <- E. apply (proj2 (sorted_in ts l y)). exact Y. }
  intros l x rest E y Y Y1 Y2 within. assert (Ix : In x l) by (apply (sorted_in ts l x); rewrite E; left; auto).
  pose proof (Mi l x rest E y Y) as B. assert (~ ((pos y /\ ~ pos x) \/ (pos y /\ pos x /\ ((wi y /\ ~ wi x) \/ ((wi y <-> wi x) /\ err y < err x))))) as N by (rewrite <- Bf; congruence).
  assert (Py : pos y) by (split; auto). assert (Px : pos x).
  { unfold pos. destruct (Rlt_dec 0 (fst x)), (Rlt_dec 0 (snd x)); auto; exfalso; apply N; left; split; auto; unfold pos; tauto. }
  assert (Dw : forall z, wi z \/ ~ wi z) by (intros z; unfold wi; destruct (Rlt_dec 0 (fst ts)), (Rlt_dec (fst ts) (fst z)), (Rlt_dec 0 (snd ts)), (Rlt_dec (snd ts) (snd z)); tauto).
  assert (W : wi y -> wi x) by (intros Wy; destruct (Dw x); auto; tauto).
  destruct Px as [P1 P2]. split; auto. split; auto. split; auto. split; auto. intros V. change (wi x -> wi y) in V. destruct (Rle_dec (err x) (err y)) as [Le|Le]; auto.
  exfalso. apply N. right. split; [split; auto|]. split; [split; auto|]. right. split; [tauto|lra].
Qed.
Print Assumptions first_solution.
Example first_solution_ex : let l := [(3, 3); (2, 2); (- (1), 1)] in sorted (1, 1) l = [(2, 2); (3, 3); (- (1), 1)].
Proof.
  cbv zeta. unfold sorted. cbn [fold_left insert].
  repeat (cbn [andb negb insert]; unfold before, inside, ltb; cbn [fst snd andb negb]; match goal with |- context [Rlt_dec ?a ?b] => destruct (Rlt_dec a b); try lra end).
  cbn [andb negb]. reflexivity.
Qed.
