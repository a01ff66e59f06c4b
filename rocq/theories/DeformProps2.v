(** Paths made of lines are smoothed at their corners and unchanged elsewhere. *)
From Coq Require Import Reals List Bool Lia Lra.
From Verif Require Import TrafoModel CurveModel CurveSpec CurveProofs2 CurveProofs3 CurveProofs4 RootsModel DeformModel DeformProps.
Import ListNotations.
Open Scope R_scope.

(** the second item continues the first: same point, same direction, same curvature *)
Definition joined (i j : item) : Prop := atend_pt i = atbegin_pt j /\ same_direction (velocity j 0) (velocity i 1) /\ item_curvature i 1 = item_curvature j 0.
(** the lines form a path *)
Fixpoint consecutive (ls : list lline) : Prop :=
  match ls with
  | l :: (l' :: _) as rest => snd l = fst l' /\ consecutive rest
  | _ => True
  end.
Definition proper (l : lline) : Prop := fst l <> snd l.
Definition path_begin (ls : list lline) : pt := match ls with l :: _ => fst l | [] => (0, 0) end.
Definition path_end (ls : list lline) : pt := snd (last ls ((0, 0), (0, 0))).

(** ** Runs of items *)
Definition flat_begin (i : item) (p d : pt) : Prop := atbegin_pt i = p /\ same_direction (velocity i 0) d /\ item_curvature i 0 = Some 0.
Definition flat_end (i : item) (p d : pt) : Prop := atend_pt i = p /\ same_direction (velocity i 1) d /\ item_curvature i 1 = Some 0.
Inductive run : pt -> pt -> list item -> pt -> pt -> Prop :=
| run_nil p d : run p d [] p d
| run_line p d q e r f i l : flat_begin i p d -> flat_end i q e -> run q e l r f -> run p d (i :: l) r f
| run_corner p d q e r f i j l : flat_begin i p d -> joined i j -> flat_end j q e -> run q e l r f -> run p d (i :: j :: l) r f.

Lemma same_direction_sym : forall v w, same_direction v w -> same_direction w v.
Proof. intros v [x y] (k & K & ->). exists (/ k). split; [apply Rinv_0_lt_compat; auto|]. cbn [fst snd]. f_equal; field; lra. Qed.
Lemma same_direction_trans : forall u v w, same_direction u v -> same_direction v w -> same_direction u w.
Proof. intros u v w (k & K & ->) (m & M & ->). exists (k * m). split; [apply Rmult_lt_0_compat; auto|]. cbn [fst snd]. f_equal; ring. Qed.
Lemma flat_joined : forall i j p d, flat_end i p d -> flat_begin j p d -> joined i j.
Proof.
  intros i j p d (E & V & C) (E' & V' & C'). split; [congruence|]. split; [|congruence].
  eapply same_direction_trans; [exact V'|]. apply same_direction_sym. exact V.
Qed.
Lemma run_begin : forall p d l q e, run p d l q e -> match l with i :: _ => flat_begin i p d | [] => p = q /\ d = e end.
Proof. intros p d l q e []; auto. Qed.
Lemma run_end : forall p d l q e, run p d l q e -> l <> [] -> forall x, flat_end (last l x) q e.
Proof.
  intros p d l q e H. induction H as [|p d q e r f i l B E H IH|p d q e r f i j l B J E H IH]; intros N x; [contradiction| |].
  - destruct l as [|i' l]; [inversion H; subst; exact E|]. specialize (IH ltac:(discriminate) x). cbn [last] in *. destruct l; exact IH.
  - destruct l as [|i' l]; [inversion H; subst; exact E|]. specialize (IH ltac:(discriminate) x). cbn [last] in *. destruct l; exact IH.
Qed.
Lemma run_joined : forall p d l q e, run p d l q e -> forall k i j, nth_error l k = Some i -> nth_error l (S k) = Some j -> joined i j.
Proof.
  intros p d l q e H. induction H as [|p d q e r f i l B E H IH|p d q e r f i j l B J E H IH]; intros k a b A1 A2.
  - destruct k; discriminate.
  - destruct k as [|k]; [|apply (IH k); auto]. cbn in A1, A2. injection A1 as <-. apply run_begin in H. destruct l as [|j l]; [discriminate|].
    injection A2 as <-. apply (flat_joined _ _ q e); auto.
  - destruct k as [|[|k]]; [| |apply (IH k); auto].
    + cbn in A1, A2. injection A1 as <-. injection A2 as <-. exact J.
    + cbn in A1, A2. injection A1 as <-. apply run_begin in H. destruct l as [|j' l]; [discriminate|].
      injection A2 as <-. apply (flat_joined _ _ q e); auto.
Qed.
Lemma run_app : forall p d l q e l' r f, run p d l q e -> run q e l' r f -> run p d (l ++ l') r f.
Proof. intros p d l q e l' r f H. induction H; intros K; [exact K| |]; cbn [app]; [eapply run_line|eapply run_corner]; eauto. Qed.

(** ** One line and one corner *)
Definition dir (l : lline) : pt := (fst (snd l) - fst (fst l), snd (snd l) - snd (fst l)).
Lemma line_length : forall l, proper l -> 0 < line_arclen (fst l) (snd l) /\ line_arclen (fst l) (snd l) = hypot (fst (dir l)) (snd (dir l)).
Proof.
  intros [[px py] [qx qy]] P. unfold line_arclen, dir. cbn [fst snd].
  assert (E : hypot (px - qx) (py - qy) = hypot (qx - px) (qy - py)) by (unfold hypot; f_equal; ring). split; [|exact E].
  destruct (Req_dec (hypot (px - qx) (py - qy)) 0) as [Z|Z]; [|pose proof (hypot_pos (px - qx) (py - qy)); lra].
  apply hypot_0 in Z as [Z1 Z2]. exfalso. apply P. cbn. f_equal; lra.
Qed.
Lemma dir_nonzero : forall l, proper l -> dir l <> (0, 0).
Proof. intros [[px py] [qx qy]] P E. unfold dir in E. cbn in E. injection E as E1 E2. apply P. cbn. f_equal; lra. Qed.
Lemma line_rotation : forall l t, proper l ->
  apply_pt (item_rotation (Line (fst l) (snd l)) t) (1, 0) = (fst (dir l) / hypot (fst (dir l)) (snd (dir l)), snd (dir l) / hypot (fst (dir l)) (snd (dir l))).
Proof.
  intros [[px py] [qx qy]] t P. destruct (line_length _ P) as [L E]. unfold dir in *. cbn [fst snd] in *. unfold item_rotation, rotate_degrees, apply_pt. cbn.
  rewrite radians_degrees. destruct (cos_sin_atan2 (qy - py) (qx - px)) as [-> ->]; [rewrite <- E; lra|]. f_equal; ring.
Qed.
Definition on (l : lline) (t : R) : pt := at_pt (Line (fst l) (snd l)) t.

Lemma middle_run : forall l a b, proper l -> a <= b -> run (on l a) (dir l) (middle l (a, b)) (on l b) (dir l).
Proof.
  intros l a b P AB. unfold middle. cbn [fst snd]. unfold line_segment. fold (on l a). fold (on l b). cbn [atbegin_pt atend_pt].
  assert (D : (fst (on l b) - fst (on l a), snd (on l b) - snd (on l a)) = ((b - a) * fst (dir l), (b - a) * snd (dir l))).
  { destruct l as [[px py] [qx qy]]. unfold on, dir. cbn. f_equal; ring. }
  destruct (Req_EM_T (line_arclen (on l a) (on l b)) 0) as [Z|Z].
  - unfold line_arclen in Z. apply hypot_0 in Z as [Z1 Z2]. replace (on l b) with (on l a); [constructor|].
    destruct (on l a), (on l b). cbn in *. f_equal; lra.
  - assert (a < b).
    { destruct (Req_dec a b) as [->|]; [|lra]. exfalso. apply Z. unfold line_arclen, hypot. rewrite !Rminus_diag_eq by reflexivity. rewrite Rmult_0_l, Rplus_0_l. apply sqrt_0. }
    assert (V : forall t, same_direction (velocity (Line (on l a) (on l b)) t) (dir l)).
    { intros t. exists (b - a). split; [lra|]. rewrite <- D. destruct (on l a), (on l b). reflexivity. }
    eapply run_line; [| |constructor]; (split; [reflexivity|]; split; [apply V|]; destruct (on l a), (on l b); reflexivity).
Qed.
Lemma corner_run : forall s this next ta tb na nb, proper this -> proper next -> snd this = fst next -> tb < 1 -> 0 < na -> 0 < s -> 0.3192 * s < 0.6 ->
  run (on this tb) (dir this) (corner s this (ta, tb) next (na, nb)) (on next na) (dir next).
Proof.
  intros s this next ta tb na nb P N E T A S F. unfold corner. cbn [fst snd]. rewrite !line_rotation by auto.
  destruct (line_length _ P) as [L1 E1]. destruct (line_length _ N) as [L2 E2].
  set (h1 := hypot (fst (dir this)) (snd (dir this))) in *. set (h2 := hypot (fst (dir next)) (snd (dir next))) in *.
  set (t1 := (fst (dir this) / h1, snd (dir this) / h1)). set (t2 := (fst (dir next) / h2, snd (dir next) / h2)).
  assert (D1 : same_direction t1 (dir this)). { exists (/ h1). split; [apply Rinv_0_lt_compat; lra|]. unfold t1, Rdiv. f_equal; ring. }
  assert (D2 : same_direction t2 (dir next)). { exists (/ h2). split; [apply Rinv_0_lt_compat; lra|]. unfold t2, Rdiv. f_equal; ring. }
  assert (U : forall l h, proper l -> h = hypot (fst (dir l)) (snd (dir l)) -> 0 < h -> hypot (fst (dir l) / h) (snd (dir l) / h) = 1).
  { intros l h _ -> Hh. set (h := hypot (fst (dir l)) (snd (dir l))) in *. unfold Rdiv. rewrite (Rmult_comm (fst (dir l))), (Rmult_comm (snd (dir l))).
    rewrite hypot_scale by (apply Rinv_0_lt_compat; auto). fold h. apply Rinv_l. lra. }
  assert (U1 : hypot (fst t1) (snd t1) = 1) by (apply (U this); auto; unfold h1 in *; lra).
  assert (U2 : hypot (fst t2) (snd t2) = 1) by (apply (U next); auto; unfold h2 in *; lra).
  set (r1 := line_arclen (fst this) (snd this) * (1 - tb)). set (r2 := line_arclen (fst next) (snd next) * na).
  assert (R1 : 0 < r1) by (apply Rmult_lt_0_compat; lra). assert (R2 : 0 < r2) by (apply Rmult_lt_0_compat; lra).
  assert (Z : forall t : pt, hypot (fst t) (snd t) = 1 -> t <> (0, 0)).
  { intros t Ht ->. cbn in Ht. unfold hypot in Ht. rewrite Rmult_0_l, Rplus_0_l, sqrt_0 in Ht. lra. }
  pose proof (corner_smooth (snd this) t1 t2 r1 r2 s (Z _ U1) (Z _ U2) R1 R2 S F) as K.
  assert (B1 : atbegin_pt (fst (corner_curves (snd this) t1 t2 r1 r2 s)) = on this tb).
  { rewrite corner_curves_eq. cbn [fst]. unfold curve1, atbegin_pt, at_corner, scaled. cbn [fst snd]. rewrite U1. unfold t1. cbn [fst snd]. unfold r1. rewrite E1.
    destruct this as [[px py] [qx qy]]. unfold on, dir. cbn [fst snd at_pt]. f_equal; field; lra. }
  assert (B2 : atend_pt (snd (corner_curves (snd this) t1 t2 r1 r2 s)) = on next na).
  { rewrite corner_curves_eq. cbn [snd]. unfold curve2, atend_pt, at_corner, scaled. cbn [fst snd]. rewrite U2. unfold t2. cbn [fst snd]. unfold r2. rewrite E2, E.
    destruct next as [[px py] [qx qy]]. unfold on, dir. cbn [fst snd at_pt]. f_equal; field; lra. }
  destruct (corner_curves (snd this) t1 t2 r1 r2 s) as [c1 c2]. cbn [fst snd] in B1, B2.
  destruct K as (_ & _ & V1 & C1 & V2 & C2 & J1 & J2 & J3).
  eapply run_corner; [| | |constructor].
  - split; [exact B1|]. split; [|exact C1]. eapply same_direction_trans; eauto.
  - split; [exact J1|]. split; [|exact J3]. exists 1. split; [lra|]. rewrite J2. destruct (velocity c2 0). cbn [fst snd]. f_equal; ring.
  - split; [exact B2|]. split; [|exact C2]. eapply same_direction_trans; eauto.
Qed.

(** ** The loop *)
(** the parameters are in order, with room for the corners *)
Definition room (before behind : bool) (lp : lline * (R * R)) : Prop :=
  proper (fst lp) /\ 0 <= fst (snd lp) <= snd (snd lp) /\ snd (snd lp) <= 1 /\ (before = true -> 0 < fst (snd lp)) /\ (behind = true -> snd (snd lp) < 1).
Fixpoint rooms (before : bool) (wrap : bool) (l : list (lline * (R * R))) : Prop :=
  match l with
  | [] => True
  | lp :: rest => room before (match rest with [] => wrap | _ => true end) lp /\ rooms true wrap rest
  end.
Lemma loop_run : forall s, 0 < s -> 0.3192 * s < 0.6 -> forall l this tp wrap before,
  rooms before (match wrap with Some _ => true | None => false end) ((this, tp) :: l) -> consecutive (map fst ((this, tp) :: l)) ->
  match wrap with Some (next, np) => proper next /\ 0 < fst np /\ snd (last (map fst ((this, tp) :: l)) ((0, 0), (0, 0))) = fst next | None => True end ->
  let final := match wrap with Some (next, np) => (on next (fst np), dir next)
    | None => let lp := last ((this, tp) :: l) (this, tp) in (on (fst lp) (snd (snd lp)), dir (fst lp)) end in
  run (on this (fst tp)) (dir this) (smooth_loop s wrap ((this, tp) :: l)) (fst final) (snd final).
Proof.
  intros s S F. induction l as [|[next np] l IH]; intros this [ta tb] wrap before R C W final.
  - cbn [rooms] in R. destruct R as [R _]. destruct R as (P & Q1 & Q2 & Q3 & Q4). cbn [fst snd] in *. cbn [smooth_loop].
    eapply run_app; [apply middle_run; [auto|lra]|]. destruct wrap as [[next [na nb]]|].
    + destruct W as (W1 & W2 & W3). cbn in W3. unfold final. cbn [fst snd] in *. rewrite app_nil_r. apply corner_run; auto.
    + unfold final. cbn. constructor.
  - cbn [rooms] in R. destruct R as [R R']. destruct R as (P & Q1 & Q2 & Q3 & Q4). cbn [fst snd] in *.
    change (smooth_loop s wrap ((this, (ta, tb)) :: (next, np) :: l)) with (middle this (ta, tb) ++ corner s this (ta, tb) next np ++ smooth_loop s wrap ((next, np) :: l)).
    eapply run_app; [apply middle_run; [auto|lra]|]. cbn [map consecutive fst] in C. destruct C as [C C'].
    assert (Rn : room true (match l with [] => match wrap with Some _ => true | None => false end | _ => true end) (next, np)) by (cbn [rooms] in R'; tauto).
    destruct Rn as (Pn & N1 & N2 & N3 & N4). cbn [fst snd] in *.
    apply run_app with (on next (fst np)) (dir next); [destruct np as [na nb]; apply corner_run; auto|].
    assert (FE : final = match wrap with Some (next0, np0) => (on next0 (fst np0), dir next0)
      | None => let lp := last ((next, np) :: l) (next, np) in (on (fst lp) (snd (snd lp)), dir (fst lp)) end).
    { unfold final. destruct wrap as [[]|]; [reflexivity|]. cbn [last]. destruct l; [reflexivity|].
      assert (LQ : forall A (x : A) l d d', last (x :: l) d = last (x :: l) d').
      { intros A x l0. revert x. induction l0 as [|y l0 IHl]; intros; [reflexivity|]. cbn [last] in *. apply IHl. }
      rewrite (LQ _ p l (this, (ta, tb)) (next, np)). reflexivity. }
    rewrite FE. apply (IH next np wrap true); auto.
Qed.

(** ** The parameters *)
Lemma params_bounds : forall radius first last l, 0 < radius -> proper l -> (first = true -> last = true -> False) ->
  let '(a, b) := line_params radius first last l in
  0 <= a <= b /\ b <= 1 /\ (first = false -> 0 < a) /\ (last = false -> b < 1) /\ (first = true -> a = 0) /\ (last = true -> b = 1).
Proof.
  intros radius first last l R P NB. destruct (line_length _ P) as [L _]. unfold line_params. set (len := line_arclen (fst l) (snd l)) in *. replace 0.5 with (1 / 2) by lra.
  assert (Q : forall x y, x <= y -> x / len <= y / len).
  { intros x y H. unfold Rdiv. apply Rmult_le_compat_r; [|auto]. apply Rlt_le, Rinv_0_lt_compat. auto. }
  assert (Q' : forall x y, x < y -> x / len < y / len).
  { intros x y H. unfold Rdiv. apply Rmult_lt_compat_r; [|auto]. apply Rinv_0_lt_compat. auto. }
  assert (O : len / len = 1) by (field; lra). assert (Z : 0 / len = 0) by (unfold Rdiv; ring).
  assert (Q0 : forall x, 0 <= x -> 0 <= x / len) by (intros x H; pose proof (Q _ _ H) as HQ; rewrite Z in HQ; exact HQ).
  assert (Q0' : forall x, 0 < x -> 0 < x / len) by (intros x H; pose proof (Q' _ _ H) as HQ; rewrite Z in HQ; exact HQ).
  assert (Q1 : forall x, x <= len -> x / len <= 1) by (intros x H; pose proof (Q _ _ H) as HQ; rewrite O in HQ; exact HQ).
  assert (Q1' : forall x, x < len -> x / len < 1) by (intros x H; pose proof (Q' _ _ H) as HQ; rewrite O in HQ; exact HQ).
  assert (C : forall x, x <= 0 \/ 0 <= x) by (intros; lra).
  destruct last, first; [exfalso; auto| | |].
  - rewrite O. assert (M : 0 < Rmin radius len <= len) by (unfold Rmin; destruct (Rle_dec radius len); lra).
    repeat split; intros; try discriminate; auto; try lra; [apply Q0|apply Q1|apply Q0']; lra.
  - rewrite Z. assert (M : 0 <= Rmax 0 (len - radius) < len) by (unfold Rmax; destruct (Rle_dec 0 (len - radius)); lra).
    repeat split; intros; try discriminate; auto; try lra; [apply Q0|apply Q1|apply Q1']; lra.
  - assert (M : 0 < Rmin radius (1 / 2 * len) <= 1 / 2 * len) by (unfold Rmin; destruct (Rle_dec radius (1 / 2 * len)); lra).
    assert (M' : 1 / 2 * len <= Rmax (1 / 2 * len) (len - radius) < len) by (unfold Rmax; destruct (Rle_dec (1 / 2 * len) (len - radius)); lra).
    repeat split; intros; try discriminate; [apply Q0|apply Q|apply Q1|apply Q0'|apply Q1']; lra.
Qed.

Lemma with_params_rooms : forall radius closed, 0 < radius -> forall ls first, Forall proper ls -> (closed = false -> first = true -> (2 <= length ls)%nat) ->
  rooms (closed || negb first) closed (with_params radius closed first ls).
Proof.
  intros radius closed R. induction ls as [|l ls IH]; intros first P L; [exact I|]. inversion_clear P. cbn [with_params rooms]. split.
  - assert (NB : negb closed && first = true -> negb closed && match ls with [] => true | _ => false end = true -> False).
    { intros A B. destruct closed, first; try discriminate. specialize (L eq_refl eq_refl). destruct ls; [cbn in L; lia|discriminate]. }
    pose proof (params_bounds radius _ _ l R H NB) as Q. destruct (line_params _ _ _ l) as [a b]. destruct Q as (Q1 & Q2 & Q3 & Q4 & _).
    split; [exact H|]. cbn [fst snd]. split; [exact Q1|]. split; [exact Q2|]. split.
    + intros E. apply Q3. destruct closed, first; auto.
    + intros E. apply Q4. destruct ls; [|destruct closed; reflexivity]. cbn in E. rewrite E. reflexivity.
  - specialize (IH false H0). replace (closed || negb false) with true in IH by (destruct closed; reflexivity). apply IH. discriminate.
Qed.
Lemma with_params_fst : forall radius closed ls first, map fst (with_params radius closed first ls) = ls.
Proof. induction ls as [|l ls IH]; intros; [reflexivity|]. cbn. now rewrite IH. Qed.
Lemma last_map : forall A B (f : A -> B) l d, last (map f l) (f d) = f (last l d).
Proof. induction l as [|x l IH]; intros; [reflexivity|]. cbn [map last]. destruct l; [reflexivity|]. apply IH. Qed.
Lemma last_params : forall radius ls first l, Forall proper (l :: ls) -> 0 < radius -> (first = true -> ls <> []) -> forall x,
  snd (snd (last (with_params radius false first (l :: ls)) x)) = 1.
Proof.
  induction ls as [|l' ls IH]; intros first l P R F x.
  - cbn [with_params last snd]. inversion_clear P. destruct first; [exfalso; apply F; auto|].
    pose proof (params_bounds radius false true l R H ltac:(discriminate)) as Q. cbn [negb andb]. destruct (line_params radius false true l) as [a b]. apply Q. reflexivity.
  - change (last (with_params radius false first (l :: l' :: ls)) x) with (last (with_params radius false false (l' :: ls)) x). apply IH; auto; [inversion P; auto|discriminate].
Qed.

(** C121: the smoothed path of at least two lines is smooth: each item continues the one before in its end point, direction and curvature; the path
    begins and ends where the lines do or, if it is closed, its end continues at its beginning in the same way. *)
Theorem smoothed_smooth : forall radius softness closed ls,
  0 < radius -> 0 < softness -> 0.3192 * softness < 0.6 -> Forall proper ls -> consecutive ls -> (2 <= length ls)%nat ->
  (closed = true -> path_end ls = path_begin ls) ->
  let l := smoothed radius softness closed ls in
  l <> [] /\
  (forall k i j, nth_error l k = Some i -> nth_error l (S k) = Some j -> joined i j) /\
  (forall x, if closed then joined (last l x) (hd x l) else atbegin_pt (hd x l) = path_begin ls /\ atend_pt (last l x) = path_end ls).
Proof.
  intros radius s closed ls R S F P C L W. cbv zeta. unfold smoothed. cbv zeta.
  destruct ls as [|l0 ls]; [cbn in L; lia|]. destruct ls as [|l1 ls]; [cbn in L; lia|].
  pose proof (with_params_rooms radius closed R (l0 :: l1 :: ls) true P ltac:(intros; exact L)) as Rm. cbn [negb] in Rm. rewrite orb_false_r in Rm.
  remember (with_params radius closed true (l0 :: l1 :: ls)) as wp eqn:Ew.
  pose proof (with_params_fst radius closed (l0 :: l1 :: ls) true) as Mf. rewrite <- Ew in Mf.
  destruct wp as [|[this tp] wp]; [discriminate|].
  assert (T0 : this = l0) by (cbn in Mf; congruence).
  assert (Pt : proper this) by (subst this; inversion P; auto).
  set (wrap := if closed then hd_error ((this, tp) :: wp) else None) in *. set (l := smooth_loop s wrap ((this, tp) :: wp)) in *.
  assert (Wr : match wrap with Some _ => true | None => false end = closed) by (unfold wrap; destruct closed; reflexivity).
  assert (NE : l <> []).
  { unfold l. destruct wp as [|[l1' p1] wp]; [discriminate|]. cbn [smooth_loop]. unfold corner at 1. destruct (corner_curves _ _ _ _ _ _) as [c1 c2].
    intros E. apply app_eq_nil in E as [_ E]. discriminate. }
  pose proof (loop_run s S F wp this tp wrap closed) as Run. rewrite Wr, Mf in Run. cbv zeta in Run. specialize (Run Rm C).
  assert (Wp : match wrap with Some (next, np) => proper next /\ 0 < fst np /\ snd (last (l0 :: l1 :: ls) ((0, 0), (0, 0))) = fst next | None => True end).
  { unfold wrap. destruct closed; [|exact I]. cbn [hd_error]. split; [exact Pt|]. destruct Rm as [Rm _]. destruct Rm as (_ & _ & _ & Rm & _). cbn [fst snd] in Rm.
    split; [auto|]. specialize (W eq_refl). unfold path_end, path_begin in W. rewrite T0. exact W. }
  specialize (Run Wp). fold l in Run.
  split; [exact NE|]. split; [eapply run_joined; exact Run|]. intros x.
  pose proof (run_begin _ _ _ _ _ Run) as B. pose proof (run_end _ _ _ _ _ Run NE x) as E.
  destruct l as [|i l']; [contradiction|]. cbn [hd]. destruct closed.
  - unfold wrap in E. cbn [hd_error fst snd] in E. eapply flat_joined; eauto.
  - split.
    + destruct B as [-> _]. assert (T : fst tp = 0).
      { cbn [with_params negb andb] in Ew. injection Ew as Et Ep _. subst tp. rewrite <- T0.
        cbn [fst]. unfold Rdiv. ring. }
      rewrite T, T0. cbn [path_begin]. destruct l0 as [[px py] [qx qy]]. unfold on. cbn. f_equal; ring.
    + unfold wrap in E. destruct E as [-> _]. cbn [fst snd].
      pose proof (last_params radius (l1 :: ls) true l0 P R ltac:(discriminate) (this, tp)) as Lp. rewrite <- Ew in Lp. rewrite Lp.
      assert (Lf : fst (last ((this, tp) :: wp) (this, tp)) = last (l0 :: l1 :: ls) this).
      { rewrite <- (last_map _ _ fst), Mf. reflexivity. }
      rewrite Lf. unfold path_end.
      assert (LQ : forall A (x : A) l d d', last (x :: l) d = last (x :: l) d').
      { intros A y m. revert y. induction m as [|z m IHl]; intros; [reflexivity|]. cbn [last] in *. apply IHl. }
      rewrite (LQ _ l0 (l1 :: ls) this ((0, 0), (0, 0))). destruct (last (l0 :: l1 :: ls) ((0, 0), (0, 0))) as [[px py] [qx qy]]. unfold on. cbn. f_equal; ring.
Qed.
Print Assumptions smoothed_smooth.

(** C121: a single line is not left as it is: its beginning is cut off. *)
Theorem smoothed_line_refuted : forall radius softness p q, proper (p, q) -> 0 < radius < distance p q ->
  exists i, smoothed radius softness false [(p, q)] = [i] /\ atend_pt i = q /\ distance p (atbegin_pt i) = radius.
Proof.
  intros radius s p q P [R1 R2]. destruct (line_length _ P) as [L _]. cbn [fst snd] in L.
  assert (Ed : distance p q = line_arclen p q). { unfold distance, line_arclen, hypot. f_equal. ring. }
  rewrite Ed in R2. unfold smoothed. cbn [with_params negb andb smooth_loop app]. unfold line_params. cbn [fst snd].
  rewrite Rmin_left by lra. set (len := line_arclen p q) in *. replace (len / len) with 1 by (field; lra).
  set (i := line_segment p q (radius / len) 1).
  assert (Q : radius / len < 1) by (apply (Rmult_lt_reg_r len); [auto|]; unfold Rdiv; rewrite Rmult_assoc, Rinv_l by lra; lra).
  assert (Q0 : 0 < radius / len) by (apply Rdiv_lt_0_compat; lra).
  exists i. rewrite app_nil_r. unfold middle. cbn [fst snd]. fold i. split; [|split].
  - destruct (Req_EM_T _ 0) as [Z|Z]; [|reflexivity]. exfalso. unfold line_arclen in Z. apply hypot_0 in Z as [Z1 Z2].
    destruct p as [px py], q as [qx qy]. unfold i in *. cbn in Z1, Z2. assert (qx = px) by nra. assert (qy = py) by nra. apply P. cbn. congruence.
  - destruct p as [px py], q as [qx qy]. unfold i. cbn. f_equal; ring.
  - destruct p as [px py], q as [qx qy]. unfold i, distance. cbn [line_segment atbegin_pt at_pt fst snd].
    transitivity (sqrt (radius * radius)); [f_equal|apply sqrt_square; lra].
    transitivity (radius * radius / (len * len) * (len * len)); [|field; lra].
    assert (H : len * len = (px - qx) * (px - qx) + (py - qy) * (py - qy)) by (unfold len, line_arclen; cbn [fst snd]; apply hypot_sqr).
    rewrite H at 2. field. lra.
Qed.
Print Assumptions smoothed_line_refuted.

(** C121: what is further than the radius from all corners stays. *)
Theorem smoothed_keeps : forall radius softness closed ls l t,
  0 < radius -> Forall proper ls -> (2 <= length ls)%nat ->
  forall before behind, ls = before ++ l :: behind -> 0 <= t <= 1 ->
  (closed = true \/ before <> [] -> radius < t * distance (fst l) (snd l)) ->
  (closed = true \/ behind <> [] -> radius < (1 - t) * distance (fst l) (snd l)) ->
  exists p q s, In (Line p q) (smoothed radius softness closed ls) /\ 0 <= s <= 1 /\ along p q s = along (fst l) (snd l) t.
Proof.
  intros radius s closed ls l t R P L before behind E T B1 B2.
  assert (Pl : proper l) by (rewrite E in P; apply Forall_app in P as [_ P]; inversion P; auto).
  destruct (line_length _ Pl) as [Ll _]. assert (Ed : distance (fst l) (snd l) = line_arclen (fst l) (snd l)).
  { unfold distance, line_arclen, hypot. f_equal. ring. }
  rewrite Ed in *. set (len := line_arclen (fst l) (snd l)) in *.
  set (isfirst := match before with [] => true | _ => false end). set (islast := match behind with [] => true | _ => false end).
  assert (Sub : forall wrap, incl (middle l (line_params radius (negb closed && isfirst) (negb closed && islast) l)) (smooth_loop s wrap (with_params radius closed true ls))).
  { intros wrap. rewrite E. clear.
    assert (G : forall bef first, incl (middle l (line_params radius (negb closed && (first && match bef with [] => true | _ => false end)) (negb closed && islast) l))
      (smooth_loop s wrap (with_params radius closed first (bef ++ l :: behind)))).
    { induction bef as [|b bef IH]; intros first.
      - cbn [app with_params smooth_loop]. rewrite andb_true_r. apply incl_appl, incl_refl.
      - cbn [app with_params smooth_loop]. rewrite andb_false_r, andb_false_r. specialize (IH false). rewrite andb_false_l, andb_false_r in IH.
        apply incl_appr, incl_appr. exact IH. }
    specialize (G before true). rewrite andb_true_l in G. exact G. }
  assert (NB : negb closed && isfirst = true -> negb closed && islast = true -> False).
  { intros A1 A2. destruct closed; [discriminate|]. unfold isfirst, islast in *. destruct before, behind; try discriminate. subst ls. cbn in L. lia. }
  pose proof (params_bounds radius _ _ l R Pl NB) as Q.
  assert (K : let '(a, b) := line_params radius (negb closed && isfirst) (negb closed && islast) l in a <= t <= b /\ a < b).
  { unfold line_params in *. fold len in Q. fold len. replace 0.5 with (1 / 2) in * by lra.
    assert (D : forall x y, x <= y * len -> x / len <= y).
    { intros x y H. apply (Rmult_le_reg_r len); [auto|]. unfold Rdiv. rewrite Rmult_assoc, Rinv_l by lra. lra. }
    assert (D' : forall x y, y * len <= x -> y <= x / len).
    { intros x y H. apply (Rmult_le_reg_r len); [auto|]. unfold Rdiv. rewrite Rmult_assoc, Rinv_l by lra. lra. }
    assert (D2 : forall x y, x < y -> x / len < y / len).
    { intros x y H. unfold Rdiv. apply Rmult_lt_compat_r; [apply Rinv_0_lt_compat|]; auto. }
    assert (Tl : 0 <= t * len <= len) by (split; [apply Rmult_le_pos; lra|rewrite <- (Rmult_1_l len) at 2; apply Rmult_le_compat_r; lra]).
    destruct (negb closed && islast) eqn:El; [|destruct (negb closed && isfirst) eqn:Ef].
    - assert (Fb : closed = true \/ before <> []).
      { destruct closed; [discriminate|]. right. intros ->. subst ls. destruct behind; [cbn in L; lia|discriminate]. }
      specialize (B1 Fb). rewrite Rmin_left by lra. split; [split; [apply D; lra|apply D'; lra]|apply D2; lra].
    - assert (Fb : closed = true \/ behind <> []).
      { destruct closed; [discriminate|]. right. intros ->. discriminate. }
      specialize (B2 Fb). rewrite Rmax_right by lra. split; [split; [apply D; lra|apply D'; lra]|apply D2; lra].
    - assert (Fb : closed = true \/ before <> []).
      { destruct closed; [auto|]. right. intros ->. discriminate. }
      assert (Fc : closed = true \/ behind <> []).
      { destruct closed; [auto|]. right. intros ->. discriminate. }
      specialize (B1 Fb). specialize (B2 Fc). assert (2 * radius < len) by lra. rewrite Rmin_left, Rmax_right by lra.
      split; [split; [apply D; lra|apply D'; lra]|apply D2; lra]. }
  unfold smoothed. match goal with |- context [smooth_loop s ?w _] => specialize (Sub w) end.
  destruct (line_params radius (negb closed && isfirst) (negb closed && islast) l) as [a b]. destruct K as [K1 K2].
  exists (on l a), (on l b), ((t - a) / (b - a)). split; [|split].
  - apply Sub. unfold middle. cbn [fst snd]. unfold line_segment. fold (on l a). fold (on l b). cbn [atbegin_pt atend_pt].
    destruct (Req_EM_T _ 0) as [Z|Z]; [|left; reflexivity]. exfalso. unfold line_arclen in Z. apply hypot_0 in Z as [Z1 Z2].
    destruct l as [[px py] [qx qy]]. unfold on in *. cbn in Z1, Z2. apply Pl. cbn. f_equal; nra.
  - split; [apply Rmult_le_pos; [lra|apply Rlt_le, Rinv_0_lt_compat; lra]|].
    apply (Rmult_le_reg_r (b - a)); [lra|]. unfold Rdiv. rewrite Rmult_assoc, Rinv_l by lra. lra.
  - destruct l as [[px py] [qx qy]]. unfold on, along. cbn. f_equal; field; lra.
Qed.
Print Assumptions smoothed_keeps.
