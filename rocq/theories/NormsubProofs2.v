(** Stored items are not too short. *)
From Coq Require Import Reals List Lra Lia Bool.
From Verif Require Import TrafoModel BboxModel RootsModel RootsSpec RootsProps CurveModel CurveSpec CurveProofs CurveProofs2 CurveProofs3 CurveProofs4
  NormsubModel NormsubSpec NormsubProofs.
Import ListNotations.
Open Scope R_scope.

Local Notation pt := (R * R)%type.

Definition sq (p0 p1 p2 p3 : pt) (t : R) : R :=
  let '(ax, bx, cx) := der_coefs (fst p0) (fst p1) (fst p2) (fst p3) in
  let '(ay, by_, cy) := der_coefs (snd p0) (snd p1) (snd p2) (snd p3) in
  9 * ((ax * t * t + bx * t + cx) ^ 2 + (ay * t * t + by_ * t + cy) ^ 2).
Definition dcoefs (p0 p1 p2 p3 : pt) : list R :=
  let '(ax, bx, cx) := der_coefs (fst p0) (fst p1) (fst p2) (fst p3) in
  let '(ay, by_, cy) := der_coefs (snd p0) (snd p1) (snd p2) (snd p3) in
  [4 * ax * ax + 4 * ay * ay; 6 * ax * bx + 6 * ay * by_;
   4 * ax * cx + 4 * ay * cy + 2 * bx * bx + 2 * by_ * by_; 2 * bx * cx + 2 * by_ * cy].

Lemma slow_spec e p0 p1 p2 p3 t : slow e p0 p1 p2 p3 t = true <-> sq p0 p1 p2 p3 t < e * e.
Proof. unfold slow, sq. simpl. apply ltb_true. Qed.
Lemma sq_velocity p0 p1 p2 p3 t : sq p0 p1 p2 p3 t = fst (velocity (Curve p0 p1 p2 p3) t) ^ 2 + snd (velocity (Curve p0 p1 p2 p3) t) ^ 2.
Proof.
  destruct p0, p1, p2, p3. unfold sq, der_coefs, velocity, tangent_coord. simpl. ring.
Qed.
Lemma sq_0 p0 p1 p2 p3 : sq p0 p1 p2 p3 0 = (dist p0 p1 * 3) * (dist p0 p1 * 3).
Proof.
  replace (dist p0 p1 * 3 * (dist p0 p1 * 3)) with (9 * (dist p0 p1 * dist p0 p1)) by ring.
  unfold dist. rewrite hypot_sqr. unfold sq, der_coefs. ring.
Qed.
Lemma sq_1 p0 p1 p2 p3 : sq p0 p1 p2 p3 1 = (dist p3 p2 * 3) * (dist p3 p2 * 3).
Proof.
  replace (dist p3 p2 * 3 * (dist p3 p2 * 3)) with (9 * (dist p3 p2 * dist p3 p2)) by ring.
  unfold dist. rewrite hypot_sqr. unfold sq, der_coefs. ring.
Qed.
Lemma quad_sqr_deriv a b c t :
  derivable_pt_lim (fun t => (a * t * t + b * t + c) ^ 2) t (2 * (2 * a * t + b) * (a * t * t + b * t + c)).
Proof.
  assert (D : derivable_pt_lim (fun t => a * t * t + b * t + c) t (2 * a * t + b))
    by (apply deriv_cubic with 0 a b c; intros; ring).
  apply deriv_ext with (mult_fct (fun t => a * t * t + b * t + c) (fun t => a * t * t + b * t + c)).
  - intros u. unfold mult_fct. ring.
  - replace (2 * (2 * a * t + b) * (a * t * t + b * t + c)) with
      ((2 * a * t + b) * (a * t * t + b * t + c) + (a * t * t + b * t + c) * (2 * a * t + b)) by ring.
    exact (derivable_pt_lim_mult _ _ t _ _ D D).
Qed.
Lemma sq_deriv p0 p1 p2 p3 t : derivable_pt_lim (sq p0 p1 p2 p3) t (9 * peval (dcoefs p0 p1 p2 p3) t).
Proof.
  unfold dcoefs, sq, der_coefs.
  set (ax := fst p3 - 3 * fst p2 + 3 * fst p1 - fst p0). set (bx := 2 * fst p0 - 4 * fst p1 + 2 * fst p2). set (cx := fst p1 - fst p0).
  set (ay := snd p3 - 3 * snd p2 + 3 * snd p1 - snd p0). set (by_ := 2 * snd p0 - 4 * snd p1 + 2 * snd p2). set (cy := snd p1 - snd p0).
  clearbody ax bx cx ay by_ cy.
  pose proof (derivable_pt_lim_scal _ 9 t _ (derivable_pt_lim_plus _ _ t _ _ (quad_sqr_deriv ax bx cx t) (quad_sqr_deriv ay by_ cy t))) as D.
  match type of D with derivable_pt_lim _ _ ?l => replace (9 * peval _ t) with l end.
  - apply deriv_ext with (2 := D). intros u. unfold mult_real_fct, plus_fct. reflexivity.
  - simpl. ring.
Qed.

(** the curves with a cubic whose roots are not found *)
Definition deg (p0 p1 p2 p3 : pt) : Prop :=
  exists c alpha beta, c <> 0 /\ alpha < beta /\ forall x, peval (dcoefs p0 p1 p2 p3) x = c * ((x - alpha) ^ 2 * (x - beta)).
Lemma deg_degenerate p0 p1 p2 p3 : deg p0 p1 p2 p3 -> degenerate (Curve p0 p1 p2 p3).
Proof.
  intros (c & alpha & beta & Hc & L & E). exists (sq p0 p1 p2 p3), (9 * c), alpha, beta. split; [|split; [lra|split; [auto|]]].
  - intros t. destruct (velocity_deriv (Curve p0 p1 p2 p3) t) as [D1 D2].
    exists (fst (velocity (Curve p0 p1 p2 p3) t)), (snd (velocity (Curve p0 p1 p2 p3) t)). split; [exact D1|]. split; [exact D2|]. apply sq_velocity.
  - intros t. rewrite Rmult_assoc, <- E. apply sq_deriv.
Qed.

(** the extrema of the speed are found *)
Lemma extrema_found p0 p1 p2 p3 : deg p0 p1 p2 p3 \/ (forall x, sq p0 p1 p2 p3 x = sq p0 p1 p2 p3 0) \/
  forall x, peval (dcoefs p0 p1 p2 p3) x = 0 -> In x (extrema p0 p1 p2 p3).
Proof.
  change (extrema p0 p1 p2 p3) with (match realpolyroots (dcoefs p0 p1 p2 p3) with Some rs => rs | None => [] end).
  unfold deg, dcoefs, sq, der_coefs.
  set (ax := fst p3 - 3 * fst p2 + 3 * fst p1 - fst p0). set (bx := 2 * fst p0 - 4 * fst p1 + 2 * fst p2). set (cx := fst p1 - fst p0).
  set (ay := snd p3 - 3 * snd p2 + 3 * snd p1 - snd p0). set (by_ := 2 * snd p0 - 4 * snd p1 + 2 * snd p2). set (cy := snd p1 - snd p0).
  clearbody ax bx cx ay by_ cy.
  set (c3 := 4 * ax * ax + 4 * ay * ay). set (c2 := 6 * ax * bx + 6 * ay * by_).
  set (c1 := 4 * ax * cx + 4 * ay * cy + 2 * bx * bx + 2 * by_ * by_). set (c0 := 2 * bx * cx + 2 * by_ * cy).
  destruct (Req_EM_T c3 0) as [Z3|N3].
  - right. assert (ax = 0 /\ ay = 0) as [-> ->]. { unfold c3 in Z3. split; nra. }
    assert (c2 = 0) as -> by (unfold c2; ring). rewrite Z3.
    destruct (Req_EM_T c1 0) as [Z1|N1].
    + left. assert (bx = 0 /\ by_ = 0) as [-> ->]. { unfold c1 in Z1. split; nra. } intros x. ring.
    + right. intros x. destruct (roots_low_degree 2 c1 [c0] N1) as (rs & E1 & E2); [simpl; lia|].
      simpl repeat in *. simpl app in *. rewrite E1. intros H. now apply E2.
  - destruct (Classical_Prop.classic (exists alpha beta, alpha < beta /\ forall x, peval [c3; c2; c1; c0] x = c3 * ((x - alpha) ^ 2 * (x - beta)))) as [(alpha & beta & L & E)|N].
    + left. exists c3, alpha, beta. auto.
    + right. right. destruct (cubic_roots_partial 0 c3 c2 c1 c0 N3 N) as (rs & E1 & E2). simpl repeat in *. simpl app in *. rewrite E1.
      intros x H. now apply E2.
Qed.

Lemma fast_curve e p0 p1 p2 p3 : 0 < e -> e <= dist p0 p1 * 3 -> e <= dist p3 p2 * 3 -> splitpoints e p0 p1 p2 p3 = [] ->
  deg p0 p1 p2 p3 \/ forall t, 0 <= t <= 1 -> e * e <= sq p0 p1 p2 p3 t.
Proof.
  intros He H0 H1 S. destruct (extrema_found p0 p1 p2 p3) as [D|[C|F]]; [auto|right|right].
  - intros t _. rewrite C, sq_0. nra.
  - destruct (extremum (sq p0 p1 p2 p3) _ (sq_deriv p0 p1 p2 p3)) as (m & m2 & Hm & Hm2 & M & Dm & _).
    intros t Ht. apply Rle_trans with (sq p0 p1 p2 p3 m); [|apply M; auto].
    destruct (Req_dec m 0) as [->|Nm0]; [rewrite sq_0; nra|]. destruct (Req_dec m 1) as [->|Nm1]; [rewrite sq_1; nra|].
    assert (I : 0 < m < 1) by lra. specialize (Dm I).
    assert (In m (extrema p0 p1 p2 p3)) as Hin by (apply F; lra).
    destruct (Rle_or_lt (e * e) (sq p0 p1 p2 p3 m)) as [|L]; auto. exfalso.
    assert (In m (splitpoints e p0 p1 p2 p3)) as B; [|rewrite S in B; exact B].
    apply filter_In. split; auto. rewrite (proj2 (slow_spec e p0 p1 p2 p3 m) L), !(proj2 (ltb_true _ _)) by lra. reflexivity.
Qed.

(** the shifted control points are far enough *)
Lemma toward_dist e p q : 0 < e -> 0 < dist p q -> dist p (toward e p q) = e / (29 / 10).
Proof.
  intros He Hd. rewrite dist_nrm. replace (vsub (toward e p q) p) with (vscale (e / dist p q / (29 / 10)) (vsub q p)).
  - rewrite nrm_scale, <- dist_nrm, Rabs_pos_eq.
    + field. lra.
    + apply Rlt_le. repeat apply Rdiv_lt_0_compat; lra.
  - unfold vscale, vsub, toward. simpl. apply pair_eq; field; lra.
Qed.
Lemma toward_far e p q : 0 < e -> 0 < dist p q -> e <= dist p (toward e p q) * 3.
Proof. intros He Hd. rewrite toward_dist by auto. lra. Qed.
Lemma shift_first_far e p0 p1 p2 p3 : 0 < e -> substantial e p0 p1 p2 p3 = true -> e <= dist p0 (shift_first e p0 p1 p2 p3) * 3.
Proof.
  intros He S. unfold shift_first, substantial in *. destruct (ltb_spec (dist p0 p1 * 3) e) as [L|L]; [|lra].
  destruct (leb_spec e (dist p0 p2 * 3)) as [M|M]; [apply toward_far; lra|]. destruct (leb_spec e (dist p0 p3)) as [N|N]; [apply toward_far; lra|].
  destruct (leb_spec e (dist p0 p1 * 3)); [lra|discriminate].
Qed.
Lemma dist_comm p q : dist p q = dist q p.
Proof. unfold dist, hypot. f_equal. ring. Qed.
Lemma shift_second_far e p0 p1 p2 p3 : 0 < e -> substantial e p0 p1 p2 p3 = true -> e <= dist p3 (shift_second e p0 p1 p2 p3) * 3.
Proof.
  intros He S. unfold shift_second, substantial in *. destruct (ltb_spec (dist p3 p2 * 3) e) as [L|L]; [|lra].
  destruct (leb_spec e (dist p3 p1 * 3)) as [M|M]; [apply toward_far; lra|].
  destruct (leb_spec e (dist p0 p3)) as [N|N]; [apply toward_far; [auto|rewrite dist_comm; lra]|].
  destruct (leb_spec e (dist p3 p2 * 3)); [lra|]. rewrite andb_false_r in S. discriminate.
Qed.

(** an item stored by append *)
Definition fast (e : R) (i : item) : Prop :=
  match i with
  | Line p0 p1 => e <= dist p0 p1
  | Curve p0 p1 p2 p3 => forall t, 0 <= t <= 1 -> e * e <= sq p0 p1 p2 p3 t
  end.
Definition degen (i : item) : Prop := match i with Line _ _ => False | Curve p0 p1 p2 p3 => deg p0 p1 p2 p3 end.
Definition good (e : R) (i : item) : Prop := fast e i \/ degen i.

Lemma extend_inv (P : nsp -> Prop) app : (forall s i s', P s -> app s i = Ok s' -> P s') ->
  forall l s s', P s -> extend_with app s l = Ok s' -> P s'.
Proof.
  intros H. induction l as [|i l IH]; simpl; intros s s' Ps E; [injection E as <-; auto|].
  destruct (app s i) as [s1| |] eqn:A; simpl in E; try discriminate. exact (IH s1 s' (H s i s1 Ps A) E).
Qed.
Lemma append_good e fuel : 0 < e -> forall s i s', epsilon s = Some e /\ Forall (good e) (items s) -> append fuel s i = Ok s' ->
  epsilon s' = Some e /\ Forall (good e) (items s').
Proof.
  intros He. induction fuel as [|f IH]; simpl; [discriminate|]. intros s i s' [Es F]. rewrite Es.
  destruct (mismatch e s i); [discriminate|]. destruct (closed s) eqn:Hc; [discriminate|].
  set (j := match skipped s with Some l => modifiedbegin_pt i (atbegin_pt l) | None => i end). clearbody j.
  destruct j as [p0 p1|p0 p1 p2 p3].
  - destruct (leb_spec e (dist p0 p1)); intros [= <-]; simpl; auto. split; auto. apply Forall_app. split; auto. constructor; auto. left. auto.
  - destruct (substantial e p0 p1 p2 p3) eqn:Sub; [|intros [= <-]; auto].
    pose proof (shift_first_far e p0 p1 p2 p3 He Sub) as F1. pose proof (shift_second_far e p0 p1 p2 p3 He Sub) as F2.
    set (q1 := shift_first e p0 p1 p2 p3) in *. set (q2 := shift_second e p0 p1 p2 p3) in *.
    destruct (splitpoints e p0 q1 q2 p3) as [|t ts] eqn:T.
    + intros [= <-]. simpl. split; auto. apply Forall_app. split; auto. constructor; auto.
      destruct (fast_curve e p0 q1 q2 p3 He F1 F2 T); [right|left]; auto.
    + apply (extend_inv (fun s => epsilon s = Some e /\ Forall (good e) (items s))); auto.
Qed.
Lemma extend_good e fuel l s s' : 0 < e -> epsilon s = Some e -> Forall (good e) (items s) -> extend fuel s l = Ok s' ->
  epsilon s' = Some e /\ Forall (good e) (items s').
Proof.
  intros He Es F. apply (extend_inv (fun s => epsilon s = Some e /\ Forall (good e) (items s))); auto. intros s0 i s1 P. now apply append_good.
Qed.

(** ** closing *)
Lemma extend_last app : forall l s s', extend_with app s l = Ok s' -> l <> [] -> exists s0 i, app s0 i = Ok s'.
Proof.
  induction l as [|i l IH]; simpl; intros s s' E N; [congruence|].
  destruct (app s i) as [s1| |] eqn:A; simpl in E; try discriminate. destruct l as [|j l].
  - injection E as <-. eauto.
  - apply (IH s1 s'); auto. discriminate.
Qed.
Lemma append_progress fuel : forall s i s', append fuel s i = Ok s' -> skipped s' = None -> items s' <> [].
Proof.
  induction fuel as [|f IH]; simpl; [discriminate|]. intros s i s'.
  destruct (epsilon s) as [e|]; [|intros [= <-] _; simpl; destruct (items s); discriminate].
  destruct (mismatch e s i); [discriminate|]. destruct (closed s); [discriminate|].
  destruct (match skipped s with Some l => modifiedbegin_pt i (atbegin_pt l) | None => i end) as [p0 p1|p0 p1 p2 p3].
  - destruct (leb _ _); intros [= <-]; simpl; [|discriminate]. intros _. destruct (items s); discriminate.
  - destruct (substantial _ _ _ _ _); [|intros [= <-]; discriminate].
    destruct (splitpoints _ _ _ _ _) as [|t ts]; [intros [= <-] _; simpl; destruct (items s); discriminate|].
    intros E K. apply extend_last in E as (s0 & i0 & E); [eauto|].
    destruct (rinsert t (rsort ts)); cbn [pieces map]; [discriminate|]. unfold split. cbn [map]. discriminate.
Qed.
Lemma flush_progress fuel : forall s s', flush fuel s = Ok s' -> (skipped s = None -> items s <> []) -> items s' <> [].
Proof.
  induction fuel as [|f IH]; simpl; intros s s'; destruct (skipped s) as [l|]; try discriminate; try (intros [= <-]; auto).
  destruct (lastitem (items s)) as [i|]; [|discriminate].
  destruct (append f _ _) as [s1| |] eqn:A; simpl; try discriminate. intros E _. apply (IH s1); auto. intros K. exact (append_progress _ _ _ _ A K).
Qed.
Lemma flush_leads e fuel : 0 < e -> forall s b p s', epsilon s = Some e -> leads e s b p -> Forall (good e) (items s) -> flush fuel s = Ok s' ->
  leads e s' b p /\ epsilon s' = Some e /\ Forall (good e) (items s') /\ skipped s' = None /\ (skipped s = None -> s' = s).
Proof.
  intros He. induction fuel as [|f IH]; simpl; intros s b p s' Es L F.
  - destruct (skipped s) eqn:K; [discriminate|]. intros [= <-]. auto.
  - destruct (skipped s) as [l|] eqn:K; [|intros [= <-]; auto].
    destruct (lastitem (items s)) as [i|] eqn:Li; [|discriminate]. apply lastitem_some in Li.
    set (s0 := mknsp (removelast (items s)) (closed s) (epsilon s) None).
    destruct (append f s0 (modifiedend_pt i (atend_pt l))) as [s1| |] eqn:A; simpl; try discriminate. intros E.
    destruct L as (q & C & S). rewrite K in S. simpl in S. destruct S as (p0 & p1 & -> & -> & -> & D).
    rewrite Li in C. apply chained_app in C as (m & C1 & C2). simpl in C2. destruct C2 as [C2 C3].
    destruct (append_leads e f s0 (modifiedend_pt i p) b m s1) as (L1 & E1 & N1); auto.
    + exists m. split; [exact C1|reflexivity].
    + intros _. rewrite (proj1 (modifiedend_end i p)). auto.
    + rewrite (proj2 (modifiedend_end i p)) in L1.
      destruct (append_good e f He s0 (modifiedend_pt i p) s1) as [_ F1]; auto.
      * split; auto. simpl. rewrite Li in F. apply Forall_app in F. apply F.
      * destruct (IH s1 b p s' E1 L1 F1 E) as (G1 & G2 & G3 & G4 & _). repeat split; auto. discriminate.
Qed.
Lemma close_leads e fuel s b p s' : 0 < e -> epsilon s = Some e -> leads e s b p -> Forall (good e) (items s) -> close fuel s = Ok s' ->
  chained b (items s') b /\ items s' <> [] /\ epsilon s' = Some e /\ Forall (good e) (items s') /\ skipped s' = None /\ closed s' = true.
Proof.
  intros He Es (q & C & K) F. unfold close. destruct (closed s) eqn:Hc; [discriminate|].
  destruct (lastitem (items s)) as [l|] eqn:Li; [|discriminate]. destruct (items s) as [|i its] eqn:Ei; [discriminate|].
  assert (B : atbegin_pt i = b) by apply C.
  assert (Q : atend_pt l = q).
  { apply lastitem_some in Li. rewrite Li in C. apply chained_app in C as (m & _ & C). apply C. }
  destruct (append fuel s (Line (atend_pt l) (atbegin_pt i))) as [s1| |] eqn:A; simpl; try discriminate.
  destruct (flush fuel s1) as [s2| |] eqn:Fl; simpl; try discriminate. intros [= <-]. simpl.
  rewrite <- Ei in *.
  destruct (append_leads e fuel s (Line (atend_pt l) (atbegin_pt i)) b p s1) as (L1 & E1 & N1); auto.
  - exists q. auto.
  - intros N. rewrite N in K. simpl in *. congruence.
  - simpl in L1. rewrite B in L1.
    destruct (append_good e fuel He s (Line (atend_pt l) (atbegin_pt i)) s1) as [_ F1]; auto.
    destruct (flush_leads e fuel He s1 b b s2 E1 L1 F1 Fl) as ((q' & C' & K') & G2 & G3 & G4 & G5).
    rewrite G4 in K'. simpl in K'. subst q'. repeat split; auto.
    apply (flush_progress fuel s1); auto. intros K2. exact (append_progress _ _ _ _ A K2).
Qed.
