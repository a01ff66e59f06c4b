(** Bounding boxes: sums (C09), transformations (C10), intersections (C11), rounding and
    enlargement (C12). *)
From Coq Require Import Reals List Lra Lia Bool Permutation Morphisms.
From Verif Require Import UnitModel TrafoModel BboxModel BboxSpec.
Import ListNotations.
Open Scope R_scope.

Lemma Rmin_cases a b : (a <= b /\ Rmin a b = a) \/ (b <= a /\ Rmin a b = b).
Proof. unfold Rmin. destruct (Rle_dec a b); lra. Qed.
Lemma Rmax_cases a b : (a <= b /\ Rmax a b = b) \/ (b <= a /\ Rmax a b = a).
Proof. unfold Rmax. destruct (Rle_dec a b); lra. Qed.
Ltac plain t := lazymatch t with context [Rmin] => fail | context [Rmax] => fail | _ => idtac end.
Ltac mm1 a b := plain a; plain b;
  destruct (Rmin_cases a b) as [[? E]|[? E]]; rewrite ?E in *; clear E.
Ltac mm2 a b := plain a; plain b;
  destruct (Rmax_cases a b) as [[? E]|[? E]]; rewrite ?E in *; clear E.
Ltac mm := repeat match goal with
  | |- context [Rmin ?a ?b] => mm1 a b
  | |- context [Rmax ?a ?b] => mm2 a b
  | H : context [Rmin ?a ?b] |- _ => mm1 a b
  | H : context [Rmax ?a ?b] |- _ => mm2 a b
  end.

Lemma inside_intro l y1 x2 y2 x y : l <= x <= x2 -> y1 <= y <= y2 -> inside (mkbbox (Some l) y1 x2 y2) (x, y).
Proof. intros H1 H2. exists l. simpl. tauto. Qed.
Lemma inside_inv l y1 x2 y2 p : inside (mkbbox (Some l) y1 x2 y2) p -> l <= fst p <= x2 /\ y1 <= snd p <= y2.
Proof. intros (l' & E & H). injection E as <-. exact H. Qed.
Lemma inside_none y1 x2 y2 p : ~ inside (mkbbox None y1 x2 y2) p.
Proof. intros (l' & E & H). discriminate. Qed.

(** ** C09 *)
Lemma badd_biadd s o : biadd s o = badd s o.
Proof. unfold biadd, badd. destruct s as [[l|] y1 x2 y2], o as [[l'|] y1' x2' y2']; reflexivity. Qed.
Lemma includepoint_add s p : includepoint_pt s p = badd s (mkbbox (Some (fst p)) (snd p) (fst p) (snd p)).
Proof. unfold includepoint_pt, badd. destruct s as [[l|] y1 x2 y2]; reflexivity. Qed.

(** corners are inside a proper box *)
Lemma corner_ll l y1 x2 y2 : proper (mkbbox (Some l) y1 x2 y2) -> inside (mkbbox (Some l) y1 x2 y2) (l, y1) /\ inside (mkbbox (Some l) y1 x2 y2) (x2, y2).
Proof. intros P. destruct (P l eq_refl) as [A B]. simpl in *. split; apply inside_intro; lra. Qed.

Lemma badd_smallest a b : proper a -> proper b -> smallest (badd a b) (fun p => inside a p \/ inside b p).
Proof.
  intros Pa Pb. destruct a as [[la|] ya xa za].
  - destruct b as [[lb|] yb xb zb].
    + destruct (Pa la eq_refl) as [A1 A2]. destruct (Pb lb eq_refl) as [B1 B2]. simpl in *. split; [|split].
      * intros l E. unfold badd in *. simpl in *. injection E as <-. mm; lra.
      * intros [x y] [H|H]; apply inside_inv in H; simpl in H; unfold badd; simpl; apply inside_intro; mm; lra.
      * intros c Hc [x y] H. unfold badd in H. simpl in H. apply inside_inv in H. simpl in H.
        destruct (corner_ll _ _ _ _ Pa) as [Ca Ca']. destruct (corner_ll _ _ _ _ Pb) as [Cb Cb'].
        destruct c as [[lc|] yc xc zc]; [|destruct (inside_none yc xc zc (la, ya)); apply Hc; auto].
        pose proof (Hc _ (or_introl Ca)) as D1. pose proof (Hc _ (or_introl Ca')) as D2.
        pose proof (Hc _ (or_intror Cb)) as D3. pose proof (Hc _ (or_intror Cb')) as D4.
        apply inside_inv in D1. apply inside_inv in D2. apply inside_inv in D3. apply inside_inv in D4. simpl in *.
        apply inside_intro; mm; lra.
    + unfold badd. simpl. split; [exact Pa|]. split.
      * intros p [H|H]; auto. now apply inside_none in H.
      * intros c Hc p H. apply Hc. now left.
  - unfold badd. simpl. assert (mkbbox (llx b) (lly b) (urx b) (ury b) = b) as -> by now destruct b. split; auto. split.
    + intros p [H|H]; auto. now apply inside_none in H.
    + intros c Hc p H. apply Hc. now right.
Qed.
Lemma badd_proper a b : proper a -> proper b -> proper (badd a b).
Proof. intros Pa Pb. now apply badd_smallest. Qed.
Lemma smallest_iff b s s' : (forall p, s p <-> s' p) -> smallest b s -> smallest b s'.
Proof.
  intros E (P & I & L). split; auto. split; [intros p H; apply I; now apply E|]. intros c Hc. apply L. intros p H. apply Hc. now apply E.
Qed.
Lemma smallest_within b s : smallest b s -> forall p, s p -> inside b p.
Proof. intros (_ & I & _). exact I. Qed.

(** what is added to a box step by step *)
Inductive addition := AddBox (b : bbox) | AddPoint (p : R * R).
Definition add1 (s : bbox) (a : addition) : bbox := match a with AddBox b => biadd s b | AddPoint p => includepoint_pt s p end.
Definition points_of (a : addition) (q : R * R) : Prop := match a with AddBox b => inside b q | AddPoint p => q = p end.

(** C09: after any history of in-place additions of boxes and points, the box is the
    smallest one containing everything added. *)
Theorem additions_smallest : forall history, Forall (fun a => match a with AddBox b => proper b | _ => True end) history ->
  smallest (fold_left add1 history empty) (fun p => exists a, In a history /\ points_of a p).
Proof.
  intros history. assert (forall b0, proper b0 -> Forall (fun a => match a with AddBox b => proper b | _ => True end) history ->
     smallest (fold_left add1 history b0) (fun p => inside b0 p \/ exists a, In a history /\ points_of a p)) as G.
  { induction history as [|a l IH]; intros b0 P0 F; simpl.
    - split; auto. split; [intros p [H|(a & [] & _)]; auto|]. intros c Hc p H. apply Hc. now left.
    - inversion F as [|? ? Fa Fl]; subst.
      set (ba := match a with AddBox b => b | AddPoint p => mkbbox (Some (fst p)) (snd p) (fst p) (snd p) end).
      assert (add1 b0 a = badd b0 ba) as E by (destruct a; simpl; [apply badd_biadd|apply includepoint_add]).
      assert (proper ba) as Pb by (destruct a; simpl; auto; intros l0 E0; simpl in *; injection E0 as <-; lra).
      assert (forall p, inside ba p <-> points_of a p) as Q.
      { intros [x y]. destruct a as [b|[px py]]; simpl; [tauto|]. split.
        - unfold ba. simpl. intros H. apply inside_inv in H. simpl in H. f_equal; lra.
        - unfold ba. simpl. intros [= -> ->]. apply inside_intro; lra. }
      rewrite E. destruct (badd_smallest b0 ba P0 Pb) as (Ps & Is & Ls).
      destruct (IH (badd b0 ba) Ps Fl) as (P & I & L). split; auto. split.
      + intros p [H|(a' & [<-|Ha] & Hp)]; apply I; [left; apply Is; auto|left; apply Is; right; now apply Q|right; eauto].
      + intros c Hc. apply L. intros p [H|(a' & Ha & Hp)]; [|apply Hc; right; exists a'; simpl; auto].
        apply (Ls c); auto. intros q [Hq|Hq]; apply Hc; [now left|right; exists a; simpl; split; auto; now apply Q]. }
  intros F. eapply smallest_iff; [|apply (G empty); auto].
  - intros p. split; [intros [H|H]; auto; now apply inside_none in H|auto].
  - intros l E. discriminate.
Qed.
Print Assumptions additions_smallest.

Example additions_ex : let b := fold_left add1 [AddPoint (1, 5); AddBox empty; AddBox (mkbbox (Some 2) 3 4 4); AddPoint (0, 4)] empty in
  b = mkbbox (Some 0) 3 4 5.
Proof. simpl. unfold includepoint_pt, biadd. simpl. unfold Rmin, Rmax. repeat destruct (Rle_dec _ _); try lra; reflexivity. Qed.

(** C09: the algebra of sums: order and grouping do not matter, the empty box is neutral,
    in-place and functional sums agree. *)
Theorem sum_algebra : forall a b c,
  same (badd a b) (badd b a) /\ same (badd (badd a b) c) (badd a (badd b c)) /\
  same (badd empty a) a /\ same (badd a empty) a /\ biadd a b = badd a b /\ same (badd a a) a.
Proof.
  intros [[la|] ya xa za] [[lb|] yb xb zb] [[lc|] yc xc zc]; unfold same, badd, biadd; simpl;
    repeat split; try congruence; try (f_equal; mm; lra);
    try (mm; lra).
Qed.
Print Assumptions sum_algebra.

Lemma same_refl a : same a a.
Proof. split; auto. Qed.
Lemma same_sym a b : same a b -> same b a.
Proof. intros (E & H). split; auto. rewrite <- E. intros N. destruct (H N) as (A & B & C). auto. Qed.
Lemma same_trans a b c : same a b -> same b c -> same a c.
Proof. intros (E & H) (E' & H'). split; [congruence|]. intros N. rewrite E in N. destruct (H' N) as (A & B & C). rewrite <- E in N. destruct (H N) as (A' & B' & C'). repeat split; congruence. Qed.
Lemma same_badd a a' b b' : same a a' -> same b b' -> same (badd a b) (badd a' b').
Proof.
  intros (E & H) (E' & H'). destruct a as [[la|] ya xa za], a' as [[la'|] ya' xa' za'], b as [[lb|] yb xb zb], b' as [[lb'|] yb' xb' zb'];
    simpl in *; try discriminate; unfold badd, same; simpl;
    repeat match goal with H : Some ?a <> None -> _ |- _ => destruct (H ltac:(discriminate)) as (-> & -> & ->); clear H end; split; auto; try congruence.
Qed.

(** C09: the sum of a collection does not depend on its order. *)
Theorem sum_permutation : forall l l', Permutation l l' -> same (fold_left badd l empty) (fold_left badd l' empty).
Proof.
  intros l l' P. assert (forall a, same (fold_left badd l a) (fold_left badd l' a)) as G; [|apply G].
  assert (forall l a a', same a a' -> same (fold_left badd l a) (fold_left badd l a')) as M.
  { induction l0 as [|x l0 IH]; intros a a' S; simpl; auto. apply IH. apply same_badd; auto. apply same_refl. }
  induction P as [|x l l' P IH|x y l|l1 l2 l3 P1 IH1 P2 IH2]; intros a; simpl; auto using same_refl.
  - apply M. destruct (sum_algebra a y x) as (_ & A & _). destruct (sum_algebra y x empty) as (C & _).
    destruct (sum_algebra a x y) as (_ & A' & _).
    eapply same_trans; [exact A|]. eapply same_trans; [|apply same_sym; exact A']. apply same_badd; auto using same_refl.
  - eapply same_trans; eauto.
Qed.
Print Assumptions sum_permutation.
Example sum_permutation_ex : same (fold_left badd [mkbbox (Some 0) 0 1 1; mkbbox (Some 2) 3 4 5] empty) (mkbbox (Some 0) 0 4 5).
Proof. unfold same, badd. simpl. unfold Rmin, Rmax. repeat destruct (Rle_dec _ _); try lra; repeat split; auto. Qed.

(** ** C10 *)
Lemma min4_le a b c d : min4 a b c d <= a /\ min4 a b c d <= b /\ min4 a b c d <= c /\ min4 a b c d <= d /\
  (min4 a b c d = a \/ min4 a b c d = b \/ min4 a b c d = c \/ min4 a b c d = d).
Proof. unfold min4. mm; repeat split; lra. Qed.
Lemma max4_ge a b c d : a <= max4 a b c d /\ b <= max4 a b c d /\ c <= max4 a b c d /\ d <= max4 a b c d /\
  (max4 a b c d = a \/ max4 a b c d = b \/ max4 a b c d = c \/ max4 a b c d = d).
Proof. unfold max4. mm; repeat split; lra. Qed.
(** an affine function on an interval is between its values at the ends *)
Lemma affine_between k x1 x2 x : x1 <= x <= x2 -> Rmin (k * x1) (k * x2) <= k * x <= Rmax (k * x1) (k * x2).
Proof.
  intros H. destruct (Rle_dec 0 k) as [K|K].
  - assert (k * x1 <= k * x) by (apply Rmult_le_compat_l; lra). assert (k * x <= k * x2) by (apply Rmult_le_compat_l; lra). mm; lra.
  - assert (k * x1 >= k * x) by nra. assert (k * x >= k * x2) by nra. mm; lra.
Qed.

Theorem transformed_smallest : forall b t, proper b ->
  smallest (transformed b t) (fun q => exists p, inside b p /\ q = apply_pt t p).
Proof.
  intros [[l|] y1 x2 y2] t P.
  2: { split; [intros l E; discriminate|]. split; [intros q (p & H & _); now apply inside_none in H|]. intros c _ p H. now apply inside_none in H. }
  destruct (P l eq_refl) as [A B]. simpl in A, B. unfold transformed, apply_pt. simpl.
  set (ax := m00 t * l + m01 t * y1 + v0 t). set (bx := m00 t * x2 + m01 t * y1 + v0 t).
  set (cx := m00 t * x2 + m01 t * y2 + v0 t). set (dx := m00 t * l + m01 t * y2 + v0 t).
  set (ay := m10 t * l + m11 t * y1 + v1 t). set (by_ := m10 t * x2 + m11 t * y1 + v1 t).
  set (cy := m10 t * x2 + m11 t * y2 + v1 t). set (dy := m10 t * l + m11 t * y2 + v1 t).
  destruct (min4_le ax bx cx dx) as (I1 & I2 & I3 & I4 & I5). destruct (max4_ge ax bx cx dx) as (J1 & J2 & J3 & J4 & J5).
  destruct (min4_le ay by_ cy dy) as (K1 & K2 & K3 & K4 & K5). destruct (max4_ge ay by_ cy dy) as (L1 & L2 & L3 & L4 & L5).
  split; [|split].
  - intros l' E. simpl in *. injection E as <-. clearbody ax bx cx dx ay by_ cy dy. lra.
  - intros q ([x y] & H & ->). apply inside_inv in H. simpl in H. destruct H as [Hx Hy]. unfold apply_pt. simpl.
    pose proof (affine_between (m00 t) l x2 x Hx) as F1. pose proof (affine_between (m01 t) y1 y2 y Hy) as F2.
    pose proof (affine_between (m10 t) l x2 x Hx) as F3. pose proof (affine_between (m11 t) y1 y2 y Hy) as F4.
    unfold Rmin, Rmax in *.
    repeat match goal with H : context [Rle_dec ?a ?b] |- _ => destruct (Rle_dec a b) end;
    apply inside_intro; subst ax bx cx dx ay by_ cy dy; lra.
  - intros c Hc [x y] H. apply inside_inv in H. simpl in H.
    assert (forall u v, l <= u <= x2 -> y1 <= v <= y2 -> inside c (apply_pt t (u, v))) as Q.
    { intros u v Hu Hv. apply Hc. exists (u, v). split; auto. now apply inside_intro. }
    assert (inside c (ax, ay)) as Q1 by (apply (Q l y1); lra). assert (inside c (bx, by_)) as Q2 by (apply (Q x2 y1); lra).
    assert (inside c (cx, cy)) as Q3 by (apply (Q x2 y2); lra). assert (inside c (dx, dy)) as Q4 by (apply (Q l y2); lra).
    destruct c as [[lc|] yc xc zc]; [|now apply inside_none in Q1].
    apply inside_inv in Q1. apply inside_inv in Q2. apply inside_inv in Q3. apply inside_inv in Q4. simpl in *.
    clearbody ax bx cx dx ay by_ cy dy. apply inside_intro; lra.
Qed.
Print Assumptions transformed_smallest.

(** C10: the in-place version; transforming the empty box gives the empty box. *)
Theorem transform_inplace : forall b t, same (transform b t) (transformed b t) /\ (nonempty (transformed b t) = nonempty b).
Proof. intros [[l|] y1 x2 y2] t; unfold transform, transformed, same; simpl; repeat split; congruence. Qed.
Print Assumptions transform_inplace.
Example transformed_ex : transformed (mkbbox (Some 0) 0 2 1) (mktrafo 0 (-1) 1 0 0 0) = mkbbox (Some (-1)) 0 0 2.
Proof. unfold transformed, apply_pt, min4, max4. simpl. repeat f_equal; mm; lra. Qed.

(** ** C11 *)
Theorem product_common_points : forall a b p, inside (bmul a b) p <-> inside a p /\ inside b p.
Proof.
  intros [[la|] ya xa za] [[lb|] yb xb zb] [x y]; unfold bmul; simpl; split; intros H;
    try (now apply inside_none in H); try (destruct H as [H1 H2]; now (apply inside_none in H1 || apply inside_none in H2)).
  - apply inside_inv in H. simpl in H. split; apply inside_intro; revert H; mm; intros; lra.
  - destruct H as [H1 H2]. apply inside_inv in H1. apply inside_inv in H2. simpl in *. apply inside_intro; mm; lra.
Qed.
Print Assumptions product_common_points.

Theorem product_inplace : forall a b, same (bimul a b) (bmul a b).
Proof. intros [[la|] ya xa za] [[lb|] yb xb zb]; unfold same, bimul, bmul; simpl; repeat split; congruence. Qed.
Print Assumptions product_inplace.

Theorem intersects_iff : forall a b, proper a -> proper b -> (intersects a b = true <-> exists p, inside a p /\ inside b p).
Proof.
  intros [[la|] ya xa za] [[lb|] yb xb zb] Pa Pb; unfold intersects; simpl;
    try (split; [discriminate|intros (p & H1 & H2); now (apply inside_none in H1 || apply inside_none in H2)]).
  destruct (Pa la eq_refl) as [A1 A2]. destruct (Pb lb eq_refl) as [B1 B2]. simpl in *.
  unfold gtb, ltb. destruct (Rgt_dec la xb), (Rgt_dec ya zb), (Rlt_dec xa lb), (Rlt_dec za yb); simpl; split; intros H; try discriminate;
    try (destruct H as ([x y] & H1 & H2); apply inside_inv in H1; apply inside_inv in H2; simpl in *; lra); auto.
  exists (Rmax la lb, Rmax ya yb). split; apply inside_intro; mm; lra.
Qed.
Print Assumptions intersects_iff.

(** C11: the product of disjoint boxes is not the empty box, and adding it to another
    box enlarges that box although it contains no point. *)
Theorem disjoint_product_refuted :
  ~ (forall a b, proper a -> proper b -> intersects a b = false -> nonempty (bmul a b) = false) /\
  ~ (forall a b c, proper a -> proper b -> proper c -> intersects a b = false -> within (badd c (bmul a b)) c).
Proof.
  assert (intersects (mkbbox (Some 0) 0 1 1) (mkbbox (Some 2) 0 3 1) = false) as I.
  { unfold intersects, gtb, ltb. simpl. repeat destruct (Rgt_dec _ _); repeat destruct (Rlt_dec _ _); simpl; auto; lra. }
  assert (proper (mkbbox (Some 0) 0 1 1)) as P1 by (intros l E; simpl in *; injection E as <-; lra).
  assert (proper (mkbbox (Some 2) 0 3 1)) as P2 by (intros l E; simpl in *; injection E as <-; lra).
  split; intros H.
  - specialize (H _ _ P1 P2 I). discriminate.
  - assert (proper (mkbbox (Some 5) 0 6 1)) as P3 by (intros l E; simpl in *; injection E as <-; lra).
    specialize (H _ _ _ P1 P2 P3 I (3, 0)). unfold badd, bmul in H. simpl in H.
    assert (inside (mkbbox (Some 5) 0 6 1) (3, 0)) as C by (apply H; apply inside_intro; mm; lra).
    apply inside_inv in C. simpl in C. lra.
Qed.
Print Assumptions disjoint_product_refuted.
Example product_ex : bmul (mkbbox (Some 0) 0 2 2) (mkbbox (Some 1) (-1) 3 1) = mkbbox (Some 1) 0 2 1.
Proof. unfold bmul. simpl. repeat f_equal; mm; lra. Qed.

(** ** C12 *)
Lemma floor_spec x : IZR (floor x) <= x < IZR (floor x) + 1.
Proof. unfold floor. destruct (base_Int_part x). lra. Qed.
Lemma ceil_spec x : x <= IZR (ceil x) < x + 1.
Proof. unfold ceil. destruct (base_Int_part (- x)). rewrite opp_IZR. lra. Qed.

(** C12: the low resolution tuple is the smallest integer box containing the box. *)
Theorem lowres_smallest : forall b,
  match lowrestuple_pt b with
  | None => nonempty b = false
  | Some (x1, y1, x2, y2) =>
      exists l, llx b = Some l /\ IZR x1 <= l < IZR x1 + 1 /\ IZR y1 <= lly b < IZR y1 + 1 /\
        urx b <= IZR x2 < urx b + 1 /\ ury b <= IZR y2 < ury b + 1 /\
        within b (mkbbox (Some (IZR x1)) (IZR y1) (IZR x2) (IZR y2))
  end.
Proof.
  intros [[l|] y1 x2 y2]; simpl; auto. exists l. pose proof (floor_spec l). pose proof (floor_spec y1).
  pose proof (ceil_spec x2). pose proof (ceil_spec y2). repeat split; try lra. intros [x y] Hp. apply inside_inv in Hp. simpl in Hp. apply inside_intro; lra.
Qed.
Print Assumptions lowres_smallest.
Lemma up_unique x z : IZR z - 1 <= x < IZR z -> up x = z.
Proof. intros H. symmetry. apply tech_up; lra. Qed.
Example lowres_ex : lowrestuple_pt (mkbbox (Some (-1/2)) 0 (3/2) 2) = Some (-1, 0, 2, 2)%Z.
Proof.
  unfold lowrestuple_pt, floor, ceil, Int_part. simpl.
  rewrite (up_unique (-1/2) 0), (up_unique 0 1), (up_unique (- (3/2)) (-1)), (up_unique (- (2)) (-1)) by lra. reflexivity.
Qed.

(** C12: enlarging moves each side by the amount given for it, or the common amount. *)
Theorem enlarged_exact : forall b all bottom left top right p, let g o := match o with Some v => v | None => all end in
  inside (enlarged_pt b all bottom left top right) p <->
  exists l, llx b = Some l /\ l - g left <= fst p <= urx b + g right /\ lly b - g bottom <= snd p <= ury b + g top.
Proof.
  intros [[l|] y1 x2 y2] all bottom left top right [x y] g; unfold enlarged_pt; simpl.
  - split; [intros H; apply inside_inv in H; exists l; simpl in H; auto|]. intros (l' & E & H1 & H2). injection E as <-. apply inside_intro; auto.
  - split; [intros H; now apply inside_none in H|intros (l' & E & _); discriminate].
Qed.
Print Assumptions enlarged_exact.
Theorem enlarged_contains : forall st b all bottom left top right,
  (forall v, In v (all :: map (fun o => match o with Some v => v | None => all end) [bottom; left; top; right]) -> 0 <= topt st v) ->
  within b (enlarged st b all bottom left top right) /\ same (enlarge st b all bottom left top right) (enlarged st b all bottom left top right).
Proof.
  intros st b all bottom left top right H. split.
  - intros p (l & E & H1 & H2). unfold enlarged. apply enlarged_exact. exists l. split; auto.
    assert (forall o, In o [bottom; left; top; right] -> 0 <= match optpt st o with Some v => v | None => topt st all end) as G.
    { intros o Ho. unfold optpt. assert (0 <= topt st (match o with Some v => v | None => all end)) as K.
      { apply H. right. apply in_map_iff. exists o. auto. }
      destruct o; auto. }
    pose proof (G bottom ltac:(simpl; auto)). pose proof (G left ltac:(simpl; auto)). pose proof (G top ltac:(simpl; auto)).
    pose proof (G right ltac:(simpl; auto)). lra.
  - unfold enlarge, enlarged, enlarge_pt, enlarged_pt, same. destruct b as [[l|] y1 x2 y2]; simpl; repeat split; congruence.
Qed.
Print Assumptions enlarged_contains.
Example enlarged_ex : enlarged_pt (mkbbox (Some 0) 0 2 2) 1 (Some 3) None None None = mkbbox (Some (-1)) (-3) 3 3.
Proof. unfold enlarged_pt. simpl. repeat f_equal; lra. Qed.

(** C12: width and height are the differences of the extreme coordinates of the points of the
    box, and the centre is equally far from opposite sides. *)
Theorem box_measures : forall b, proper b ->
  match center_pt b, width_pt b, height_pt b with
  | Some (cx, cy), Some w, Some h => 0 <= w /\ 0 <= h /\
      forall x y, inside b (x, y) <-> (Rabs (x - cx) <= w / 2 /\ Rabs (y - cy) <= h / 2)
  | None, None, None => forall p, ~ inside b p
  | _, _, _ => False
  end.
Proof.
  intros [[l|] y1 x2 y2] P; simpl.
  - destruct (P l eq_refl) as [P1 P2]. simpl in P1, P2. split; [lra|]. split; [lra|]. intros x y.
    assert (A : forall a lo hi, Rabs (a - / 2 * (lo + hi)) <= (hi - lo) / 2 <-> lo <= a <= hi).
    { intros a lo hi. unfold Rabs. destruct (Rcase_abs _); split; intros; lra. }
    rewrite !A. split; [intros H; apply inside_inv in H; auto|intros [H1 H2]; apply inside_intro; auto].
  - intros p. apply inside_none.
Qed.
Print Assumptions box_measures.
Example box_measures_ex : center_pt (mkbbox (Some 1) 2 5 10) = Some (3, 6) /\ width_pt (mkbbox (Some 1) 2 5 10) = Some 4.
Proof.
  unfold center_pt, width_pt. simpl. replace (/ 2 * (1 + 5)) with 3 by lra. replace (/ 2 * (2 + 10)) with 6 by lra.
  replace (5 - 1) with 4 by lra. auto.
Qed.
