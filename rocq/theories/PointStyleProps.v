(** * Error bars, rectangles, arrows and impulses (C113) *)

From Coq Require Import Reals Bool List Lra Lia Psatz.
From Verif Require Import RangeModel GraphLineModel PointStyleModel.
Import ListNotations.
Open Scope R_scope.

Lemma ltb_iff a b : ltb a b = true <-> a < b. Proof. unfold ltb. destruct (Rlt_dec a b); split; intros; try assumption; try reflexivity; [discriminate|contradiction]. Qed.
Lemma ltb_not a b : ltb a b = false <-> b <= a. Proof. unfold ltb. destruct (Rlt_dec a b); split; intros; try reflexivity; try discriminate; lra. Qed.
Ltac lt := repeat match goal with
  | |- context [ltb ?a ?b] => let H := fresh "L" in destruct (ltb a b) eqn:H; [apply ltb_iff in H|apply ltb_not in H]
  | H0 : context [ltb ?a ?b] |- _ => let H := fresh "L" in destruct (ltb a b) eqn:H; [apply ltb_iff in H|apply ltb_not in H] end.

(** ** Error bars *)
(** the graph, up to the tolerance *)
Definition inside (epsilon v : R) : Prop := - epsilon <= v <= 1 + epsilon.
(** the part of a value within the graph *)
Definition clip (epsilon v : R) : R := if Rlt_dec v (- epsilon) then 0 else if Rlt_dec (1 + epsilon) v then 1 else v.
(** the ends of the bar: given by the range or else the position *)
Definition end_ (range pos : option R) : option R := match range with Some _ => range | None => pos end.

(** There is a bar in dimension i from a to b. *)
Definition bar_at (epsilon : R) (vpos : list (option R)) (vrange : list (option R * option R)) (i : nat) (a b : R) : Prop :=
  (i < length vpos)%nat /\ (forall j, (j < length vpos)%nat -> j <> i -> exists v, nth j vpos None = Some v /\ inside epsilon v) /\
  (fst (nth i vrange (None, None)) <> None \/ snd (nth i vrange (None, None)) <> None) /\
  end_ (fst (nth i vrange (None, None))) (nth i vpos None) = Some a /\ end_ (snd (nth i vrange (None, None))) (nth i vpos None) = Some b /\
  a <= 1 + epsilon /\ - epsilon <= b.

Lemma others_inside_ok epsilon vpos i : others_inside epsilon vpos i = true <-> (forall j, (j < length vpos)%nat -> j <> i -> exists v, nth j vpos None = Some v /\ inside epsilon v).
Proof.
  unfold others_inside. rewrite forallb_forall. split.
  - intros H j J N. specialize (H j ltac:(apply in_seq; lia)). apply orb_true_iff in H as [H|H]; [apply PeanoNat.Nat.eqb_eq in H; congruence|].
    destruct (nth j vpos None) as [v|]; [|discriminate]. exists v. split; [reflexivity|]. unfold outside in H. apply negb_true_iff, orb_false_iff in H as [A B]. apply ltb_not in A, B. split; assumption.
  - intros H j J. apply in_seq in J. apply orb_true_iff. destruct (PeanoNat.Nat.eq_dec i j) as [E|E]; [left; apply PeanoNat.Nat.eqb_eq; exact E|right].
    destruct (H j ltac:(lia) ltac:(congruence)) as (v & -> & A & B). unfold outside. apply negb_true_iff, orb_false_iff. split; apply ltb_not; assumption.
Qed.

Lemma errorbar_dim_is epsilon vpos vrange i a b : 0 <= epsilon -> a <= b -> (i < length vpos)%nat ->
  end_ (fst (nth i vrange (None, None))) (nth i vpos None) = Some a -> end_ (snd (nth i vrange (None, None))) (nth i vpos None) = Some b ->
  (forall s, In s (errorbar_dim epsilon vpos vrange i) <-> bar_at epsilon vpos vrange i a b /\
    (s = Geodesic (set_nth i vpos (Some (clip epsilon a))) (set_nth i vpos (Some (clip epsilon b))) \/
     exists j, (j < length vpos)%nat /\ j <> i /\
       ((fst (nth i vrange (None, None)) = Some a /\ inside epsilon a /\ s = Cap j (set_nth i vpos (Some a))) \/
        (snd (nth i vrange (None, None)) = Some b /\ inside epsilon b /\ s = Cap j (set_nth i vpos (Some b)))))).
Proof.
  intros EP AB I EA EB s. unfold errorbar_dim, bar_at. rewrite EA, EB. pose proof (others_inside_ok epsilon vpos i) as O. destruct (others_inside epsilon vpos i); cbn [negb].
  2:{ split; [intros []|]. intros [(_ & K & _) _]. apply O in K. discriminate. }
  destruct (nth i vrange (None, None)) as [lo hi]. cbn [fst snd] in *. set (p := nth i vpos None) in *.
  destruct ((is_none lo && is_none p) || (is_none hi && is_none p) || (is_none lo && is_none hi)) eqn:N.
  { split; [intros []|]. intros [(_ & _ & K & _) _]. exfalso. destruct lo, hi, p; cbn in *; try discriminate. destruct K; congruence. }
  assert (K : lo <> None \/ hi <> None) by (destruct lo, hi, p; cbn in *; try discriminate; (left; congruence) || (right; congruence)).
  assert (LE : lower_end epsilon lo p = if ltb (1 + epsilon) a then None else if ltb a (- epsilon) then Some (0, false) else Some (a, negb (is_none lo))).
  { unfold lower_end. destruct lo as [l|]; cbn in EA; [injection EA as ->; reflexivity|]. rewrite EA. reflexivity. }
  assert (UE : upper_end epsilon hi p = if ltb b (- epsilon) then None else if ltb (1 + epsilon) b then Some (1, false) else Some (b, negb (is_none hi))).
  { unfold upper_end. destruct hi as [l|]; cbn in EB; [injection EB as ->; reflexivity|]. rewrite EB. reflexivity. }
  rewrite LE, UE. clear LE UE.
  destruct (ltb (1 + epsilon) a) eqn:L1; [apply ltb_iff in L1; split; [intros []|intros [(_ & _ & _ & _ & _ & Q & _) _]; lra]|apply ltb_not in L1].
  destruct (ltb b (- epsilon)) eqn:L2.
  { apply ltb_iff in L2. destruct (ltb a (- epsilon)); (split; [intros []|intros [(_ & _ & _ & _ & _ & _ & Q) _]; lra]). }
  apply ltb_not in L2.
  assert (CA : exists mc, (if ltb a (- epsilon) then Some (0, false) else Some (a, negb (is_none lo))) = Some (clip epsilon a, mc) /\ (mc = true <-> lo = Some a /\ inside epsilon a)).
  { unfold clip, inside. destruct (ltb a (- epsilon)) eqn:L; [apply ltb_iff in L|apply ltb_not in L]; (destruct (Rlt_dec a (- epsilon)); [|destruct (Rlt_dec (1 + epsilon) a)]); try lra; eexists; (split; [reflexivity|]).
    - split; [discriminate|intros [_ Q]; lra].
    - destruct lo as [l|]; cbn in *; [injection EA as ->; split; [intros _; split; [reflexivity|lra]|reflexivity]|split; [discriminate|intros [Q _]; discriminate]]. }
  assert (CB : exists mc, (if ltb (1 + epsilon) b then Some (1, false) else Some (b, negb (is_none hi))) = Some (clip epsilon b, mc) /\ (mc = true <-> hi = Some b /\ inside epsilon b)).
  { unfold clip, inside. destruct (ltb (1 + epsilon) b) eqn:L; [apply ltb_iff in L|apply ltb_not in L]; (destruct (Rlt_dec b (- epsilon)); [|destruct (Rlt_dec (1 + epsilon) b)]); try lra; eexists; (split; [reflexivity|]).
    - split; [discriminate|intros [_ Q]; lra].
    - destruct hi as [l|]; cbn in *; [injection EB as ->; split; [intros _; split; [reflexivity|lra]|reflexivity]|split; [discriminate|intros [Q _]; discriminate]]. }
  destruct CA as (mc & -> & MC), CB as (xc & -> & XC). cbn [In].
  assert (T : bar_at epsilon vpos vrange i a b \/ True) by (right; exact Logic.I). clear T.
  assert (D : (i < length vpos)%nat /\ (forall j, (j < length vpos)%nat -> j <> i -> exists v, nth j vpos None = Some v /\ inside epsilon v) /\ (lo <> None \/ hi <> None) /\ Some a = Some a /\ Some b = Some b /\ a <= 1 + epsilon /\ - epsilon <= b).
  { refine (conj I (conj _ (conj K (conj eq_refl (conj eq_refl (conj L1 L2)))))). apply O. reflexivity. }
  rewrite in_flat_map. split.
  - intros S. split; [exact D|]. destruct S as [S|(j & J & S)]; [left; congruence|right]. exists j. apply in_seq in J. split; [lia|].
    destruct (PeanoNat.Nat.eqb_spec i j) as [E|E]; [destruct S|]. split; [congruence|]. apply in_app_iff in S as [S|S].
    + destruct mc; [|destruct S]. destruct S as [S|[]]. destruct (proj1 MC eq_refl) as [M1 M2]. left. refine (conj M1 (conj M2 _)). rewrite <- S. unfold clip. destruct M2. destruct (Rlt_dec a (- epsilon)); [lra|]. destruct (Rlt_dec (1 + epsilon) a); [lra|reflexivity].
    + destruct xc; [|destruct S]. destruct S as [S|[]]. destruct (proj1 XC eq_refl) as [M1 M2]. right. refine (conj M1 (conj M2 _)). rewrite <- S. unfold clip. destruct M2. destruct (Rlt_dec b (- epsilon)); [lra|]. destruct (Rlt_dec (1 + epsilon) b); [lra|reflexivity].
  - intros [_ [S|(j & J & NJ & S)]]; [left; congruence|right]. exists j. split; [apply in_seq; lia|]. destruct (PeanoNat.Nat.eqb_spec i j) as [E|E]; [congruence|]. apply in_app_iff.
    destruct S as [(M1 & M2 & S)|(M1 & M2 & S)].
    + left. rewrite (proj2 MC (conj M1 M2)). left. rewrite S. unfold clip. destruct M2. destruct (Rlt_dec a (- epsilon)); [lra|]. destruct (Rlt_dec (1 + epsilon) a); [lra|reflexivity].
    + right. rewrite (proj2 XC (conj M1 M2)). left. rewrite S. unfold clip. destruct M2. destruct (Rlt_dec b (- epsilon)); [lra|]. destruct (Rlt_dec (1 + epsilon) b); [lra|reflexivity].
Qed.

Lemma errorbar_dim_none epsilon vpos vrange i : end_ (fst (nth i vrange (None, None))) (nth i vpos None) = None \/ end_ (snd (nth i vrange (None, None))) (nth i vpos None) = None ->
  errorbar_dim epsilon vpos vrange i = [].
Proof.
  unfold errorbar_dim. destruct (others_inside epsilon vpos i); [cbn [negb]|reflexivity]. destruct (nth i vrange (None, None)) as [[l|] [h|]], (nth i vpos None); cbn; intros [H|H]; try discriminate; reflexivity.
Qed.

(** The bars which are drawn are the parts of the ranges within the graph, for all dimensions where all other coordinates are within the graph;
    ends which are given and within the graph have caps in the direction of all other dimensions, and nothing else is drawn.  The ranges have to begin
    before they end, see errorbar_reversed_refuted. *)
Theorem errorbars_drawn_partial : forall epsilon vpos vrange, 0 <= epsilon ->
  (forall i a b, end_ (fst (nth i vrange (None, None))) (nth i vpos None) = Some a -> end_ (snd (nth i vrange (None, None))) (nth i vpos None) = Some b -> a <= b) ->
  (forall P Q, In (Geodesic P Q) (errorbar_point epsilon vpos vrange) <-> exists i a b, bar_at epsilon vpos vrange i a b /\
     P = set_nth i vpos (Some (clip epsilon a)) /\ Q = set_nth i vpos (Some (clip epsilon b))) /\
  (forall j P, In (Cap j P) (errorbar_point epsilon vpos vrange) <-> exists i a b, bar_at epsilon vpos vrange i a b /\ (j < length vpos)%nat /\ j <> i /\
     ((fst (nth i vrange (None, None)) = Some a /\ inside epsilon a /\ P = set_nth i vpos (Some a)) \/ (snd (nth i vrange (None, None)) = Some b /\ inside epsilon b /\ P = set_nth i vpos (Some b)))).
Proof.
  intros epsilon vpos vrange EP OR.
  assert (S : forall s, In s (errorbar_point epsilon vpos vrange) <-> exists i a b, bar_at epsilon vpos vrange i a b /\
    (s = Geodesic (set_nth i vpos (Some (clip epsilon a))) (set_nth i vpos (Some (clip epsilon b))) \/
     exists j, (j < length vpos)%nat /\ j <> i /\
       ((fst (nth i vrange (None, None)) = Some a /\ inside epsilon a /\ s = Cap j (set_nth i vpos (Some a))) \/
        (snd (nth i vrange (None, None)) = Some b /\ inside epsilon b /\ s = Cap j (set_nth i vpos (Some b)))))).
  { intros s. unfold errorbar_point. rewrite in_flat_map. split.
    - intros (i & I & S). apply in_seq in I.
      destruct (end_ (fst (nth i vrange (None, None))) (nth i vpos None)) as [a|] eqn:EA; [|rewrite errorbar_dim_none in S by (left; exact EA); destruct S].
      destruct (end_ (snd (nth i vrange (None, None))) (nth i vpos None)) as [b|] eqn:EB; [|rewrite errorbar_dim_none in S by (right; exact EB); destruct S].
      exists i, a, b. apply (errorbar_dim_is epsilon vpos vrange i a b EP (OR i a b EA EB) ltac:(lia) EA EB s). exact S.
    - intros (i & a & b & B & S). exists i. pose proof B as (I & _ & _ & EA & EB & _). split; [apply in_seq; lia|].
      apply (errorbar_dim_is epsilon vpos vrange i a b EP (OR i a b EA EB) I EA EB s). split; assumption. }
  split; [intros P Q|intros j P]; rewrite S; split.
  - intros (i & a & b & B & [E|(j & _ & _ & [(_ & _ & E)|(_ & _ & E)])]); try discriminate. exists i, a, b. injection E as -> ->. auto.
  - intros (i & a & b & B & -> & ->). exists i, a, b. auto.
  - intros (i & a & b & B & [E|(j' & J & NJ & [(H1 & H2 & E)|(H1 & H2 & E)])]); try discriminate; injection E as -> ->; exists i, a, b; auto 9.
  - intros (i & a & b & B & J & NJ & [(H1 & H2 & ->)|(H1 & H2 & ->)]); exists i, a, b; (split; [exact B|right; exists j; auto 9]).
Qed.
Print Assumptions errorbars_drawn_partial.

(** A bar covers exactly the visible part of the range and does not leave the graph. *)
Theorem errorbar_visible : forall epsilon a b, 0 <= epsilon -> a <= b -> a <= 1 + epsilon -> - epsilon <= b ->
  inside epsilon (clip epsilon a) /\ inside epsilon (clip epsilon b) /\ forall v, 0 <= v <= 1 -> (clip epsilon a <= v <= clip epsilon b <-> a <= v <= b).
Proof.
  intros epsilon a b EP AB A B. unfold inside, clip. destruct (Rlt_dec a (- epsilon)), (Rlt_dec (1 + epsilon) a), (Rlt_dec b (- epsilon)), (Rlt_dec (1 + epsilon) b); repeat split; intros; lra.
Qed.
Print Assumptions errorbar_visible.

(** y 0.9 with an error of 0.2, so that the bar is cut at 1 and has only the lower cap; the range of the first dimension is not given *)
Example errorbars_drawn_ex : errorbar_point 0.01 [Some 0.5; Some 0.9] [(None, None); (Some 0.7, Some 1.1)] =
  [Geodesic [Some 0.5; Some 0.7] [Some 0.5; Some 1]; Cap 0 [Some 0.5; Some 0.7]].
Proof.
  unfold errorbar_point. cbn [length seq flat_map errorbar_dim nth others_inside forallb Nat.eqb is_none orb andb app set_nth lower_end upper_end]. unfold errorbar_dim, others_inside, outside, lower_end, upper_end. cbn [length seq nth forallb Nat.eqb orb is_none].
  lt; try lra. cbn. lt; try lra. reflexivity.
Qed.

(** On reversed axes the lower value is at the higher position; when it is outside of the graph nothing is drawn although a part of the range is visible. *)
Theorem errorbar_reversed_refuted : exists epsilon vpos vrange, 0 < epsilon /\ nth 1 vrange (None, None) = (Some 1.5, Some 0.5) /\ vpos = [Some 0.5; Some 0.8] /\
  errorbar_point epsilon vpos vrange = [].
Proof.
  exists 0.01, [Some 0.5; Some 0.8], [(None, None); (Some 1.5, Some 0.5)]. split; [lra|]. split; [reflexivity|]. split; [reflexivity|].
  unfold errorbar_point. cbn [length seq flat_map]. unfold errorbar_dim, others_inside, outside, lower_end, upper_end. cbn [length seq nth forallb Nat.eqb orb andb is_none]. lt; try lra; cbn; reflexivity.
Qed.
Print Assumptions errorbar_reversed_refuted.

(** ** Rectangles *)
(** the closed outline of a rectangle *)
Definition outline (x0 x1 y0 y1 : R) : list (R * R) := [(x0, y0); (x1, y0); (x1, y1); (x0, y1); (x0, y0)].
Definition beyond_both (a b : R) : Prop := a < 0 /\ 1 < b.

(** The rectangle is cut at the graph and left out when nothing of it is within the graph.  Missing: rectangles which are larger than the graph, see
    rect_leaves_graph_refuted. *)
Theorem rect_clipped_partial : forall x0 x1 y0 y1, x0 <= x1 -> y0 <= y1 -> ~ beyond_both x0 x1 -> ~ beyond_both y0 y1 ->
  rect_point (Some x0, Some x1) (Some y0, Some y1) = (if Rlt_dec x0 1 then if Rlt_dec 0 x1 then if Rlt_dec y0 1 then if Rlt_dec 0 y1 then
    Some (outline (Rmax 0 x0) (Rmin x1 1) (Rmax 0 y0) (Rmin y1 1)) else None else None else None else None).
Proof.
  intros x0 x1 y0 y1 X Y BX BY. unfold beyond_both in *. unfold rect_point, ltb, outline, Rmax, Rmin.
  destruct (Rlt_dec x0 1), (Rlt_dec 0 x1), (Rlt_dec y0 1), (Rlt_dec 0 y1); cbn [andb]; try reflexivity.
  destruct (Rle_dec 0 x0), (Rle_dec x1 1), (Rle_dec 0 y0), (Rle_dec y1 1); try (exfalso; lra);
  repeat match goal with |- context [Rlt_dec ?a ?b] => destruct (Rlt_dec a b); try (exfalso; lra) end; reflexivity.
Qed.
Print Assumptions rect_clipped_partial.
Example rect_clipped_ex : rect_point (Some (-1), Some 0.5) (Some 0.25, Some 3) = Some (outline 0 0.5 0.25 1).
Proof.
  unfold rect_point. lt; try lra. reflexivity.
Qed.
(** A rectangle which exceeds the graph at both sides is only cut at the lower one. *)
Theorem rect_leaves_graph_refuted : exists x0 x1 y0 y1 p, x0 <= x1 /\ y0 <= y1 /\ rect_point (Some x0, Some x1) (Some y0, Some y1) = Some p /\ exists x y, In (x, y) p /\ 1 < x.
Proof.
  exists (-1), 2, 0.25, 0.75, (outline 0 2 0.25 0.75). split; [lra|]. split; [lra|]. split.
  - unfold rect_point. lt; try lra. reflexivity.
  - exists 2, 0.25. split; [right; left; reflexivity|lra].
Qed.
Print Assumptions rect_leaves_graph_refuted.

(** ** Arrows *)
Definition dist (p q : R * R) : R := sqrt ((fst q - fst p) * (fst q - fst p) + (snd q - snd p) * (snd q - snd p)).

(** The line has the length linelength times size and the direction angle (in degrees), and the point of the data divides it at arrowpos. *)
Theorem arrow_drawn : forall epsilon arrowpos len x y angle size, 0 <= epsilon -> 0 <= len ->
  (size <= epsilon -> arrow_line epsilon arrowpos len x y angle size = None) /\
  (epsilon < size -> exists p q, arrow_line epsilon arrowpos len x y angle size = Some (p, q) /\ dist p q = len * size /\
    fst q - fst p = len * size * cos (angle * PI / 180) /\ snd q - snd p = len * size * sin (angle * PI / 180) /\
    x = (1 - arrowpos) * fst p + arrowpos * fst q /\ y = (1 - arrowpos) * snd p + arrowpos * snd q).
Proof.
  intros epsilon arrowpos len x y angle size EP LEN. unfold arrow_line. split; intros S.
  - lt; [lra|reflexivity].
  - lt; [|lra]. do 2 eexists. split; [reflexivity|]. unfold dist. cbn [fst snd]. split; [|repeat split; ring].
    transitivity (sqrt ((len * size) * (len * size))); [|apply sqrt_square; apply Rmult_le_pos; lra]. f_equal.
    pose proof (sin2_cos2 (angle * PI / 180)) as T. unfold Rsqr in T. set (c := cos (angle * PI / 180)) in *. set (s := sin (angle * PI / 180)) in *.
    transitivity ((len * size) * (len * size) * (s * s + c * c)); [ring|rewrite T; ring].
Qed.
Print Assumptions arrow_drawn.
Example arrow_drawn_ex : arrow_line 0.01 0.5 10 3 4 0 2 = Some ((-7, 4), (13, 4)).
Proof.
  unfold arrow_line. lt; [|lra]. replace (0 * PI / 180) with 0 by field. rewrite cos_0, sin_0. repeat f_equal; lra.
Qed.

(** ** Impulses *)
Lemma set_nth_length {A} (l : list A) : forall n x, length (set_nth n l x) = length l.
Proof. induction l as [|y l IH]; intros [|n] x; cbn; try reflexivity. rewrite IH. reflexivity. Qed.
Lemma set_nth_nth {A} (d : A) (l : list A) : forall n x i, nth i (set_nth n l x) d = if Nat.eqb i n then if Nat.ltb n (length l) then x else d else nth i l d.
Proof.
  induction l as [|y l IH]; intros n x i.
  - destruct n, i; cbn; try reflexivity. destruct (Nat.eqb i n); reflexivity.
  - destruct n, i; cbn; try reflexivity. rewrite IH. reflexivity.
Qed.

(** Impulses are drawn at the points within the graph; they go along the value axis from the position of fromvalue, or the boundary of the graph when it is not
    within the graph, to the point, and stay in the graph. *)
Theorem impulses_drawn : forall epsilon k vfrom vpos, 0 <= epsilon ->
  ((forall i, (i < length vpos)%nat -> inside epsilon (nth i vpos 0)) -> exists start, impulse_point epsilon k vfrom vpos = Some (start, vpos) /\ length start = length vpos /\
    (forall i, i <> k -> nth i start 0 = nth i vpos 0) /\
    (forall v, (k < length vpos)%nat -> vfrom = Some v -> nth k start 0 = Rmax 0 (Rmin 1 v)) /\ (vfrom = None -> (k < length vpos)%nat -> nth k start 0 = 0) /\
    (forall i, (i < length vpos)%nat -> inside epsilon (nth i start 0))) /\
  ((exists i, (i < length vpos)%nat /\ ~ inside epsilon (nth i vpos 0)) -> impulse_point epsilon k vfrom vpos = None).
Proof.
  intros epsilon k vfrom vpos EP. unfold impulse_point, valid.
  assert (V : forallb (fun c => negb (ltb c (- epsilon) || ltb (1 + epsilon) c)) vpos = true <-> forall i, (i < length vpos)%nat -> inside epsilon (nth i vpos 0)).
  { rewrite forallb_forall. unfold inside. split.
    - intros H i I. specialize (H _ (nth_In vpos 0 I)). apply negb_true_iff, orb_false_iff in H as [A B]. apply ltb_not in A, B. lra.
    - intros H c I. apply (In_nth _ _ 0) in I as (i & I & <-). apply negb_true_iff, orb_false_iff. specialize (H i I). split; apply ltb_not; lra. }
  split.
  - intros H. rewrite (proj2 V H). exists (set_nth k vpos (impulse_from vfrom)). split; [reflexivity|]. split; [apply set_nth_length|].
    assert (F : 0 <= impulse_from vfrom <= 1) by (unfold impulse_from; destruct vfrom; lt; lra).
    split; [|split; [|split]].
    + intros i N. rewrite set_nth_nth. destruct (PeanoNat.Nat.eqb_spec i k); [contradiction|reflexivity].
    + intros v K ->. rewrite set_nth_nth, PeanoNat.Nat.eqb_refl, (proj2 (PeanoNat.Nat.ltb_lt _ _) K). unfold impulse_from, Rmax, Rmin. destruct (Rle_dec 1 v), (Rle_dec 0 1); lt; try lra; destruct (Rle_dec 0 v); lra.
    + intros -> K. rewrite set_nth_nth, PeanoNat.Nat.eqb_refl, (proj2 (PeanoNat.Nat.ltb_lt _ _) K). reflexivity.
    + intros i I. rewrite set_nth_nth. destruct (Nat.eqb i k) eqn:E; [|apply H; exact I]. apply PeanoNat.Nat.eqb_eq in E. subst i. rewrite (proj2 (PeanoNat.Nat.ltb_lt _ _) I). unfold inside. lra.
  - intros (i & I & N). destruct (forallb _ vpos); [|reflexivity]. exfalso. apply N. apply V; [reflexivity|exact I].
Qed.
Print Assumptions impulses_drawn.
Example impulses_drawn_ex : impulse_point 0.01 1 (Some (-2)) [0.3; 0.7] = Some ([0.3; 0], [0.3; 0.7]).
Proof.
  unfold impulse_point, valid, impulse_from. cbn [forallb set_nth]. lt; try lra; cbn [negb orb andb]; try reflexivity; lra.
Qed.
