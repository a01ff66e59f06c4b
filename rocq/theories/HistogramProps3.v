(** * Histograms (C115): rectangles for filling and automatic ranges *)

From Coq Require Import Reals Bool List Lra Lia Psatz.
From Verif Require Import GraphLineModel PointStyleProps HistogramModel HistogramProps HistogramProps2.
Import ListNotations.
Open Scope R_scope.

(** the corners of a closed path around a rectangle, beginning at any of them *)
Definition rect_corners (x0 x1 y0 y1 : R) (l : list point) : Prop :=
  let c := [(x0, y0); (x1, y0); (x1, y1); (x0, y1)] in exists k, l = skipn k c ++ firstn k c.
(** the path goes along the corners, with or without the line back to the first one *)
Definition goes_along (items : list hitem) (l : list point) (closed : bool) : Prop :=
  match l with
  | [a; b; c; d] => items = [HMove a; HEl a b; HEl b c; HEl c d] ++ (if closed then [HEl d a; HClose] else [])
  | _ => False
  end.
(** a value within the graph, or the boundary next to it *)
Definition into (v : R) : R := Rmax 0 (Rmin 1 v).
Definition same_outside (epsilon a b : R) : Prop := (a < - epsilon /\ b < - epsilon) \/ (1 + epsilon < a /\ 1 + epsilon < b).
Definition is_out (v : R) : Prop := v < 0 \/ 1 < v.
(** the four sides of a bar with its base *)
Definition rect_sides (from vmin vmax v : R) (z : point) : Prop := vertical vmin from v z \/ vertical vmax from v z \/ horizontal v vmin vmax z \/ horizontal from vmin vmax z.

Lemma cutat_clear epsilon v : 0 < epsilon -> clear_ epsilon v ->
  cutat (- epsilon) (1 + epsilon) v = (into v, if Rlt_dec v 0 then Below else if Rlt_dec 1 v then Above else None_).
Proof.
  intros EP C. unfold clear_ in C. unfold cutat, into, Rmax, Rmin. lt; destruct (Rlt_dec v 0), (Rlt_dec 1 v); try lra; destruct (Rle_dec 1 v); try lra; try (destruct (Rle_dec 0 v); try lra); try (destruct (Rle_dec 0 1); try lra); f_equal; lra.
Qed.
Lemma cutat_from v : cutat 0 1 v = (into v, if Rlt_dec v 0 then Below else if Rlt_dec 1 v then Above else None_).
Proof.
  unfold cutat, into, Rmax, Rmin. lt; destruct (Rlt_dec v 0), (Rlt_dec 1 v); try lra; destruct (Rle_dec 1 v); try lra; try (destruct (Rle_dec 0 v); try lra); try (destruct (Rle_dec 0 1); try lra); f_equal; lra.
Qed.
Lemma into_in v : 0 <= v <= 1 -> into v = v. Proof. intros. unfold into, Rmax, Rmin. destruct (Rle_dec 1 v); destruct (Rle_dec 0 _); lra. Qed.

Definition number_out (from vmin vmax v : R) : nat :=
  let o x := if Rlt_dec x 0 then 1%nat else if Rlt_dec 1 x then 1%nat else 0%nat in (o vmin + o vmax + o v + o from)%nat.

(** Filled bars without steps: nothing is drawn for bars outside of the graph; otherwise the path goes around the part of the bar within the graph.  When at most one
    side is outside of the graph, the lines are just the visible parts of the sides of the bar (there is no line along the boundary of the graph). *)
Theorem filled_bars : forall epsilon from vmin vmax v, 0 < epsilon -> clear_ epsilon from -> clear_ epsilon vmin -> clear_ epsilon vmax -> clear_ epsilon v ->
  let items := histogram_path epsilon true false (Some from) [Some (vmin, vmax, v)] in
  ((same_outside epsilon vmin vmax \/ same_outside epsilon v from) -> items = []) /\
  (~ same_outside epsilon vmin vmax -> ~ same_outside epsilon v from -> exists l closed, rect_corners (into vmin) (into vmax) (into from) (into v) l /\ goes_along items l closed) /\
  ((number_out from vmin vmax v <= 1)%nat -> forall z, drawn items z <-> rect_sides from vmin vmax v z /\ in_graph z).
Proof.
  intros epsilon from vmin vmax v EP CF C0 C1 CV. cbv zeta. unfold histogram_path, hist_from. rewrite cutat_from. cbn [andb negb flat_map]. rewrite app_nil_r.
  unfold fillrect. rewrite (cutat_clear epsilon vmin EP C0), (cutat_clear epsilon vmax EP C1), (cutat_clear epsilon v EP CV).
  unfold clear_ in *. unfold same_outside, number_out.
  assert (RC : forall k x0 x1 y0 y1, rect_corners x0 x1 y0 y1 (skipn k [(x0, y0); (x1, y0); (x1, y1); (x0, y1)] ++ firstn k [(x0, y0); (x1, y0); (x1, y1); (x0, y1)])) by (intros; exists k; reflexivity).
  split; [|split].
  - intros S. destruct (Rlt_dec vmin 0), (Rlt_dec 1 vmin), (Rlt_dec vmax 0), (Rlt_dec 1 vmax), (Rlt_dec v 0), (Rlt_dec 1 v), (Rlt_dec from 0), (Rlt_dec 1 from); try (exfalso; lra); reflexivity.
  - intros S1 S2.
    destruct (Rlt_dec vmin 0), (Rlt_dec 1 vmin), (Rlt_dec vmax 0), (Rlt_dec 1 vmax), (Rlt_dec v 0), (Rlt_dec 1 v), (Rlt_dec from 0), (Rlt_dec 1 from); try (exfalso; lra); cbn [iscut sum_cuts Nat.b2n Nat.add Nat.ltb Nat.leb notsame negb orb];
    first [exists (skipn 0 [(into vmin, into from); (into vmax, into from); (into vmax, into v); (into vmin, into v)] ++ firstn 0 [(into vmin, into from); (into vmax, into from); (into vmax, into v); (into vmin, into v)]), true; split; [apply RC|reflexivity]
      | exists (skipn 0 [(into vmin, into from); (into vmax, into from); (into vmax, into v); (into vmin, into v)] ++ firstn 0 [(into vmin, into from); (into vmax, into from); (into vmax, into v); (into vmin, into v)]), false; split; [apply RC|reflexivity]
      | exists (skipn 1 [(into vmin, into from); (into vmax, into from); (into vmax, into v); (into vmin, into v)] ++ firstn 1 [(into vmin, into from); (into vmax, into from); (into vmax, into v); (into vmin, into v)]), false; split; [apply RC|reflexivity]
      | exists (skipn 2 [(into vmin, into from); (into vmax, into from); (into vmax, into v); (into vmin, into v)] ++ firstn 2 [(into vmin, into from); (into vmax, into from); (into vmax, into v); (into vmin, into v)]), false; split; [apply RC|reflexivity]
      | exists (skipn 3 [(into vmin, into from); (into vmax, into from); (into vmax, into v); (into vmin, into v)] ++ firstn 3 [(into vmin, into from); (into vmax, into from); (into vmax, into v); (into vmin, into v)]), false; split; [apply RC|reflexivity]].
  - intros N z.
    assert (IB : forall x, x < 0 -> into x = 0) by (intros; unfold into, Rmax, Rmin; destruct (Rle_dec 1 x); try lra; destruct (Rle_dec 0 x); lra).
    assert (IA : forall x, 1 < x -> into x = 1) by (intros; unfold into, Rmax, Rmin; destruct (Rle_dec 1 x); try lra; destruct (Rle_dec 0 1); lra).
    pose proof (drawn_nil z) as DN.
    assert (DC : ~ drawn [HClose] z) by (intros (p & q & [I|[]] & _); discriminate).
    destruct (Rlt_dec vmin 0), (Rlt_dec 1 vmin), (Rlt_dec vmax 0), (Rlt_dec 1 vmax), (Rlt_dec v 0), (Rlt_dec 1 v), (Rlt_dec from 0), (Rlt_dec 1 from); try (exfalso; lra); cbn [Nat.add] in N; try (exfalso; lia); clear N;
      cbn [iscut sum_cuts Nat.b2n Nat.add Nat.ltb Nat.leb notsame negb orb];
      rewrite ?(into_in vmin), ?(into_in vmax), ?(into_in v), ?(into_in from) by lra; rewrite ?(IB vmin), ?(IB vmax), ?(IB v), ?(IB from), ?(IA vmin), ?(IA vmax), ?(IA v), ?(IA from) by lra;
      rewrite drawn_move, !drawn_el, ?on_vertical, ?on_horizontal; unfold rect_sides, vertical, horizontal, in_graph, between; destruct z as [x y]; cbn [fst snd];
      (split; [intros [H|[H|[H|H]]]; try contradiction; try (destruct H as [H|H]; try contradiction); lra|intros [[H|[H|[H|H]]] G]; try (exfalso; lra)]);
      try (left; lra); try (right; left; lra); try (right; right; left; lra); right; right; right; left; lra.
Qed.
Print Assumptions filled_bars.
Example filled_bars_ex : histogram_path 0.01 true false (Some 0) [Some (0.25, 0.5, 2); Some (0.5, 0.75, 0.5)] =
  [HMove (0.25, 1); HEl (0.25, 1) (0.25, 0); HEl (0.25, 0) (0.5, 0); HEl (0.5, 0) (0.5, 1);
   HMove (0.5, 0); HEl (0.5, 0) (0.75, 0); HEl (0.75, 0) (0.75, 0.5); HEl (0.75, 0.5) (0.5, 0.5); HEl (0.5, 0.5) (0.5, 0); HClose].
Proof.
  unfold histogram_path, hist_from, cutat. lc. cbn [andb negb flat_map]. unfold fillrect, cutat. lc. cbn. reflexivity.
Qed.

(** ** Automatic ranges *)
(** The steps between the positions have to be the same up to the tolerance; then each bar has the width of the first step, its position divides it at
    autohistogrampointpos, and there are no gaps between the bars.  Otherwise the data is refused. *)
Theorem auto_histogram : forall epsilon pointpos p q rest, 0 <= epsilon ->
  let points := p :: q :: rest in let w := fst q - fst p in
  let even := forall i a b, nth_error points i = Some a -> nth_error points (S i) = Some b -> Rabs (w - (fst b - fst a)) <= epsilon in
  (even -> exists bars, auto_bars epsilon pointpos points = Some bars /\ length bars = length points /\
    forall i a, nth_error points i = Some a ->
      nth_error bars i = Some (match snd a with Some v => Some (fst a - pointpos * w, fst a - pointpos * w + w, v) | None => None end) /\
      forall b, nth_error points (S i) = Some b -> Rabs ((fst b - pointpos * w) - (fst a - pointpos * w + w)) <= epsilon) /\
  (~ even -> auto_bars epsilon pointpos points = None).
Proof.
  intros epsilon pointpos p q rest EP. cbv zeta. set (w := fst q - fst p).
  assert (AB : forall a, auto_bar pointpos w a = match snd a with Some v => Some (fst a - pointpos * w, fst a - pointpos * w + w, v) | None => None end).
  { intros [x [v|]]; cbn; [|reflexivity]. do 3 f_equal. ring. }
  assert (AR : forall r last, (exists l, auto_rest epsilon pointpos w (fst last) r = Some l /\ l = map (auto_bar pointpos w) r /\ (forall i a b, nth_error (last :: r) i = Some a -> nth_error r i = Some b -> Rabs (w - (fst b - fst a)) <= epsilon)) \/
    (auto_rest epsilon pointpos w (fst last) r = None /\ ~ (forall i a b, nth_error (last :: r) i = Some a -> nth_error r i = Some b -> Rabs (w - (fst b - fst a)) <= epsilon))).
  { induction r as [|b r IH]; intros la; cbn [auto_rest].
    - left. exists []. split; [reflexivity|]. split; [reflexivity|]. intros i a b _ N. destruct i; discriminate.
    - destruct (ltb epsilon (Rabs (w - (fst b - fst la)))) eqn:L.
      + apply ltb_iff in L. right. split; [reflexivity|]. intros H. specialize (H 0%nat la b eq_refl eq_refl). lra.
      + apply ltb_not in L. destruct (IH b) as [(l & -> & -> & E)|[-> E]].
        * left. eexists. split; [reflexivity|]. split; [reflexivity|]. intros [|i] a c NA NC; cbn in NA, NC; [injection NA as <-; injection NC as <-; exact L|exact (E i a c NA NC)].
        * right. split; [reflexivity|]. intros H. apply E. intros i a c NA NC. exact (H (S i) a c NA NC). }
  assert (SH : (forall i a b, nth_error (p :: q :: rest) i = Some a -> nth_error (p :: q :: rest) (S i) = Some b -> Rabs (w - (fst b - fst a)) <= epsilon) <->
    (forall i a b, nth_error (q :: rest) i = Some a -> nth_error rest i = Some b -> Rabs (w - (fst b - fst a)) <= epsilon)).
  { split.
    - intros H i a b NA NB. exact (H (S i) a b NA NB).
    - intros H [|i] a b NA NB; [cbn in NA, NB; injection NA as <-; injection NB as <-; unfold w; replace (fst q - fst p - (fst q - fst p)) with 0 by ring; rewrite Rabs_R0; exact EP|exact (H i a b NA NB)]. }
  unfold auto_bars. fold w. split.
  - intros EV. destruct (AR rest q) as [(l & -> & -> & E)|[_ E]]; [|exfalso; apply E; apply SH; exact EV].
    exists (map (auto_bar pointpos w) (p :: q :: rest)). split; [reflexivity|]. split; [apply map_length|]. intros i a NA. split.
    + rewrite nth_error_map, NA. cbn [option_map]. rewrite AB. reflexivity.
    + intros b NB. replace (fst b - pointpos * w - (fst a - pointpos * w + w)) with (- (w - (fst b - fst a))) by ring. rewrite Rabs_Ropp. exact (EV i a b NA NB).
  - intros EV. destruct (AR rest q) as [(l & _ & _ & E)|[-> _]]; [|reflexivity]. exfalso. apply EV. apply SH. exact E.
Qed.
Print Assumptions auto_histogram.
Example auto_histogram_ex : auto_bars 0.01 0.5 [(0.25, Some 0.5); (0.5, None); (0.75, Some 1)] = Some [Some (0.125, 0.375, 0.5); None; Some (0.625, 0.875, 1)].
Proof.
  unfold auto_bars, auto_rest, auto_bar. cbn [fst]. replace (0.5 - 0.25 - (0.75 - 0.5)) with 0 by lra. rewrite Rabs_R0. lc. repeat f_equal; lra.
Qed.
