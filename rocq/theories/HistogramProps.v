(** * Histograms (C115): what is drawn is the visible part of the bars or steps *)

From Coq Require Import Reals Bool List Lra Lia Psatz.
From Verif Require Import GraphLineModel PointStyleProps HistogramModel.
Import ListNotations.
Open Scope R_scope.

(** ** The points on a path and the points of the histogram *)
Definition on_line (p q z : point) : Prop := exists t, 0 <= t <= 1 /\ fst z = fst p + t * (fst q - fst p) /\ snd z = snd p + t * (snd q - snd p).
(** the points on the lines of a path *)
Definition drawn (items : list hitem) (z : point) : Prop := exists p q, In (HEl p q) items /\ on_line p q z.
Definition between (a b v : R) : Prop := a <= v <= b \/ b <= v <= a.
Definition in_graph (z : point) : Prop := 0 <= fst z <= 1 /\ 0 <= snd z <= 1.
(** a vertical line at a position and a horizontal line at a value *)
Definition vertical (pos v1 v2 : R) (z : point) : Prop := fst z = pos /\ between v1 v2 (snd z).
Definition horizontal (v pos1 pos2 : R) (z : point) : Prop := snd z = v /\ between pos1 pos2 (fst z).
(** coordinates are in the graph or outside of the tolerance *)
Definition clear_ (epsilon v : R) : Prop := v < - epsilon \/ 0 <= v <= 1 \/ 1 + epsilon < v.
Definition clear_bar (epsilon : R) (b : option (R * R * R)) : Prop := match b with Some (vmin, vmax, v) => clear_ epsilon vmin /\ clear_ epsilon vmax /\ clear_ epsilon v | None => True end.
(** neighbouring bars have the same boundary or a gap larger than the tolerance *)
Fixpoint joined (epsilon : R) (before : option R) (bars : list (option (R * R * R))) : Prop :=
  match bars with
  | [] => True
  | None :: r => joined epsilon None r
  | Some (vmin, vmax, v) :: r => match before with Some e => vmin = e \/ epsilon < Rabs (vmin - e) | None => True end /\ joined epsilon (Some vmax) r
  end.

(** ** Lines *)
Lemma between_t a b v : between a b v <-> exists t, 0 <= t <= 1 /\ v = a + t * (b - a).
Proof.
  unfold between. split.
  - intros H. destruct (Req_dec a b) as [->|N]; [exists 0; split; lra|]. exists ((v - a) / (b - a)). split; [|field; lra].
    destruct H as [H|H].
    + split; [apply Rmult_le_pos; [lra|apply Rlt_le, Rinv_0_lt_compat; lra]|]. apply (Rmult_le_reg_r (b - a)); [lra|]. unfold Rdiv. rewrite Rmult_assoc, Rinv_l by lra. lra.
    + replace ((v - a) / (b - a)) with ((a - v) / (a - b)) by (field; lra). split; [apply Rmult_le_pos; [lra|apply Rlt_le, Rinv_0_lt_compat; lra]|]. apply (Rmult_le_reg_r (a - b)); [lra|]. unfold Rdiv. rewrite Rmult_assoc, Rinv_l by lra. lra.
  - intros (t & T & ->). destruct (Rle_dec a b); [left|right]; nra.
Qed.
Lemma on_vertical pos v1 v2 z : on_line (pos, v1) (pos, v2) z <-> vertical pos v1 v2 z.
Proof.
  unfold on_line, vertical. cbn [fst snd]. rewrite between_t. split.
  - intros (t & T & A & B). split; [lra|]. exists t. auto.
  - intros (A & t & T & B). exists t. split; [exact T|]. split; [lra|exact B].
Qed.
Lemma on_horizontal v p1 p2 z : on_line (p1, v) (p2, v) z <-> horizontal v p1 p2 z.
Proof.
  unfold on_line, horizontal. cbn [fst snd]. rewrite between_t. split.
  - intros (t & T & A & B). split; [lra|]. exists t. auto.
  - intros (A & t & T & B). exists t. split; [exact T|]. split; [exact B|lra].
Qed.
Lemma drawn_app a b z : drawn (a ++ b) z <-> drawn a z \/ drawn b z.
Proof.
  unfold drawn. split.
  - intros (p & q & I & O). apply in_app_iff in I as [I|I]; [left|right]; exists p, q; auto.
  - intros [(p & q & I & O)|(p & q & I & O)]; exists p, q; (split; [apply in_app_iff; auto|exact O]).
Qed.
Lemma drawn_nil z : ~ drawn [] z. Proof. intros (p & q & [] & _). Qed.
Lemma drawn_move p r z : drawn (HMove p :: r) z <-> drawn r z.
Proof. unfold drawn. split; [intros (a & b & [I|I] & O); [discriminate|exists a, b; auto]|intros (a & b & I & O); exists a, b; split; [right; exact I|exact O]]. Qed.
Lemma drawn_el p q r z : drawn (HEl p q :: r) z <-> on_line p q z \/ drawn r z.
Proof.
  unfold drawn. split; [intros (a & b & [I|I] & O); [injection I as -> ->; left; exact O|right; exists a, b; auto]|].
  intros [O|(a & b & I & O)]; [exists p, q; split; [left; reflexivity|exact O]|exists a, b; split; [right; exact I|exact O]].
Qed.

Section Sets.
Variable epsilon : R.
Hypothesis EP : 0 < epsilon.

Lemma near_iff v : near epsilon v = true <-> - epsilon < v < 1 + epsilon.
Proof. unfold near. rewrite andb_true_iff, !ltb_iff. reflexivity. Qed.
Lemma near_clear v : clear_ epsilon v -> (near epsilon v = true <-> 0 <= v <= 1).
Proof. intros C. rewrite near_iff. unfold clear_ in C. split; intros; lra. Qed.

Lemma vmoveto_set p v z : ~ drawn (vmoveto epsilon p v) z.
Proof. unfold vmoveto. destruct (near epsilon p && near epsilon v); [rewrite drawn_move|]; apply drawn_nil. Qed.

Lemma cut_between v1 v2 : let '(w1, c1) := cutat 0 1 v1 in let '(w2, c2) := cutat 0 1 v2 in
  (notsame c1 c2 = true -> forall y, between w1 w2 y <-> between v1 v2 y /\ 0 <= y <= 1) /\ (notsame c1 c2 = false -> forall y, ~ (between v1 v2 y /\ 0 <= y <= 1)).
Proof.
  unfold cutat, between. lt; cbn [notsame]; (split; intros N y; [try discriminate N; lra|try discriminate N; lra]).
Qed.
Lemma vposline_set fillable pos v1 v2 z : clear_ epsilon pos -> drawn (vposline epsilon fillable pos v1 v2) z <-> vertical pos v1 v2 z /\ in_graph z.
Proof.
  intros C. unfold vposline. pose proof (near_clear pos C) as N. destruct (near epsilon pos).
  - destruct (proj1 N eq_refl) as [N1 N2]. pose proof (cut_between v1 v2) as CB. destruct (cutat 0 1 v1) as [w1 c1], (cutat 0 1 v2) as [w2 c2]. destruct CB as [CB1 CB2]. destruct (notsame c1 c2).
    + rewrite drawn_app, drawn_el, on_vertical. assert (M : ~ drawn (if iscut c1 && negb fillable then [HMove (pos, w1)] else []) z) by (destruct (iscut c1 && negb fillable); [rewrite drawn_move|]; apply drawn_nil).
      pose proof (drawn_nil z) as DN. unfold vertical, in_graph. pose proof (CB1 eq_refl (snd z)) as B. rewrite B. split; [intros [X|[X|X]]; try contradiction; destruct X as (-> & X & Y); auto|]. intros ((-> & X) & _ & Y). right. left. auto.
    + split; [intros D; destruct (drawn_nil z D)|]. intros ((_ & B) & _ & Y). destruct (CB2 eq_refl (snd z)). auto.
  - split; [intros D; destruct (drawn_nil z D)|]. intros ((E & B) & X & Y). rewrite E in X. apply N in X. discriminate.
Qed.
Lemma vvalueline_set from v p1 p2 z : clear_ epsilon v -> drawn (vvalueline epsilon false from v p1 p2) z <-> horizontal v p1 p2 z /\ in_graph z.
Proof.
  intros C. unfold vvalueline. cbn [orb andb]. pose proof (near_clear v C) as N. destruct (near epsilon v).
  - destruct (proj1 N eq_refl) as [N1 N2]. pose proof (cut_between p1 p2) as CB. destruct (cutat 0 1 p1) as [w1 c1], (cutat 0 1 p2) as [w2 c2]. destruct CB as [CB1 CB2]. destruct (notsame c1 c2).
    + rewrite drawn_app. cbn [app]. rewrite drawn_el, on_horizontal. assert (M : ~ drawn (if iscut c1 then [HMove (w1, v)] else []) z) by (destruct (iscut c1); [rewrite drawn_move|]; apply drawn_nil).
      pose proof (drawn_nil z) as DN. unfold horizontal, in_graph. pose proof (CB1 eq_refl (fst z)) as B. rewrite B. split; [intros [X|[X|X]]; try contradiction; destruct X as (-> & X & Y); auto|]. intros ((-> & X) & Y & _). right. left. auto.
    + split; [intros D; destruct (drawn_nil z D)|]. intros ((_ & B) & Y & _). destruct (CB2 eq_refl (fst z)). auto.
  - split; [intros D; destruct (drawn_nil z D)|]. intros ((E & B) & X & Y). rewrite E in Y. apply N in Y. discriminate.
Qed.

(** ** Bars *)
(** the left and right side and the end of a bar *)
Definition bar_sides (base : R) (b : option (R * R * R)) (z : point) : Prop :=
  match b with Some (vmin, vmax, v) => vertical vmin base v z \/ vertical vmax base v z \/ horizontal v vmin vmax z | None => False end.
Definition owed (base : R) (s : last) (z : point) : Prop := match s with Some (vmax, v) => vertical vmax base v z | None => False end.

Lemma between_sym a b v : between a b v <-> between b a v. Proof. unfold between. tauto. Qed.
Lemma vertical_sym p a b z : vertical p a b z <-> vertical p b a z. Proof. unfold vertical. rewrite (between_sym a b). reflexivity. Qed.
Lemma opposite_sides base a b y : (a - base) * (b - base) < 0 -> (between a b y <-> between base a y \/ between base b y).
Proof.
  intros H. unfold between. assert (K : (a < base < b) \/ (b < base < a)).
  { destruct (Rlt_dec a base), (Rlt_dec b base); try nra; destruct (Rlt_dec base b), (Rlt_dec base a); try nra; auto. }
  destruct K; split; intros; lra.
Qed.
Lemma same_side base a b y : 0 <= (a - base) * (b - base) -> Rabs (a - base) <= Rabs (b - base) -> between base a y -> between base b y.
Proof.
  intros H A. unfold between. destruct (Rle_dec base a) as [L|L].
  - rewrite Rabs_pos_eq in A by lra. destruct (Rle_dec base b) as [L2|L2]; [rewrite Rabs_pos_eq in A by lra; lra|].
    rewrite Rabs_left1 in A by lra. destruct (Req_dec a base) as [->|NE]; [lra|]. nra.
  - rewrite Rabs_left1 in A by lra. destruct (Rle_dec base b) as [L2|L2]; [|rewrite Rabs_left1 in A by lra; lra].
    rewrite Rabs_pos_eq in A by lra. nra.
Qed.

Lemma bars_set base : forall bars s, (forall b, In b bars -> clear_bar epsilon b) -> match s with Some (m, v) => clear_ epsilon m | None => True end ->
  joined epsilon (match s with Some (m, _) => Some m | None => None end) bars ->
  forall z, drawn (drawvalues epsilon false false base s bars) z <-> (owed base s z \/ exists b, In b bars /\ bar_sides base b z) /\ in_graph z.
Proof.
  induction bars as [|b r IH]; intros s CB CS J z.
  - cbn [drawvalues In]. destruct s as [[m v]|]; cbn [drawvalue fst owed].
    + rewrite vposline_set by exact CS. rewrite vertical_sym. split; [tauto|]. intros [[X|(b & [] & _)] Y]; auto.
    + split; [intros D; destruct (drawn_nil z D)|]. intros [[[]|(b & [] & _)] _].
  - cbn [drawvalues]. destruct (drawvalue epsilon false false base s b) as [items s'] eqn:D. rewrite drawn_app.
    assert (CB' : forall b, In b r -> clear_bar epsilon b) by (intros; apply CB; right; assumption). pose proof (CB b (or_introl eq_refl)) as C0.
    destruct b as [[[vmin vmax] v]|].
    + cbn [joined] in J. destruct J as [J0 J]. destruct C0 as (C1 & C2 & C3).
      assert (S' : s' = Some (vmax, v)) by (unfold drawvalue in D; destruct s as [[m w]|]; injection D as _ <-; reflexivity). subst s'.
      specialize (IH (Some (vmax, v)) CB' C2 J z). rewrite IH. cbn [owed].
      assert (IT : drawn items z <-> (owed base s z \/ vertical vmin base v z \/ horizontal v vmin vmax z) /\ in_graph z).
      { destruct s as [[m w]|]; cbn [drawvalue] in D; injection D as <-; cbn [owed].
        - assert (G : ltb epsilon (Rabs (vmin - m)) = false -> vmin = m). { intros G. apply ltb_not in G. destruct J0 as [J0|J0]; [exact J0|lra]. }
          rewrite drawn_app, (vvalueline_set base v vmin vmax z C3).
          destruct (ltb epsilon (Rabs (vmin - m))) eqn:GE; cbn [negb andb orb].
          + rewrite !orb_true_r, !drawn_app, !vposline_set by assumption. rewrite (vertical_sym m w base). pose proof (vmoveto_set vmin v z). pose proof (vmoveto_set vmin base z). tauto.
          + specialize (G eq_refl). subst vmin. rewrite !orb_false_r. destruct (ltb ((w - base) * (v - base)) 0) eqn:O.
            * apply ltb_iff in O. rewrite vposline_set by assumption. unfold vertical at 1. rewrite (opposite_sides base w v (snd z) O). unfold vertical. tauto.
            * apply ltb_not in O. rewrite drawn_app. destruct (ltb (Rabs (w - base)) (Rabs (v - base))) eqn:B; cbn [negb].
              -- apply ltb_iff in B. rewrite drawn_app, vposline_set by assumption. pose proof (vmoveto_set m base z). pose proof (drawn_nil z).
                 assert (SS : vertical m base w z -> vertical m base v z) by (intros [X Y]; split; [exact X|]; apply (same_side base w v (snd z) O); [lra|exact Y]). tauto.
              -- apply ltb_not in B. rewrite drawn_app, vposline_set by assumption. rewrite (vertical_sym m w base). pose proof (vmoveto_set m v z). pose proof (drawn_nil z).
                 assert (SS : vertical m base v z -> vertical m base w z) by (intros [X Y]; split; [exact X|]; apply (same_side base v w (snd z)); [lra|lra|exact Y]). tauto.
        - rewrite !drawn_app, vposline_set by assumption. rewrite (vvalueline_set base v vmin vmax z C3). pose proof (vmoveto_set vmin base z). tauto. }
      rewrite IT. split.
      * intros [[[X|[X|X]] Y]|[[X|(b & I & X)] Y]]; (split; [|exact Y]); try (left; exact X); try (right; exists (Some (vmin, vmax, v)); split; [left; reflexivity|cbn; tauto]); right; exists b; split; [right; exact I|exact X].
      * intros [[X|(b & [<-|I] & X)] Y]; [left; split; [left; exact X|exact Y]| |right; split; [right; exists b; auto|exact Y]].
        cbn [bar_sides] in X. destruct X as [X|[X|X]]; [left; auto|right; auto|left; auto].
    + cbn [joined] in J. assert (S' : s' = None) by (unfold drawvalue in D; destruct s as [[m w]|]; injection D as _ <-; reflexivity). subst s'.
      specialize (IH None CB' Logic.I J z). rewrite IH. cbn [owed].
      assert (IT : drawn items z <-> owed base s z /\ in_graph z).
      { destruct s as [[m w]|]; cbn [drawvalue] in D; injection D as <-; cbn [owed].
        - rewrite vposline_set by assumption. rewrite (vertical_sym m w base). reflexivity.
        - pose proof (drawn_nil z). tauto. }
      rewrite IT. split.
      * intros [[X Y]|[[[]|(b & I & X)] Y]]; (split; [|exact Y]); [left; exact X|right; exists b; split; [right; exact I|exact X]].
      * intros [[X|(b & [<-|I] & X)] Y]; [left; auto|destruct X|right; split; [right; exists b; auto|exact Y]].
Qed.

(** ** Steps *)
(** the lines between neighbouring bars with the same boundary, and from or to the base elsewhere *)
Fixpoint step_lines (base : R) (s : last) (bars : list (option (R * R * R))) (z : point) : Prop :=
  match bars with
  | [] => owed base s z
  | None :: r => owed base s z \/ step_lines base None r z
  | Some (vmin, vmax, v) :: r =>
      horizontal v vmin vmax z \/ step_lines base (Some (vmax, v)) r z \/
      match s with Some (m, w) => (vmin = m /\ vertical vmin w v z) \/ (vmin <> m /\ (vertical m base w z \/ vertical vmin base v z)) | None => vertical vmin base v z end
  end.
Lemma steps_set base : forall bars s, (forall b, In b bars -> clear_bar epsilon b) -> match s with Some (m, v) => clear_ epsilon m | None => True end ->
  joined epsilon (match s with Some (m, _) => Some m | None => None end) bars ->
  forall z, drawn (drawvalues epsilon false true base s bars) z <-> step_lines base s bars z /\ in_graph z.
Proof.
  induction bars as [|b r IH]; intros s CB CS J z.
  - cbn [drawvalues step_lines]. destruct s as [[m v]|]; cbn [drawvalue fst owed].
    + rewrite vposline_set by exact CS. rewrite vertical_sym. reflexivity.
    + split; [intros D; destruct (drawn_nil z D)|tauto].
  - cbn [drawvalues step_lines]. destruct (drawvalue epsilon false true base s b) as [items s'] eqn:D. rewrite drawn_app.
    assert (CB' : forall b, In b r -> clear_bar epsilon b) by (intros; apply CB; right; assumption). pose proof (CB b (or_introl eq_refl)) as C0.
    destruct b as [[[vmin vmax] v]|].
    + cbn [joined] in J. destruct J as [J0 J]. destruct C0 as (C1 & C2 & C3).
      assert (S' : s' = Some (vmax, v)) by (unfold drawvalue in D; destruct s as [[m w]|]; injection D as _ <-; reflexivity). subst s'.
      specialize (IH (Some (vmax, v)) CB' C2 J z). rewrite IH.
      destruct s as [[m w]|]; cbn [drawvalue] in D; injection D as <-.
      * assert (G : ltb epsilon (Rabs (vmin - m)) = false -> vmin = m). { intros G. apply ltb_not in G. destruct J0 as [J0|J0]; [exact J0|lra]. }
        rewrite drawn_app, (vvalueline_set base v vmin vmax z C3).
        destruct (ltb epsilon (Rabs (vmin - m))) eqn:GE; cbn [negb andb orb].
        -- assert (NE : vmin <> m). { intros ->. apply ltb_iff in GE. replace (m - m) with 0 in GE by ring. rewrite Rabs_R0 in GE. lra. }
           rewrite !orb_true_r, !drawn_app, !vposline_set by assumption. rewrite (vertical_sym m w base). pose proof (vmoveto_set vmin v z). pose proof (vmoveto_set vmin base z). tauto.
        -- specialize (G eq_refl). subst vmin. rewrite vposline_set by assumption. assert (E : m = m) by reflexivity. tauto.
      * rewrite !drawn_app, vposline_set by assumption. rewrite (vvalueline_set base v vmin vmax z C3). pose proof (vmoveto_set vmin base z). tauto.
    + cbn [joined] in J. assert (S' : s' = None) by (unfold drawvalue in D; destruct s as [[m w]|]; injection D as _ <-; reflexivity). subst s'.
      specialize (IH None CB' Logic.I J z). rewrite IH.
      destruct s as [[m w]|]; cbn [drawvalue] in D; injection D as <-; cbn [owed].
      * rewrite vposline_set by assumption. rewrite (vertical_sym m w base). tauto.
      * pose proof (drawn_nil z). tauto.
Qed.
End Sets.

(** The base of the bars, within the graph. *)
Definition base_of (fromvalue : option R) : R := match fromvalue with Some v => Rmax 0 (Rmin 1 v) | None => 0 end.
Lemma hist_from_base fromvalue : fst (hist_from fromvalue) = base_of fromvalue.
Proof.
  unfold hist_from, base_of, cutat. destruct fromvalue as [v|]; [|reflexivity]. unfold Rmax, Rmin. lt; cbn [fst]; destruct (Rle_dec 1 v); try lra; destruct (Rle_dec 0 1); try lra; destruct (Rle_dec 0 v); lra.
Qed.

(** Without steps the sides of all bars are drawn, as far as they are in the graph, and nothing else. *)
Theorem histogram_draws_bars : forall epsilon fromvalue bars, 0 < epsilon -> (forall b, In b bars -> clear_bar epsilon b) -> joined epsilon None bars ->
  forall z, drawn (histogram_path epsilon false false fromvalue bars) z <-> in_graph z /\ exists b, In b bars /\ bar_sides (base_of fromvalue) b z.
Proof.
  intros epsilon fromvalue bars EP CB J z. unfold histogram_path. rewrite <- hist_from_base. destruct (hist_from fromvalue) as [base c]. cbn [andb fst].
  rewrite (bars_set epsilon EP base bars None CB Logic.I J z). cbn [owed]. tauto.
Qed.
Print Assumptions histogram_draws_bars.

(** With steps the ends of all bars are drawn, the lines which connect neighbouring ones, and the lines from and to the base elsewhere. *)
Theorem histogram_draws_steps : forall epsilon fromvalue bars, 0 < epsilon -> (forall b, In b bars -> clear_bar epsilon b) -> joined epsilon None bars ->
  forall z, drawn (histogram_path epsilon false true fromvalue bars) z <-> in_graph z /\ step_lines (base_of fromvalue) None bars z.
Proof.
  intros epsilon fromvalue bars EP CB J z. unfold histogram_path. rewrite <- hist_from_base. destruct (hist_from fromvalue) as [base c]. cbn [andb negb fst].
  rewrite (steps_set epsilon EP base bars None CB Logic.I J z). tauto.
Qed.
Print Assumptions histogram_draws_steps.

(** comparisons of numbers *)
Ltac lc := repeat match goal with |- context [ltb ?a ?b] => first [rewrite (proj2 (ltb_iff a b)) by lra | rewrite (proj2 (ltb_not a b)) by lra] end; cbn [andb negb orb].
(** two bars of which the second exceeds the graph: the line between them is part of the second one *)
Example histogram_draws_ex : histogram_path 0.01 false false (Some 0) [Some (0, 0.5, 0.25); Some (0.5, 1, 2)] =
  [HMove (0, 0); HEl (0, 0) (0, 0.25); HEl (0, 0.25) (0.5, 0.25); HMove (0.5, 0); HEl (0.5, 0) (0.5, 1); HMove (1, 1); HEl (1, 1) (1, 0)].
Proof.
  unfold histogram_path, hist_from, cutat. lc. cbn [andb negb drawvalues drawvalue fst]. unfold vmoveto, vposline, vvalueline, near, cutat.
  replace (0.5 - 0.5) with 0 by lra. rewrite Rabs_R0. rewrite !Rminus_0_r. rewrite (Rabs_pos_eq 0.25), (Rabs_pos_eq 2) by lra. lc; cbn [andb negb orb iscut notsame app]; reflexivity.
Qed.
