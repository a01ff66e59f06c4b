(** * Histograms (C115): connected paths, paths for filling, and automatic ranges *)

From Coq Require Import Reals Bool List Lra Lia Psatz.
From Verif Require Import GraphLineModel PointStyleProps HistogramModel HistogramProps.
Import ListNotations.
Open Scope R_scope.

(** ** All points are in the graph *)
Definition item_points (i : hitem) : list point := match i with HMove p => [p] | HEl p q => [p; q] | HClose => [] end.
Definition all_near (epsilon : R) (items : list hitem) : Prop := forall p, In p (flat_map item_points items) -> inside epsilon (fst p) /\ inside epsilon (snd p).
Lemma all_near_app epsilon a b : all_near epsilon a -> all_near epsilon b -> all_near epsilon (a ++ b).
Proof. intros A B p. rewrite flat_map_app, in_app_iff. intros [I|I]; auto. Qed.
Lemma all_near_nil epsilon : all_near epsilon []. Proof. intros p []. Qed.
Lemma all_near_if epsilon (b : bool) l m : all_near epsilon l -> all_near epsilon m -> all_near epsilon (if b then l else m). Proof. destruct b; auto. Qed.

Lemma cutat_in lo hi v : 0 < lo + 1 -> lo <= 0 -> 1 <= hi -> lo <= fst (cutat lo hi v) <= hi.
Proof. intros A B C. unfold cutat. lt; cbn [fst]; lra. Qed.
Lemma vmoveto_near epsilon p v : all_near epsilon (vmoveto epsilon p v).
Proof.
  unfold vmoveto. destruct (near epsilon p && near epsilon v) eqn:E; [|apply all_near_nil]. apply andb_true_iff in E as [A B]. apply near_iff in A, B. intros q [<-|[]]. unfold inside. cbn. lra.
Qed.
Lemma vposline_near epsilon fillable p v1 v2 : 0 <= epsilon -> all_near epsilon (vposline epsilon fillable p v1 v2).
Proof.
  intros EP. unfold vposline. destruct (near epsilon p) eqn:N; [|apply all_near_nil]. apply near_iff in N. pose proof (cutat_in 0 1 v1 ltac:(lra) ltac:(lra) ltac:(lra)) as A. pose proof (cutat_in 0 1 v2 ltac:(lra) ltac:(lra) ltac:(lra)) as B.
  destruct (cutat 0 1 v1) as [w1 c1], (cutat 0 1 v2) as [w2 c2]. cbn [fst] in A, B. apply all_near_if; [|apply all_near_nil]. apply all_near_app; [apply all_near_if; [|apply all_near_nil]|]; intros q I; cbn in I; unfold inside;
  repeat destruct I as [<-|I]; cbn [fst snd]; try lra; destruct I.
Qed.
Lemma vvalueline_near epsilon fillable base v p1 p2 : 0 <= epsilon -> 0 <= base <= 1 -> all_near epsilon (vvalueline epsilon fillable base v p1 p2).
Proof.
  intros EP BA. unfold vvalueline. set (v' := if fillable then _ else v). destruct (fillable || near epsilon v') eqn:N; [|apply all_near_nil].
  assert (V : - epsilon <= v' <= 1 + epsilon). { destruct fillable; cbn [orb] in N; [unfold v'; lt; lra|apply near_iff in N; lra]. }
  pose proof (cutat_in 0 1 p1 ltac:(lra) ltac:(lra) ltac:(lra)) as A. pose proof (cutat_in 0 1 p2 ltac:(lra) ltac:(lra) ltac:(lra)) as B. clearbody v'.
  destruct (cutat 0 1 p1) as [w1 c1], (cutat 0 1 p2) as [w2 c2]. cbn [fst] in A, B. apply all_near_if; [|apply all_near_nil].
  repeat apply all_near_app; repeat apply all_near_if; try apply all_near_nil; intros q I; cbn in I; unfold inside; repeat destruct I as [<-|I]; cbn [fst snd]; try lra; destruct I.
Qed.
Lemma drawvalue_near epsilon fillable steps base s b : 0 <= epsilon -> 0 <= base <= 1 -> all_near epsilon (fst (drawvalue epsilon fillable steps base s b)).
Proof.
  intros EP BA. unfold drawvalue. cbv zeta. destruct s as [[m w]|], b as [[[vmin vmax] v]|]; cbn [fst]; repeat first [apply vmoveto_near|apply vposline_near; assumption|apply vvalueline_near; assumption|apply all_near_nil|apply all_near_app|apply all_near_if].
Qed.
Lemma hist_from_in fromvalue : 0 <= fst (hist_from fromvalue) <= 1.
Proof. destruct fromvalue as [v|]; cbn [hist_from fst]; [apply cutat_in; lra|lra]. Qed.

(** The path of a histogram does not leave the graph (up to the tolerance). *)
Theorem histogram_inside : forall epsilon fillable steps fromvalue bars, 0 <= epsilon < 1 -> forall p, In p (flat_map item_points (histogram_path epsilon fillable steps fromvalue bars)) ->
  inside epsilon (fst p) /\ inside epsilon (snd p).
Proof.
  intros epsilon fillable steps fromvalue bars EP. change (all_near epsilon (histogram_path epsilon fillable steps fromvalue bars)). unfold histogram_path.
  pose proof (hist_from_in fromvalue) as BA. destruct (hist_from fromvalue) as [base c]. cbn [fst] in BA. destruct (fillable && negb steps).
  - induction bars as [|b r IH]; [apply all_near_nil|]. cbn [flat_map]. apply all_near_app; [|exact IH]. destruct b as [[[vmin vmax] v]|]; [|apply all_near_nil]. unfold fillrect.
    pose proof (cutat_in (- epsilon) (1 + epsilon) vmin ltac:(lra) ltac:(lra) ltac:(lra)) as A. pose proof (cutat_in (- epsilon) (1 + epsilon) vmax ltac:(lra) ltac:(lra) ltac:(lra)) as B. pose proof (cutat_in (- epsilon) (1 + epsilon) v ltac:(lra) ltac:(lra) ltac:(lra)) as C.
    destruct (cutat (- epsilon) (1 + epsilon) vmin) as [x0 c0], (cutat (- epsilon) (1 + epsilon) vmax) as [x1 c1], (cutat (- epsilon) (1 + epsilon) v) as [y c2]. cbn [fst] in A, B, C.
    repeat apply all_near_if; try apply all_near_nil; intros q I; cbn [flat_map item_points app In] in I; unfold inside; repeat destruct I as [<-|I]; cbn [fst snd]; try lra; destruct I.
  - generalize (@None (R * R)) as s. induction bars as [|b r IH]; intros s; cbn [drawvalues].
    + apply drawvalue_near; lra.
    + pose proof (drawvalue_near epsilon fillable steps base s b ltac:(lra) BA) as D. destruct (drawvalue epsilon fillable steps base s b) as [items s']. cbn [fst] in D. apply all_near_app; [exact D|apply IH].
Qed.
Print Assumptions histogram_inside.

(** ** Lines begin where the one before ended *)
Fixpoint connected (cur : option point) (items : list hitem) : Prop :=
  match items with
  | [] => True
  | HMove p :: r => connected (Some p) r
  | HEl p q :: r => cur = Some p /\ connected (Some q) r
  | HClose :: r => connected None r
  end.
Fixpoint endpoint (cur : option point) (items : list hitem) : option point :=
  match items with [] => cur | HMove p :: r => endpoint (Some p) r | HEl p q :: r => endpoint (Some q) r | HClose :: r => endpoint None r end.
Lemma connected_app a : forall b cur, connected cur (a ++ b) <-> connected cur a /\ connected (endpoint cur a) b.
Proof. induction a as [|[p|p q|] a IH]; intros b cur; cbn; rewrite ?IH; tauto. Qed.
Lemma endpoint_app a : forall b cur, endpoint cur (a ++ b) = endpoint (endpoint cur a) b.
Proof. induction a as [|[p|p q|] a IH]; intros b cur; cbn; rewrite ?IH; reflexivity. Qed.

Section Conn.
Variable epsilon : R.
Hypothesis EP : 0 < epsilon.
Definition seen (v : R) : Prop := 0 <= v <= 1.
Lemma near_seen v : clear_ epsilon v -> seen v -> near epsilon v = true. Proof. intros C S. apply (near_clear epsilon EP v C). exact S. Qed.
Lemma near_unseen v : clear_ epsilon v -> ~ seen v -> near epsilon v = false. Proof. intros C S. destruct (near epsilon v) eqn:E; [|reflexivity]. apply (near_clear epsilon EP v C) in E. contradiction. Qed.
Lemma seen_dec v : seen v \/ ~ seen v. Proof. unfold seen. destruct (Rle_dec 0 v), (Rle_dec v 1); lra. Qed.
Lemma cut_seen v : seen v -> cutat 0 1 v = (v, None_). Proof. unfold seen, cutat. intros. lt; try lra. reflexivity. Qed.
Lemma cut_unseen v : ~ seen v -> exists w c, cutat 0 1 v = (w, c) /\ iscut c = true /\ seen w. Proof. unfold seen, cutat. intros H. lt; [exists 0, Below|exists 1, Above|exfalso; lra]; (split; [reflexivity|split; [reflexivity|lra]]). Qed.

Lemma vmoveto_conn p v cur : clear_ epsilon p -> clear_ epsilon v -> connected cur (vmoveto epsilon p v) /\ (seen p -> seen v -> endpoint cur (vmoveto epsilon p v) = Some (p, v)).
Proof.
  intros C1 C2. unfold vmoveto. split.
  - destruct (near epsilon p && near epsilon v); cbn; exact Logic.I.
  - intros S1 S2. rewrite (near_seen p C1 S1), (near_seen v C2 S2). reflexivity.
Qed.
Lemma vposline_conn p v1 v2 cur : clear_ epsilon p -> (seen p -> seen v1 -> cur = Some (p, v1)) ->
  connected cur (vposline epsilon false p v1 v2) /\ (seen p -> seen v2 -> endpoint cur (vposline epsilon false p v1 v2) = Some (p, v2)).
Proof.
  intros C H. unfold vposline. destruct (seen_dec p) as [S|S]; [rewrite (near_seen p C S)|rewrite (near_unseen p C S); split; [exact Logic.I|tauto]].
  destruct (seen_dec v1) as [S1|S1].
  - rewrite (cut_seen v1 S1). destruct (seen_dec v2) as [S2|S2]; [rewrite (cut_seen v2 S2)|destruct (cut_unseen v2 S2) as (w & c & -> & IC & _); destruct c; try discriminate]; cbn; (split; [auto|tauto]).
  - destruct (cut_unseen v1 S1) as (w1 & c1 & -> & I1 & _). destruct (seen_dec v2) as [S2|S2]; [rewrite (cut_seen v2 S2)|destruct (cut_unseen v2 S2) as (w & c & -> & IC & _)].
    + destruct c1; try discriminate; cbn; (split; [auto|tauto]).
    + destruct c1, c; try discriminate; cbn; (split; [auto|tauto]).
Qed.
Lemma vvalueline_conn base v p1 p2 cur : clear_ epsilon v -> (seen v -> seen p1 -> cur = Some (p1, v)) ->
  connected cur (vvalueline epsilon false base v p1 p2) /\ (seen v -> seen p2 -> endpoint cur (vvalueline epsilon false base v p1 p2) = Some (p2, v)).
Proof.
  intros C H. unfold vvalueline. cbn [orb andb]. destruct (seen_dec v) as [S|S]; [rewrite (near_seen v C S)|rewrite (near_unseen v C S); split; [exact Logic.I|tauto]].
  destruct (seen_dec p1) as [S1|S1].
  - rewrite (cut_seen p1 S1). destruct (seen_dec p2) as [S2|S2]; [rewrite (cut_seen p2 S2)|destruct (cut_unseen p2 S2) as (w & c & -> & IC & _); destruct c; try discriminate]; cbn; (split; [auto|tauto]).
  - destruct (cut_unseen p1 S1) as (w1 & c1 & -> & I1 & _). destruct (seen_dec p2) as [S2|S2]; [rewrite (cut_seen p2 S2)|destruct (cut_unseen p2 S2) as (w & c & -> & IC & _)].
    + destruct c1; try discriminate; cbn; (split; [auto|tauto]).
    + destruct c1, c; try discriminate; cbn; (split; [auto|tauto]).
Qed.

Definition at_end (s : last) (cur : option point) : Prop := match s with Some (m, w) => seen m -> seen w -> cur = Some (m, w) | None => True end.
Definition clear_last (s : last) : Prop := match s with Some (m, w) => clear_ epsilon m /\ clear_ epsilon w | None => True end.
Lemma drawvalue_conn steps base s b cur : seen base -> clear_last s -> clear_bar epsilon b -> match s, b with Some (m, _), Some (vmin, _, _) => vmin = m \/ epsilon < Rabs (vmin - m) | _, _ => True end -> at_end s cur ->
  let '(items, s') := drawvalue epsilon false steps base s b in connected cur items /\ at_end s' (endpoint cur items).
Proof.
  intros SB CS CB J AE. assert (CL : clear_ epsilon base) by (unfold seen, clear_ in *; lra). unfold drawvalue. destruct s as [[m w]|], b as [[[vmin vmax] v]|]; cbn [clear_last clear_bar at_end] in *.
  - destruct CS as [CM CW], CB as (C1 & C2 & C3).
    cbv zeta. match goal with |- connected cur (?S ++ _) /\ _ => set (sides := S) end.
    assert (K : connected cur sides /\ (seen vmin -> seen v -> endpoint cur sides = Some (vmin, v))).
    { unfold sides. clear sides. destruct (ltb epsilon (Rabs (vmin - m))) eqn:G; cbn [negb andb].
      - rewrite !orb_true_r. destruct (vposline_conn m w base cur CM AE) as [A _]. set (c1 := endpoint cur (vposline epsilon false m w base)).
        destruct (vmoveto_conn vmin v c1 C1 C3) as [B1 _]. set (c2 := endpoint c1 (vmoveto epsilon vmin v)).
        destruct (vmoveto_conn vmin base c2 C1 CL) as [D1 D2]. destruct (vposline_conn vmin base v (endpoint c2 (vmoveto epsilon vmin base)) C1 D2) as [E1 E2].
        rewrite !connected_app, !endpoint_app. fold c1. fold c2. tauto.
      - apply ltb_not in G. assert (vmin = m) by (destruct J as [J|J]; [exact J|lra]). subst vmin. rewrite !orb_false_r.
        destruct (steps || ltb ((w - base) * (v - base)) 0); [apply vposline_conn; assumption|]. destruct (ltb (Rabs (w - base)) (Rabs (v - base))); cbn [negb app].
        + destruct (vmoveto_conn m base cur C1 CL) as [D1 D2]. destruct (vposline_conn m base v (endpoint cur (vmoveto epsilon m base)) C1 D2) as [E1 E2]. rewrite !connected_app, !endpoint_app. tauto.
        + rewrite app_nil_r. destruct (vposline_conn m w base cur CM AE) as [A _]. set (c1 := endpoint cur (vposline epsilon false m w base)) in *. destruct (vmoveto_conn m v c1 C1 C3) as [B1 B2].
          rewrite !connected_app, !endpoint_app. fold c1. tauto. }
    destruct K as [K1 K2]. rewrite connected_app, endpoint_app. destruct (vvalueline_conn base v vmin vmax (endpoint cur sides) C3) as [V1 V2]; [tauto|]. tauto.
  - destruct (vposline_conn m w base cur) as [A _]; [tauto|exact AE|]. tauto.
  - destruct CB as (C1 & C2 & C3). destruct (vmoveto_conn vmin base cur C1 CL) as [D1 D2]. destruct (vposline_conn vmin base v (endpoint cur (vmoveto epsilon vmin base)) C1 D2) as [E1 E2].
    rewrite !connected_app, !endpoint_app. set (c2 := endpoint (endpoint cur (vmoveto epsilon vmin base)) (vposline epsilon false vmin base v)) in *.
    destruct (vvalueline_conn base v vmin vmax c2 C3) as [V1 V2]; [tauto|]. tauto.
  - split; exact Logic.I.
Qed.

(** ** Paths for filling with steps *)
Definition vclip (v : R) : R := fst (cutat 0 1 v).
Lemma vclip_seen v : seen v -> vclip v = v. Proof. intros S. unfold vclip. rewrite (cut_seen v S). reflexivity. Qed.
(** the value of vvalueline for fillable paths *)
Lemma vclip_value v : clear_ epsilon v -> (let v' := if ltb v (- epsilon) then 0 else v in if ltb (1 + epsilon) v' then 1 else v') = vclip v.
Proof. unfold clear_, vclip, cutat. intros C. cbv zeta. lt; cbn [fst]; lra. Qed.

(** subpaths with lines begin and end at the base, and lines begin where the one before ended; the state is the current point and whether there is a line *)
Fixpoint filled_ok (base : R) (st : option point * bool) (items : list hitem) : Prop :=
  let closed := snd st = true -> exists p, fst st = Some p /\ snd p = base in
  match items with
  | [] => closed
  | HMove p :: r => closed /\ filled_ok base (Some p, false) r
  | HEl p q :: r => fst st = Some p /\ (snd st = false -> snd p = base) /\ filled_ok base (Some q, true) r
  | HClose :: r => False
  end.
Definition rests (base : R) (st : option point * bool) : Prop := snd st = true -> exists p, fst st = Some p /\ snd p = base.
(** a version for parts: what holds afterwards is given *)
Fixpoint part_ok (base : R) (st : option point * bool) (items : list hitem) (after : option point * bool -> Prop) : Prop :=
  match items with
  | [] => after st
  | HMove p :: r => rests base st /\ part_ok base (Some p, false) r after
  | HEl p q :: r => fst st = Some p /\ (snd st = false -> snd p = base) /\ part_ok base (Some q, true) r after
  | HClose :: r => False
  end.
Lemma part_ok_app base a : forall st b after, part_ok base st a (fun st' => part_ok base st' b after) -> part_ok base st (a ++ b) after.
Proof. induction a as [|[p|p q|] a IH]; intros st b after; cbn [part_ok app]; [auto| | |auto]; [intros [A B]|intros (A & B & C)]; auto. Qed.
Lemma part_ok_impl base items : forall st (P Q : option point * bool -> Prop), (forall st, P st -> Q st) -> part_ok base st items P -> part_ok base st items Q.
Proof. induction items as [|[p|p q|] a IH]; intros st P Q PQ; cbn [part_ok]; [auto| | |auto]; [intros [A B]|intros (A & B & C)]; eauto. Qed.
Lemma filled_ok_part base items : forall st, part_ok base st items (rests base) -> filled_ok base st items.
Proof. induction items as [|[p|p q|] a IH]; intros st; cbn [part_ok filled_ok]; [auto| | |auto]; [intros [A B]|intros (A & B & C)]; auto. Qed.

Section Fill.
Variable base : R.
Hypothesis SB : seen base.
(** the current point is at (p, v) with lines before *)
Definition stands (p v : R) (st : option point * bool) : Prop := st = (Some (p, v), true).
Definition begun (p : R) (st : option point * bool) : Prop := fst st = Some (p, base) /\ True.

Lemma vposline_fill p v1 v2 st : clear_ epsilon p -> (seen p -> fst st = Some (p, vclip v1) /\ (snd st = false -> vclip v1 = base /\ seen v1)) -> (~ seen p -> rests base st) ->
  part_ok base st (vposline epsilon true p v1 v2) (fun st' => (seen p -> stands p (vclip v2) st') /\ (~ seen p -> rests base st')).
Proof.
  intros C H NS. unfold vposline. destruct (seen_dec p) as [S|S]; [rewrite (near_seen p C S)|rewrite (near_unseen p C S); cbn; tauto].
  destruct (H S) as [H1 H2]. unfold vclip in *. destruct (cutat 0 1 v1) as [w1 c1] eqn:E1, (cutat 0 1 v2) as [w2 c2] eqn:E2. cbn [fst] in *. rewrite andb_false_r. cbn [app].
  destruct (notsame c1 c2) eqn:N; cbn [part_ok].
  - split; [exact H1|]. split; [cbn; intros F; apply H2; exact F|]. unfold stands. tauto.
  - assert (W : w1 = w2). { unfold cutat in E1, E2. destruct c1, c2; try discriminate; revert E1 E2; lt; intros E1 E2; congruence. }
    split; [|tauto]. intros _. subst w2. destruct st as [cur op]. cbn [fst snd] in *. unfold stands. destruct op; [congruence|]. exfalso. destruct (H2 eq_refl) as [_ S1]. rewrite (cut_seen v1 S1) in E1. injection E1 as <- <-. destruct c2; discriminate.
Qed.
Lemma vvalueline_fill v p1 p2 st : clear_ epsilon v -> (seen p1 -> stands p1 (vclip v) st) -> (~ seen p1 -> rests base st) ->
  part_ok base st (vvalueline epsilon true base v p1 p2) (fun st' => (seen p2 -> stands p2 (vclip v) st') /\ (~ seen p2 -> rests base st')).
Proof.
  intros C H NS. unfold vvalueline. cbv zeta. cbn [orb]. pose proof (vclip_value v C) as VV. cbv zeta in VV. rewrite VV. clear VV. destruct (seen_dec p1) as [S1|S1].
  - rewrite (cut_seen p1 S1). rewrite (H S1). destruct (seen_dec p2) as [S2|S2].
    + rewrite (cut_seen p2 S2). cbn. unfold stands. split; [reflexivity|]. split; [discriminate|]. tauto.
    + destruct (cut_unseen p2 S2) as (w & c & -> & IC & _). destruct c; try discriminate; cbn; (split; [reflexivity|]; split; [discriminate|]; split; [reflexivity|]; split; [discriminate|]; split; [tauto|]; intros _ _; eexists; split; reflexivity).
  - destruct (cut_unseen p1 S1) as (w1 & c1 & -> & I1 & _). destruct (seen_dec p2) as [S2|S2].
    + rewrite (cut_seen p2 S2). destruct c1; try discriminate; cbn; (split; [auto|]; split; [reflexivity|]; split; [reflexivity|]; split; [reflexivity|]; split; [discriminate|]; unfold stands; tauto).
    + destruct (cut_unseen p2 S2) as (w & c & -> & IC & _). destruct c1, c; try discriminate; cbn; try tauto;
      (split; [auto|]; split; [reflexivity|]; split; [reflexivity|]; split; [reflexivity|]; split; [discriminate|]; split; [reflexivity|]; split; [discriminate|]; split; [tauto|]; intros _ _; eexists; split; reflexivity).
Qed.
Lemma vmoveto_fill p v st : clear_ epsilon p -> clear_ epsilon v -> rests base st ->
  part_ok base st (vmoveto epsilon p v) (fun st' => rests base st' /\ (seen p -> seen v -> st' = (Some (p, v), false))).
Proof.
  intros C1 C2 RS. unfold vmoveto. destruct (seen_dec p) as [S1|S1]; [rewrite (near_seen p C1 S1)|rewrite (near_unseen p C1 S1); cbn; tauto].
  destruct (seen_dec v) as [S2|S2]; [rewrite (near_seen v C2 S2)|rewrite (near_unseen v C2 S2); cbn; tauto]. cbn. split; [exact RS|]. split; [discriminate|reflexivity].
Qed.
Definition holds (s : last) (st : option point * bool) : Prop :=
  match s with Some (m, w) => (seen m -> stands m (vclip w) st) /\ (~ seen m -> rests base st) | None => rests base st end.
(** begin at the base: moveto and the line up *)
Lemma begin_fill vmin v st : clear_ epsilon vmin -> clear_ epsilon v -> rests base st ->
  part_ok base st (vmoveto epsilon vmin base ++ vposline epsilon true vmin base v) (fun st' => (seen vmin -> stands vmin (vclip v) st') /\ (~ seen vmin -> rests base st')).
Proof.
  intros C1 C3 RS. assert (CL : clear_ epsilon base) by (unfold seen, clear_ in *; lra). apply part_ok_app. apply (part_ok_impl base _ _ _ _) with (2 := vmoveto_fill vmin base st C1 CL RS).
  intros st1 [R1 S1]. apply vposline_fill; [exact C1| |intros _; exact R1]. intros S. rewrite (S1 S SB). cbn [fst snd]. rewrite (vclip_seen base SB). auto.
Qed.
Lemma drawvalue_fill s b st : clear_last s -> clear_bar epsilon b -> match s, b with Some (m, _), Some (vmin, _, _) => vmin = m \/ epsilon < Rabs (vmin - m) | _, _ => True end -> holds s st ->
  part_ok base st (fst (drawvalue epsilon true true base s b)) (holds (snd (drawvalue epsilon true true base s b))).
Proof.
  intros CS CB J HO. unfold drawvalue. destruct s as [[m w]|], b as [[[vmin vmax] v]|]; cbn [clear_last clear_bar holds fst snd] in *.
  - destruct CS as [CM CW], CB as (C1 & C2 & C3), HO as [HO1 HO2]. apply part_ok_app. cbn [orb]. rewrite andb_true_r.
    assert (K : forall st1, (seen vmin -> stands vmin (vclip v) st1) /\ (~ seen vmin -> rests base st1) -> part_ok base st1 (vvalueline epsilon true base v vmin vmax) (holds (Some (vmax, v)))).
    { intros st1 [K1 K2]. apply vvalueline_fill; assumption. }
    destruct (ltb epsilon (Rabs (vmin - m))) eqn:G; cbn [negb].
    + rewrite !orb_true_r. apply part_ok_app. apply part_ok_app.
      assert (VP : part_ok base st (vposline epsilon true m w base) (rests base)).
      { apply part_ok_impl with (2 := vposline_fill m w base st CM ltac:(intros S; specialize (HO1 S); unfold stands in HO1; rewrite HO1; cbn; split; [reflexivity|discriminate]) HO2).
        intros st1 [A B]. destruct (seen_dec m) as [S|S]; [|auto]. rewrite (A S). intros _. cbn. eexists. split; [reflexivity|]. cbn. apply vclip_seen. exact SB. }
      apply part_ok_impl with (2 := VP). intros st1 R1. apply part_ok_impl with (2 := vmoveto_fill vmin v st1 C1 C3 R1). intros st2 [R2 _].
      apply part_ok_impl with (2 := begin_fill vmin v st2 C1 C3 R2). exact K.
    + apply ltb_not in G. assert (vmin = m) by (destruct J as [J|J]; [exact J|lra]). subst vmin.
      apply part_ok_impl with (2 := vposline_fill m w v st CM ltac:(intros S; specialize (HO1 S); unfold stands in HO1; rewrite HO1; cbn; split; [reflexivity|discriminate]) HO2). exact K.
  - destruct HO as [HO1 HO2]. apply part_ok_impl with (2 := vposline_fill m w base st (proj1 CS) ltac:(intros S; specialize (HO1 S); unfold stands in HO1; rewrite HO1; cbn; split; [reflexivity|discriminate]) HO2).
    intros st1 [A B]. cbn [holds]. destruct (seen_dec m) as [S|S]; [|exact (B S)]. rewrite (A S). intros _. cbn. eexists. split; [reflexivity|]. cbn. apply vclip_seen. exact SB.
  - destruct CB as (C1 & C2 & C3). rewrite app_assoc. apply part_ok_app. apply part_ok_impl with (2 := begin_fill vmin v st C1 C3 HO). intros st1 [K1 K2]. apply vvalueline_fill; assumption.
  - exact HO.
Qed.
End Fill.
End Conn.

Lemma joined_next epsilon (s : last) b r : joined epsilon (match s with Some (m, _) => Some m | None => None end) (b :: r) ->
  match s, b with Some (m, _), Some (vmin, _, _) => vmin = m \/ epsilon < Rabs (vmin - m) | _, _ => True end /\ joined epsilon (match b with Some (_, m, _) => Some m | None => None end) r.
Proof. destruct s as [[m w]|], b as [[[vmin vmax] v]|]; cbn; tauto. Qed.
Lemma drawvalue_last epsilon fillable steps base s b : snd (drawvalue epsilon fillable steps base s b) = match b with Some (_, m, v) => Some (m, v) | None => None end.
Proof. destruct s as [[m w]|], b as [[[vmin vmax] v]|]; reflexivity. Qed.

(** Without filling each line begins at the current point. *)
Theorem histogram_connected : forall epsilon steps fromvalue bars, 0 < epsilon -> (forall b, In b bars -> clear_bar epsilon b) -> joined epsilon None bars ->
  connected None (histogram_path epsilon false steps fromvalue bars).
Proof.
  intros epsilon steps fromvalue bars EP CB J. unfold histogram_path. pose proof (hist_from_in fromvalue) as SB. destruct (hist_from fromvalue) as [base c]. cbn [andb fst] in *.
  assert (G : forall s cur, clear_last epsilon s -> joined epsilon (match s with Some (m, _) => Some m | None => None end) bars -> at_end s cur -> connected cur (drawvalues epsilon false steps base s bars)).
  { clear J. induction bars as [|b r IH]; intros s cur CS J AE; cbn [drawvalues].
    - pose proof (drawvalue_conn epsilon EP steps base s None cur SB CS Logic.I ltac:(destruct s as [[? ?]|]; exact Logic.I) AE) as D. destruct (drawvalue epsilon false steps base s None). cbn [fst]. tauto.
    - destruct (joined_next epsilon s b r J) as [J0 J1]. pose proof (CB b (or_introl eq_refl)) as C0. pose proof (drawvalue_conn epsilon EP steps base s b cur SB CS C0 J0 AE) as D.
      pose proof (drawvalue_last epsilon false steps base s b) as L. destruct (drawvalue epsilon false steps base s b) as [items s']. cbn [snd] in L. destruct D as [D1 D2]. rewrite connected_app. split; [exact D1|].
      apply IH; [intros; apply CB; right; assumption| | |exact D2]; subst s'; destruct b as [[[vmin vmax] v]|]; cbn in *; tauto. }
  apply (G None None); [exact Logic.I|exact J|exact Logic.I].
Qed.
Print Assumptions histogram_connected.

(** A path of steps for filling is connected, and each part of it begins and ends at the base. *)
Theorem filled_steps_closed : forall epsilon fromvalue bars, 0 < epsilon -> (forall b, In b bars -> clear_bar epsilon b) -> joined epsilon None bars ->
  filled_ok (base_of fromvalue) (None, false) (histogram_path epsilon true true fromvalue bars).
Proof.
  intros epsilon fromvalue bars EP CB J. unfold histogram_path. rewrite <- hist_from_base. pose proof (hist_from_in fromvalue) as SB. destruct (hist_from fromvalue) as [base c]. cbn [andb negb fst] in *.
  apply filled_ok_part.
  assert (G : forall s st, clear_last epsilon s -> joined epsilon (match s with Some (m, _) => Some m | None => None end) bars -> holds base s st -> part_ok base st (drawvalues epsilon true true base s bars) (rests base)).
  { clear J. induction bars as [|b r IH]; intros s st CS J HO; cbn [drawvalues].
    - pose proof (drawvalue_fill epsilon EP base SB s None st CS Logic.I ltac:(destruct s as [[? ?]|]; exact Logic.I) HO) as D. rewrite drawvalue_last in D. exact D.
    - destruct (joined_next epsilon s b r J) as [J0 J1]. pose proof (CB b (or_introl eq_refl)) as C0. pose proof (drawvalue_fill epsilon EP base SB s b st CS C0 J0 HO) as D.
      rewrite drawvalue_last in D. pose proof (drawvalue_last epsilon true true base s b) as L. destruct (drawvalue epsilon true true base s b) as [items s']. cbn [fst snd] in *. apply part_ok_app.
      apply part_ok_impl with (2 := D). intros st1 H1. subst s'. apply IH; [intros; apply CB; right; assumption| | |exact H1]; destruct b as [[[vmin vmax] v]|]; cbn in *; tauto. }
  apply (G None (None, false)); [exact Logic.I|exact J|]. intros X. discriminate.
Qed.
Print Assumptions filled_steps_closed.
(** the steps of two bars of which the second exceeds the graph at two sides; the path goes along the boundary and back to the base *)
Example filled_steps_ex : histogram_path 0.01 true true (Some 0) [Some (0, 0.5, 0.25); Some (0.5, 2, 3)] =
  [HMove (0, 0); HEl (0, 0) (0, 0.25); HEl (0, 0.25) (0.5, 0.25); HEl (0.5, 0.25) (0.5, 1); HEl (0.5, 1) (1, 1); HEl (1, 1) (1, 0)].
Proof.
  unfold histogram_path, hist_from, cutat. lc. cbn [andb negb drawvalues drawvalue fst]. unfold vmoveto, vposline, vvalueline, near, cutat.
  replace (0.5 - 0.5) with 0 by lra. rewrite Rabs_R0. lc. cbn [andb negb orb iscut notsame app]. lc. cbn [andb negb orb iscut notsame app]. reflexivity.
Qed.
(** a gap between two bars *)
Example histogram_connected_ex : histogram_path 0.01 false true (Some 0) [Some (0, 0.25, 0.5); Some (0.5, 1, 0.75)] =
  [HMove (0, 0); HEl (0, 0) (0, 0.5); HEl (0, 0.5) (0.25, 0.5); HEl (0.25, 0.5) (0.25, 0); HMove (0.5, 0.75); HMove (0.5, 0); HEl (0.5, 0) (0.5, 0.75); HEl (0.5, 0.75) (1, 0.75); HEl (1, 0.75) (1, 0)].
Proof.
  unfold histogram_path, hist_from, cutat. lc. cbn [andb negb drawvalues drawvalue fst]. unfold vmoveto, vposline, vvalueline, near, cutat.
  rewrite (Rabs_pos_eq (0.5 - 0.25)) by lra. lc. cbn [andb negb orb iscut notsame app]. rewrite !orb_true_r. lc. cbn [andb negb orb iscut notsame app]. reflexivity.
Qed.
