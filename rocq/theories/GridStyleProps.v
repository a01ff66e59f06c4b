(** The lines of the grid style *)
From Coq Require Import Reals Bool List Arith Lia Permutation Sorted Lra.
From Verif Require Import GraphLineModel GraphLineProps GridModel GridProps2 GridStyleModel.
Import ListNotations.
Open Scope R_scope.

Section Regular.
  Variable C : Type.
  Notation point := (point vpos C).
  Notation at_ := (coords vpos C).
  Notation pos_ := (content vpos C).

  (** the coordinates of two points are the same or differ by more than epsilon *)
  Definition regular (epsilon : R) (ps : list point) : Prop := forall p q x y x' y', In p ps -> In q ps ->
    at_ p = Some (x, y) -> at_ q = Some (x', y') ->
    (x = x' \/ epsilon < Rabs (x - x')) /\ (y = y' \/ epsilon < Rabs (y - y')).
  (** the position of the last point at a place of the grid, None if there is none *)
  Definition cell (ps : list point) (a b : R) (o : option vpos) : Prop :=
    match o with
    | None => forall q, In q ps -> at_ q <> Some (a, b)
    | Some v => exists ps1 p ps2, ps = ps1 ++ p :: ps2 /\ at_ p = Some (a, b) /\ pos_ p = v /\ forall q, In q ps2 -> at_ q <> Some (a, b)
    end.
  (** the coordinates of the points, in order *)
  Definition coordinates (f : R * R -> R) (ps : list point) (vs : list R) : Prop :=
    NoDup vs /\ StronglySorted Rle vs /\ forall a, In a vs <-> exists p k, In p ps /\ at_ p = Some k /\ f k = a.
  (** the lines between successive positions, as far as they are in the graph *)
  Definition clipped_lines {P} (f : vpos -> P) (l : list (option vpos)) (path : list (item P)) : Prop :=
    exists cuts, Forall2 (fun pq c => clip (fst pq) (snd pq) c) (pairs None l) cuts /\
      path = flat_map draw (map (map f) (lines None [] l cuts)).

  Lemma eqR_true a b : eqR a b = true <-> a = b.
  Proof. unfold eqR. destruct (Req_EM_T a b); split; congruence. Qed.

  Lemma snap_regular e vs v : (forall h, In h vs -> h = v \/ e < Rabs (h - v)) -> 0 <= e ->
    (In v vs /\ snap e vs v = (v, vs)) \/ (~ In v vs /\ snap e vs v = (v, vs ++ [v])).
  Proof.
    intros H E. unfold snap. destruct (existsb (fun h => eqR h v) vs) eqn:X.
    - left. split; [|reflexivity]. apply existsb_exists in X as (h & Hh & X). apply eqR_true in X. now subst.
    - assert (N : ~ In v vs).
      { intro I. assert (existsb (fun h => eqR h v) vs = true) by (apply existsb_exists; exists v; split; [exact I|now apply eqR_true]). congruence. }
      right. split; [exact N|].
      destruct (find _ vs) as [h|] eqn:F; [|reflexivity].
      apply find_some in F as [Hh F]. exfalso. destruct (H h Hh) as [->|L]; [now apply N|].
      apply andb_true_iff in F as [A B]. unfold leb in A, B.
      destruct (Rle_dec (h - e) v); [|discriminate]. destruct (Rle_dec v (h + e)); [|discriminate].
      unfold Rabs in L. destruct (Rcase_abs (h - v)); lra.
  Qed.

  Lemma NoDup_snoc (vs : list R) v : NoDup vs -> ~ In v vs -> NoDup (vs ++ [v]).
  Proof. intros H N. apply (Permutation_NoDup (Permutation_cons_append vs v)). now constructor. Qed.

  Lemma gather_regular e ps : 0 <= e -> regular e ps ->
    let g := gather C e ps in
    (NoDup (values1 vpos g) /\ forall a, In a (values1 vpos g) <-> exists p k, In p ps /\ at_ p = Some k /\ fst k = a) /\
    (NoDup (values2 vpos g) /\ forall b, In b (values2 vpos g) <-> exists p k, In p ps /\ at_ p = Some k /\ snd k = b) /\
    forall a b, cell ps a b (lookup (a, b) (data12 vpos g)).
  Proof.
    intros E. induction ps as [|p ps IHp] using rev_ind; intro Hr; cbv zeta.
    - cbn. repeat split; try constructor; try contradiction; try (intros (p & k & [] & _)).
    - assert (Hr' : regular e ps).
      { intros q q' x y x' y' I I'. apply Hr; apply in_or_app; now left. }
      specialize (IHp Hr'). cbv zeta in IHp. destruct IHp as ((D1 & I1) & (D2 & I2) & K).
      assert (G : gather C e (ps ++ [p]) = grid_point vpos C e (gather C e ps) p) by (unfold gather; now rewrite fold_left_app).
      rewrite G. clear G. set (g := gather C e ps) in *.
      unfold grid_point. destruct (at_ p) as [[x y]|] eqn:A.
      + assert (H1 : forall h, In h (values1 vpos g) -> h = x \/ e < Rabs (h - x)).
        { intros h Hh. apply I1 in Hh as (q & [x' y'] & Q & B & <-). cbn [fst].
          apply (Hr q p x' y' x y); [apply in_or_app; now left|apply in_or_app; right; now left|exact B|exact A]. }
        assert (H2 : forall h, In h (values2 vpos g) -> h = y \/ e < Rabs (h - y)).
        { intros h Hh. apply I2 in Hh as (q & [x' y'] & Q & B & <-). cbn [snd].
          apply (Hr q p x' y' x y); [apply in_or_app; now left|apply in_or_app; right; now left|exact B|exact A]. }
        assert (V1 : exists vs, snap e (values1 vpos g) x = (x, vs) /\ NoDup vs /\ forall a, In a vs <-> In a (values1 vpos g) \/ a = x).
        { destruct (snap_regular e _ _ H1 E) as [[I S1]|[N S1]]; rewrite S1; eexists; (split; [reflexivity|]).
          - split; [exact D1|]. intro a. split; [now left|]. intros [?| ->]; assumption.
          - split; [now apply NoDup_snoc|]. intro a. rewrite in_app_iff. cbn. split; intros [?|?]; auto; destruct H; auto; contradiction. }
        assert (V2 : exists vs, snap e (values2 vpos g) y = (y, vs) /\ NoDup vs /\ forall a, In a vs <-> In a (values2 vpos g) \/ a = y).
        { destruct (snap_regular e _ _ H2 E) as [[I S1]|[N S1]]; rewrite S1; eexists; (split; [reflexivity|]).
          - split; [exact D2|]. intro a. split; [now left|]. intros [?| ->]; assumption.
          - split; [now apply NoDup_snoc|]. intro a. rewrite in_app_iff. cbn. split; intros [?|?]; auto; destruct H; auto; contradiction. }
        destruct V1 as (vs1 & -> & N1 & J1), V2 as (vs2 & -> & N2 & J2). cbn [values1 values2 data12].
        split; [split; [exact N1|]|split; [split; [exact N2|]|]].
        * intro a. rewrite J1, I1. split.
          -- intros [(q & k & Q & B)| ->]; [exists q, k; split; [apply in_or_app; now left|exact B]|].
             exists p, (x, y). split; [apply in_or_app; right; now left|now split].
          -- intros (q & k & Q & B & F). apply in_app_or in Q as [Q|[<-|[]]]; [left; now exists q, k|].
             right. rewrite A in B. injection B as <-. now cbn in F.
        * intro a. rewrite J2, I2. split.
          -- intros [(q & k & Q & B)| ->]; [exists q, k; split; [apply in_or_app; now left|exact B]|].
             exists p, (x, y). split; [apply in_or_app; right; now left|now split].
          -- intros (q & k & Q & B & F). apply in_app_or in Q as [Q|[<-|[]]]; [left; now exists q, k|].
             right. rewrite A in B. injection B as <-. now cbn in F.
        * intros a b. specialize (K a b). unfold lookup in *. cbn [find fst snd].
          destruct (eqR x a) eqn:X; [destruct (eqR y b) eqn:Y|]; cbn [andb].
          -- apply eqR_true in X, Y. subst. cbn [cell snd]. exists ps, p, []. repeat split; try assumption. intros q [].
          -- assert (at_ p <> Some (a, b)).
             { rewrite A. intro F. injection F as _ F. apply eqR_true in F. congruence. }
             destruct (find _ (data12 vpos g)) as [en|]; cbn [cell] in *.
             ++ destruct K as (ps1 & q & ps2 & -> & B & B' & L). exists ps1, q, (ps2 ++ [p]). rewrite <- app_assoc. split; [reflexivity|].
                split; [exact B|]. split; [exact B'|]. intros q' Q. apply in_app_or in Q as [Q|[<-|[]]]; [now apply L|assumption].
             ++ intros q Q. apply in_app_or in Q as [Q|[<-|[]]]; [now apply K|assumption].
          -- assert (at_ p <> Some (a, b)).
             { rewrite A. intro F. injection F as F _. apply eqR_true in F. congruence. }
             destruct (find _ (data12 vpos g)) as [en|]; cbn [cell] in *.
             ++ destruct K as (ps1 & q & ps2 & -> & B & B' & L). exists ps1, q, (ps2 ++ [p]). rewrite <- app_assoc. split; [reflexivity|].
                split; [exact B|]. split; [exact B'|]. intros q' Q. apply in_app_or in Q as [Q|[<-|[]]]; [now apply L|assumption].
             ++ intros q Q. apply in_app_or in Q as [Q|[<-|[]]]; [now apply K|assumption].
      + split; [split; [exact D1|]|split; [split; [exact D2|]|]].
        * intro a. rewrite I1. split; intros (q & k & Q & B).
          -- exists q, k. split; [apply in_or_app; now left|exact B].
          -- apply in_app_or in Q as [Q|[<-|[]]]; [now exists q, k|]. destruct B. congruence.
        * intro a. rewrite I2. split; intros (q & k & Q & B).
          -- exists q, k. split; [apply in_or_app; now left|exact B].
          -- apply in_app_or in Q as [Q|[<-|[]]]; [now exists q, k|]. destruct B. congruence.
        * intros a b. specialize (K a b). destruct (lookup (a, b) (data12 vpos g)) as [v|]; cbn [cell] in *.
          -- destruct K as (ps1 & q & ps2 & -> & B & B' & L). exists ps1, q, (ps2 ++ [p]). rewrite <- app_assoc. split; [reflexivity|].
             split; [exact B|]. split; [exact B'|]. intros q' Q. apply in_app_or in Q as [Q|[<-|[]]]; [now apply L|congruence].
          -- intros q Q. apply in_app_or in Q as [Q|[<-|[]]]; [now apply K|congruence].
  Qed.

  Lemma sorted_coordinates f ps vs : NoDup vs -> (forall a, In a vs <-> exists p k, In p ps /\ at_ p = Some k /\ f k = a) ->
    coordinates f ps (sorted vs).
  Proof.
    intros N H. destruct (grid_sorted vs) as [Pm So]. split; [exact (Permutation_NoDup (Permutation_sym Pm) N)|]. split; [exact So|].
    intro a. rewrite <- H. split; apply Permutation_in; [exact Pm|apply Permutation_sym; exact Pm].
  Qed.

  (** a row of the columns for a position *)
  Definition columns_of (n : nat) (o : option vpos) : list (option R) := match o with Some v => map Some v | None => repeat None n end.
  Lemma available_columns n o : (1 <= n)%nat -> available (columns_of n o) = o.
  Proof.
    intro N. destruct o as [v|]; cbn [columns_of].
    - unfold available. induction v as [|c v IHv]; [reflexivity|]. cbn. now rewrite IHv.
    - destruct n; [lia|reflexivity].
  Qed.

  Lemma grid_line_clipped P (f : vpos -> P) e n g keys : 0 <= e -> (1 <= n)%nat ->
    (forall k v, lookup k (data12 vpos g) = Some v -> length v = n /\ clear_ e v) ->
    clipped_lines f (map (fun k => lookup k (data12 vpos g)) keys) (grid_line P f e g keys).
  Proof.
    intros E N H. set (l := map (fun k => lookup k (data12 vpos g)) keys).
    assert (M : map available (map (columns_of n) l) = l).
    { rewrite map_map. rewrite <- (map_id l) at 2. apply map_ext. intro o. now apply available_columns. }
    destruct (line_is_clipped P f e n (map (columns_of n) l) E) as (cuts & F & L).
    - apply Forall_map. apply Forall_forall. intros o Ho. destruct o as [v|]; cbn [columns_of]; [|apply repeat_length].
      rewrite map_length. apply in_map_iff in Ho as (k & Hk & _). now apply (H k).
    - apply Forall_map. apply Forall_forall. intros o Ho. rewrite (available_columns n o N). destruct o as [v|]; [|exact I].
      apply in_map_iff in Ho as (k & Hk & _). now apply (H k).
    - cbv zeta in F, L. rewrite M in F, L. exists cuts. split; [exact F|]. rewrite <- L.
      unfold grid_line, line. f_equal. unfold l. rewrite !map_map. clear - N.
      generalize (initpointstopath P). induction keys as [|k keys IHk]; intro d; [reflexivity|]. cbn [map fold_left].
      rewrite (available_columns n _ N). apply IHk.
  Qed.

  Lemma Forall2_map_r {A B D} (R0 : A -> D -> Prop) (h : B -> D) (l : list A) (m : list B) :
    Forall2 (fun a b => R0 a (h b)) l m -> Forall2 R0 l (map h m).
  Proof. induction 1; constructor; auto. Qed.
  Lemma Forall2_self {A B} (R0 : A -> B -> Prop) (h : A -> B) (l : list A) : (forall a, In a l -> R0 a (h a)) -> Forall2 R0 l (map h l).
  Proof. induction l as [|a l IHl]; intro H; constructor; [apply H; now left|]. apply IHl. intros b Hb. apply H. now right. Qed.

  (** C176: for points on a regular grid in any order the style strokes, for each second coordinate, the lines between the points along the first coordinate,
      and for each first coordinate the lines along the second one, each in increasing order, clipped to the graph, and interrupted where there is no point;
      the last point at a place counts, and paths without lines are left out *)
  Theorem grid_style_lines : forall P (f : vpos -> P) e n g1 g2 (ps : list point), 0 <= e -> (1 <= n)%nat -> regular e ps ->
    (forall p k, In p ps -> at_ p = Some k -> length (pos_ p) = n /\ clear_ e (pos_ p)) ->
    exists vs1 vs2 rows cols,
      coordinates fst ps vs1 /\ coordinates snd ps vs2 /\
      Forall2 (fun b path => exists l, Forall2 (fun a o => cell ps a b o) vs1 l /\ clipped_lines f l path) vs2 rows /\
      Forall2 (fun a path => exists l, Forall2 (fun b o => cell ps a b o) vs2 l /\ clipped_lines f l path) vs1 cols /\
      grid_draw P C f e g1 g2 true ps =
        Some (filter (fun p => match p with [] => false | _ => true end) ((if g1 then rows else []) ++ (if g2 then cols else []))).
  Proof.
    intros P f e n g1 g2 ps E N Hr Hf.
    destruct (gather_regular e ps E Hr) as ((D1 & I1) & (D2 & I2) & K).
    set (g := gather C e ps) in *.
    assert (L : forall k v, lookup k (data12 vpos g) = Some v -> length v = n /\ clear_ e v).
    { intros [a b] v H. specialize (K a b). rewrite H in K. cbn [cell] in K. destruct K as (ps1 & p & ps2 & -> & A & <- & _).
      apply (Hf p (a, b)); [|exact A]. apply in_or_app. right. now left. }
    exists (sorted (values1 vpos g)), (sorted (values2 vpos g)).
    exists (map (fun v2 => grid_line P f e g (map (fun v1 => (v1, v2)) (sorted (values1 vpos g)))) (sorted (values2 vpos g))).
    exists (map (fun v1 => grid_line P f e g (map (fun v2 => (v1, v2)) (sorted (values2 vpos g)))) (sorted (values1 vpos g))).
    split; [now apply sorted_coordinates|]. split; [now apply sorted_coordinates|].
    split; [|split].
    - apply Forall2_self. intros b _. eexists. split; [|apply (grid_line_clipped P f e n g _ E N L)].
      rewrite map_map. apply Forall2_self. intros a _. apply K.
    - apply Forall2_self. intros a _. eexists. split; [|apply (grid_line_clipped P f e n g _ E N L)].
      rewrite map_map. apply Forall2_self. intros b _. apply K.
    - unfold grid_draw. fold g. change (nonempty P) with (fun p : list (item P) => match p with [] => false | _ => true end).
      now destruct (filter _ _).
  Qed.

  (** C176: attributes None, which suppress the drawing for other styles, make the style fail whenever there is a line to be drawn *)
  Theorem grid_no_attrs_refuted : forall P (f : vpos -> P) e g1 g2 (ps : list point),
    (grid_draw P C f e g1 g2 true ps = Some [] -> grid_draw P C f e g1 g2 false ps = Some []) /\
    (forall p l, grid_draw P C f e g1 g2 true ps = Some (p :: l) -> grid_draw P C f e g1 g2 false ps = None).
  Proof.
    intros P f e g1 g2 ps. unfold grid_draw. destruct (filter _ _); split; intros; congruence.
  Qed.
End Regular.
Print Assumptions grid_style_lines.
Print Assumptions grid_no_attrs_refuted.

(** three corners of the graph: two lines are drawn, the other row and column have a single point *)
Definition corner (x y : R) : point vpos unit := mkpoint vpos unit (Some (x, y)) [x; y] tt.
Ltac to_bool t u := first [replace t with true by (symmetry; u) | replace t with false by (symmetry; u)].
Ltac solve_dec := unfold differs, eqR, leb, GraphLineModel.ltb, Graph3dModel.ltb;
  repeat match goal with |- context [if ?d then _ else _] => destruct d end; first [reflexivity | exfalso; unfold Rabs in *; repeat (destruct (Rcase_abs _)); lra].
Ltac decide_all := repeat (cbn -[Rabs eqR leb GraphLineModel.ltb Graph3dModel.ltb differs]; match goal with
  | |- context [eqR ?a ?b] => to_bool (eqR a b) ltac:(solve_dec)
  | |- context [leb ?a ?b] => to_bool (leb a b) ltac:(solve_dec)
  | |- context [differs ?a ?b ?c] => to_bool (differs a b c) ltac:(solve_dec)
  | |- context [GraphLineModel.ltb ?a ?b] => to_bool (GraphLineModel.ltb a b) ltac:(solve_dec)
  | |- context [Graph3dModel.ltb ?a ?b] => to_bool (Graph3dModel.ltb a b) ltac:(solve_dec)
  end).
Example corners : regular unit (/ 10) [corner 0 1; corner 1 0; corner 0 0] /\
  exists p q r s, grid_draw vpos unit (fun v => v) (/ 10) true true true [corner 0 1; corner 1 0; corner 0 0] =
    Some [[MoveTo p; LineTo q]; [MoveTo r; LineTo s]] /\ p = [0; 0] /\ q = [1; 0] /\ r = [0; 0] /\ s = [0; 1].
Proof.
  split.
  - intros p q x y x' y' Hp Hq A B. cbn in Hp, Hq.
    repeat match goal with H : _ \/ _ |- _ => destruct H | H : False |- _ => destruct H end; subst; cbn in A, B; injection A as <- <-; injection B as <- <-;
      split; unfold Rabs; repeat (destruct (Rcase_abs _)); first [left; lra | right; lra].
  - set (g := mkgrid vpos [0; 1] [1; 0] [((0, 0), [0; 0]); ((1, 0), [1; 0]); ((0, 1), [0; 1])] (Some (0, 0))).
    assert (G : gather unit (/ 10) [corner 0 1; corner 1 0; corner 0 0] = g).
    { unfold g, gather, corner, grid_point, snap, new_grid. decide_all. reflexivity. }
    assert (A : exists p, grid_line vpos (fun v => v) (/ 10) g [(0, 0); (1, 0)] = [MoveTo p; LineTo [1; 0]] /\ p = [0; 0]).
    { eexists. split; [unfold g, grid_line, lookup, addpoint, valid, cutbeginning; decide_all; reflexivity|]. unfold newcut, larger. decide_all. repeat destruct (differs _ _ _). all: f_equal; [ring|f_equal; ring]. }
    assert (B : exists p, grid_line vpos (fun v => v) (/ 10) g [(0, 0); (0, 1)] = [MoveTo p; LineTo [0; 1]] /\ p = [0; 0]).
    { eexists. split; [unfold g, grid_line, lookup, addpoint, valid, cutbeginning; decide_all; reflexivity|]. unfold newcut, larger. decide_all. repeat destruct (differs _ _ _). all: f_equal; [ring|f_equal; ring]. }
    assert (A' : grid_line vpos (fun v => v) (/ 10) g [(0, 1); (1, 1)] = []) by (unfold g, grid_line, lookup, addpoint, valid, cutbeginning; decide_all; reflexivity).
    assert (B' : grid_line vpos (fun v => v) (/ 10) g [(1, 0); (1, 1)] = []) by (unfold g, grid_line, lookup, addpoint, valid, cutbeginning; decide_all; reflexivity).
    assert (S1 : sorted (values1 vpos g) = [0; 1]) by (unfold g, sorted; decide_all; reflexivity).
    assert (S2 : sorted (values2 vpos g) = [0; 1]) by (unfold g, sorted; decide_all; reflexivity).
    destruct A as (p & A & Hp), B as (r & B & Hr). exists p, [1; 0], r, [0; 1]. split; [|auto].
    unfold grid_draw. rewrite G, S1, S2. cbn [map]. rewrite A, B, A', B'. reflexivity.
Qed.
