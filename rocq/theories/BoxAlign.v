(** C82: alignment of convex polygons at lines *)
From Coq Require Import Reals List Bool Arith Lra Lia Psatz.
From Verif Require Import BoxModel.
Import ListNotations.
Open Scope R_scope.

(** ** specification *)
Definition next (n k : nat) : nat := ((k + 1) mod n)%nat.
(** the corners turn counterclockwise, every other corner is strictly to the left of an edge *)
Definition convex (l : list point) : Prop := (3 <= length l)%nat /\
  forall i j, (i < length l)%nat -> (j < length l)%nat -> j <> i -> j <> next (length l) i ->
  let a := corner l i in let b := corner l (next (length l) i) in let p := corner l j in
  0 < (px b - px a) * (py p - py a) - (py b - py a) * (px p - px a).
(** the position of a point along a direction *)
Definition height (dx dy : R) (p : point) : R := (px p * dx + py p * dy) / sqrt (dx * dx + dy * dy).
Definition sideways (dx dy : R) (p : point) : R := (py p * dx - px p * dy) / sqrt (dx * dx + dy * dy).
(** no edge is too short, and none is parallel or orthogonal to the direction only within 1e-10 *)
Definition distinct (l : list point) (dx dy : R) : Prop := forall i, (i < length l)%nat ->
  let e := corner l i in let f := corner l (next (length l) i) in
  / 10 ^ 10 <= (px e - px f) ^ 2 + (py e - py f) ^ 2 /\
  (height dx dy e - height dx dy f = 0 \/ / 10 ^ 10 < Rabs (height dx dy e - height dx dy f)) /\
  ~ (- / 10 ^ 10 <= sideways dx dy e - sideways dx dy f < 0).

Lemma ltb_true a b : ltb a b = true <-> a < b.
Proof. unfold ltb. destruct (Rlt_dec a b); split; auto; discriminate. Qed.
Lemma ltb_false a b : ltb a b = false <-> b <= a.
Proof. unfold ltb. destruct (Rlt_dec a b); split; intros; auto; try discriminate; lra. Qed.
Lemma ltb_case a b : (a < b /\ ltb a b = true) \/ (b <= a /\ ltb a b = false).
Proof. unfold ltb. destruct (Rlt_dec a b); [left|right]; split; auto; lra. Qed.
Lemma eps_pos : 0 < eps. Proof. unfold eps. apply Rinv_0_lt_compat. lra. Qed.

Lemma nth_map {A B} (f : A -> B) l k d d' : (k < length l)%nat -> nth k (map f l) d = f (nth k l d').
Proof. intros K. rewrite nth_indep with (d' := f d') by (now rewrite map_length). apply map_nth. Qed.
(** ** the geometry, with a direction (dx, dy) of length one *)
Section DIR.
Variables dx dy : R.
Hypothesis D : dx * dx + dy * dy = 1.
Definition h (p : point) : R := px p * dx + py p * dy.
Definition sw (p : point) : R := py p * dx - px p * dy.
Definition pcross (a b p : point) : R := (px b - px a) * (py p - py a) - (py b - py a) * (px p - px a).
(** cross products in the coordinates along and across the direction *)
Lemma pcross_hs a b p : pcross a b p = (h b - h a) * (sw p - sw a) - (sw b - sw a) * (h p - h a).
Proof.
  unfold pcross, h, sw. replace ((px b - px a) * (py p - py a) - (py b - py a) * (px p - px a)) with (((px b - px a) * (py p - py a) - (py b - py a) * (px p - px a)) * (dx * dx + dy * dy)) by (rewrite D; ring). ring.
Qed.
(** what the result for an edge says *)
Definition good_edge (e f : point) : Prop :=
  eps <= (px e - px f) ^ 2 + (py e - py f) ^ 2 /\ (h e - h f = 0 \/ eps < Rabs (h e - h f)) /\ ~ (- eps <= sw e - sw f < 0).
Lemma line_result c a e f : good_edge e f ->
  match linealignline c a dx dy e f with
  | Nothing => sw e - sw f < 0
  | UseE => 0 <= sw e - sw f /\ h e <= h f
  | UseF => 0 <= sw e - sw f /\ h f <= h e
  | Vector v => 0 < sw e - sw f /\ h e = h f /\ v = ((a + h c - h e) * dx, (a + h c - h e) * dy)
  end /\ (h e < h f -> linealignline c a dx dy e f = UseE \/ linealignline c a dx dy e f = Nothing) /\ (h f < h e -> linealignline c a dx dy e f = UseF \/ linealignline c a dx dy e f = Nothing)
  /\ (0 <= sw e - sw f -> linealignline c a dx dy e f <> Nothing).
Proof.
  intros (G1 & G2 & G3). pose proof eps_pos as PE. unfold linealignline.
  assert ((px e - px f) * (px e - px f) + (py e - py f) * (py e - py f) = (px e - px f) ^ 2 + (py e - py f) ^ 2) as -> by ring.
  destruct (ltb_case ((px e - px f) ^ 2 + (py e - py f) ^ 2) eps) as [[L _]|[_ ->]]; [lra|].
  assert ((py e - py f) * dx - (px e - px f) * dy = sw e - sw f) as -> by (unfold sw; ring).
  assert (dx * (px e - px f) + dy * (py e - py f) = h e - h f) as -> by (unfold h; ring).
  destruct (ltb_case (sw e - sw f) (- eps)) as [[L ->]|[L ->]].
  { split; [lra|]. split; [auto|]. split; [auto|]. intros; lra. }
  assert (0 <= sw e - sw f) as NN.
  { destruct (Rle_dec 0 (sw e - sw f)); auto. exfalso. apply G3. lra. }
  destruct (ltb_case eps (h e - h f)) as [[L1 ->]|[L1 ->]]; cbn [orb].
  { destruct (ltb_case (h e - h f) 0) as [[L2 _]|[_ ->]]; [lra|]. repeat split; auto; try lra; discriminate. }
  destruct (ltb_case (h e - h f) (- eps)) as [[L2 ->]|[L2 ->]]; cbn [orb].
  { destruct (ltb_case (h e - h f) 0) as [[_ ->]|[L3 _]]; [|lra]. repeat split; auto; try lra; discriminate. }
  assert (h e - h f = 0) as Z.
  { destruct G2 as [G2|G2]; auto. unfold Rabs in G2. destruct (Rcase_abs (h e - h f)); lra. }
  assert ((px e - px f) ^ 2 + (py e - py f) ^ 2 = (h e - h f) ^ 2 + (sw e - sw f) ^ 2) as PY.
  { unfold h, sw. replace ((px e - px f) ^ 2 + (py e - py f) ^ 2) with (((px e - px f) ^ 2 + (py e - py f) ^ 2) * (dx * dx + dy * dy)) by (rewrite D; ring). ring. }
  assert (0 < sw e - sw f) as P. { destruct (Req_dec (sw e - sw f) 0) as [Q|Q]; [|lra]. rewrite Z, Q in PY. lra. }
  destruct (ltb (0 - eps) _ && ltb _ (1 + eps)).
  - split; [|repeat split; try lra; discriminate]. split; auto. split; [lra|].
    assert (py e - py f = (sw e - sw f) * dx) as Eg.
    { unfold sw. replace ((py e * dx - px e * dy - (py f * dx - px f * dy)) * dx) with ((py e - py f) * (dx * dx + dy * dy) - (h e - h f) * dy) by (unfold h; ring). rewrite D, Z. ring. }
    assert (px e - px f = - (sw e - sw f) * dy) as Ex.
    { unfold sw. replace (- (py e * dx - px e * dy - (py f * dx - px f * dy)) * dy) with ((px e - px f) * (dx * dx + dy * dy) - (h e - h f) * dx) by (unfold h; ring). rewrite D, Z. ring. }
    rewrite Eg, Ex. set (k := sw e - sw f) in *. clearbody k.
    assert (((px e - a * dx - px c) * (k * dx) - (py e - a * dy - py c) * (- k * dy)) * 1 / (- k * dy * dy - k * dx * dx) = a + h c - h e) as ->; [|reflexivity].
    replace (- k * dy * dy - k * dx * dx) with (- k * (dx * dx + dy * dy)) by ring. rewrite D.
    apply Rmult_eq_reg_r with (- k); [|lra].
    replace (((px e - a * dx - px c) * (k * dx) - (py e - a * dy - py c) * (- k * dy)) * 1 / (- k * 1) * - k) with ((px e - a * dx - px c) * (k * dx) - (py e - a * dy - py c) * (- k * dy)) by (field; lra).
    unfold h. replace ((a + (px c * dx + py c * dy) - (px e * dx + py e * dy)) * - k) with ((- a * k) * 1 + (px e * dx + py e * dy - (px c * dx + py c * dy)) * k) by ring. rewrite <- D. ring.
  - destruct (ltb _ 0); repeat split; auto; try lra; discriminate.
Qed.
Lemma point_result c a p : linealignpoint c a dx dy p = ((a + h c - h p) * dx, (a + h c - h p) * dy).
Proof.
  unfold linealignpoint, h. f_equal.
  - replace (a * dx - ((a * dx + px c - px p) * dy - (a * dy + py c - py p) * dx) * dy - px p + px c) with (a * dx + (px c - px p) * (1 - dy * dy) + (py c - py p) * dx * dy) by ring.
    replace (1 - dy * dy) with (dx * dx) by lra. ring.
  - replace (a * dy + ((a * dx + px c - px p) * dy - (a * dy + py c - py p) * dx) * dx - py p + py c) with (a * dy + (py c - py p) * (1 - dx * dx) + (px c - px p) * dx * dy) by ring.
    replace (1 - dx * dx) with (dy * dy) by lra. ring.
Qed.
(** ** the search *)
Variable l : list point.
Hypothesis CX : convex l.
Hypothesis GE : forall i, (i < length l)%nat -> good_edge (corner l i) (corner l (next (length l) i)).
Variable c : point.
Variable a : R.
Notation n := (length l).
Definition pred_ (k : nat) : nat := if Nat.eqb k 0 then (n - 1)%nat else (k - 1)%nat.
Lemma n_pos : (3 <= n)%nat. Proof. apply CX. Qed.
Lemma next_lt k : (next n k < n)%nat. Proof. pose proof n_pos. unfold next. apply Nat.mod_upper_bound. lia. Qed.
Lemma next_cases k : (k < n)%nat -> (k + 1 < n /\ next n k = k + 1)%nat \/ (k + 1 = n /\ next n k = 0)%nat.
Proof. intros K. unfold next. destruct (Nat.eq_dec (k + 1) n) as [E|E]; [right|left]; split; auto; try lia; [rewrite E; apply Nat.mod_same; lia|apply Nat.mod_small; lia]. Qed.
Lemma pred_lt k : (k < n)%nat -> (pred_ k < n)%nat. Proof. pose proof n_pos. unfold pred_. destruct (Nat.eqb_spec k 0); lia. Qed.
Lemma pred_cases k : (k = 0 /\ pred_ k = n - 1)%nat \/ (0 < k /\ pred_ k = k - 1)%nat.
Proof. unfold pred_. destruct (Nat.eqb_spec k 0); [left|right]; lia. Qed.
Lemma next_pred k : (k < n)%nat -> next n (pred_ k) = k.
Proof. intros K. pose proof n_pos. destruct (next_cases (pred_ k) (pred_lt k K)) as [[A B]|[A B]]; rewrite B; unfold pred_ in *; destruct (Nat.eqb_spec k 0); lia. Qed.
Lemma pred_next k : (k < n)%nat -> pred_ (next n k) = k.
Proof. intros K. pose proof n_pos. destruct (next_cases k K) as [[A B]|[A B]]; rewrite B; unfold pred_; [destruct (Nat.eqb_spec (k + 1) 0)|cbn]; lia. Qed.

Definition lv (k : nat) : align := linealignline c a dx dy (corner l (pred_ k)) (corner l k).
Definition lvs : list align := map (fun ps => linealignline c a dx dy (fst ps) (snd ps)) (successivepoints l).
Lemma numbers_nth k : (k < n)%nat -> nth k (successivepointnumbers n) (0, 0)%nat = (pred_ k, k).
Proof.
  intros K. unfold successivepointnumbers. rewrite nth_map with (d' := 0%nat) by (now rewrite seq_length).
  rewrite seq_nth by auto. cbn [Nat.add]. unfold pred_. destruct (Nat.eqb_spec k 0) as [E|E]; [now rewrite E|auto].
Qed.
Lemma sp_nth k d : (k < n)%nat -> nth k (successivepoints l) d = (corner l (pred_ k), corner l k).
Proof.
  intros K. unfold successivepoints. assert (length (successivepointnumbers n) = n) as LN by (unfold successivepointnumbers; now rewrite map_length, seq_length).
  rewrite nth_map with (d' := (0, 0)%nat) by lia. rewrite numbers_nth by auto. reflexivity.
Qed.
Lemma lvs_nth k : (k < n)%nat -> nth k lvs Nothing = lv k.
Proof.
  intros K. unfold lvs. assert (length (successivepoints l) = n) as LN by (unfold successivepoints, successivepointnumbers; now rewrite !map_length, seq_length).
  rewrite (nth_map (fun ps : point * point => linealignline c a dx dy (fst ps) (snd ps)) (successivepoints l) k Nothing ((0, 0), (0, 0))) by (rewrite LN; exact K). rewrite sp_nth by auto. reflexivity.
Qed.
Lemma lvs_length : length lvs = n.
Proof. unfold lvs, successivepoints, successivepointnumbers. now rewrite !map_length, seq_length. Qed.
Lemma edge_result k : (k < n)%nat -> let e := corner l (pred_ k) in let f := corner l k in
  match lv k with
  | Nothing => sw e - sw f < 0
  | UseE => 0 <= sw e - sw f /\ h e <= h f
  | UseF => 0 <= sw e - sw f /\ h f <= h e
  | Vector v => 0 < sw e - sw f /\ h e = h f /\ v = ((a + h c - h e) * dx, (a + h c - h e) * dy)
  end /\ (h e < h f -> lv k = UseE \/ lv k = Nothing) /\ (h f < h e -> lv k = UseF \/ lv k = Nothing) /\ (0 <= sw e - sw f -> lv k <> Nothing).
Proof.
  intros K e f. apply line_result. subst e f. pose proof (GE (pred_ k) (pred_lt k K)) as G. now rewrite next_pred in G.
Qed.
(** all corners are on the left of an edge *)
Lemma left_of k j : (k < n)%nat -> (j < n)%nat -> 0 <= pcross (corner l (pred_ k)) (corner l k) (corner l j).
Proof.
  intros K J. destruct (Nat.eq_dec j (pred_ k)) as [->|N1]; [unfold pcross; lra|]. destruct (Nat.eq_dec j k) as [->|N2]; [unfold pcross; lra|].
  destruct CX as [_ H]. specialize (H (pred_ k) j (pred_lt k K) J N1). rewrite next_pred in H by auto. specialize (H N2). unfold pcross. cbv zeta in H. lra.
Qed.
Lemma strictly_left k j : (k < n)%nat -> (j < n)%nat -> j <> pred_ k -> j <> k -> 0 < pcross (corner l (pred_ k)) (corner l k) (corner l j).
Proof. intros K J N1 N2. destruct CX as [_ H]. specialize (H (pred_ k) j (pred_lt k K) J N1). rewrite next_pred in H by auto. specialize (H N2). exact H. Qed.
Definition lowest (p : point) : Prop := In p l /\ forall q, In q l -> h p <= h q.
Lemma in_corner q : In q l <-> exists j, (j < n)%nat /\ q = corner l j.
Proof.
  split; [intros I; destruct (In_nth l q (0, 0) I) as (j & J & E); exists j; auto|]. intros (j & J & ->). now apply nth_In.
Qed.
(** an edge across the direction in front of the polygon is lowest *)
Lemma front_edge k : (k < n)%nat -> 0 < sw (corner l (pred_ k)) - sw (corner l k) -> h (corner l (pred_ k)) = h (corner l k) -> lowest (corner l (pred_ k)).
Proof.
  intros K P E. split; [apply in_corner; exists (pred_ k); split; auto; now apply pred_lt|]. intros q I. apply in_corner in I as (j & J & ->).
  pose proof (left_of k j K J) as L. rewrite pcross_hs in L. rewrite <- E in L. set (x := h (corner l j) - h (corner l (pred_ k))) in *.
  replace ((h (corner l (pred_ k)) - h (corner l (pred_ k))) * (sw (corner l j) - sw (corner l (pred_ k))) - (sw (corner l k) - sw (corner l (pred_ k))) * x) with ((sw (corner l (pred_ k)) - sw (corner l k)) * x) in L by ring.
  assert (0 <= x); [|unfold x in *; lra]. destruct (Rle_dec 0 x) as [|Nx]; auto. exfalso. assert (0 < - x) as Px by lra.
  pose proof (Rmult_lt_0_compat _ _ P Px). lra.
Qed.
Definition cond (l1 l2 : align) : bool := (negb (is_nothing l1) || negb (is_nothing l2)) && (is_f l1 || is_nothing l1) && (is_e l2 || is_nothing l2).
(** a corner chosen by the search is lowest *)
Lemma chosen_lowest i : (i < n)%nat -> cond (lv i) (lv (next n i)) = true -> lowest (corner l i).
Proof.
  intros I C. pose proof (next_lt i) as J. set (j := next n i) in *.
  pose proof (edge_result i I) as R1. pose proof (edge_result j J) as R2. cbv zeta in R1, R2. replace (pred_ j) with i in R2 by (unfold j; now rewrite pred_next).
  set (P := corner l i) in *. set (A := corner l (pred_ i)) in *. set (B := corner l j) in *.
  assert (0 < pcross P B A) as X.
  { unfold P, B, A. assert (i = pred_ j) as E by (unfold j; now rewrite pred_next). rewrite E at 1. apply strictly_left; auto; [now apply pred_lt| |].
    - rewrite <- E. pose proof n_pos. unfold pred_. destruct (Nat.eqb_spec i 0); lia.
    - pose proof n_pos. unfold j. destruct (next_cases i I) as [[? ->]|[? ->]]; unfold pred_; destruct (Nat.eqb_spec i 0); lia. }
  rewrite pcross_hs in X.
  assert (h P <= h B /\ h P <= h A) as [HB HA].
  { unfold cond in C. rewrite !andb_true_iff in C. destruct C as [[C1 C2] C3].
    set (u1 := h B - h P) in X. set (u2 := sw B - sw P) in X. set (v1 := h A - h P) in X. set (v2 := sw A - sw P) in X.
    assert (forall x y, 0 <= x -> 0 <= y -> 0 <= x * y) as MP by (intros; now apply Rmult_le_pos).
    destruct (lv i) as [| | |v]; cbn in C2; try discriminate; destruct (lv j) as [| | |w]; cbn in C1, C3; try discriminate; destruct R1 as [R1 _]; destruct R2 as [R2 _].
    - (* nothing, e *) assert (0 <= u1) by (unfold u1; lra). assert (u2 <= 0) by (unfold u2; lra). assert (v2 < 0) by (unfold v2; lra). split; [unfold u1 in *; lra|].
      assert (0 < v1); [|unfold v1 in *; lra]. pose proof (MP u1 (- v2) ltac:(lra) ltac:(lra)). assert (0 < - u2 * v1) as Q by lra.
      destruct (Rlt_dec 0 v1) as [|NV]; auto. exfalso. pose proof (MP (- u2) (- v1) ltac:(lra) ltac:(lra)). lra.
    - (* f, nothing *) assert (0 <= v1) by (unfold v1; lra). assert (0 <= v2) by (unfold v2; lra). assert (0 < u2) by (unfold u2; lra). split; [|unfold v1 in *; lra].
      assert (0 < u1); [|unfold u1 in *; lra]. pose proof (MP u2 v1 ltac:(lra) ltac:(lra)). assert (0 < u1 * v2) as Q by lra.
      destruct (Rlt_dec 0 u1) as [|NU]; auto. exfalso. pose proof (MP (- u1) v2 ltac:(lra) ltac:(lra)). lra.
    - (* f, e *) lra. }
  split; [apply in_corner; exists i; auto|]. intros q Iq. apply in_corner in Iq as (k & K & ->). set (Q := corner l k).
  pose proof (left_of i k I K) as L1. pose proof (left_of j k J K) as L2. replace (pred_ j) with i in L2 by (unfold j; now rewrite pred_next). fold A P Q in L1. fold P B Q in L2.
  assert (pcross A P Q = pcross P Q A) as E1 by (unfold pcross; ring). rewrite E1 in L1. rewrite pcross_hs in L1, L2.
  set (u1 := h B - h P) in *. set (u2 := sw B - sw P) in *. set (v1 := h A - h P) in *. set (v2 := sw A - sw P) in *. set (w1 := h Q - h P) in *. set (w2 := sw Q - sw P) in *.
  assert ((u1 * v2 - u2 * v1) * w1 = (w1 * v2 - w2 * v1) * u1 + (u1 * w2 - u2 * w1) * v1) as EQ by ring.
  assert (0 <= u1) as U by (unfold u1; lra). assert (0 <= v1) as V by (unfold v1; lra).
  assert (0 <= w1); [|unfold w1 in *; lra]. destruct (Rle_dec 0 w1) as [|NW]; auto. exfalso.
  pose proof (Rmult_le_pos _ _ L1 U). pose proof (Rmult_le_pos _ _ L2 V). assert (0 < - w1) as PW by lra. pose proof (Rmult_lt_0_compat _ _ X PW). lra.
Qed.
Lemma exists_lowest : exists i, (i < n)%nat /\ lowest (corner l i).
Proof.
  assert (l <> []) as NE by (pose proof n_pos; destruct l; cbn in *; [lia|discriminate]). clear - NE.
  assert (exists p, In p l /\ forall q, In q l -> h p <= h q) as (p & I & M).
  { induction l as [|p r IH]; [congruence|]. destruct r as [|p' r].
    - exists p. split; [now left|]. intros q [->|[]]; lra.
    - destruct IH as (m & I & M); [discriminate|]. destruct (Rle_dec (h p) (h m)) as [L|L].
      + exists p. split; [now left|]. intros q [->|J]; [lra|]. specialize (M q J). lra.
      + exists m. split; [now right|]. intros q [->|J]; [lra|]. auto. }
  destruct (In_nth l p (0, 0) I) as (i & Hi & E). exists i. split; auto. unfold lowest, corner. rewrite E. auto.
Qed.
(** the search finds something *)
Lemma search_finds : first_vector lvs <> None \/ exists i, (i < n)%nat /\ cond (lv i) (lv (next n i)) = true.
Proof.
  assert (forall v k, (k < n)%nat -> lv k = Vector v -> first_vector lvs <> None) as FV.
  { intros v k K E. assert (In (Vector v) lvs) as IN by (rewrite <- E, <- lvs_nth by auto; apply nth_In; rewrite lvs_length; auto).
    clear - IN. induction lvs as [|x r IH]; [destruct IN|]. destruct IN as [->|IN]; cbn; [discriminate|]. destruct x; auto; discriminate. }
  assert (forall i, (i < n)%nat -> lowest (corner l i) -> h (corner l i) < h (corner l (pred_ i)) ->
     first_vector lvs <> None \/ exists i, (i < n)%nat /\ cond (lv i) (lv (next n i)) = true) as MAIN.
  { intros i I [_ LO] HA. pose proof (next_lt i) as J. set (j := next n i) in *.
    pose proof (edge_result i I) as R1. pose proof (edge_result j J) as R2. cbv zeta in R1, R2. assert (pred_ j = i) as PJ by (unfold j; now rewrite pred_next). rewrite PJ in R2.
    assert (h (corner l i) <= h (corner l j)) as HB by (apply LO; apply in_corner; eauto).
    destruct R1 as (R1 & _ & R1f & _). specialize (R1f HA).
    assert (0 < pcross (corner l i) (corner l j) (corner l (pred_ i))) as X.
    { rewrite <- PJ at 1. apply strictly_left; auto; [now apply pred_lt| |].
      - rewrite PJ. pose proof n_pos. unfold pred_. destruct (Nat.eqb_spec i 0); lia.
      - pose proof n_pos. unfold j. destruct (next_cases i I) as [[? ->]|[? ->]]; unfold pred_; destruct (Nat.eqb_spec i 0); lia. }
    rewrite pcross_hs in X. set (P := corner l i) in *. set (A := corner l (pred_ i)) in *. set (B := corner l j) in *.
    destruct (Rle_lt_or_eq_dec _ _ HB) as [LT|EQ].
    - right. exists i. split; auto. fold j. destruct R2 as (R2 & R2e & _). specialize (R2e LT).
      destruct R1f as [E1|E1], R2e as [E2|E2]; rewrite E1, E2 in *; cbn; auto. exfalso.
      assert (0 <= (h B - h P) * (sw P - sw A)) as Q1 by (apply Rmult_le_pos; lra). assert (0 <= (sw B - sw P) * (h A - h P)) as Q2 by (apply Rmult_le_pos; lra). lra.
    - (* the edge from i to j is lowest *)
      assert (0 < sw P - sw B) as PS.
      { rewrite <- EQ in X. replace ((h P - h P) * (sw A - sw P) - (sw B - sw P) * (h A - h P)) with ((sw P - sw B) * (h A - h P)) in X by ring.
        destruct (Rlt_dec 0 (sw P - sw B)) as [|NS]; auto. exfalso. assert (0 <= (sw B - sw P) * (h A - h P)) as Q by (apply Rmult_le_pos; lra). lra. }
      destruct R2 as (R2 & _ & _ & R2n). specialize (R2n ltac:(lra)).
      destruct (lv j) as [| | |v] eqn:Ej; [congruence| | |left; eapply FV; eauto].
      + right. exists i. split; auto. fold j. rewrite Ej. destruct R1f as [E1|E1]; rewrite E1; reflexivity.
      + right. exists j. split; auto. pose proof (next_lt j) as K. set (k := next n j) in *. rewrite Ej.
        pose proof (edge_result k K) as R3. cbv zeta in R3. assert (pred_ k = j) as PK by (unfold k; now rewrite pred_next). rewrite PK in R3. fold B in R3. destruct R3 as (_ & R3e & _).
        assert (h B < h (corner l k)) as HC.
        { assert (0 < pcross P B (corner l k)) as Y.
          { unfold P. rewrite <- PJ. apply strictly_left; auto.
            - rewrite PJ. pose proof n_pos. unfold k, j. destruct (next_cases i I) as [[? E]|[? E]]; rewrite E; unfold j in *; [destruct (next_cases (i + 1)) as [[? E']|[? E']]|destruct (next_cases 0) as [[? E']|[? E']]]; try lia; rewrite E'; lia.
            - pose proof n_pos. unfold k. destruct (next_cases j J) as [[? E]|[? E]]; rewrite E; lia. }
          rewrite pcross_hs in Y. rewrite <- EQ in Y. replace ((h P - h P) * (sw (corner l k) - sw P) - (sw B - sw P) * (h (corner l k) - h P)) with ((sw P - sw B) * (h (corner l k) - h P)) in Y by ring.
          rewrite <- EQ. destruct (Rlt_dec (h P) (h (corner l k))) as [|NC]; auto. exfalso. assert (0 <= (sw P - sw B) * (h P - h (corner l k))) as Q by (apply Rmult_le_pos; lra). lra. }
        destruct (R3e HC) as [E3|E3]; rewrite E3; reflexivity. }
  destruct exists_lowest as (i & I & LO). pose proof LO as [_ M].
  assert (h (corner l i) <= h (corner l (pred_ i))) as HA by (apply M; apply in_corner; exists (pred_ i); split; auto; now apply pred_lt).
  destruct (Rle_lt_or_eq_dec _ _ HA) as [LT|EQ]; [eapply MAIN; eauto|].
  (* the corner before is lowest as well *)
  set (i' := pred_ i) in *. assert (i' < n)%nat as I' by (now apply pred_lt).
  apply (MAIN i' I').
  - split; [apply in_corner; eauto|]. intros q Iq. rewrite <- EQ. now apply M.
  - assert (0 <= h (corner l (pred_ i')) - h (corner l i')) as LE.
    { rewrite <- EQ. assert (h (corner l i) <= h (corner l (pred_ i'))); [|lra]. apply M. apply in_corner. exists (pred_ i'). split; auto. now apply pred_lt. }
    assert (0 < pcross (corner l (pred_ i')) (corner l i') (corner l i)) as Y.
    { apply strictly_left; auto.
      - pose proof n_pos. unfold i'. pose proof (pred_cases i). pose proof (pred_cases (pred_ i)). lia.
      - pose proof n_pos. unfold i'. pose proof (pred_cases i). lia. }
    rewrite pcross_hs in Y. rewrite EQ in Y. destruct (Req_dec (h (corner l (pred_ i'))) (h (corner l i'))) as [Q|Q]; [|lra]. exfalso. rewrite Q in Y. replace (h (corner l i') - h (corner l i')) with 0 in Y by ring. lra.
Qed.
(** the vector found *)
Definition found : point :=
  match first_vector lvs with
  | Some v => v
  | None => match find (fun ij => cond (nth (fst ij) lvs Nothing) (nth (snd ij) lvs Nothing)) (successivepointnumbers n) with
            | Some ij => linealignpoint c a dx dy (fst (nth (snd ij) (successivepoints l) ((0, 0), (0, 0))))
            | None => (a * dx, a * dy)
            end
  end.
Lemma found_lowest : exists p, lowest p /\ found = ((a + h c - h p) * dx, (a + h c - h p) * dy).
Proof.
  unfold found. destruct (first_vector lvs) as [v|] eqn:E.
  - assert (In (Vector v) lvs) as IN. { clear - E. induction lvs as [|x r IH]; [discriminate|]. cbn in E. destruct x; try (right; auto; fail). injection E as ->. now left. }
    destruct (In_nth _ _ Nothing IN) as (k & K & Ek). rewrite lvs_length in K. rewrite lvs_nth in Ek by auto.
    pose proof (edge_result k K) as [R _]. rewrite Ek in R. destruct R as (R1 & R2 & ->). exists (corner l (pred_ k)). split; auto. now apply front_edge.
  - assert (length (successivepointnumbers n) = n) as LN by (unfold successivepointnumbers; now rewrite map_length, seq_length).
    destruct (find _ (successivepointnumbers n)) as [ij|] eqn:F.
    + apply find_some in F as [IN C]. destruct (In_nth _ _ (0, 0)%nat IN) as (k & K & Ek). rewrite LN in K. rewrite numbers_nth in Ek by auto. subst ij. cbn [fst snd] in *.
      rewrite sp_nth by auto. cbn [fst]. rewrite !lvs_nth in C by (auto; now apply pred_lt).
      exists (corner l (pred_ k)). split; [|apply point_result]. apply chosen_lowest; [now apply pred_lt|]. now rewrite next_pred.
    + exfalso. destruct search_finds as [H|(i & I & C)]; [congruence|]. pose proof (next_lt i) as J.
      assert (In (nth (next n i) (successivepointnumbers n) (0, 0)%nat) (successivepointnumbers n)) as IN by (apply nth_In; lia).
      rewrite numbers_nth in IN by auto. pose proof (find_none _ _ F _ IN) as Q. cbn [fst snd] in Q. rewrite pred_next in Q by auto. rewrite !lvs_nth in Q by auto. congruence.
Qed.
End DIR.

(** C82: aligning a convex polygon moves it along the direction until its nearest corner has the
    distance wanted from the line through the center *)
Theorem align_convex : forall p a dx dy, convex (corners p) -> (dx, dy) <> (0, 0) -> distinct (corners p) dx dy ->
  let v := linealignvector p a dx dy in
  (exists k, v = (k * dx, k * dy)) /\
  (forall q, In q (corners p) -> a <= height dx dy (translation v q) - height dx dy (center p)) /\
  (exists q, In q (corners p) /\ height dx dy (translation v q) - height dx dy (center p) = a).
Proof.
  intros p a dx dy CX N DI v.
  set (r := sqrt (dx * dx + dy * dy)).
  assert (0 < dx * dx + dy * dy) as P2.
  { pose proof (Rle_0_sqr dx) as A. pose proof (Rle_0_sqr dy) as B. unfold Rsqr in *. destruct (Req_dec (dx * dx + dy * dy) 0) as [Z|]; [|lra]. exfalso. apply N. f_equal; nra. }
  assert (0 < r) as PR by now apply sqrt_lt_R0. assert (r * r = dx * dx + dy * dy) as RR by (apply sqrt_sqrt; lra).
  assert (dx / r * (dx / r) + dy / r * (dy / r) = 1) as D.
  { replace (dx / r * (dx / r) + dy / r * (dy / r)) with ((dx * dx + dy * dy) / (r * r)) by (field; lra). rewrite RR. field. lra. }
  assert (forall q, h (dx / r) (dy / r) q = height dx dy q) as EH by (intros q; unfold h, height; fold r; field; lra).
  assert (forall q, sw (dx / r) (dy / r) q = sideways dx dy q) as ES by (intros q; unfold sw, sideways; fold r; field; lra).
  destruct (found_lowest (dx / r) (dy / r) D (corners p) CX) with (c := center p) (a := a) as (m & [IM LO] & F).
  { intros i I. destruct (DI i I) as (D1 & D2 & D3). unfold good_edge. rewrite !EH, !ES. auto. }
  assert (v = ((a + height dx dy (center p) - height dx dy m) * (dx / r), (a + height dx dy (center p) - height dx dy m) * (dy / r))) as EV.
  { rewrite <- !EH. exact F. }
  set (k := a + height dx dy (center p) - height dx dy m) in *.
  assert (forall q, height dx dy (translation v q) = height dx dy q + k) as HT.
  { intros q. rewrite <- !EH. rewrite EV. unfold h, translation. cbn [px py fst snd].
    replace ((px q + k * (dx / r)) * (dx / r) + (py q + k * (dy / r)) * (dy / r)) with (px q * (dx / r) + py q * (dy / r) + k * (dx / r * (dx / r) + dy / r * (dy / r))) by ring. rewrite D. unfold px, py. ring. }
  split; [|split].
  - exists (k / r). rewrite EV. f_equal; field; lra.
  - intros q I. rewrite HT. specialize (LO q I). rewrite !EH in LO. unfold k. lra.
  - exists m. split; auto. rewrite HT. unfold k. lra.
Qed.
Print Assumptions align_convex.

(** ** extents and tiling *)
Lemma height_scale dx dy q r : 0 < r -> height (dx / r) (dy / r) q = height dx dy q.
Proof.
  intros R. unfold height. assert (sqrt (dx / r * (dx / r) + dy / r * (dy / r)) = sqrt (dx * dx + dy * dy) / r) as ->.
  { replace (dx / r * (dx / r) + dy / r * (dy / r)) with ((dx * dx + dy * dy) / (r * r)) by (field; lra). rewrite sqrt_div_alt by (apply Rmult_lt_0_compat; auto). rewrite sqrt_square; lra. }
  destruct (Req_dec (sqrt (dx * dx + dy * dy)) 0) as [Z|NZ].
  - rewrite Z. unfold Rdiv. rewrite Rmult_0_l, Rinv_0. ring.
  - field. lra.
Qed.
Lemma sideways_scale dx dy q r : 0 < r -> sideways (dx / r) (dy / r) q = sideways dx dy q.
Proof.
  intros R. unfold sideways. assert (sqrt (dx / r * (dx / r) + dy / r * (dy / r)) = sqrt (dx * dx + dy * dy) / r) as ->.
  { replace (dx / r * (dx / r) + dy / r * (dy / r)) with ((dx * dx + dy * dy) / (r * r)) by (field; lra). rewrite sqrt_div_alt by (apply Rmult_lt_0_compat; auto). rewrite sqrt_square; lra. }
  destruct (Req_dec (sqrt (dx * dx + dy * dy)) 0) as [Z|NZ].
  - rewrite Z. unfold Rdiv. rewrite Rmult_0_l, Rinv_0. ring.
  - field. lra.
Qed.
Lemma distinct_scale l dx dy r : 0 < r -> distinct l dx dy -> distinct l (dx / r) (dy / r).
Proof. intros R D i I. specialize (D i I). cbv zeta in *. now rewrite !height_scale, !sideways_scale by auto. Qed.
Lemma height_neg dx dy q : height (- dx) (- dy) q = - height dx dy q.
Proof. unfold height. replace (- dx * - dx + - dy * - dy) with (dx * dx + dy * dy) by ring. unfold Rdiv. ring. Qed.
Lemma norm_pos dx dy : (dx, dy) <> (0, 0) -> 0 < sqrt (dx * dx + dy * dy).
Proof.
  intros N. apply sqrt_lt_R0. pose proof (Rle_0_sqr dx) as A. pose proof (Rle_0_sqr dy) as B. unfold Rsqr in *.
  destruct (Req_dec (dx * dx + dy * dy) 0) as [Z|]; [|lra]. exfalso. apply N. f_equal; nra.
Qed.
Lemma height_unit dx dy q : (dx, dy) <> (0, 0) -> let r := sqrt (dx * dx + dy * dy) in px q * (dx / r) + py q * (dy / r) = height dx dy q.
Proof. intros N r. pose proof (norm_pos dx dy N). fold r in H. unfold height. fold r. field. lra. Qed.
Lemma height_translation dx dy v q : height dx dy (translation v q) = height dx dy q + height dx dy v.
Proof. unfold height, translation, Rdiv. cbn [px py fst snd]. unfold px, py. ring. Qed.
(** C82: the extent of a convex polygon is its width in the direction *)
Theorem extent_width : forall p dx dy, convex (corners p) -> (dx, dy) <> (0, 0) -> distinct (corners p) dx dy -> distinct (corners p) (- dx) (- dy) ->
  (forall q q', In q (corners p) -> In q' (corners p) -> height dx dy q - height dx dy q' <= extent p dx dy) /\
  (exists q q', In q (corners p) /\ In q' (corners p) /\ height dx dy q - height dx dy q' = extent p dx dy).
Proof.
  intros p dx dy CX N D1 D2. pose proof (norm_pos dx dy N) as PR. unfold extent. set (r := sqrt (dx * dx + dy * dy)) in *.
  assert ((dx / r, dy / r) <> (0, 0)) as N1.
  { intros E. injection E as E1 E2. apply N. f_equal; apply Rmult_eq_reg_r with (/ r); try (unfold Rdiv in *; rewrite ?E1, ?E2; ring); apply Rinv_neq_0_compat; lra. }
  assert ((- (dx / r), - (dy / r)) <> (0, 0)) as N2. { intros E. injection E as E1 E2. apply N1. f_equal; lra. }
  assert (distinct (corners p) (- (dx / r)) (- (dy / r))) as D2'.
  { replace (- (dx / r)) with (- dx / r) by (field; lra). replace (- (dy / r)) with (- dy / r) by (field; lra). now apply distinct_scale. }
  destruct (align_convex p 0 (dx / r) (dy / r) CX N1 (distinct_scale _ _ _ r PR D1)) as (_ & A2 & q1 & I1 & A3).
  destruct (align_convex p 0 (- (dx / r)) (- (dy / r)) CX N2 D2') as (_ & B2 & q2 & I2 & B3).
  set (v1 := linealignvector p 0 (dx / r) (dy / r)) in *. set (v2 := linealignvector p 0 (- (dx / r)) (- (dy / r))) in *.
  assert ((px v1 - px v2) * (dx / r) + (py v1 - py v2) * (dy / r) = height dx dy v1 - height dx dy v2) as ->.
  { rewrite <- !(height_unit dx dy) by auto. fold r. ring. }
  rewrite height_translation, !height_scale in A3 by auto. rewrite height_translation, !height_neg, !height_scale in B3 by auto.
  assert (forall q, In q (corners p) -> 0 <= height dx dy q + height dx dy v1 - height dx dy (center p)) as A.
  { intros q I. specialize (A2 q I). now rewrite height_translation, !height_scale in A2 by auto. }
  assert (forall q, In q (corners p) -> 0 <= - height dx dy q - height dx dy v2 + height dx dy (center p)) as B.
  { intros q I. specialize (B2 q I). rewrite height_translation, !height_neg, !height_scale in B2 by auto. lra. }
  split.
  - intros q q' I I'. specialize (A q' I'). specialize (B q I). lra.
  - exists q2, q1. split; auto. split; auto. lra.
Qed.
Print Assumptions extent_width.
Lemma fold_max (f : polygon -> R) l m0 : let m := fold_left (fun m p => let e := f p in if ltb m e then e else m) l m0 in m0 <= m /\ forall p, In p l -> f p <= m.
Proof.
  cbv zeta. revert m0. induction l as [|p l IH]; intros m0; cbn; [split; [lra|contradiction]|].
  destruct (ltb_case m0 (f p)) as [[L ->]|[L ->]].
  - destruct (IH (f p)) as [H1 H2]. split; [lra|]. intros q [->|I]; auto.
  - destruct (IH m0) as [H1 H2]. split; [lra|]. intros q [->|I]; auto. lra.
Qed.
Lemma combine_seq {A} (l : list A) s k d : (k < length l)%nat -> nth k (combine (seq s (length l)) l) (0%nat, d) = (s + k, nth k l d)%nat.
Proof.
  intros K. rewrite combine_nth by (now rewrite seq_length). now rewrite seq_nth.
Qed.
(** C82: polygons with their lower sides at the same height, put in a row along a direction of
    length one, are at least the given distance apart *)
Theorem tile_gap : forall ps a dx dy m d k q q', dx * dx + dy * dy = 1 ->
  (forall p, In p ps -> convex (corners p) /\ distinct (corners p) dx dy /\ distinct (corners p) (- dx) (- dy)) ->
  (forall p, In p ps -> (forall q, In q (corners p) -> m <= height dx dy q) /\ exists q, In q (corners p) /\ height dx dy q = m) ->
  (S k < length ps)%nat -> In q (corners (nth k (fst (tile ps a dx dy)) d)) -> In q' (corners (nth (S k) (fst (tile ps a dx dy)) d)) ->
  a <= height dx dy q' - height dx dy q.
Proof.
  intros ps a dx dy m d k q q' U HC HM K IQ IQ'. unfold tile in IQ, IQ'. cbn [fst] in *.
  assert ((dx, dy) <> (0, 0)) as N. { intros E. injection E as -> ->. lra. }
  set (mx := fold_left _ _ _) in *. set (delta := mx + a) in *.
  assert (forall p, In p ps -> extent p dx dy <= mx) as MX.
  { intros p I. destruct (fold_max (fun p => extent p dx dy) (tl ps) (extent (hd (new_polygon [] None) ps) dx dy)) as [H1 H2]. fold mx in H1, H2.
    destruct ps as [|p0 ps]; [destruct I|]. cbn in *. destruct I as [<-|I]; auto. }
  set (d0 := (0%nat, new_polygon [] None)).
  assert (forall i, (i < length ps)%nat -> forall x, In x (corners (nth i (map (fun kp => transform (translation (INR (fst kp) * delta * dx, INR (fst kp) * delta * dy)) false (snd kp)) (combine (seq 0 (length ps)) ps)) d)) ->
    exists y, In y (corners (nth i ps (new_polygon [] None))) /\ height dx dy x = height dx dy y + INR i * delta) as NT.
  { intros i I x J. rewrite (nth_map _ _ i d (0%nat, new_polygon [] None)) in J by (rewrite combine_length, seq_length; lia). rewrite combine_seq in J by auto. cbn [fst snd Nat.add] in J.
    cbn [corners transform] in J. apply in_map_iff in J as (y & <- & J). exists y. split; auto. rewrite height_translation. f_equal. unfold height. cbn [px py fst snd]. rewrite U, sqrt_1.
    replace ((INR i * delta * dx * dx + INR i * delta * dy * dy) / 1) with (INR i * delta * (dx * dx + dy * dy)) by field. rewrite U. ring. }
  destruct (NT k ltac:(lia) q IQ) as (y & Y & Ey). destruct (NT (S k) ltac:(lia) q' IQ') as (y' & Y' & Ey').
  set (p := nth k ps (new_polygon [] None)) in *. set (p' := nth (S k) ps (new_polygon [] None)) in *.
  assert (In p ps) as Ip by (apply nth_In; lia). assert (In p' ps) as Ip' by (apply nth_In; lia).
  destruct (HC p Ip) as (C1 & C2 & C3). destruct (extent_width p dx dy C1 N C2 C3) as [W _]. destruct (HM p Ip) as [_ (b & Ib & Eb)]. specialize (W y b Y Ib). specialize (MX p Ip).
  destruct (HM p' Ip') as [M' _]. specialize (M' y' Y'). rewrite Ey, Ey', S_INR. unfold delta in *. lra.
Qed.
Print Assumptions tile_gap.

(** ** examples *)
Definition unit_square : polygon := new_rect 0 0 1 1 (0, 0) (0, 0).
Lemma square_convex : convex (corners unit_square).
Proof.
  split; [cbn; lia|]. intros i j I J N1 N2. cbn in I, J. unfold next in N2. cbn in N2.
  destruct i as [|[|[|[|i]]]]; [| | | |lia]; destruct j as [|[|[|[|j]]]]; try lia; cbn in *; try congruence; lra.
Qed.
Lemma sqrt_quarter : sqrt (1/2 * (1/2) + 0 * 0) = 1/2.
Proof. replace (1/2 * (1/2) + 0 * 0) with ((1/2) * (1/2)) by ring. apply sqrt_square. lra. Qed.
Lemma eps_small : 0 < / 10 ^ 10 < 1/2.
Proof. split; [apply Rinv_0_lt_compat; lra|]. replace (1/2) with (/ 2) by lra. apply Rinv_lt_contravar; lra. Qed.
Lemma square_distinct s : s = 1 \/ s = -1 -> distinct (corners unit_square) (s * (1/2)) (s * 0) /\ distinct (corners unit_square) s 0.
Proof.
  intros S. pose proof eps_small as PE.
  assert (forall d, d = 1/2 \/ d = -1/2 \/ d = 1 \/ d = -1 -> distinct (corners unit_square) d 0) as H.
  { intros d DD. assert (sqrt (d * d + 0 * 0) = Rabs d) as SQ by (replace (d * d + 0 * 0) with (Rsqr d) by (unfold Rsqr; ring); apply sqrt_Rsqr_abs).
    assert (d / Rabs d = 1 \/ d / Rabs d = -1) as U.
    { unfold Rabs. destruct (Rcase_abs d); [right|left]; field; lra. }
    assert (Rabs d <> 0) as NZ by (apply Rabs_no_R0; lra).
    intros i I. cbn in I. unfold height, sideways. rewrite SQ. cbv zeta.
    assert (forall x y, (x * d + y * 0) / Rabs d = x * (d / Rabs d)) as E1 by (intros; field; auto). assert (forall x y, (y * d - x * 0) / Rabs d = y * (d / Rabs d)) as E2 by (intros; field; auto).
    rewrite !E1, !E2. set (u := d / Rabs d) in *. clearbody u.
    destruct i as [|[|[|[|i]]]]; [| | | |lia]; cbn; (split; [lra|split; [|destruct U as [-> | ->]; lra]]);
      try (left; lra); right; destruct U as [-> | ->]; unfold Rabs; destruct (Rcase_abs _); lra. }
  split; [replace (s * 0) with 0 by ring; apply H; destruct S as [-> | ->]; lra|apply H; destruct S as [-> | ->]; lra].
Qed.
Example align_ex : linealignvector unit_square 3 1 0 = (3, 0).
Proof.
  assert ((1, 0) <> (0, 0)) as N by (intros E; injection E; lra).
  destruct (align_convex unit_square 3 1 0 square_convex N) as ((k & ->) & A & (q & I & E)).
  { apply (square_distinct 1). auto. }
  assert (forall x, height 1 0 x = px x) as H. { intros x. unfold height. replace (1 * 1 + 0 * 0) with 1 by ring. rewrite sqrt_1. field. }
  rewrite !H in E. cbn in E. pose proof (A (0, 0) ltac:(cbn; auto)) as A0. rewrite !H in A0. cbn in A0.
  assert (0 <= px q). { cbn in I. destruct I as [<-|[<-|[<-|[<-|[]]]]]; cbn; lra. } unfold px in *. f_equal; lra.
Qed.
(** a polygon with its corners clockwise is aligned with its far side *)
Theorem clockwise_refuted : exists p a dx dy q, convex (rev (corners p)) /\ In q (corners p) /\
  height dx dy (translation (linealignvector p a dx dy) q) - height dx dy (center p) < a.
Proof.
  exists {| corners := [(0, 0); (0, 1); (1, 1); (1, 0)]; center := (0, 0) |}, 0, 0, 1, (0, 0). split; [|split; [now left|]].
  { split; [cbn; lia|]. intros i j I J N1 N2. cbn in I, J. unfold next in N2. cbn in N2.
    destruct i as [|[|[|[|i]]]]; [| | | |lia]; destruct j as [|[|[|[|j]]]]; try lia; cbn in *; try congruence; lra. }
  assert (linealignvector {| corners := [(0, 0); (0, 1); (1, 1); (1, 0)]; center := (0, 0) |} 0 0 1 = (0, -1)) as ->.
  { unfold linealignvector. replace (0 * 0 + 1 * 1) with 1 by ring. rewrite sqrt_1. replace (0 / 1) with 0 by field. replace (1 / 1) with 1 by field.
    pose proof eps_pos as PE. pose proof eps_small as PS. fold eps in PS. cbn -[linealignline eps].
    assert (forall e f, px e - px f = 0 -> py e - py f = -1 -> linealignline (0, 0) 0 0 1 e f = UseE) as R1.
    { intros e f X Y. unfold linealignline. rewrite X, Y. destruct (ltb_case (0 * 0 + -1 * -1) eps) as [[L _]|[_ ->]]; [lra|]. destruct (ltb_case (-1 * 0 - 0 * 1) (- eps)) as [[L _]|[_ ->]]; [lra|].
      destruct (ltb_case eps (0 * 0 + 1 * -1)) as [[L _]|[_ ->]]; [lra|]. destruct (ltb_case (0 * 0 + 1 * -1) (- eps)) as [[_ ->]|[L _]]; [|lra]. cbn [orb]. destruct (ltb_case (0 * 0 + 1 * -1) 0) as [[_ ->]|[L _]]; [|lra]. reflexivity. }
    assert (linealignline (0, 0) 0 0 1 (1, 0) (0, 0) = Nothing) as R2.
    { unfold linealignline. cbn [px py fst snd]. destruct (ltb_case ((1 - 0) * (1 - 0) + (0 - 0) * (0 - 0)) eps) as [[L _]|[_ ->]]; [lra|]. destruct (ltb_case ((0 - 0) * 0 - (1 - 0) * 1) (- eps)) as [[_ ->]|[L _]]; [reflexivity|lra]. }
    unfold corner. cbn [nth Nat.sub]. rewrite R2. rewrite (R1 (0, 0) (0, 1)) by (cbn; lra).
    assert (linealignline (0, 0) 0 0 1 (0, 1) (1, 1) = Vector (0, -1)) as R3; [|rewrite R3; reflexivity].
    unfold linealignline. cbn [px py fst snd]. destruct (ltb_case ((0 - 1) * (0 - 1) + (1 - 1) * (1 - 1)) eps) as [[L _]|[_ ->]]; [lra|]. destruct (ltb_case ((1 - 1) * 0 - (0 - 1) * 1) (- eps)) as [[L _]|[_ ->]]; [lra|].
    destruct (ltb_case eps (0 * (0 - 1) + 1 * (1 - 1))) as [[L _]|[_ ->]]; [lra|]. destruct (ltb_case (0 * (0 - 1) + 1 * (1 - 1)) (- eps)) as [[L _]|[_ ->]]; [lra|]. cbn [orb].
    replace (((0 * 0 + 0 - 0) * 1 - (0 * 1 + 0 - 1) * 0) * 1 / ((1 - 1) * 0 - (0 - 1) * 1)) with 0 by field.
    destruct (ltb_case (0 - eps) 0) as [[_ ->]|[L _]]; [|lra]. destruct (ltb_case 0 (1 + eps)) as [[_ ->]|[L _]]; [|lra]. cbn [andb].
    f_equal. f_equal; field. }
  unfold height, translation. cbn [px py fst snd center]. replace (0 * 0 + 1 * 1) with 1 by ring. rewrite sqrt_1. lra.
Qed.
Print Assumptions clockwise_refuted.
(** along a direction which is not of length one the polygons are put at wrong distances *)
Theorem tile_direction_refuted : exists ps a dx dy q q' d, (forall p, In p ps -> convex (corners p)) /\ 0 <= a /\
  In q (corners (nth 0 (fst (tile ps a dx dy)) d)) /\ In q' (corners (nth 1 (fst (tile ps a dx dy)) d)) /\ height dx dy q' - height dx dy q < a.
Proof.
  exists [unit_square; unit_square], 0, (1/2), 0, (1, 0), (1/2, 0), unit_square.
  split; [intros p [<-|[<-|[]]]; apply square_convex|]. split; [lra|].
  assert ((1/2, 0) <> (0, 0)) as N by (intros E; injection E; lra).
  assert (distinct (corners unit_square) (1/2) 0) as D1. { destruct (square_distinct 1) as [H _]; auto. replace (1 * (1/2)) with (1/2) in H by ring. replace (1 * 0) with 0 in H by ring. exact H. }
  assert (distinct (corners unit_square) (- (1/2)) (- 0)) as D2. { destruct (square_distinct (-1)) as [H _]; auto. replace (-1 * (1/2)) with (- (1/2)) in H by ring. replace (-1 * 0) with (- 0) in H by ring. exact H. }
  assert (forall x, height (1/2) 0 x = px x) as H. { intros x. unfold height. rewrite sqrt_quarter. field. }
  assert (extent unit_square (1/2) 0 = 1) as E.
  { destruct (extent_width unit_square (1/2) 0 square_convex N D1 D2) as [W (q & q' & I & I' & Er)].
    pose proof (W (0 + 1, 0) (0, 0) ltac:(cbn; auto) ltac:(cbn; auto)) as L. rewrite !H in L. cbn in L. rewrite !H in Er.
    assert (forall x, In x (corners unit_square) -> 0 <= px x <= 1) as B by (intros x [<-|[<-|[<-|[<-|[]]]]]; cbn; lra).
    pose proof (B q I). pose proof (B q' I'). lra. }
  unfold tile. cbn [fst tl hd fold_left]. rewrite E. destruct (ltb_case 1 1) as [[L _]|[_ ->]]; [lra|].
  split; [|split].
  - cbn. right. left. unfold translation. cbn. f_equal; lra.
  - cbn. left. unfold translation. cbn. f_equal; lra.
  - rewrite !H. cbn. lra.
Qed.
Print Assumptions tile_direction_refuted.
