(** * Keys of graphs (C108) *)

From Coq Require Import Reals Bool Arith Ascii String List Lra Lia.
From Verif Require Import BoxModel BoxAlign KeyModel.
Import ListNotations.
Open Scope R_scope.

(** ** The place of the key *)
(** Inside of the graph, the key has at least the distance dist to both sides if there is enough space, exactly so at the side of pos 0
    and 1, and is in the middle for 0.5. *)
Theorem key_inside : forall pmin pmax cmin cmax pos dist, 0 <= pos <= 1 -> cmin <= cmax ->
  let t := parentchildalign pmin pmax cmin cmax pos dist 1 in
  (cmax - cmin + 2 * dist <= pmax - pmin -> pmin + dist <= cmin + t /\ cmax + t <= pmax - dist) /\
  (pos = 0 -> cmin + t = pmin + dist) /\ (pos = 1 -> cmax + t = pmax - dist) /\
  (pos = 0.5 -> (cmin + t) - pmin = pmax - (cmax + t)).
Proof. intros pmin pmax cmin cmax pos dist P C t. unfold t, parentchildalign. repeat split; intros; nra. Qed.
Print Assumptions key_inside.
Example key_inside_ex : 3 + parentchildalign 0 100 3 23 1 5 1 = 75 /\ 23 + parentchildalign 0 100 3 23 1 5 1 = 95.
Proof. unfold parentchildalign. split; lra. Qed.
(** Outside of the graph, the key is beyond the side with exactly the distance dist. *)
Theorem key_outside : forall pmin pmax cmin cmax dist,
  (let t := parentchildalign pmin pmax cmin cmax 0 dist 0 in cmax + t = pmin - dist) /\
  (let t := parentchildalign pmin pmax cmin cmax 1 dist 0 in cmin + t = pmax + dist) /\
  (let t := parentchildalign pmin pmax cmin cmax 0.5 dist 0 in (cmin + t) - pmin = pmax - (cmax + t)).
Proof. intros. unfold parentchildalign. repeat split; lra. Qed.
Print Assumptions key_outside.
Example key_outside_ex : 3 + parentchildalign 0 100 3 23 1 5 0 = 105.
Proof. unfold parentchildalign. lra. Qed.

(** Names consist of one letter for the vertical and one for the horizontal position in any order. *)
Definition hletter (c : ascii) : option R := (if Ascii.eqb c "l" then Some 0 else if Ascii.eqb c "c" then Some 0.5 else if Ascii.eqb c "r" then Some 1 else None)%char.
Definition vletter (c : ascii) : option R := (if Ascii.eqb c "b" then Some 0 else if Ascii.eqb c "m" then Some 0.5 else if Ascii.eqb c "t" then Some 1 else None)%char.
Theorem key_position_names : forall s h v, key_position s = Some (h, v) <->
  exists a b, s = String a (String b EmptyString) /\ ((vletter a = Some v /\ hletter b = Some h) \/ (hletter a = Some h /\ vletter b = Some v)).
Proof.
  intros s h v. unfold key_position. split.
  - intros E. destruct (find _ positions) as [[ns hv]|] eqn:F; [|discriminate]. cbn in E. injection E as ->.
    apply find_some in F. destruct F as [F1 F2]. cbn [fst] in F2. apply existsb_exists in F2. destruct F2 as [n [N1 N2]]. apply String.eqb_eq in N2. subst n.
    unfold positions in F1. cbn [In] in F1.
    repeat (destruct F1 as [F1|F1]; [injection F1 as <- <- <-; cbn [In] in N1; destruct N1 as [<-|[<-|[]]]; eexists; eexists; (split; [reflexivity|]); cbn; (left; split; reflexivity) || (right; split; reflexivity)|]).
    destruct F1.
  - intros [a [b [-> D]]]. unfold vletter, hletter in D.
    repeat match goal with D : context [Ascii.eqb ?x ?y] |- _ => destruct (Ascii.eqb_spec x y); [subst|] end;
      destruct D as [[D1 D2]|[D1 D2]]; try discriminate; injection D1 as <-; injection D2 as <-; cbn; reflexivity.
Qed.
Print Assumptions key_position_names.
Example key_position_names_ex : key_position "rb" = Some (1, 0) /\ key_position "tb" = None.
Proof. split; reflexivity. Qed.

(** ** Columns *)
Lemma ceil_bounds n c : (1 <= c)%nat -> (1 <= n)%nat -> (1 <= (n + c - 1) / c /\ n <= c * ((n + c - 1) / c))%nat.
Proof.
  intros C N. pose proof (Nat.div_mod (n + c - 1) c ltac:(lia)) as D. pose proof (Nat.mod_upper_bound (n + c - 1) c ltac:(lia)) as U.
  assert (1 <= (n + c - 1) / c)%nat by (clear D U; apply Nat.div_le_lower_bound; [lia|rewrite Nat.mul_1_r; lia]).
  set (q := ((n + c - 1) / c)%nat) in *. set (r := ((n + c - 1) mod c)%nat) in *. clearbody q r. set (z := (c * q)%nat) in *. clearbody z. split; [assumption|]. lia.
Qed.

Lemma loop_spec {A} k : (1 <= k)%nat -> forall fuel (l : list A), (length l <= fuel)%nat ->
  List.concat (column_loop fuel k l) = l /\
  (forall c, In c (column_loop fuel k l) -> (1 <= length c <= k)%nat) /\
  (forall i, (S i < length (column_loop fuel k l))%nat -> length (nth i (column_loop fuel k l) []) = k) /\
  (forall m, (length l <= m * k)%nat -> (length (column_loop fuel k l) <= m)%nat).
Proof.
  intros K. induction fuel as [|f IH]; intros l L.
  - destruct l; [|cbn in L; lia]. cbn. repeat split; intros; try lia; contradiction.
  - destruct l as [|x l]; [cbn; repeat split; intros; try lia; contradiction|].
    cbn [column_loop]. set (xs := x :: l) in *. specialize (IH (skipn k xs)).
    assert (LS : (length (skipn k xs) = length xs - k)%nat) by apply skipn_length.
    assert (LX : (1 <= length xs)%nat) by (unfold xs; cbn; lia).
    destruct IH as (I1 & I2 & I3 & I4); [rewrite LS; lia|].
    refine (conj _ (conj _ (conj _ _))).
    + cbn [List.concat]. rewrite I1. apply firstn_skipn.
    + intros c [<-|I]; [|apply I2; exact I]. rewrite firstn_length. lia.
    + intros [|i] Hi; cbn [nth].
      * rewrite firstn_length. cbn [length] in Hi. assert (NE : skipn k xs <> []). { intros E. rewrite E in Hi. destruct f; cbn [column_loop length] in Hi; lia. }
        assert (length (skipn k xs) <> 0)%nat by (destruct (skipn k xs); cbn; congruence). lia.
      * apply I3. cbn in Hi. lia.
    + intros m M. cbn [length]. destruct m as [|m]; [lia|]. specialize (I4 m). rewrite LS in I4. cbn [Nat.mul] in M. lia.
Qed.

(** All items are in the columns, in their order; there are not more columns than requested, none is empty, and all but the last have the
    same number of items, which is at least that of the last one. *)
Theorem key_columns_spec : forall (A : Type) columns (items : list A), (1 <= columns)%nat ->
  let cs := key_columns columns items in
  List.concat cs = items /\ (length cs <= columns)%nat /\
  exists k, (forall c, In c cs -> (1 <= length c <= k)%nat) /\ (forall i, (S i < length cs)%nat -> length (nth i cs []) = k) /\
            (k * columns < length items + columns)%nat.
Proof.
  intros A columns items C cs. unfold cs, key_columns. destruct items as [|x l].
  - cbn. split; [reflexivity|]. split; [lia|]. exists 0%nat. repeat split; intros; try contradiction; try lia.
  - set (xs := x :: l) in *. assert (LX : (1 <= length xs)%nat) by (unfold xs; cbn; lia).
    destruct (ceil_bounds (length xs) columns C LX) as [K1 K2]. set (k := ((length xs + columns - 1) / columns)%nat) in *.
    destruct (loop_spec k K1 (length xs) xs (le_n _)) as (I1 & I2 & I3 & I4). split; [exact I1|]. split; [apply I4; lia|].
    exists k. split; [exact I2|]. split; [exact I3|]. unfold k. pose proof (Nat.mul_div_le (length xs + columns - 1) columns ltac:(lia)). lia.
Qed.
Print Assumptions key_columns_spec.
Example key_columns_ex : key_columns 3 [1; 2; 3; 4; 5; 6; 7]%nat = [[1; 2; 3]; [4; 5; 6]; [7]]%nat /\ key_columns 4 [1; 2; 3; 4; 5]%nat = [[1; 2]; [3; 4]; [5]]%nat.
Proof. split; reflexivity. Qed.

(** Columns beginning at the same position before the translation are columndist apart. *)
Theorem key_columns_apart : forall columndist cols x i llx1 urx1 llx2 urx2 d,
  nth_error cols i = Some (llx1, urx1) -> nth_error cols (S i) = Some (llx2, urx2) -> llx1 = llx2 ->
  (llx2 + nth (S i) (column_positions columndist x cols) d) - (urx1 + nth i (column_positions columndist x cols) d) = columndist.
Proof.
  intros cd cols. induction cols as [|[l u] cols IH]; intros x i a b a' b' d E1 E2 E3; [destruct i; discriminate|].
  destruct i as [|i].
  - cbn in E1. injection E1 as -> ->. destruct cols as [|[l' u'] cols]; [discriminate|]. cbn in E2. injection E2 as -> ->. cbn. lra.
  - cbn [column_positions nth]. apply (IH _ i a b a' b' d E1 E2 E3).
Qed.
Print Assumptions key_columns_apart.
Example key_columns_apart_ex : column_positions 5 0 [(0, 20); (0, 30); (0, 10)] = [0; 0 + (20 - 0) + 5; 0 + (20 - 0) + 5 + (30 - 0) + 5].
Proof. reflexivity. Qed.
(** Otherwise not. *)
Theorem key_columns_apart_refuted : exists columndist cols, 0 < columndist /\ (forall c, In c cols -> fst c <= snd c) /\
  let ps := column_positions columndist 0 cols in
  (fst (nth 1 cols (0, 0)) + nth 1 ps 0) - (snd (nth 0 cols (0, 0)) + nth 0 ps 0) < columndist.
Proof.
  exists 5, [(0, 10); (-2, 10)]. split; [lra|]. split; [|cbn; lra]. intros c [<-|[<-|[]]]; cbn; lra.
Qed.
Print Assumptions key_columns_apart_refuted.

(** ** Titles and symbols *)
Lemma nth_tile ps a dx dy d k : (k < length ps)%nat ->
  nth k (fst (tile ps a dx dy)) d = transform (translation (INR k * snd (tile ps a dx dy) * dx, INR k * snd (tile ps a dx dy) * dy)) false (nth k ps d).
Proof.
  intros K. unfold tile. cbn [fst snd]. set (de := _ + a). clearbody de.
  set (f := fun kp : nat * polygon => _). erewrite nth_indep with (d' := f (0%nat, d)) by (rewrite map_length, combine_length, seq_length; lia).
  rewrite map_nth. rewrite combine_nth by (now rewrite seq_length). rewrite seq_nth by exact K. reflexivity.
Qed.
Lemma length_tile ps a dx dy : length (fst (tile ps a dx dy)) = length ps.
Proof. unfold tile. cbn [fst]. rewrite map_length, combine_length, seq_length. lia. Qed.

Definition hh (dx dy : R) (v : point) : R := px v * dx + py v * dy.
Lemma equal_vector_spec a dx dy : forall ps, ps <> [] -> exists v p, equal_vector ps a dx dy = Some v /\ In p ps /\ v = linealignvector p a dx dy /\
  forall q, In q ps -> hh dx dy (linealignvector q a dx dy) <= hh dx dy v.
Proof.
  intros ps NE. unfold equal_vector. set (F := fun (vec : option point) (p : polygon) => _).
  assert (G : forall l done u, (exists p, In p done /\ u = linealignvector p a dx dy) ->
     (forall q, In q done -> hh dx dy (linealignvector q a dx dy) <= hh dx dy u) ->
     exists v p, fold_left F l (Some u) = Some v /\ In p (done ++ l) /\ v = linealignvector p a dx dy /\
       forall q, In q (done ++ l) -> hh dx dy (linealignvector q a dx dy) <= hh dx dy v).
  { induction l as [|p l IH]; intros done u [p0 [P1 P2]] U.
    - exists u, p0. rewrite app_nil_r. auto.
    - cbn [fold_left]. replace (done ++ p :: l) with ((done ++ [p]) ++ l) by (rewrite <- app_assoc; reflexivity).
      unfold F at 2. cbv beta iota zeta. fold (hh dx dy u). fold (hh dx dy (linealignvector p a dx dy)). unfold ltb.
      destruct (Rlt_dec _ _) as [L|L]; apply IH.
      + exists p. split; [apply in_app_iff; right; left; reflexivity|reflexivity].
      + intros q I. apply in_app_iff in I. destruct I as [I|[<-|[]]]; [specialize (U q I); lra|lra].
      + exists p0. split; [apply in_app_iff; left; exact P1|exact P2].
      + intros q I. apply in_app_iff in I. destruct I as [I|[<-|[]]]; [apply U; exact I|lra]. }
  destruct ps as [|p ps]; [congruence|]. cbn [fold_left]. change (F None p) with (Some (linealignvector p a dx dy)).
  apply (G ps [p]).
  - exists p. split; [left; reflexivity|reflexivity].
  - intros q [<-|[]]. lra.
Qed.

(** The middle of a symbol is at the height of the center of its title. *)
Theorem key_symbols : forall titles dist sw sh ss c k d, (forall p, In p titles -> py (center p) = c) -> (k < length titles)%nat ->
  let r := paintcolumn titles dist sw sh ss in
  nth k (snd r) 0 + sh / 2 = py (center (nth k (fst r) d)).
Proof.
  intros titles dist sw sh ss c k d C K r. unfold r, paintcolumn. clear r. pose proof (length_tile titles dist 0 (-1)) as LT.
  pose proof (fun k d => nth_tile titles dist 0 (-1) d k) as NT.
  destruct (tile titles dist 0 (-1)) as [tiled dy]. cbn [fst snd] in *. unfold linealignequal.
  destruct (equal_vector_spec (sw + ss) 1 0 tiled) as (v & p & -> & _ & _ & _); [intros E; subst tiled; cbn in LT; lia|].
  assert (H0 : hd (new_polygon [] None) (map (transform (translation v) false) tiled) = nth 0 (map (transform (translation v) false) tiled) (transform (translation v) false d)).
  { destruct tiled; [cbn in LT; lia|reflexivity]. }
  rewrite H0. rewrite (nth_indep _ d (transform (translation v) false d)) by (rewrite map_length; lia).
  rewrite !map_nth. rewrite (NT 0%nat d), (NT k d) by lia. cbn [transform center].
  assert (C0 : py (center (nth 0 titles d)) = c) by (apply C, nth_In; lia). assert (Ck : py (center (nth k titles d)) = c) by (apply C, nth_In; lia).
  rewrite (nth_indep _ 0 (- 0.5 * sh + py (translation v (translation (INR 0 * dy * 0, INR 0 * dy * -1) (center (nth 0 titles d)))) - INR 0 * dy)) by (rewrite map_length, seq_length; exact K).
  rewrite (map_nth (fun k => - 0.5 * sh + py (translation v (translation (INR 0 * dy * 0, INR 0 * dy * -1) (center (nth 0 titles d)))) - INR k * dy)).
  rewrite seq_nth by exact K. unfold translation, py at 1 4 7 10, px. cbn [fst snd Nat.add]. rewrite ?C0, ?Ck. cbn [INR]. unfold py in *. cbn [fst snd] in *. rewrite ?C0, ?Ck. lra.
Qed.
Print Assumptions key_symbols.


(** Translations keep what is needed for the alignment. *)
Lemma corner_map (f : point -> point) (l : list point) i : (i < length l)%nat -> corner (map f l) i = f (corner l i).
Proof. intros I. unfold corner. rewrite (nth_indep _ (0, 0) (f (0, 0))) by (now rewrite map_length). apply map_nth. Qed.
Lemma next_less (l : list point) i : (i < length l)%nat -> (next (length l) i < length l)%nat.
Proof. intros I. unfold next. apply Nat.mod_upper_bound. lia. Qed.
Lemma convex_translated v (l : list point) : convex l -> convex (map (translation v) l).
Proof.
  intros [L C]. split; [now rewrite map_length|]. rewrite map_length. intros i j I J N1 N2. cbv zeta.
  rewrite !corner_map by (try apply next_less; assumption). specialize (C i j I J N1 N2). cbv zeta in C. unfold translation, px, py in *. cbn [fst snd] in *. lra.
Qed.
Lemma distinct_translated v l dx dy : distinct l dx dy -> distinct (map (translation v) l) dx dy.
Proof.
  intros D i I. rewrite map_length in *. cbv zeta. rewrite !corner_map by (try apply next_less; assumption). specialize (D i I). cbv zeta in D.
  destruct D as (D1 & D2 & D3). set (e := corner l i) in *. set (f := corner l (next (length l) i)) in *.
  assert (H : height dx dy (translation v e) - height dx dy (translation v f) = height dx dy e - height dx dy f).
  { unfold height, translation, px, py, Rdiv. cbn [fst snd]. ring. }
  assert (S : sideways dx dy (translation v e) - sideways dx dy (translation v f) = sideways dx dy e - sideways dx dy f).
  { unfold sideways, translation, px, py, Rdiv. cbn [fst snd]. ring. }
  rewrite H, S. split; [|auto]. unfold translation, px, py in *. cbn [fst snd] in *.
  replace (fst e + fst v - (fst f + fst v)) with (fst e - fst f) by ring. replace (snd e + snd v - (snd f + snd v)) with (snd e - snd f) by ring. exact D1.
Qed.
Lemma height_x q : height 1 0 q = px q.
Proof. unfold height. replace (1 * 1 + 0 * 0) with 1 by ring. rewrite sqrt_1. field. Qed.
Lemma height_down q : height 0 (-1) q = - py q.
Proof. unfold height. replace (0 * 0 + -1 * -1) with 1 by ring. rewrite sqrt_1. field. Qed.
Lemma in_tile ps a dx dy p : In p (fst (tile ps a dx dy)) -> exists v q, In q ps /\ p = transform (translation v) false q /\ exists t, v = (t * dx, t * dy).
Proof.
  intros I. unfold tile in I. cbn [fst] in I. apply in_map_iff in I. destruct I as [[k q] [<- I]]. apply in_combine_r in I. cbn [fst snd].
  eexists. exists q. split; [exact I|]. split; [reflexivity|]. eexists. reflexivity.
Qed.

(** What all titles are moved by after the tiling *)
Lemma aligned titles dist sw sh ss : titles <> [] ->
  (forall p, In p titles -> px (center p) = 0 /\ convex (corners p) /\ distinct (corners p) 1 0) ->
  exists t, fst (paintcolumn titles dist sw sh ss) = map (transform (translation (t, 0)) false) (fst (tile titles dist 0 (-1))) /\
   (forall p q, In p (fst (tile titles dist 0 (-1))) -> In q (corners p) -> sw + ss <= px q + t) /\
   (exists p q, In p (fst (tile titles dist 0 (-1))) /\ In q (corners p) /\ px q + t = sw + ss).
Proof.
  intros NE H. unfold paintcolumn. pose proof (length_tile titles dist 0 (-1)) as LT. pose proof (in_tile titles dist 0 (-1)) as IT.
  destruct (tile titles dist 0 (-1)) as [tiled dy]. cbn [fst snd] in *.
  assert (HT : forall p, In p tiled -> px (center p) = 0 /\ convex (corners p) /\ distinct (corners p) 1 0).
  { intros p I. destruct (IT p I) as (v & q & Iq & -> & t & ->). destruct (H q Iq) as (H1 & H2 & H3). cbn [transform center corners].
    split; [|split; [apply convex_translated|apply distinct_translated]; assumption]. unfold translation, px in *. cbn [fst]. lra. }
  assert (AC : forall p, In p tiled -> exists k, linealignvector p (sw + ss) 1 0 = (k, 0) /\ (forall q, In q (corners p) -> sw + ss <= px q + k) /\
                 exists q, In q (corners p) /\ px q + k = sw + ss).
  { intros p I. destruct (HT p I) as (H1 & H2 & H3). destruct (align_convex p (sw + ss) 1 0 H2) as ([k E] & A & B); [intros E; injection E as E; lra|exact H3|].
    rewrite E in A, B. exists k. split; [rewrite E; f_equal; ring|]. split.
    - intros q Iq. specialize (A q Iq). rewrite !height_x, H1 in A. unfold translation, px in *. cbn [fst] in *. lra.
    - destruct B as [q [Iq B]]. exists q. split; [exact Iq|]. rewrite !height_x, H1 in B. unfold translation, px in *. cbn [fst] in *. lra. }
  unfold linealignequal.
  destruct (equal_vector_spec (sw + ss) 1 0 tiled) as (v & p & -> & Ip & Ev & M). { intros E. subst tiled. destruct titles; [congruence|]. cbn in LT. lia. }
  destruct (AC p Ip) as (k & E & A & B). rewrite E in Ev. subst v. exists k. split; [reflexivity|]. split.
  - intros q c Iq Ic. specialize (M q Iq). destruct (AC q Iq) as (k' & E' & A' & _). rewrite E' in M. unfold hh, px, py in M. cbn [fst snd] in M.
    specialize (A' c Ic). lra.
  - destruct B as [c [Ic B]]. exists p, c. auto.
Qed.

(** All titles are to the right of the symbols with at least the space between them, and one of them with exactly this space. *)
Theorem key_titles_right : forall titles dist sw sh ss, titles <> [] ->
  (forall p, In p titles -> px (center p) = 0 /\ convex (corners p) /\ distinct (corners p) 1 0) ->
  let r := fst (paintcolumn titles dist sw sh ss) in
  (forall p q, In p r -> In q (corners p) -> sw + ss <= px q) /\ (exists p q, In p r /\ In q (corners p) /\ px q = sw + ss).
Proof.
  intros titles dist sw sh ss NE H r. unfold r. destruct (aligned titles dist sw sh ss NE H) as (t & -> & A & (p & q & Ip & Iq & B)). split.
  - intros p' q' Ip' Iq'. apply in_map_iff in Ip'. destruct Ip' as [p0 [<- I0]]. cbn [transform corners] in Iq'. apply in_map_iff in Iq'.
    destruct Iq' as [q0 [<- J0]]. specialize (A p0 q0 I0 J0). unfold translation, px in *. cbn [fst]. lra.
  - exists (transform (translation (t, 0)) false p), (translation (t, 0) q). split; [apply in_map; exact Ip|]. split; [cbn [transform corners]; apply in_map; exact Iq|].
    unfold translation, px in *. cbn [fst]. lra.
Qed.
Print Assumptions key_titles_right.

(** Titles of the same upper edge are at least dist apart. *)
Theorem key_titles_apart : forall titles dist sw sh ss top k q q' d,
  (forall p, In p titles -> px (center p) = 0 /\ convex (corners p) /\ distinct (corners p) 1 0 /\ distinct (corners p) 0 (-1) /\ distinct (corners p) 0 1 /\
     (forall q, In q (corners p) -> py q <= top) /\ exists q, In q (corners p) /\ py q = top) ->
  (S k < length titles)%nat -> let r := fst (paintcolumn titles dist sw sh ss) in
  In q (corners (nth k r d)) -> In q' (corners (nth (S k) r d)) -> py q - py q' >= dist.
Proof.
  intros titles dist sw sh ss top k q q' d H K r I I'. unfold r in *. clear r.
  destruct (aligned titles dist sw sh ss) as (t & E & _). { intros E. subst titles. cbn in K. lia. } { intros p Ip. destruct (H p Ip) as (H1 & H2 & H3 & _). auto. }
  rewrite E in I, I'. pose proof (length_tile titles dist 0 (-1)) as LT.
  rewrite (nth_indep _ d (transform (translation (t, 0)) false d)) in I by (rewrite map_length; lia). rewrite (nth_indep _ d (transform (translation (t, 0)) false d)) in I' by (rewrite map_length; lia).
  rewrite map_nth in I, I'. cbn [transform corners] in I, I'.
  apply in_map_iff in I. destruct I as [c [<- I]]. apply in_map_iff in I'. destruct I' as [c' [<- I']].
  assert (G : dist <= height 0 (-1) c' - height 0 (-1) c).
  { apply (tile_gap titles dist 0 (-1) (- top) d k c c'); try assumption; [lra| |].
    - intros p Ip. destruct (H p Ip) as (H1 & H2 & H3 & H4 & H5 & _). split; [exact H2|]. split; [exact H4|].
      replace (- 0) with 0 by ring. replace (- -1) with 1 by ring. exact H5.
    - intros p Ip. destruct (H p Ip) as (_ & _ & _ & _ & _ & H6 & (z & Iz & Ez)). split.
      + intros z' Iz'. rewrite height_down. specialize (H6 z' Iz'). lra.
      + exists z. split; [exact Iz|]. rewrite height_down. lra. }
  rewrite !height_down in G. unfold translation, py in *. cbn [snd]. lra.
Qed.
Print Assumptions key_titles_apart.

(** Titles are text boxes: the corners of a rectangle with its center at the base line *)
Definition title (w depth ht : R) : polygon := new_rect 0 (- depth) w (depth + ht) (0, 0) (0, depth).
Lemma title_convex w de ht : 0 < w -> 0 < de + ht -> convex (corners (title w de ht)).
Proof.
  intros W H. split; [cbn; lia|]. intros i j I J N1 N2. cbn in I, J. unfold next in N2. cbn in N2.
  destruct i as [|[|[|[|i]]]]; [| | | |lia]; destruct j as [|[|[|[|j]]]]; try lia; cbn in *; try congruence; nra.
Qed.
Lemma small : / 10 ^ 10 < 1 / 2.
Proof. apply (Rmult_lt_reg_r (10 ^ 10)); [lra|]. rewrite Rinv_l by lra. lra. Qed.
Lemma title_distinct w de ht dx dy : 1 <= w -> 1 <= de + ht -> (dx, dy) = (1, 0) \/ (dx, dy) = (0, 1) \/ (dx, dy) = (0, -1) ->
  distinct (corners (title w de ht)) dx dy.
Proof.
  intros W H D. assert (S : sqrt (dx * dx + dy * dy) = 1).
  { destruct D as [D|[D|D]]; injection D as -> ->; match goal with |- sqrt ?x = 1 => replace x with 1 by ring end; apply sqrt_1. }
  pose proof small as SM. intros i I. cbn in I. unfold height, sideways. rewrite S.
  set (e10 := / 10 ^ 10) in *. clearbody e10.
  destruct i as [|[|[|[|i]]]]; [| | | |lia]; cbn; unfold px, py; cbn; (split; [nra|]); (split; [|destruct D as [D|[D|D]]; injection D as -> ->; lra]);
    destruct D as [D|[D|D]]; injection D as -> ->; unfold Rabs; match goal with |- context [Rcase_abs ?x] => destruct (Rcase_abs x) end; try (left; lra); right; lra.
Qed.
Lemma title_extent w de ht : 1 <= w -> 1 <= de + ht -> extent (title w de ht) 0 (-1) = de + ht.
Proof.
  intros W H. destruct (extent_width (title w de ht) 0 (-1)) as [A (q & q' & Iq & Iq' & E)].
  - apply title_convex; lra.
  - intros E. injection E as E. lra.
  - apply title_distinct; auto.
  - replace (- 0) with 0 by ring. replace (- -1) with 1 by ring. apply title_distinct; auto.
  - assert (L : de + ht <= extent (title w de ht) 0 (-1)).
    { pose proof (A (0, - de) (0, - de + (de + ht))) as A1. rewrite !height_down in A1. unfold py in A1. cbn [snd] in A1. cbn [In corners title new_rect] in A1.
      enough (- - de - - (- de + (de + ht)) <= extent (title w de ht) 0 (-1)) by lra. apply A1; auto 6. }
    rewrite <- E, !height_down in L. rewrite <- E, !height_down. cbn [In corners title new_rect] in Iq, Iq'. unfold py in *.
    destruct Iq as [<-|[<-|[<-|[<-|[]]]]]; destruct Iq' as [<-|[<-|[<-|[<-|[]]]]]; cbn [snd] in *; lra.
Qed.

(** In general they are not: titles overlap when one reaches far below its base line and the next one far above. *)
Theorem key_titles_apart_refuted : exists titles dist sw sh ss q q' d,
  (forall p, In p titles -> exists w de ht, p = title w de ht /\ 0 < w /\ 0 < de /\ 0 < ht) /\ 0 < dist /\
  let r := fst (paintcolumn titles dist sw sh ss) in
  In q (corners (nth 0 r d)) /\ In q' (corners (nth 1 r d)) /\ py q < py q'.
Proof.
  set (ts := [title 10 9 1; title 10 1 9]).
  destruct (aligned ts 1 5 5 5) as (t & E & _).
  { discriminate. }
  { intros p [<-|[<-|[]]]; (split; [cbn; unfold px; cbn; lra|]); (split; [apply title_convex; lra|apply title_distinct; auto; lra]). }
  exists ts, 1, 5, 5, 5, (0 + 0 + t, -9 + 0), (0 + 0 + t, 9 - 11 + 0), (title 10 9 1).
  split. { intros p [<-|[<-|[]]]; eexists; eexists; eexists; (split; [reflexivity|lra]). }
  split; [lra|]. cbv zeta. rewrite E. unfold tile, ts. cbn [hd tl fold_left]. rewrite !title_extent by lra.
  unfold BoxModel.ltb. destruct (Rlt_dec _ _) as [L|L]; [lra|]. cbn. unfold translation, px, py. cbn [fst snd].
  split; [left; f_equal; lra|]. split; [|lra]. right. right. right. left. f_equal; lra.
Qed.
Print Assumptions key_titles_apart_refuted.

Example key_column_ex : let r := paintcolumn [title 10 2 8; title 20 2 8] 4 12 6 3 in
  nth 0 (snd r) 0 + 6 / 2 = py (center (nth 0 (fst r) (title 1 1 1))) /\ nth 1 (snd r) 0 + 6 / 2 = py (center (nth 1 (fst r) (title 1 1 1))) /\
  exists p q, In p (fst r) /\ In q (corners p) /\ px q = 12 + 3.
Proof.
  intros r. assert (C : forall p, In p [title 10 2 8; title 20 2 8] -> py (center p) = 0).
  { intros p [<-|[<-|[]]]; unfold py; cbn; lra. }
  split; [apply (key_symbols _ 4 12 6 3 0 0 _ C); cbn; lia|]. split; [apply (key_symbols _ 4 12 6 3 0 1 _ C); cbn; lia|].
  apply key_titles_right; [discriminate|].
  intros p [<-|[<-|[]]]; (split; [cbn; unfold px; cbn; lra|]); (split; [apply title_convex; lra|apply title_distinct; auto; lra]).
Qed.
