(** * Bars in graphs (C102) *)

From Coq Require Import Reals Bool List Lra Lia.
From Verif Require Import Graph3dModel GraphBarModel Graph3dSpec GraphBarSpec.
Import ListNotations.
Open Scope R_scope.

Ltac lb := repeat match goal with
  | |- context [ltb ?a ?b] => unfold ltb at 1; destruct (Rlt_dec a b)
  | H : context [ltb ?a ?b] |- _ => unfold ltb at 1 in H; destruct (Rlt_dec a b)
  end; cbn [orb andb negb] in *.

(** The range of a bar is that part of it which is within the graph; a bar is left out if nothing of it is within the graph. *)
Lemma clip_range_spec r : match clip_range r with
  | Some (a, b) => a <= b /\ forall v, a <= v <= b <-> along_bar r v
  | None => forall v, ~ along_bar r v
  end.
Proof.
  unfold along_bar. destruct r as [[a|] [b|]]; cbn [clip_range]; try (intros v (a' & b' & E & _); discriminate).
  destruct (ltb b a) eqn:E; unfold ltb in E; destruct (Rlt_dec b a); try discriminate; lb;
    try (intros v (a' & b' & E' & H); injection E' as <- <-; lra).
  all: split; [lra|]; intros v; split; [intros H; exists a, b; split; [reflexivity|lra]|intros (a' & b' & E' & H); injection E' as <- <-; lra].
Qed.

(** In a two dimensional graph exactly the part of the bar which is within the graph is filled: a position is inside of the path
    if and only if both coordinates are along the bar and within the graph. *)
Theorem bar_rectangle : forall rx ry,
  match clip_ranges [rx; ry] with
  | Some l => exists x y, l = [x; y] /\
      (forall vx vy, (fst x <= vx <= snd x /\ fst y <= vy <= snd y) <-> (along_bar rx vx /\ along_bar ry vy)) /\
      (fst x < snd x -> fst y < snd y -> forall vx vy, in_polygon (corners2 x y) (vx, vy) <-> (along_bar rx vx /\ along_bar ry vy))
  | None => forall vx vy, ~ (along_bar rx vx /\ along_bar ry vy)
  end.
Proof.
  intros rx ry. cbn [clip_ranges]. pose proof (clip_range_spec rx) as X. pose proof (clip_range_spec ry) as Y.
  destruct (clip_range rx) as [[x0 x1]|]; [|intros vx vy (H & _); exact (X vx H)].
  destruct (clip_range ry) as [[y0 y1]|]; [|intros vx vy (_ & H); exact (Y vy H)].
  destruct X as (X0 & X), Y as (Y0 & Y). exists (x0, x1), (y0, y1). split; [reflexivity|]. split.
  - intros vx vy. cbn [fst snd]. rewrite X, Y. reflexivity.
  - cbn [fst snd]. intros X1 Y1 vx vy. rewrite <- X, <- Y. unfold in_polygon, corners2, edges. cbn [combine app fst snd]. split.
    + intros H. inversion H as [|? ? H1 I]; subst. inversion I as [|? ? H2 J]; subst. inversion J as [|? ? H3 K]; subst. inversion K as [|? ? H4 _]; subst.
      unfold area in *. cbn [fst snd] in *. repeat split; nra.
    + intros H. do 4 (apply Forall_cons; [unfold area; cbn [fst snd]; nra|]). apply Forall_nil.
Qed.
Print Assumptions bar_rectangle.
Example bar_rectangle_ex : clip_ranges [(Some 0.75, Some 0.25); (Some (-1), Some 0.5)] = Some [(0.25, 0.75); (0, 0.5)].
Proof. cbn [clip_ranges clip_range]. lb; try lra. reflexivity. Qed.

(** The ends of a bar are converted with the name of the bar and, innermost, 0 and 1. *)
Theorem subvalue_innermost : forall n s, names (addsubvalue n s) = names n ++ [Atom s].
Proof. induction n as [n|a _ b IH]; intros s; cbn; [reflexivity|]. rewrite IH. reflexivity. Qed.
Print Assumptions subvalue_innermost.
Example subvalue_ex : addsubvalue (Pair (Atom 7) (Pair (Atom 3) (Atom 5))) 1 = Pair (Atom 7) (Pair (Atom 3) (Pair (Atom 5) (Atom 1))).
Proof. reflexivity. Qed.

(** bars begin within the graph: at the position of fromvalue when that is within the graph, otherwise at the nearer border *)
Theorem bar_begin : forall convert fromvalue v, vfromvalue convert fromvalue = Some v ->
  0 <= v <= 1 /\
  match fromvalue with
  | None => v = 0
  | Some x => exists c, convert x = Some c /\ forall w, 0 <= w <= 1 -> Rabs (v - c) <= Rabs (w - c)
  end.
Proof.
  intros convert fromvalue v. unfold vfromvalue. destruct fromvalue as [x|].
  - destruct (convert x) as [c|]; [|discriminate]. intros E. cbv zeta in E.
    assert (0 <= v <= 1 /\ ((v = c) \/ (v = 0 /\ c <= 0) \/ (v = 1 /\ 1 <= c))) as (A & B) by (lb; injection E as <-; lra).
    split; [exact A|]. exists c. split; [reflexivity|]. intros w W.
    destruct B as [->|[(-> & C)|(-> & C)]].
    + replace (c - c) with 0 by ring. rewrite Rabs_R0. apply Rabs_pos.
    + rewrite !Rabs_pos_eq by lra. lra.
    + rewrite !Rabs_left1 by lra. lra.
  - intros E. injection E as <-. lra.
Qed.
Print Assumptions bar_begin.
Example bar_begin_ex : vfromvalue (fun x => Some (x / 10)) (Some (-5)) = Some 0 /\ vfromvalue (fun x => Some (x / 10)) (Some 5) = Some 0.5.
Proof. unfold vfromvalue. split; lb; try lra; f_equal; lra. Qed.

Lemma number_nth {A} (l : list A) k i : nth_error (number k l) i = option_map (fun x => ((k + i)%nat, x)) (nth_error l i).
Proof.
  revert k i. induction l as [|x l IH]; intros k [|i]; cbn; try reflexivity.
  - rewrite Nat.add_0_r. reflexivity.
  - rewrite IH, <- Nat.add_succ_comm. reflexivity.
Qed.
Lemma note_fold e l f : fold_left (note e) l f = (fst f && forallb (fun v => match v with Some _ => true | None => false end) l,
  if forallb (fun v => match v with Some x => negb (ltb x (- e) || ltb (1 + e) x) | None => false end) l then snd f else false).
Proof.
  revert f. induction l as [|v l IH]; intros [f0 f1]; cbn [fold_left forallb].
  - cbn. rewrite andb_true_r. reflexivity.
  - rewrite IH. destruct v as [x|]; cbn [note].
    + destruct (ltb x (- e) || ltb (1 + e) x); cbn [negb andb fst snd]; [|reflexivity]. match goal with |- context [if ?b then _ else _] => destruct b end; reflexivity.
    + cbn [fst snd andb]. rewrite andb_false_r. match goal with |- context [if ?b then _ else _] => destruct b end; reflexivity.
Qed.

(** A point with the columns [cs]: each bar goes from the begin to the value in the dimension of the value, and from the position
    of its name with 0 to that with 1 in the other dimensions; positions are valid when they are within the graph. *)
Theorem bar_ends : forall convert convert_name vfrom e cs i c, nth_error cs i = Some c ->
  let s := barpos_drawpoint convert convert_name vfrom e cs in
  match c with
  | Value x => nth_error (vbarrange s) i = Some (Some vfrom, match x with Some y => convert y | None => None end) /\
      nth_error (vpos s) i = Some (match x with Some y => convert y | None => None end)
  | Name n => nth_error (vbarrange s) i = Some (convert_name i (addsubvalue n 0), convert_name i (addsubvalue n 1)) /\
      (forall a b, convert_name i (addsubvalue n 0) = Some a -> convert_name i (addsubvalue n 1) = Some b -> nth_error (vpos s) i = Some (Some ((a + b) / 2)))
  end.
Proof.
  intros convert convert_name vfrom e cs i c H s. unfold s, barpos_drawpoint. cbn [vbarrange vpos].
  rewrite !nth_error_map, number_nth, H. cbn [option_map fst snd Nat.add].
  destruct c as [x|n]; cbn [column_range column_pos].
  - split; reflexivity.
  - split; [reflexivity|]. intros a b -> ->. f_equal. f_equal. lra.
Qed.
Print Assumptions bar_ends.
Theorem bar_valid : forall convert convert_name vfrom e cs,
  let s := barpos_drawpoint convert convert_name vfrom e cs in
  (vposavailable s = true <-> forall v, In v (vpos s) -> v <> None) /\
  (vposvalid s = true <-> forall v, In v (vpos s) -> exists x, v = Some x /\ - e <= x <= 1 + e).
Proof.
  intros convert convert_name vfrom e cs s. unfold s, barpos_drawpoint. cbn [vposavailable vposvalid vpos].
  set (l := map _ (number 0 cs)). rewrite note_fold. cbn [fst snd andb]. split.
  - rewrite forallb_forall. split; intros H v I; specialize (H v I); destruct v; congruence.
  - match goal with |- (if ?b then true else false) = true <-> _ => assert ((if b then true else false) = b) as -> by (destruct b; reflexivity) end.
    rewrite forallb_forall. split; intros H v I; specialize (H v I).
    + destruct v as [x|]; [|discriminate]. exists x. split; [reflexivity|]. lb; try discriminate. lra.
    + destruct H as (x & -> & H). lb; try lra; reflexivity.
Qed.
Print Assumptions bar_valid.
Example bar_ends_ex :
  let s := barpos_drawpoint (fun x => Some (x / 10)) (fun _ n => match n with Pair (Atom k) (Atom j) => Some (INR (4 * k + 2 * j) / 16) | _ => None end) 0 0.01
             [Name (Atom 1); Value (Some 4)] in
  vbarrange s = [(Some (INR 4 / 16), Some (INR 6 / 16)); (Some 0, Some (4 / 10))] /\ vposvalid s = true /\ lastbarvalue s = Some 4.
Proof.
  cbv zeta. split; [reflexivity|]. split; [|reflexivity].
  apply bar_valid. intros v. cbn [barpos_drawpoint vpos map number column_pos column_range fst snd addsubvalue convert_value]. cbn [INR Nat.mul Nat.add].
  intros [<-|[<-|[]]]; eexists; (split; [reflexivity|]); lra.
Qed.

(** Stacked bars: every bar begins where the one before ends, and (for addontop) ends at the sum of all values. *)
Lemma put_nth {A} (l : list A) i x j : nth_error (put i x l) j = if Nat.eqb j i then option_map (fun _ => x) (nth_error l j) else nth_error l j.
Proof.
  unfold put. rewrite nth_error_map, number_nth. destruct (nth_error l j) as [y|]; cbn; destruct (Nat.eqb_spec j i); reflexivity.
Qed.
Definition stack convert addontop e i (xs : list (option R)) (s : shared) : shared :=
  fold_left (fun s x => stacked_drawpoint convert addontop e i x s) xs s.
Lemma stacked_parts convert addontop e i x s :
  let s' := stacked_drawpoint convert addontop e i x s in
  let last := if addontop then match lastbarvalue s, x with Some a, Some b => Some (a + b) | _, _ => None end else x in
  lastbarvalue s' = last /\
  vbarrange s' = put i (match nth_error (vbarrange s) i with Some r => snd r | None => None end, convert_value convert last) (vbarrange s) /\
  vpos s' = put i (convert_value convert last) (vpos s).
Proof.
  cbv zeta. unfold stacked_drawpoint. cbv zeta. destruct (convert_value convert _); [|cbn; auto].
  destruct (negb _ || negb _); cbn; auto.
Qed.
Lemma sum_app l x : sum_all (l ++ [x]) = match sum_all l, x with Some a, Some b => Some (a + b) | _, _ => None end.
Proof. unfold sum_all. rewrite fold_left_app. reflexivity. Qed.

Theorem stacked_bars : forall convert addontop e i s x0 lo xs x,
  nth_error (vbarrange s) i = Some (lo, convert x0) -> lastbarvalue s = Some x0 ->
  let before := stack convert addontop e i xs s in let after := stack convert addontop e i (xs ++ [x]) s in
  let total l := if addontop then sum_all (Some x0 :: l) else last l (Some x0) in
  (exists r, nth_error (vbarrange before) i = Some r /\ nth_error (vbarrange after) i = Some (snd r, match total (xs ++ [x]) with Some y => convert y | None => None end)) /\
  lastbarvalue after = total (xs ++ [x]) /\
  forall j, j <> i -> nth_error (vbarrange after) j = nth_error (vbarrange s) j.
Proof.
  intros convert addontop e i s x0 lo xs x R L.
  assert (forall xs, let t := stack convert addontop e i xs s in
    (exists r, nth_error (vbarrange t) i = Some r) /\ lastbarvalue t = (if addontop then sum_all (Some x0 :: xs) else last xs (Some x0)) /\
    forall j, j <> i -> nth_error (vbarrange t) j = nth_error (vbarrange s) j) as A.
  { intros ys. induction ys as [|y ys IH] using rev_ind; cbv zeta.
    - cbn [stack fold_left]. split; [eexists; exact R|]. split; [|reflexivity]. rewrite L. destruct addontop; [|reflexivity]. cbn. f_equal. ring.
    - cbv zeta in IH. unfold stack in *. rewrite fold_left_app. cbn [fold_left]. set (t := fold_left _ ys s) in *.
      destruct IH as ((r & I1) & I2 & I3). destruct (stacked_parts convert addontop e i y t) as (P1 & P2 & P3). cbv zeta in P1, P2. rewrite P1, P2.
      split; [|split].
      + rewrite put_nth, Nat.eqb_refl, I1. cbn. eexists. reflexivity.
      + rewrite I2. destruct addontop; [|rewrite last_last; reflexivity].
        change (Some x0 :: ys ++ [y]) with ((Some x0 :: ys) ++ [y]). rewrite sum_app. reflexivity.
      + intros j J. rewrite put_nth. destruct (Nat.eqb_spec j i); [contradiction|]. apply I3. exact J. }
  cbv zeta. destruct (A xs) as ((r & A1) & A2 & _). destruct (A (xs ++ [x])) as (_ & B2 & B3). cbv zeta in A1, A2, B2, B3.
  split; [|split; [exact B2|exact B3]]. exists r. split; [exact A1|].
  unfold stack in *. rewrite fold_left_app in *. cbn [fold_left] in *. set (t := fold_left _ xs s) in *.
  destruct (stacked_parts convert addontop e i x t) as (P1 & P2 & _). cbv zeta in P1, P2. rewrite P2, put_nth, Nat.eqb_refl, A1. cbn [option_map].
  rewrite <- P1, B2. reflexivity.
Qed.
Print Assumptions stacked_bars.
Example stacked_ex :
  let s := mkshared [(Some 0, Some (1 / 10)); (Some 0.2, Some 0.4)] [Some (1 / 10); Some 0.3] (Some 1) true true in
  let t := stack (fun x => Some (x / 10)) true 0 0 [Some 2; Some 3] s in
  vbarrange t = [(Some ((1 + 2) / 10), Some ((1 + 2 + 3) / 10)); (Some 0.2, Some 0.4)] /\ lastbarvalue t = Some (1 + 2 + 3).
Proof. split; reflexivity. Qed.

(** Whether the position of a stacked bar is valid is not determined again when it was valid before: here the position is outside
    of the graph, but claimed to be valid. *)
Theorem stacked_valid_refuted : exists convert e i x s,
  0 <= e /\ vposvalid s = true /\ (forall v, In v (vpos s) -> exists y, v = Some y /\ - e <= y <= 1 + e) /\
  let t := stacked_drawpoint convert true e i x s in
  vposvalid t = true /\ exists y, In (Some y) (vpos t) /\ 1 + e < y.
Proof.
  exists (fun x => Some (x / 10)), 0, 0%nat, (Some 15), (mkshared [(Some 0, Some 0.1); (Some 0.2, Some 0.4)] [Some 0.1; Some 0.3] (Some 1) true true).
  split; [lra|]. split; [reflexivity|]. split.
  - intros v [<-|[<-|[]]]; eexists; (split; [reflexivity|]); lra.
  - cbv zeta. split; [reflexivity|]. exists ((1 + 15) / 10). split; [left; reflexivity|lra].
Qed.
Print Assumptions stacked_valid_refuted.
(** it is right when a position was not valid before *)
Theorem stacked_valid_again : forall convert addontop e i x s, vposavailable s = false \/ vposvalid s = false ->
  let t := stacked_drawpoint convert addontop e i x s in
  (exists r, nth_error (vpos s) i = Some r) ->
  (vposvalid t = true <-> forall v, In v (vpos t) -> exists y, v = Some y /\ - e <= y <= 1 + e).
Proof.
  intros convert addontop e i x s B t (r & R).
  destruct (stacked_parts convert addontop e i x s) as (_ & _ & P). cbv zeta in P. fold t in P.
  set (last := if addontop then _ else _) in P.
  assert (forall l f, snd (check_again e f l) = true <-> snd f = true /\ forall v, In v l -> exists y, v = Some y /\ - e <= y <= 1 + e) as C.
  { induction l as [|v l IH]; intros f; cbn [check_again].
    - split; [intros H; split; [exact H|intros ? []]|tauto].
    - destruct v as [y|].
      + rewrite IH. split.
        * intros (H1 & H2). lb; try discriminate. split; [exact H1|]. intros v [<-|I]; [eexists; split; [reflexivity|lra]|auto].
        * intros (H1 & H2). destruct (H2 (Some y) (or_introl eq_refl)) as (y' & E & Y). injection E as <-. lb; try lra.
          split; [exact H1|]. intros v I. apply H2. right. exact I.
      + cbn. split; [discriminate|]. intros (_ & H). destruct (H None (or_introl eq_refl)) as (y & E & _). discriminate. }
  assert (In (convert_value convert last) (vpos t)) as I.
  { rewrite P. apply nth_error_In with (n := i). rewrite put_nth, Nat.eqb_refl, R. reflexivity. }
  unfold t, stacked_drawpoint in *. cbv zeta in *. fold last in I |- *. destruct (convert_value convert last) as [y|].
  - assert (negb (vposavailable s) || negb (vposvalid s) = true) as E by (destruct B as [-> | ->]; cbn; rewrite ?orb_true_r; reflexivity).
    rewrite E in *. cbn [vposvalid vpos] in *. rewrite C. cbn [snd]. tauto.
  - cbn [vposvalid vpos] in *. split; [discriminate|]. intros H. destruct (H _ I) as (y & E & _). discriminate.
Qed.
Print Assumptions stacked_valid_again.
