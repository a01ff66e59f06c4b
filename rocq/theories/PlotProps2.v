(** * Which points are drawn, and in which order the steps are done (C109) *)

From Coq Require Import Bool Arith Ascii String List Lia.
From Verif Require Import PlotModel PlotProps.
Import ListNotations.
Open Scope list_scope.

Section Points.
Variable value : Type.
Notation columns := (columns value).
Notation point := (point value).

(** The points are the rows of the columns: as many as the shortest column has, with the values of the row and None for other columns *)
Definition are_rows (used : list string) (ps : list point) (cols : columns) : Prop :=
  (forall k, k < length ps <-> cols <> [] /\ forall n l, In (n, l) cols -> k < length l) /\
  (forall k p, nth_error ps k = Some p -> forall n,
     (forall l, In (n, l) cols -> exists v, nth_error l k = Some v /\ getp value p n = Some (Some v)) /\
     (~ In n (map fst cols) -> getp value p n = if mem n used then Some None else None)).

Lemma getp_setp p n v m : getp value (setp value p n v) m = if String.eqb m n then Some v else getp value p m.
Proof.
  induction p as [|[k w] p IH]; cbn; [reflexivity|]. destruct (String.eqb_spec n k) as [->|N].
  - cbn. destruct (String.eqb m k); reflexivity.
  - cbn. destruct (String.eqb_spec m k) as [->|M]; [|exact IH]. destruct (String.eqb_spec k n); [congruence|reflexivity].
Qed.
Lemma getp_row r : forall p m, getp value (fold_left (fun p nv => setp value p (fst nv) (Some (snd nv))) r p) m =
  match find (fun nv => String.eqb m (fst nv)) (rev r) with Some nv => Some (Some (snd nv)) | None => getp value p m end.
Proof.
  intros p m. rewrite <- (rev_involutive r) at 1. induction (rev r) as [|nv l IH]; [reflexivity|]. cbn [rev find]. rewrite fold_left_app. cbn [fold_left].
  rewrite getp_setp. destruct (String.eqb m (fst nv)); [reflexivity|exact IH].
Qed.
Lemma find_in (r : list (string * value)) m v : NoDup (map fst r) -> In (m, v) r -> find (fun nv => String.eqb m (fst nv)) (rev r) = Some (m, v).
Proof.
  intros N I. assert (N' : NoDup (map fst (rev r))) by (rewrite map_rev; apply NoDup_rev; exact N). apply in_rev in I. revert N' I. induction (rev r) as [|[k w] l IH]; [contradiction|].
  cbn [map find fst]. intros N' I. inversion N' as [|? ? NI NL]; subst. destruct (String.eqb_spec m k) as [->|NE].
  - destruct I as [I|I]; [congruence|]. exfalso. apply NI. change k with (fst (k, v)). apply in_map. exact I.
  - destruct I as [I|I]; [congruence|]. apply IH; assumption.
Qed.
Lemma find_none (r : list (string * value)) m : ~ In m (map fst r) -> find (fun nv => String.eqb m (fst nv)) (rev r) = None.
Proof.
  intros N. destruct (find _ (rev r)) as [[k v]|] eqn:F; [|reflexivity]. exfalso. apply N. apply find_some in F. destruct F as [F1 F2]. cbn in F2.
  apply String.eqb_eq in F2. subst k. apply in_rev in F1. change m with (fst (m, v)). apply in_map. exact F1.
Qed.
Lemma getp_empty used m : getp value (empty_point value used) m = if mem m used then Some None else None.
Proof. unfold empty_point, mem. induction used as [|u used IH]; cbn; [reflexivity|]. destruct (String.eqb m u); [reflexivity|exact IH]. Qed.

Lemma heads_spec (c : columns) r : heads value c = Some r -> map fst r = map fst c /\ forall n l, In (n, l) c -> exists v, hd_error l = Some v /\ In (n, v) r.
Proof.
  revert r. induction c as [|[n l] c IH]; intros r E; cbn in E.
  - injection E as <-. split; [reflexivity|intros n l []].
  - destruct l as [|v l]; [discriminate|]. fold (heads value c) in E. destruct (heads value c) as [r'|]; [|discriminate]. injection E as <-.
    destruct (IH r' eq_refl) as [A B]. split; [cbn; now f_equal|]. intros n' l' [I|I].
    + injection I as <- <-. exists v. split; [reflexivity|now left].
    + destruct (B n' l' I) as [v' [H1 H2]]. exists v'. split; [exact H1|now right].
Qed.
Lemma heads_none (c : columns) : heads value c = None <-> exists n, In (n, []) c.
Proof.
  induction c as [|[n l] c IH]; cbn; [split; [discriminate|intros [n []]]|]. fold (heads value c).
  destruct l as [|v l]; [split; [intros _; exists n; now left|reflexivity]|].
  destruct (heads value c) as [r|]; split.
  - discriminate.
  - intros [m [I|I]]; [discriminate|]. destruct IH as [_ IH]. discriminate IH. exists m. exact I.
  - intros _. destruct IH as [IH _]. destruct (IH eq_refl) as [m I]. exists m. now right.
  - reflexivity.
Qed.
Lemma in_tails (c : columns) n l : In (n, l) c -> In (n, tl l) (tails value c).
Proof. intros I. unfold tails. change (n, tl l) with ((fun nc : string * list value => (fst nc, tl (snd nc))) (n, l)). apply in_map. exact I. Qed.
Lemma names_tails (c : columns) : map fst (tails value c) = map fst c.
Proof. unfold tails. rewrite map_map. reflexivity. Qed.

Lemma rows_spec : forall fuel (c : columns), c <> [] -> (exists n l, In (n, l) c /\ length l <= fuel) ->
  (forall k, k < length (rows value fuel c) <-> forall n l, In (n, l) c -> k < length l) /\
  (forall k r, nth_error (rows value fuel c) k = Some r -> map fst r = map fst c /\ forall n l, In (n, l) c -> exists v, nth_error l k = Some v /\ In (n, v) r).
Proof.
  induction fuel as [|f IH]; intros c NE (n0 & l0 & I0 & L0).
  - cbn. split; [|intros [|k] r E; discriminate]. intros k. split; [lia|]. intros H. specialize (H n0 l0 I0). lia.
  - cbn [rows]. destruct c as [|nc c'] eqn:EC; [congruence|]. rewrite <- EC in *. clear EC nc c'.
    destruct (heads value c) as [r|] eqn:H.
    + destruct (heads_spec c r H) as [A B].
      assert (NZ : forall n l, In (n, l) c -> l <> []). { intros n l I ->. destruct (B n [] I) as [v [X _]]. discriminate. }
      destruct (IH (tails value c)) as [C D].
      { destruct c; [congruence|discriminate]. }
      { exists n0, (tl l0). split; [apply in_tails; exact I0|]. pose proof (NZ n0 l0 I0). destruct l0; [congruence|cbn in *; lia]. }
      split.
      * intros [|k]; cbn [length].
        -- split; [|lia]. intros _ n l I. pose proof (NZ n l I). destruct l; [congruence|cbn; lia].
        -- rewrite <- Nat.succ_lt_mono, C. split.
           ++ intros K n l I. specialize (K n (tl l) (in_tails c n l I)). pose proof (NZ n l I). destruct l; [congruence|cbn in *; lia].
           ++ intros K n l I. unfold tails in I. apply in_map_iff in I. destruct I as [[n' l'] [E I]]. cbn in E. injection E as <- <-. specialize (K n' l' I). destruct l'; cbn in *; lia.
      * intros [|k] r' E; cbn [nth_error] in E.
        -- injection E as <-. split; [exact A|]. intros n l I. destruct (B n l I) as [v [X Y]]. exists v. split; [destruct l; exact X|exact Y].
        -- destruct (D k r' E) as [D1 D2]. rewrite names_tails in D1. split; [exact D1|]. intros n l I. destruct (D2 n (tl l) (in_tails c n l I)) as [v [X Y]].
           exists v. split; [|exact Y]. destruct l; [destruct k; discriminate|exact X].
    + cbn. split; [|intros [|k] r E; discriminate]. intros k. split; [lia|]. intros K. apply heads_none in H. destruct H as [n I]. specialize (K n [] I). cbn in K. lia.
Qed.
Lemma zip_spec (c : columns) :
  (forall k, k < length (zip value c) <-> c <> [] /\ forall n l, In (n, l) c -> k < length l) /\
  (forall k r, nth_error (zip value c) k = Some r -> map fst r = map fst c /\ forall n l, In (n, l) c -> exists v, nth_error l k = Some v /\ In (n, v) r).
Proof.
  unfold zip. destruct c as [|[n l] c].
  - cbn. split; [intros k; split; [lia|intros [X _]; congruence]|intros [|k] r E; discriminate].
  - destruct (rows_spec (length (snd (n, l))) ((n, l) :: c)) as [A B]; [discriminate|exists n, l; split; [now left|apply le_n]|].
    split; [|exact B]. intros k. rewrite A. split; [intros H; split; [discriminate|exact H]|intros [_ H]; exact H].
Qed.

Lemma draw_spec used (names : list string) : forall rs p0, (forall r, In r rs -> map fst r = names) -> NoDup names ->
  (forall n, ~ In n names -> getp value p0 n = if mem n used then Some None else None) ->
  length (draw_rows value p0 rs) = length rs /\
  forall k p, nth_error (draw_rows value p0 rs) k = Some p -> exists r, nth_error rs k = Some r /\
    (forall n v, In (n, v) r -> getp value p n = Some (Some v)) /\ (forall n, ~ In n names -> getp value p n = if mem n used then Some None else None).
Proof.
  induction rs as [|r rs IH]; intros p0 RN ND H0; cbn [draw_rows].
  - split; [reflexivity|]. intros [|k] p E; discriminate.
  - set (p' := fold_left _ r p0). assert (RR : map fst r = names) by (apply RN; now left).
    assert (P1 : forall n v, In (n, v) r -> getp value p' n = Some (Some v)).
    { intros n v I. unfold p'. rewrite getp_row, (find_in r n v); [reflexivity|rewrite RR; exact ND|exact I]. }
    assert (P2 : forall n, ~ In n names -> getp value p' n = if mem n used then Some None else None).
    { intros n I. unfold p'. rewrite getp_row, find_none by (rewrite RR; exact I). apply H0. exact I. }
    destruct (IH p') as [A B]; [intros x I; apply RN; now right|exact ND|exact P2|].
    split; [cbn; now f_equal|]. intros [|k] p E; cbn [nth_error] in E.
    + injection E as <-. exists r. split; [reflexivity|]. auto.
    + destruct (B k p E) as [x X]. exists x. exact X.
Qed.

(** First the static rows are drawn, then a point without values if there are static as well as dynamic columns, then the dynamic rows.
    A point contains the values of its row, and nothing remains from other rows. *)
Theorem points_drawn : forall used (static dynamic : columns), NoDup (map fst static) -> NoDup (map fst dynamic) ->
  exists ps gap pd, drawn_points value used static dynamic = ps ++ gap ++ pd /\ are_rows used ps static /\ are_rows used pd dynamic /\
    (static = [] \/ dynamic = [] -> gap = []) /\
    (static <> [] -> dynamic <> [] -> exists p, gap = [p] /\ forall n, getp value p n = if mem n used then Some None else None).
Proof.
  intros used static dynamic NS NDy.
  assert (G : forall c : columns, NoDup (map fst c) -> are_rows used (draw_rows value (empty_point value used) (zip value c)) c).
  { intros c ND. destruct (zip_spec c) as [Z1 Z2].
    destruct (draw_spec used (map fst c) (zip value c) (empty_point value used)) as [A B].
    - intros r I. apply In_nth_error in I. destruct I as [k K]. apply (Z2 k r K).
    - exact ND.
    - intros n _. apply getp_empty.
    - split.
      + intros k. rewrite A. apply Z1.
      + intros k p E n. destruct (B k p E) as (r & R1 & R2 & R3). split; [|apply R3].
        intros l I. destruct (Z2 k r R1) as [_ Z3]. destruct (Z3 n l I) as [v [V1 V2]]. exists v. split; [exact V1|]. apply R2. exact V2. }
  eexists. eexists. eexists. split; [reflexivity|]. split; [apply G; exact NS|]. split; [apply G; exact NDy|]. split.
  - intros [-> | ->]; [reflexivity|destruct static; reflexivity].
  - intros H1 H2. destruct static; [congruence|]. destruct dynamic; [congruence|]. eexists. split; [reflexivity|]. intros n. apply getp_empty.
Qed.
End Points.
Print Assumptions points_drawn.
Example points_drawn_ex : drawn_points nat ["x"; "y"; "size"]%string [("x", [1; 2]); ("y", [3; 4; 5])]%string [("x", [7])]%string =
  [[("x", Some 1); ("y", Some 3); ("size", None)]; [("x", Some 2); ("y", Some 4); ("size", None)]; [("x", None); ("y", None); ("size", None)];
   [("x", Some 7); ("y", None); ("size", None)]]%string.
Proof. vm_compute. reflexivity. Qed.
