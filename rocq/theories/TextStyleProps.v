(** Which columns the text style needs and where it puts the texts *)
From Coq Require Import Ascii String Reals List Bool Lia Lra.
From Verif Require Import TextStyleModel.
Import ListNotations.
Open Scope R_scope.

(** the names the style was given, in order *)
Definition given (s : tstyle) : list string :=
  textname s :: (match dxname s with Some n => [n] | None => [] end) ++ (match dyname s with Some n => [n] | None => [] end).

Lemma absent_false n l : absent n l = false <-> In n l.
Proof.
  unfold absent. rewrite negb_false_iff, existsb_exists. split.
  - intros (x & Hx & E). apply String.eqb_eq in E. now subst.
  - intro H. exists n. split; [exact H|apply String.eqb_refl].
Qed.
Lemma absent_true n l : absent n l = true <-> ~ In n l.
Proof. rewrite <- absent_false. now destruct (absent n l). Qed.

(** C175: the columns are accepted exactly when each given name is a column and no position is missing, and then they are the given names;
    otherwise the exception names the first given name which is no column, or the position is incomplete *)
Theorem text_columns : forall s columns missing,
  (forall l, text_columnnames s columns missing = inr l <-> (incl (given s) columns /\ missing = [] /\ l = given s)) /\
  (forall n, text_columnnames s columns missing = inl (ColumnMissing n) <->
     exists a b, given s = (a ++ n :: b)%list /\ incl a columns /\ ~ In n columns) /\
  (text_columnnames s columns missing = inl IncompletePosition <-> incl (given s) columns /\ missing <> []).
Proof.
  intros s columns missing.
  assert (K : (exists a n b, given s = (a ++ n :: b)%list /\ incl a columns /\ ~ In n columns /\
                 text_columnnames s columns missing = inl (ColumnMissing n)) \/
              (incl (given s) columns /\ text_columnnames s columns missing =
                 match missing with [] => inr (given s) | _ => inl IncompletePosition end)).
  { unfold text_columnnames, given.
    destruct (absent (textname s) columns) eqn:A.
    { left. exists [], (textname s). eexists. split; [reflexivity|]. apply absent_true in A.
      split; [intros ? []|]. now split. }
    apply absent_false in A.
    assert (B : match dxname s with Some n => ~ In n columns | None => False end \/
                match dxname s with Some n => In n columns | None => True end).
    { destruct (dxname s) as [n|]; [|now right]. destruct (absent n columns) eqn:E;
        [left; now apply absent_true|right; now apply absent_false]. }
    destruct (dxname s) as [n|].
    - destruct B as [B|B].
      + rewrite (proj2 (absent_true n columns) B). left. exists [textname s], n. eexists. split; [reflexivity|].
        split; [intros x [<-|[]]; exact A|]. now split.
      + rewrite (proj2 (absent_false n columns) B). destruct (dyname s) as [m|].
        * destruct (absent m columns) eqn:E.
          -- left. exists [textname s; n], m, []. split; [reflexivity|].
             split; [intros x [<-|[<-|[]]]; assumption|]. split; [now apply absent_true|reflexivity].
          -- right. split; [|destruct missing; reflexivity]. apply absent_false in E.
             intros x [<-|[<-|[<-|[]]]]; assumption.
        * right. split; [|destruct missing; reflexivity]. intros x [<-|[<-|[]]]; assumption.
    - destruct (dyname s) as [m|].
      + destruct (absent m columns) eqn:E.
        * left. exists [textname s], m, []. split; [reflexivity|].
          split; [intros x [<-|[]]; assumption|]. split; [now apply absent_true|reflexivity].
        * right. split; [|destruct missing; reflexivity]. apply absent_false in E. intros x [<-|[<-|[]]]; assumption.
      + right. split; [|destruct missing; reflexivity]. intros x [<-|[]]; assumption. }
  assert (U : forall a b n a' b' n', (a ++ n :: b = a' ++ n' :: b')%list -> incl a columns -> ~ In n columns ->
                incl a' columns -> ~ In n' columns -> n = n').
  { clear. induction a as [|x a IHa]; intros b n a' b' n' E I N I' N'; destruct a' as [|x' a']; cbn in E.
    - congruence.
    - exfalso. injection E as -> _. apply N, I'. now left.
    - exfalso. injection E as -> _. apply N', I. now left.
    - injection E as _ E. apply (IHa b n a' b' n' E); try assumption.
      + intros y Hy. apply I. now right.
      + intros y Hy. apply I'. now right. }
  destruct K as [(a & n & b & E & I & N & ->)|[I ->]].
  - assert (F : ~ incl (given s) columns).
    { intro H. apply N, H. rewrite E. apply in_or_app. right. now left. }
    split; [|split].
    + intro l. split; [discriminate|]. intros (H & _). contradiction.
    + intro m. split.
      * intro H. injection H as <-. exists a, b. now split; [|split].
      * intros (a' & b' & E' & I' & N'). rewrite E in E'. now rewrite (U _ _ _ _ _ _ E' I N I' N').
    + split; [discriminate|]. intros (H & _). contradiction.
  - assert (F : forall n, ~ exists a b, given s = (a ++ n :: b)%list /\ incl a columns /\ ~ In n columns).
    { intros n (a & b & E & _ & N). apply N, I. rewrite E. apply in_or_app. right. now left. }
    destruct missing as [|m missing]; split; [| split | | split].
    + intro l. split; [intro H; injection H as <-; now repeat split|]. intros (_ & _ & ->). reflexivity.
    + intro n. split; [discriminate|]. intro H. now destruct (F n).
    + split; [discriminate|]. intros (_ & H). contradiction.
    + intro l. split; [discriminate|]. intros (_ & H & _). discriminate.
    + intro n. split; [discriminate|]. intro H. now destruct (F n).
    + split; [|reflexivity]. intros _. split; [exact I|discriminate].
Qed.
Print Assumptions text_columns.

(** the offset in one direction: a fixed length without a column, the multiple of the unit given by the column otherwise *)
Definition offset_is (p : dpoint) (name : option string) (fixed u d : R) : Prop :=
  match name with
  | None => d = fixed
  | Some n => exists v f, row p n = Some v /\ vfloat v = Some f /\ d = f * u
  end.
(** the text of a point is to be drawn *)
Definition shown (s : tstyle) (p : dpoint) (t : string) : Prop :=
  withattrs s = true /\ valid p = true /\ exists v, row p (textname s) = Some v /\ vstr v = Some t.
(** the texts of the points in order *)
Inductive texts (s : tstyle) : list dpoint -> list (R * R * string) -> Prop :=
| texts_nil : texts s [] []
| texts_skip p ps l : (forall t, ~ shown s p t) -> texts s ps l -> texts s (p :: ps) l
| texts_show p ps l t dx dy : shown s p t -> offset_is p (dxname s) (textdx_pt s) (dxunit_pt s) dx ->
    offset_is p (dyname s) (textdy_pt s) (dyunit_pt s) dy -> texts s ps l ->
    texts s (p :: ps) ((fst (pos_pt p) + dx, snd (pos_pt p) + dy, t) :: l).

Lemma offset_case p name fixed u :
  (exists d, offset_is p name fixed u d /\
     match name with None => Some fixed | Some n => match float_of p n with Some f => Some (f * u) | None => None end end = Some d) \/
  ((forall d, ~ offset_is p name fixed u d) /\
     match name with None => Some fixed | Some n => match float_of p n with Some f => Some (f * u) | None => None end end = None).
Proof.
  unfold offset_is, float_of. destruct name as [n|]; [|left; now exists fixed].
  destruct (row p n) as [v|] eqn:E.
  - destruct (vfloat v) as [f|] eqn:F.
    + left. exists (f * u). split; [|reflexivity]. exists v, f. now repeat split.
    + right. split; [|reflexivity]. intros d (v' & f & H & H' & _). congruence.
  - right. split; [|reflexivity]. intros d (v' & f & H & _). congruence.
Qed.

Lemma shown_case s p : (exists t, shown s p t /\ withattrs s && valid p = true /\ str_of p (textname s) = Some t) \/
  ((forall t, ~ shown s p t) /\ text_drawpoint s p = Some []).
Proof.
  unfold shown, text_drawpoint, str_of. destruct (withattrs s); [|right; split; [intros t (H & _); discriminate|reflexivity]].
  destruct (valid p); [|right; split; [intros t (_ & H & _); discriminate|reflexivity]]. cbn [andb].
  destruct (row p (textname s)) as [v|].
  - destruct (vstr v) as [t|] eqn:F.
    + left. exists t. split; [|now split]. split; [reflexivity|]. split; [reflexivity|]. now exists v.
    + right. split; [|now destruct (pos_pt p)]. intros t (_ & _ & v' & H & H'). congruence.
  - right. split; [|now destruct (pos_pt p)]. intros t (_ & _ & v' & H & _). discriminate.
Qed.

Lemma draw_sound s ps : forall l, text_draw s ps = Some l -> texts s ps l.
Proof.
  induction ps as [|p ps IHp]; intros l H; cbn [text_draw] in H.
  - injection H as <-. constructor.
  - destruct (shown_case s p) as [(t & Sh & A & B)|[N E]].
    + unfold text_drawpoint in H. rewrite A, B in H.
      destruct (offset_case p (dxname s) (textdx_pt s) (dxunit_pt s)) as [(dx & Ox & Ex)|[_ Ex]];
        rewrite Ex in H; [|destruct (pos_pt p); discriminate].
      destruct (offset_case p (dyname s) (textdy_pt s) (dyunit_pt s)) as [(dy & Oy & Ey)|[_ Ey]];
        rewrite Ey in H; [|destruct (pos_pt p); discriminate].
      pose proof (texts_show s p ps) as T.
      destruct (pos_pt p) as [x y]. destruct (text_draw s ps) as [m|] eqn:D; [|discriminate].
      injection H as <-. apply (T m t dx dy Sh Ox Oy). now apply IHp.
    + rewrite E in H. destruct (text_draw s ps) as [m|] eqn:D; [|discriminate]. injection H as <-.
      apply texts_skip; [exact N|]. now apply IHp.
Qed.

Lemma shown_inj s p t t' : shown s p t -> shown s p t' -> t = t'.
Proof. intros (_ & _ & v & A & B) (_ & _ & v' & A' & B'). congruence. Qed.
Lemma offset_inj p n fixed u d d' : offset_is p n fixed u d -> offset_is p n fixed u d' -> d = d'.
Proof.
  unfold offset_is. destruct n as [n|]; [|congruence]. intros (v & f & A & B & C) (v' & f' & A' & B' & C'). congruence.
Qed.

Lemma texts_complete s ps l : texts s ps l -> text_draw s ps = Some l.
Proof.
  induction 1 as [|p ps l N T IHt|p ps l t dx dy Sh Ox Oy T IHt]; cbn [text_draw]; [reflexivity| |].
  - destruct (shown_case s p) as [(t & Sh & _)|[_ E]]; [now destruct (N t)|]. now rewrite E, IHt.
  - destruct (shown_case s p) as [(t' & Sh' & A & B)|[N _]]; [|now destruct (N t)].
    rewrite (shown_inj _ _ _ _ Sh' Sh) in B. unfold text_drawpoint. rewrite A, B.
    destruct (offset_case p (dxname s) (textdx_pt s) (dxunit_pt s)) as [(dx' & Ox' & Ex)|[Nx _]]; [|now destruct (Nx dx)].
    destruct (offset_case p (dyname s) (textdy_pt s) (dyunit_pt s)) as [(dy' & Oy' & Ey)|[Ny _]]; [|now destruct (Ny dy)].
    rewrite Ex, Ey, IHt, (offset_inj _ _ _ _ _ _ Ox' Ox), (offset_inj _ _ _ _ _ _ Oy' Oy).
    now destruct (pos_pt p).
Qed.

(** C175: the style draws exactly one text for each valid point which has one, in the order of the points, shifted by the offsets;
    it fails exactly when an offset of such a point cannot be converted *)
Theorem text_placed : forall s ps,
  (forall l, text_draw s ps = Some l <-> texts s ps l) /\
  (text_draw s ps = None <-> exists p t, In p ps /\ shown s p t /\
     ((forall d, ~ offset_is p (dxname s) (textdx_pt s) (dxunit_pt s) d) \/
      (forall d, ~ offset_is p (dyname s) (textdy_pt s) (dyunit_pt s) d))).
Proof.
  intros s ps. split.
  { intro l. split; [apply draw_sound|apply texts_complete]. }
  induction ps as [|p ps IHp]; cbn [text_draw].
  { split; [discriminate|]. intros (p & t & [] & _). }
  destruct (shown_case s p) as [(t & Sh & A & B)|[N E]].
  - unfold text_drawpoint. rewrite A, B.
    destruct (offset_case p (dxname s) (textdx_pt s) (dxunit_pt s)) as [(dx & Ox & Ex)|[Nx Ex]]; rewrite Ex.
    2:{ split; [|now destruct (pos_pt p)]. intros _. exists p, t. split; [now left|]. split; [exact Sh|]. now left. }
    destruct (offset_case p (dyname s) (textdy_pt s) (dyunit_pt s)) as [(dy & Oy & Ey)|[Ny Ey]]; rewrite Ey.
    2:{ split; [|now destruct (pos_pt p)]. intros _. exists p, t. split; [now left|]. split; [exact Sh|]. now right. }
    transitivity (text_draw s ps = None); [destruct (pos_pt p), (text_draw s ps); split; congruence|].
    rewrite IHp. split; intros (q & t' & Hq & R0).
    + exists q, t'. split; [now right|exact R0].
    + destruct Hq as [<-|Hq]; [|now exists q, t']. destruct R0 as [_ [K|K]]; [now destruct (K dx)|now destruct (K dy)].
  - rewrite E. transitivity (text_draw s ps = None); [destruct (text_draw s ps); split; cbn; congruence|].
    rewrite IHp. split; intros (q & t' & Hq & R0).
    + exists q, t'. split; [now right|exact R0].
    + destruct Hq as [<-|Hq]; [|now exists q, t']. destruct R0 as [K _]. now destruct (N t').
Qed.
Print Assumptions text_placed.

Open Scope string_scope.
Definition st1 := mktstyle "text" (Some "dx") None 10 10 0 3 true.
Definition num (t : string) (f : R) : option value := Some (mkvalue (Some t) (Some f)).
Definition pt1 (t : string) (d : option R) (v : bool) (x y : R) : dpoint :=
  mkdpoint (fun n => if String.eqb n "text" then Some (mkvalue (Some t) None)
                     else if String.eqb n "dx" then Some (mkvalue (Some "?") d) else None) v (x, y).
Example columns_ok : text_columnnames st1 ["x"; "y"; "dx"; "text"] [] = inr ["text"; "dx"].
Proof. reflexivity. Qed.
Example columns_bad : text_columnnames st1 ["x"; "y"; "text"] ["z"] = inl (ColumnMissing "dx").
Proof. reflexivity. Qed.
(** the second point is outside; the first and third get their texts *)
Example three : text_draw st1 [pt1 "a" (Some 2) true 1 1; pt1 "b" (Some 2) false 1 1; pt1 "c" (Some (Ropp 1)) true 20 5] =
  Some [((1 + 2 * 10)%R, (1 + 3)%R, "a"); ((20 + Ropp 1 * 10)%R, (5 + 3)%R, "c")].
Proof. reflexivity. Qed.
(** a point without an offset ends the drawing *)
Example no_offset : text_draw st1 [pt1 "a" (Some 2) true 1 1; pt1 "b" None true 1 1] = None.
Proof. reflexivity. Qed.
