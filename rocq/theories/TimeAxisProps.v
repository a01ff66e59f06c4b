(** Time axes are linear in time, and merged ticks keep the lowest levels *)
From Coq Require Import ZArith QArith List String Lia Lqa.
From Verif Require Import TimeAxisModel.
Import ListNotations.
Open Scope Z_scope.

Lemma ms_difference a b : mstimedelta (difference a b) = a - b.
Proof.
  unfold mstimedelta, difference. cbn [days seconds microseconds]. set (u := a - b).
  pose proof (Z.div_mod u 1000000 ltac:(lia)). pose proof (Z.div_mod (u / 1000000) 86400 ltac:(lia)). lia.
Qed.

(** C179: for different ends the axis is linear in the time: the ends are at 0 and 1, equal distances in time are equal on the axis, and later times are
    further along an axis which does not run backwards; the conversion fails exactly when both ends are the same time *)
Theorem time_linear : forall min max,
  (forall x, convert min max x = None <-> min = max) /\
  (min <> max -> exists f, (forall x, convert min max x = Some (f x)) /\ (f min == 0)%Q /\ (f max == 1)%Q /\
    (forall x y d, f (x + d)%Z - f x == f (y + d)%Z - f y)%Q /\
    (min < max -> forall x y, x < y -> (f x < f y)%Q)).
Proof.
  intros min max. split.
  - intro x. unfold convert. rewrite !ms_difference. destruct (Z.eqb_spec (max - min) 0); split; intro H; try congruence; try lia.
  - intro N. exists (fun x => inject_Z (x - min) / inject_Z (max - min))%Q.
    assert (D : ~ (inject_Z (max - min) == 0)%Q).
    { intro E. assert (max - min = 0) by (apply inject_Z_injective; exact E). lia. }
    split; [intro x; unfold convert; rewrite !ms_difference; destruct (Z.eqb_spec (max - min) 0); [lia|reflexivity]|].
    split; [replace (min - min) with 0 by lia; unfold Qdiv; now rewrite Qmult_0_l|].
    split; [unfold Qdiv; now apply Qmult_inv_r|].
    split.
    + intros x y d. replace (x + d - min) with ((x - min) + d) by lia. replace (y + d - min) with ((y - min) + d) by lia.
      rewrite !inject_Z_plus. field. exact D.
    + intros L x y H. apply Qmult_lt_compat_r; [|rewrite <- Zlt_Qlt; lia].
      apply Qinv_lt_0_compat. change 0%Q with (inject_Z 0). rewrite <- Zlt_Qlt. lia.
Qed.
Print Assumptions time_linear.

(** a level is the lowest among some: None if all of them are None *)
Definition lowest (l : option Z) (ls : list (option Z)) : Prop := In l ls /\ forall m, In (Some m) ls -> exists a, l = Some a /\ a <= m.

Lemma merge_lowest own other ls : lowest own ls -> lowest (merge_level own other) (other :: ls).
Proof.
  intros [I H]. unfold merge_level. destruct own as [a|].
  - destruct other as [b|].
    + destruct (Z.ltb_spec b a) as [L|L]; (split; [cbn; auto|]); intros m [E|M].
      * exists b. injection E as <-. split; [reflexivity|lia].
      * destruct (H m M) as (a' & E & L'). injection E as <-. exists b. split; [reflexivity|lia].
      * injection E as <-. now exists a.
      * now apply H.
    + split; [now right|]. intros m [E|M]; [discriminate|now apply H].
  - split; [now left|]. intros m [->|M]; [exists m; split; [reflexivity|lia]|]. destruct (H m M) as (a & E & _). discriminate.
Qed.

(** C179: merging any number of ticks into one, in any order, gives the lowest level of all of them, for the ticks and for the labels, and keeps the time and the label of
    the first *)
Theorem time_merged : forall t others, let r := fold_left merge others t in
  lowest (ticklevel r) (map ticklevel (rev (t :: others))) /\ lowest (labellevel r) (map labellevel (rev (t :: others))) /\
  time r = time t /\ label r = label t.
Proof.
  intros t others. cbv zeta. induction others as [|o others IHo] using rev_ind.
  - cbn. assert (K : forall l, lowest l [l]).
    { intro l. split; [now left|]. intros m [E|[]]. exists m. split; [exact E|lia]. }
    split; [apply K|]. split; [apply K|]. now split.
  - rewrite fold_left_app. cbn [fold_left]. destruct IHo as (A & B & C & D).
    replace (rev (t :: others ++ [o])) with (o :: rev (t :: others)) by (cbn; now rewrite rev_app_distr).
    cbn [map]. unfold merge. cbn [ticklevel labellevel time label].
    split; [now apply merge_lowest|]. split; [now apply merge_lowest|]. now split.
Qed.
Print Assumptions time_merged.

(** C179: exactly the ticks with a label level and without a label get the text of their time, all else is kept; doing it twice changes nothing more *)
Theorem time_labelled : forall strftime ticks,
  Forall2 (fun t u => time u = time t /\ ticklevel u = ticklevel t /\ labellevel u = labellevel t /\
    (label t <> None \/ labellevel t = None -> label u = label t) /\
    (label t = None -> labellevel t <> None -> label u = Some (strftime (time t)))) ticks (labels strftime ticks) /\
  labels strftime (labels strftime ticks) = labels strftime ticks.
Proof.
  intros strftime ticks. induction ticks as [|[x tl [ll|] [lb|]] ticks [A B]]; cbn.
  1: split; constructor.
  all: (split; [constructor; [|exact A]; do 3 (split; [reflexivity|]); split; [intros [?|?]|intros ? ?]; cbn [label labellevel time] in *; congruence|unfold labels in B; now rewrite B]).
Qed.
Print Assumptions time_labelled.

(** a day of an axis of four days *)
Example time_ex : match convert 0 (4 * 86400000000) 86400000000 with Some q => (q == 1 # 4)%Q | None => False end.
Proof. vm_compute. reflexivity. Qed.
Example before_ex : difference 0 1 = mktd (- (1)) 86399 999999.
Proof. reflexivity. Qed.
Example merge_ex : fold_left merge [mktick 5 None (Some 1) None; mktick 5 (Some 0) (Some 2) (Some "b"%string)] (mktick 5 (Some 1) None None) = mktick 5 (Some 0) (Some 1) None.
Proof. reflexivity. Qed.
Example labels_ex : labels (fun _ => "t"%string) [mktick 1 None (Some 0) None; mktick 2 (Some 0) None None; mktick 3 None (Some 0) (Some "x"%string)] =
  [mktick 1 None (Some 0) (Some "t"%string); mktick 2 (Some 0) None None; mktick 3 None (Some 0) (Some "x"%string)].
Proof. reflexivity. Qed.
