(** Where EPS files are placed and how large they are (pyx/epsfile.py, l.227-314). *)
From Coq Require Import Reals Lra Ascii List.
From Verif Require Import TrafoModel BboxModel EpsModel.
Open Scope R_scope.

(** ** Specification *)
Definition ipt (b : bbox) : option (R * R * R * R) := match llx b with Some l => Some (l, lly b, urx b, ury b) | None => None end.
Definition positive_or_none (o : option R) : Prop := match o with Some v => 0 < v | None => True end.
(** the point of a range which is placed: its begin, its middle or its end *)
Definition at_low (c : ascii) (lo hi p : R) (low high : ascii) : Prop :=
  c = low /\ p = lo \/ c = "c"%char /\ p = (lo + hi) / 2 \/ c = high /\ p = hi.

Lemma min4_eq a b : a <= b -> min4 a b b a = a.
Proof. intros H. unfold min4. rewrite !(Rmin_left a b), (Rmin_left a a); lra. Qed.
Lemma max4_eq a b : a <= b -> max4 a b b a = b.
Proof. intros H. unfold max4. rewrite (Rmax_right a b), (Rmax_left b b), (Rmax_left b a); lra. Qed.
Lemma min4_eq' a b : a <= b -> min4 a a b b = a.
Proof. intros H. unfold min4. rewrite (Rmin_left a a), !(Rmin_left a b); lra. Qed.
Lemma max4_eq' a b : a <= b -> max4 a a b b = b.
Proof. intros H. unfold max4. rewrite (Rmax_left a a), (Rmax_right a b), (Rmax_left b b); lra. Qed.

Lemma placed_box x y l b r t sx sy : l <= r -> b <= t -> 0 < sx -> 0 < sy ->
  transformed (mkbbox (Some l) b r t) (tmul (tmul (translate_pt x y) (mktrafo sx 0 0 sy 0 0)) (translate_pt (- l) (- b))) =
  mkbbox (Some x) y (x + sx * (r - l)) (y + sy * (t - b)).
Proof.
  intros H K A B. unfold transformed, tmul, translate_pt, apply_pt. cbn [BboxModel.llx lly urx ury m00 m01 m10 m11 v0 v1 fst snd].
  match goal with |- mkbbox (Some (min4 ?a1 ?a2 ?a3 ?a4)) (min4 ?b1 ?b2 ?b3 ?b4) _ _ = _ =>
    replace a1 with x by ring; replace a2 with (x + sx * (r - l)) by ring; replace a3 with (x + sx * (r - l)) by ring; replace a4 with x by ring;
    replace b1 with y by ring; replace b2 with y by ring; replace b3 with (y + sy * (t - b)) by ring; replace b4 with (y + sy * (t - b)) by ring end.
  pose proof (Rmult_le_pos sx (r - l)) as P. pose proof (Rmult_le_pos sy (t - b)) as Q.
  rewrite min4_eq, max4_eq, min4_eq', max4_eq'; [reflexivity|lra..].
Qed.

Lemma halved h : h / 2.0 = h / 2.
Proof. replace 2.0 with 2 by lra. reflexivity. Qed.

(** An EPS file is placed at the given position as the two letters of align say, and has the size which is asked for: the given width and height,
    the original size times the scale, and the original proportions when only one length is given. *)
Theorem eps_placed : forall x y l b r t width height scale va ha,
  l < r -> b < t -> positive_or_none width -> positive_or_none height -> positive_or_none scale ->
  match eps_trafo x y l b r t width height scale va ha true with
  | None => scale <> None /\ (width <> None \/ height <> None) \/ ~ In va ("b" :: "c" :: "t" :: nil)%char \/ ~ In ha ("l" :: "c" :: "r" :: nil)%char
  | Some tr =>
      exists x0 y0 x1 y1, ipt (eps_bbox tr (mkbbox (Some l) b r t)) = Some (x0, y0, x1, y1) /\
        at_low va y0 y1 y "b" "t" /\ at_low ha x0 x1 x "l" "r" /\
        match width, height with
        | Some w, Some h => x1 - x0 = w /\ y1 - y0 = h
        | Some w, None => x1 - x0 = w /\ (y1 - y0) * (r - l) = w * (t - b)
        | None, Some h => y1 - y0 = h /\ (x1 - x0) * (t - b) = h * (r - l)
        | None, None => match scale with Some s => x1 - x0 = s * (r - l) /\ y1 - y0 = s * (t - b) | None => x1 - x0 = r - l /\ y1 - y0 = t - b end
        end
  end.
Proof.
  intros x y l b r t width height scale va ha H K PW PH PS.
  assert (V : forall h, match valign va y h with Some y0 => at_low va y0 (y0 + h) y "b" "t" | None => ~ In va ("b" :: "c" :: "t" :: nil)%char end).
  { intros h. unfold valign, at_low. destruct (Ascii.eqb_spec va "b") as [->|N1]; [left; auto|].
    destruct (Ascii.eqb_spec va "c") as [->|N2]; [right; left; split; [auto|rewrite halved; lra]|].
    destruct (Ascii.eqb_spec va "t") as [->|N3]; [right; right; split; [auto|lra]|]. cbn. intros [E|[E|[E|[]]]]; congruence. }
  assert (W : forall w, match halign ha x w with Some x0 => at_low ha x0 (x0 + w) x "l" "r" | None => ~ In ha ("l" :: "c" :: "r" :: nil)%char end).
  { intros w. unfold halign, at_low. destruct (Ascii.eqb_spec ha "l") as [->|N1]; [left; auto|].
    destruct (Ascii.eqb_spec ha "c") as [->|N2]; [right; left; split; [auto|rewrite halved; lra]|].
    destruct (Ascii.eqb_spec ha "r") as [->|N3]; [right; right; split; [auto|lra]|]. cbn. intros [E|[E|[E|[]]]]; congruence. }
  assert (S : forall sx sy, 0 < sx -> 0 < sy ->
    match (match valign va y (scaled (t - b) (Some sy)), halign ha x (scaled (r - l) (Some sx)) with
           | Some y, Some x => match option_map (tmul (translate_pt x y)) (scale_pt sx (Some sy) NoCentre) with
                               | Some t => Some (tmul t (translate_pt (- l) (- b))) | None => None end
           | _, _ => None end) with
    | None => ~ In va ("b" :: "c" :: "t" :: nil)%char \/ ~ In ha ("l" :: "c" :: "r" :: nil)%char
    | Some tr => exists x0 y0, ipt (eps_bbox tr (mkbbox (Some l) b r t)) = Some (x0, y0, x0 + sx * (r - l), y0 + sy * (t - b)) /\
        at_low va y0 (y0 + sy * (t - b)) y "b" "t" /\ at_low ha x0 (x0 + sx * (r - l)) x "l" "r"
    end).
  { intros sx sy A B. unfold scaled. destruct (Req_EM_T sy 0) as [E|_]; [lra|]. destruct (Req_EM_T sx 0) as [E|_]; [lra|].
    specialize (V ((t - b) * sy)). specialize (W ((r - l) * sx)).
    destruct (valign va y ((t - b) * sy)) as [y0|]; [|auto]. destruct (halign ha x ((r - l) * sx)) as [x0|]; [|auto].
    cbn [option_map scale_pt]. exists x0, y0. unfold eps_bbox. rewrite placed_box by lra.
    rewrite (Rmult_comm sx), (Rmult_comm sy). auto. }
  unfold eps_trafo, scales.
  destruct width as [w|]; destruct height as [h|]; cbn in PW, PH.
  - destruct scale as [s|]; [left; split; [|left]; discriminate|].
    destruct (Req_EM_T (r - l) 0) as [E|_]; [lra|]. destruct (Req_EM_T (t - b) 0) as [E|_]; [lra|].
    specialize (S (w / (r - l)) (h / (t - b)) ltac:(apply Rdiv_lt_0_compat; lra) ltac:(apply Rdiv_lt_0_compat; lra)).
    match type of S with match ?m with _ => _ end => destruct m as [tr|]; [|auto] end.
    destruct S as (x0 & y0 & E & S). exists x0, y0. do 2 eexists. split; [exact E|]. split; [apply S|]. split; [apply S|].
    split; field; lra.
  - destruct scale as [s|]; [left; split; [|left]; discriminate|].
    destruct (Req_EM_T (r - l) 0) as [E|_]; [lra|].
    specialize (S (w / (r - l)) (w / (r - l)) ltac:(apply Rdiv_lt_0_compat; lra) ltac:(apply Rdiv_lt_0_compat; lra)).
    match type of S with match ?m with _ => _ end => destruct m as [tr|]; [|auto] end.
    destruct S as (x0 & y0 & E & S). exists x0, y0. do 2 eexists. split; [exact E|]. split; [apply S|]. split; [apply S|].
    split; field; lra.
  - destruct scale as [s|]; [left; split; [|right]; discriminate|].
    destruct (Req_EM_T (t - b) 0) as [E|_]; [lra|].
    specialize (S (h / (t - b)) (h / (t - b)) ltac:(apply Rdiv_lt_0_compat; lra) ltac:(apply Rdiv_lt_0_compat; lra)).
    match type of S with match ?m with _ => _ end => destruct m as [tr|]; [|auto] end.
    destruct S as (x0 & y0 & E & S). exists x0, y0. do 2 eexists. split; [exact E|]. split; [apply S|]. split; [apply S|].
    split; field; lra.
  - destruct scale as [s|]; cbn in PS.
    + specialize (S s s PS PS).
      match type of S with match ?m with _ => _ end => destruct m as [tr|]; [|auto] end.
      destruct S as (x0 & y0 & E & S). exists x0, y0. do 2 eexists. split; [exact E|]. split; [apply S|]. split; [apply S|]. split; lra.
    + unfold scaled. specialize (V (t - b)). specialize (W (r - l)).
      destruct (valign va y (t - b)) as [y0|]; [|auto]. destruct (halign ha x (r - l)) as [x0|]; [|auto].
      exists x0, y0, (x0 + (r - l)), (y0 + (t - b)). split.
      * unfold eps_bbox. replace (translate_pt x0 y0) with (tmul (translate_pt x0 y0) (mktrafo 1 0 0 1 0 0))
          by (unfold tmul, translate_pt; cbn [m00 m01 m10 m11 v0 v1]; f_equal; ring).
        rewrite placed_box by lra. rewrite !Rmult_1_l. reflexivity.
      * split; [exact V|]. split; [exact W|]. split; lra.
Qed.
Print Assumptions eps_placed.

(** A file of 200 x 100 with its top right corner at (10, 20), half as high. *)
Example ex_eps : exists tr, eps_trafo 10 20 50 30 250 130 None (Some 50) None "t" "r" true = Some tr /\
  ipt (eps_bbox tr (mkbbox (Some 50) 30 250 130)) = Some (-90, -30, 10, 20).
Proof.
  pose proof (eps_placed 10 20 50 30 250 130 None (Some 50) None "t" "r" ltac:(lra) ltac:(lra) I ltac:(cbn; lra) I) as P.
  destruct (eps_trafo 10 20 50 30 250 130 None (Some 50) None "t" "r" true) as [tr|].
  - destruct P as (x0 & y0 & x1 & y1 & E & V & H & S1 & S2). exists tr. split; [reflexivity|]. rewrite E.
    destruct V as [[V _]|[[V _]|[_ V]]]; try discriminate. destruct H as [[H _]|[[H _]|[_ H]]]; try discriminate.
    subst. replace x0 with (-90) by lra. replace y0 with (-30) by lra. reflexivity.
  - exfalso. destruct P as [[P _]|[P|P]]; [congruence| |]; apply P; cbn; auto.
Qed.
