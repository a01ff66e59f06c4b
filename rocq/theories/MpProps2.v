(** * Angles and tensions of MetaPost paths (C89, C90) *)
From Coq Require Import Reals List Bool Lra Lia.
From Verif Require Import MpModel MpProofs3.
Local Open Scope R_scope.

(** The difference of two angles is reduced to at most half a turn, in the same direction.  Angles are given in degrees by the user, and only a
    single turn is taken off. *)
Theorem reduce_angle_range_partial : forall a, - (3 * PI) <= a <= 3 * PI -> - PI <= reduce_angle a <= PI /\ cos (reduce_angle a) = cos a /\ sin (reduce_angle a) = sin a.
Proof.
  intros a A. pose proof PI_RGT_0 as P. split; [|exact (reduce_dir a)]. unfold reduce_angle, below. destruct (Rlt_dec PI (Rabs a)) as [H|H].
  - destruct (Rlt_dec 0 a) as [L|L]; [rewrite Rabs_pos_eq in H by lra; lra|rewrite Rabs_left1 in H by lra; lra].
  - unfold Rabs in H. destruct (Rcase_abs a); lra.
Qed.
Print Assumptions reduce_angle_range_partial.
Example reduce_angle_range_ex : reduce_angle (- (3 / 2 * PI)) = PI / 2 /\ reduce_angle (3 / 2 * PI) = - (PI / 2).
Proof.
  pose proof PI_RGT_0 as P. unfold reduce_angle, below. rewrite Rabs_left1 by lra. rewrite Rabs_pos_eq by lra. destruct (Rlt_dec PI (- - (3 / 2 * PI))); [|lra]. destruct (Rlt_dec PI (3 / 2 * PI)); [|lra].
  destruct (Rlt_dec 0 (- (3 / 2 * PI))); [lra|]. destruct (Rlt_dec 0 (3 / 2 * PI)); [|lra]. split; lra.
Qed.
Theorem reduce_angle_range_refuted : exists a, ~ (- PI <= reduce_angle a <= PI).
Proof.
  pose proof PI_RGT_0 as P. exists (5 * PI). unfold reduce_angle, below. rewrite Rabs_pos_eq by lra. destruct (Rlt_dec PI (5 * PI)); [|lra]. destruct (Rlt_dec 0 (5 * PI)); lra.
Qed.
Print Assumptions reduce_angle_range_refuted.

(** The tensions at both sides are the given ones, at least 3/4, the right one is the left one by default, and negative for "at least" *)
Theorem tensions_given : forall l r atl atr t u, 3 / 4 <= l -> 3 / 4 <= r ->
  (tensioncurve l atl (Some r) (Some atr) = Tension t u -> t = (if atl then - l else l) /\ u = (if atr then - r else r)) /\
  (tensioncurve l atl None None = Tension t u -> t = (if atl then - l else l) /\ u = t) /\
  (forall l' r' atr', tensioncurve l' atl r' atr' = Tension t u -> 3 / 4 <= Rabs t /\ 3 / 4 <= Rabs u).
Proof.
  intros l r atl atr t u L R. assert (M : forall x, 3 / 4 <= x -> Rmax 0.75 (Rabs x) = x) by (intros x X; rewrite Rabs_pos_eq by lra; apply Rmax_right; lra).
  unfold tensioncurve. split; [|split].
  - rewrite !M by assumption. intros [= <- <-]. auto.
  - rewrite !M by assumption. intros [= <- <-]. auto.
  - intros l' r' atr'. pose proof (Rmax_l 0.75 (Rabs l')) as B1. pose proof (Rmax_l 0.75 (Rabs (match r' with Some t => t | None => l' end))) as B2.
    set (p := Rmax 0.75 (Rabs l')) in *. set (q := Rmax 0.75 (Rabs match r' with Some t => t | None => l' end)) in *. clearbody p q. intros [= <- <-]. split.
    + destruct atl; [rewrite Rabs_Ropp|]; rewrite Rabs_pos_eq; lra.
    + destruct (match atr' with Some b => b | None => atl end); [rewrite Rabs_Ropp|]; rewrite Rabs_pos_eq; lra.
Qed.
Print Assumptions tensions_given.
Example tensions_given_ex : tensioncurve 1 false (Some 2) (Some true) = Tension 1 (-2) /\ tensioncurve (1 / 2) true None None = Tension (- 0.75) (- 0.75).
Proof.
  unfold tensioncurve. rewrite !Rabs_pos_eq by lra. rewrite !(Rmax_right 0.75) by lra. rewrite !(Rmax_left 0.75 (1 / 2)) by lra. split; f_equal; lra.
Qed.
