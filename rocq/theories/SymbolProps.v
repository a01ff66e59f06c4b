(** * Symbols of the same size have the same area (C114) *)

From Coq Require Import Reals List Lra Lia Psatz Machin.
From Verif Require Import PointStyleModel PointStyleProps.
Import ListNotations.
Open Scope R_scope.

(** area of a closed polygon (positive when it is counterclockwise) and the mean of its corners *)
Fixpoint edges (first : R * R) (l : list (R * R)) : R :=
  match l with
  | [] => 0
  | p :: r => match r with [] => fst p * snd first - fst first * snd p | q :: _ => fst p * snd q - fst q * snd p end + edges first r
  end.
Definition area (l : list (R * R)) : R := match l with [] => 0 | p :: _ => edges p l / 2 end.
Definition mean (l : list (R * R)) : R * R := (fold_right (fun p s => fst p + s) 0 l / INR (length l), fold_right (fun p s => snd p + s) 0 l / INR (length l)).

Lemma pi_bounds : 3.1415926535 <= PI <= 3.1415926536.
Proof.
  pose proof (PI_2_3_7_ineq 5) as [A B]. cbn [Nat.mul Nat.add] in A, B. unfold PI_2_3_7_tg, tg_alt, Ratan_seq in A, B. cbn [sum_f_R0 Nat.mul Nat.add pow INR] in A, B. lra.
Qed.

(** All symbols with an area have the square of the size as their area, up to a few parts in a billion. *)
Theorem symbol_areas : forall x y size,
  Rabs (area (square_corners x y size) - size * size) <= size * size * 3e-9 /\
  Rabs (area (triangle_corners x y size) - size * size) <= size * size * 3e-9 /\
  Rabs (area (diamond_corners x y size) - size * size) <= size * size * 3e-9 /\
  Rabs (PI * (circle_radius size * circle_radius size) - size * size) <= size * size * 3e-9.
Proof.
  intros x y size. set (q := size * size). assert (Q : 0 <= q) by (unfold q; apply Rle_0_sqr).
  assert (K : forall a k, a = k * q -> 1 - 3e-9 <= k <= 1 + 3e-9 -> Rabs (a - q) <= q * 3e-9).
  { intros a k -> H. apply Rabs_le. split; nra. }
  refine (conj _ (conj _ (conj _ _))).
  - apply (K _ 1); [|lra]. unfold area, edges, square_corners, q. cbn [fst snd]. lra.
  - apply (K _ (0.759835685 * 1.316074012)); [|lra]. unfold area, edges, triangle_corners, q. cbn [fst snd]. lra.
  - apply (K _ (2 * 0.537284965 * 0.930604859)); [|lra]. unfold area, edges, diamond_corners, q. cbn [fst snd]. lra.
  - apply (K _ (PI * (0.564189583 * 0.564189583))); [unfold circle_radius, q; ring|]. pose proof pi_bounds. lra.
Qed.
Print Assumptions symbol_areas.
Example symbol_areas_ex : area (square_corners 3 4 2) = 4.
Proof. unfold area, edges, square_corners. cbn [fst snd]. lra. Qed.

(** All symbols are centered at the point. *)
Theorem symbols_centered : forall x y size, 0 <= size ->
  mean (square_corners x y size) = (x, y) /\ mean (diamond_corners x y size) = (x, y) /\
  fst (mean (triangle_corners x y size)) = x /\ Rabs (snd (mean (triangle_corners x y size)) - y) <= size * 1e-9 /\
  (forall p q, In (p, q) (cross_lines x y size) \/ In (p, q) (plus_lines x y size) -> ((fst p + fst q) / 2, (snd p + snd q) / 2) = (x, y)).
Proof.
  intros x y size S. unfold mean, square_corners, diamond_corners, triangle_corners, cross_lines, plus_lines. cbn [fold_right fst snd length INR In].
  split; [f_equal; lra|]. split; [f_equal; lra|]. split; [lra|]. split.
  - apply Rabs_le. split; lra.
  - intros p q [[H|[H|[]]]|[H|[H|[]]]]; injection H as <- <-; cbn [fst snd]; f_equal; lra.
Qed.
Print Assumptions symbols_centered.
Example symbols_centered_ex : mean (diamond_corners 3 4 2) = (3, 4).
Proof. unfold mean, diamond_corners. cbn. f_equal; lra. Qed.

(** The lines of crosses and plus signs have the same length (that of the diagonal of the square), and the triangle has equal sides. *)
Definition dist2 (p q : R * R) : R := (fst q - fst p) * (fst q - fst p) + (snd q - snd p) * (snd q - snd p).
Theorem symbol_lengths : forall x y size,
  (forall p q, In (p, q) (cross_lines x y size) -> dist2 p q = 2 * (size * size)) /\
  (forall p q, In (p, q) (plus_lines x y size) -> Rabs (dist2 p q - 2 * (size * size)) <= size * size * 2e-9) /\
  (forall i j, (i < j < 3)%nat -> Rabs (dist2 (nth i (triangle_corners x y size) (0, 0)) (nth j (triangle_corners x y size) (0, 0)) - 4 / sqrt 3 * (size * size)) <= size * size * 1e-8).
Proof.
  intros x y size. set (q2 := size * size). assert (Q : 0 <= q2) by (unfold q2; apply Rle_0_sqr).
  assert (K : forall a k t e, a = k * q2 -> t - e <= k <= t + e -> Rabs (a - t * q2) <= q2 * e).
  { intros a k t e -> H. apply Rabs_le. split; nra. }
  split; [|split].
  - intros p q [H|[H|[]]]; injection H as <- <-; unfold dist2, q2; cbn [fst snd]; lra.
  - intros p q [H|[H|[]]]; injection H as <- <-; apply (K _ (4 * (0.707106781 * 0.707106781))); unfold dist2, q2; cbn [fst snd]; lra.
  - assert (S3 : 2.3094010766 <= 4 / sqrt 3 <= 2.3094010769).
    { assert (S : 1.7320508075 <= sqrt 3 <= 1.7320508076).
      { split; [rewrite <- (sqrt_Rsqr 1.7320508075) by lra|rewrite <- (sqrt_Rsqr 1.7320508076) by lra]; apply sqrt_le_1_alt; unfold Rsqr; lra. }
      assert (E : 4 / sqrt 3 = 4 / 3 * sqrt 3). { pose proof (sqrt_sqrt 3 ltac:(lra)) as SS. apply (Rmult_eq_reg_r (sqrt 3)); [|lra]. rewrite (Rmult_assoc (4 / 3)), SS. field. lra. }
      rewrite E. lra. }
    intros i j IJ. assert (C : (i = 0 /\ j = 1 \/ i = 0 /\ j = 2 \/ i = 1 /\ j = 2)%nat) by lia.
    destruct C as [[-> ->]|[[-> ->]|[-> ->]]]; unfold triangle_corners; cbn [nth].
    + apply (K _ (4 * (0.759835685 * 0.759835685))); [unfold dist2, q2; cbn [fst snd]; lra|lra].
    + apply (K _ (0.759835685 * 0.759835685 + 1.316074012 * 1.316074012)); [unfold dist2, q2; cbn [fst snd]; lra|lra].
    + apply (K _ (0.759835685 * 0.759835685 + 1.316074012 * 1.316074012)); [unfold dist2, q2; cbn [fst snd]; lra|lra].
Qed.
Print Assumptions symbol_lengths.
Example symbol_lengths_ex : forall p q, In (p, q) (cross_lines 3 4 2) -> dist2 p q = 8.
Proof. intros p q [H|[H|[]]]; injection H as <- <-; unfold dist2; cbn [fst snd]; lra. Qed.
