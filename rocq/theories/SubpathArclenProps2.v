(** Total arc lengths found along with the lengths up to parameters: C172. *)
From Coq Require Import Reals List Arith Lia Bool Lra.
From Verif Require Import CurveModel CurveSpec CurveProofs2 CurveProps CurveLenProofs CurveLenProps CurveArclenModel CurveArclenProps.
From Verif Require Import SubpathLenModel SubpathLenProps PathLenProps NormsubModel NormsubProofs4 SubpathArclenModel SubpathArclenProps.
Import ListNotations.
Open Scope R_scope.

Lemma item_total eps i t : 0 < eps -> 0 <= t <= 1 -> exists needed, forall fuel, (needed <= fuel)%nat -> exists a x L,
  item_paramtoarclen fuel eps i t = Some (a, x) /\ is_arc_length (at_pt i) 0 1 L /\ x <= L <= x + 4 * eps.
Proof.
  intros He T. destruct i as [p q|p0 p1 p2 p3].
  - exists O. intros fuel _. exists (line_arclen p q * t), (line_arclen p q * 1), (line_arclen p q). split; [reflexivity|].
    split; [apply line_arclen_exact|]. lra.
  - destruct (curve_arclens_partial p0 p1 p2 p3 [t] eps He ltac:(simpl; lra)) as (n & N). exists n. intros fuel F.
    destruct (N fuel F) as (ls & total & E & L & _ & s & A & B). destruct ls as [|a [|? ?]]; try discriminate.
    exists a, total, s. unfold item_paramtoarclen. rewrite E. split; [reflexivity|]. split; [exact A|]. simpl in B. lra.
Qed.
Lemma lengths_total eps items t : 0 < eps -> 0 <= t <= 1 -> exists needed, forall fuel, (needed <= fuel)%nat -> forall k index, exists tot ls,
  arc_lengths items ls /\ tot <= total_of ls <= tot + 2 * (INR (length items) + if (k <=? index)%nat then 1 else 0) * eps /\
  forall r total, exists r', lengths_loop fuel eps k items index t r total = Some (r', total + tot).
Proof.
  intros He T. induction items as [|i items (n1 & N1)].
  - exists O. intros fuel _ k index. exists 0, []. split; [constructor|]. split; [simpl; destruct (_ <=? _)%nat; lra|]. intros r total. exists r. simpl. now rewrite Rplus_0_r.
  - destruct (item_arclen_ok eps i He) as (n2 & N2). destruct (item_total eps i t He T) as (n3 & N3). exists (max n1 (max n2 n3)). intros fuel F k index.
    destruct (N1 fuel ltac:(lia) (S k) index) as (tot & ls & A & B & C). cbn [lengths_loop]. destruct (Nat.eqb_spec k index) as [E|E].
    + destruct (N3 fuel ltac:(lia)) as (a & x & L & -> & AL & BL). exists (x + tot), (L :: ls). split; [constructor; auto|]. split.
      * change (total_of (L :: ls)) with (L + total_of ls). change (length (i :: items)) with (S (length items)). rewrite S_INR.
        destruct (Nat.leb_spec k index); [|lia]. destruct (Nat.leb_spec (S k) index); [lia|]. lra.
      * intros r total. destruct (C (Some (total + a)) (total + x)) as (r' & R). exists r'. rewrite R. now rewrite Rplus_assoc.
    + destruct (N2 fuel ltac:(lia)) as (x & L & -> & AL & BL). exists (x + tot), (L :: ls). split; [constructor; auto|]. split.
      * change (total_of (L :: ls)) with (L + total_of ls). change (length (i :: items)) with (S (length items)). rewrite S_INR.
        destruct (Nat.leb_spec k index); destruct (Nat.leb_spec (S k) index); try lia; lra.
      * intros r total. destruct (C r (total + x)) as (r' & R). exists r'. rewrite R. now rewrite Rplus_assoc.
Qed.
(** C172: the total found along with the length up to a parameter is a lower bound of the arc length of the subpath, which differs by at most
    twice epsilon for each item and once more for the item divided at the parameter. *)
Theorem subpath_arclens_total : forall items p epsilon, 0 < epsilon -> items <> [] -> 0 <= p <= INR (length items) ->
  exists needed, forall fuel, (needed <= fuel)%nat -> exists a total ls, subpath_paramtoarclen fuel epsilon items p = Some (a, total) /\
    arc_lengths items ls /\ total <= total_of ls <= total + 2 * INR (S (length items)) * epsilon.
Proof.
  intros items p eps He N P. assert (Len : (0 < length items)%nat) by (destruct items; [congruence|simpl; lia]).
  destruct (param_index_spec (length items) p Len) as (H1 & H2 & H3). set (j := param_index (length items) p) in *.
  assert (T : 0 <= p - INR j <= 1).
  { split.
    - destruct H2 as [H2|H2]; [rewrite H2; simpl; lra|lra].
    - destruct H3 as [H3|H3]; [rewrite <- H3, S_INR in P; lra|lra]. }
  destruct (lengths_total eps items (p - INR j) He T) as (n & K). exists n. intros fuel F. destruct (K fuel F 0%nat j) as (tot & ls & A & B & C).
  destruct (C None 0) as (r & R). exists r, tot, ls. split; [|split; [exact A|]].
  - unfold subpath_paramtoarclen. destruct items; [congruence|]. fold j. cbv zeta. rewrite Rplus_0_l in R. exact R.
  - cbn [Nat.leb] in B. rewrite S_INR. exact B.
Qed.
Print Assumptions subpath_arclens_total.
Example subpath_arclens_total_ex : subpath_paramtoarclen 0 1 [Line (0, 0) (6, 8); Line (6, 8) (6, 10)] (3 / 2) = Some (Some 11, 12).
Proof.
  assert (R2 : line_arclen (0, 0) (6, 8) = 10) by (apply hypot_is; simpl; lra). assert (R3 : line_arclen (6, 8) (6, 10) = 2) by (apply hypot_is; simpl; lra).
  unfold subpath_paramtoarclen. cbn [length].
  destruct (param_index_spec 2 (3 / 2) ltac:(lia)) as (H1 & H2 & H3). destruct (param_index 2 (3 / 2)) as [|[|k]]; [simpl in H3; destruct H3; [lia|lra]| |lia].
  cbn [lengths_loop Nat.eqb item_arclen item_paramtoarclen]. rewrite R2, R3. simpl INR. f_equal. apply pair_eq; [f_equal; field|field].
Qed.
