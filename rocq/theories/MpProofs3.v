(** Directions, and one run of free segments *)
From Coq Require Import Reals List Bool PeanoNat Lra Lia.
From Verif Require Import CurveModel CurveProofs4 MpModel MpSpec MpProofs MpProofs2.
Import ListNotations.
Local Open Scope R_scope.

(** ** Directions *)
Definition same_dir (a b : R) : Prop := cos a = cos b /\ sin a = sin b.
Lemma same_dir_refl a : same_dir a a. Proof. split; reflexivity. Qed.
Lemma same_dir_sym a b : same_dir a b -> same_dir b a. Proof. intros [A B]. split; congruence. Qed.
Lemma same_dir_trans a b c : same_dir a b -> same_dir b c -> same_dir a c. Proof. intros [A B] [C D]. split; congruence. Qed.
Lemma same_dir_add a b c : same_dir a b -> same_dir (a + c) (b + c).
Proof. intros [A B]. split; rewrite ?cos_plus, ?sin_plus, A, B; reflexivity. Qed.
Lemma reduce_dir a : same_dir (reduce_angle a) a.
Proof.
  unfold reduce_angle. destruct (below PI (Rabs a)); [|apply same_dir_refl].
  destruct (below 0 a); split; [unfold Rminus| |unfold Rminus|]; rewrite ?cos_plus, ?sin_plus; unfold Rminus; rewrite ?cos_plus, ?sin_plus, ?cos_neg, ?sin_neg, ?cos_2PI, ?sin_2PI; ring.
Qed.

Lemma sqrt_pos_sum x y : 0 < sqrt (x ^ 2 + y ^ 2) -> hypot x y = sqrt (x ^ 2 + y ^ 2) /\ hypot x y <> 0.
Proof. intros P. assert (hypot x y = sqrt (x ^ 2 + y ^ 2)) as E by (unfold hypot; f_equal; ring). rewrite E. split; [reflexivity|lra]. Qed.
Lemma arg_dir x y : 0 < sqrt (x ^ 2 + y ^ 2) -> cos (n_arg x y) = x / sqrt (x ^ 2 + y ^ 2) /\ sin (n_arg x y) = y / sqrt (x ^ 2 + y ^ 2).
Proof. intros P. destruct (sqrt_pos_sum x y P) as [E Nz]. unfold n_arg. rewrite <- E. apply cos_sin_atan2, Nz. Qed.

Section Chords.
  Variables (N : nat) (K : heap).
  Let A i := n_arg (chord_x N K i) (chord_y N K i).
  Lemma leaves_dir i theta : 0 < chord N K i -> leaves N K i theta = (cos (A i + theta), sin (A i + theta)).
  Proof. intros P. destruct (arg_dir _ _ P) as [C Sn]. unfold leaves, A. rewrite cos_plus, sin_plus, C, Sn. fold (chord N K i). f_equal; field; lra. Qed.
  Lemma arrives_dir i phi : 0 < chord N K i -> arrives N K i phi = (cos (A i - phi), sin (A i - phi)).
  Proof. intros P. destruct (arg_dir _ _ P) as [C Sn]. unfold arrives, A. rewrite cos_minus, sin_minus, C, Sn. fold (chord N K i). f_equal; field; lra. Qed.
End Chords.
Lemma turn_dir x y u v : 0 < sqrt (x ^ 2 + y ^ 2) -> 0 < sqrt (u ^ 2 + v ^ 2) ->
  let c := x / sqrt (x ^ 2 + y ^ 2) in let s := y / sqrt (x ^ 2 + y ^ 2) in
  same_dir (n_arg x y + n_arg (u * c + v * s) (v * c - u * s)) (n_arg u v).
Proof.
  intros P Q c s. destruct (arg_dir x y P) as [C1 S1]. destruct (arg_dir u v Q) as [C2 S2]. fold c in C1. fold s in S1.
  assert (c ^ 2 + s ^ 2 = 1) as U. { rewrite <- C1, <- S1. pose proof (sin2_cos2 (n_arg x y)) as T. unfold Rsqr in T. lra. }
  assert ((u * c + v * s) ^ 2 + (v * c - u * s) ^ 2 = u ^ 2 + v ^ 2) as E.
  { replace ((u * c + v * s) ^ 2 + (v * c - u * s) ^ 2) with ((u ^ 2 + v ^ 2) * (c ^ 2 + s ^ 2)) by ring. rewrite U. ring. }
  destruct (arg_dir (u * c + v * s) (v * c - u * s)) as [C3 S3]; [rewrite E; exact Q|]. rewrite E in C3, S3.
  split; rewrite ?cos_plus, ?sin_plus, C1, S1, C3, S3.
  - rewrite C2. transitivity (u * (c ^ 2 + s ^ 2) / sqrt (u ^ 2 + v ^ 2)); [field; lra|rewrite U; field; lra].
  - rewrite S2. transitivity (v * (c ^ 2 + s ^ 2) / sqrt (u ^ 2 + v ^ 2)); [field; lra|rewrite U; field; lra].
Qed.

(** ** Curl *)
Lemma curled_ok g t1 t2 d theta phi f : 0 <= g -> 3 / 4 <= Rabs t1 -> 3 / 4 <= Rabs t2 -> 0 < d -> curl_ratio g (Rabs t1) (Rabs t2) = Some f -> theta = f * phi ->
  curled g t1 t2 d theta phi.
Proof.
  intros G A B D E T. unfold curl_ratio in E. rewrite frac_some in E by lra. cbn [bind] in E. rewrite frac_some in E by lra. cbn [bind] in E. unfold curled.
  assert (0 < 1 / Rabs t1) as X0 by (apply Rdiv_lt_0_compat; lra). assert (0 < 1 / Rabs t2) as Y0 by (apply Rdiv_lt_0_compat; lra).
  pose proof (inverse_small _ B) as Y1. set (x := 1 / Rabs t1) in *. set (y := 1 / Rabs t2) in *. clearbody x y.
  assert (0 < x ^ 3) by (apply pow_lt; lra). assert (0 < y ^ 2) by (apply pow_lt; lra).
  assert (0 <= x ^ 3 * g) by (apply Rmult_le_pos; lra). assert (0 < (3 - y) * y ^ 2) by (apply Rmult_lt_0_compat; lra).
  set (num := (3 - x) * x ^ 2 * g + y ^ 3) in *. set (den := x ^ 3 * g + (3 - y) * y ^ 2) in *. assert (0 < den) as Pd by (unfold den; lra).
  rewrite frac_some in E by lra. cbn [bind] in E. injection E as <-. destruct (Rle_dec num (4 * den)) as [Q|Q].
  - assert (Rmin 4 (num / den) = num / den) as M. { apply Rmin_right. apply (Rmult_le_reg_r den); [exact Pd|]. replace (num / den * den) with num by (field; lra). exact Q. }
    rewrite M in T. assert (theta * den = num * phi) as T' by (rewrite T; field; lra). unfold den, num in T'. unfold mock_out, mock_in.
    apply (Rmult_eq_reg_r (x ^ 2 * y ^ 2 * d)).
    2:{ apply Rgt_not_eq. apply Rmult_lt_0_compat; [apply Rmult_lt_0_compat; apply pow_lt; lra|lra]. }
    transitivity (((3 - y) * theta - y * phi) * y ^ 2); [field; lra|]. transitivity (g * ((3 - x) * phi - x * theta) * x ^ 2); [|field; lra]. lra.
  - assert (Rmin 4 (num / den) = 4) as M. { apply Rmin_left. apply (Rmult_le_reg_r den); [exact Pd|]. replace (num / den * den) with num by (field; lra). lra. }
    rewrite M in T. exact T.
Qed.
Lemma curled_zero g t1 t2 d : curled g t1 t2 d 0 0.
Proof. unfold curled. destruct (Rle_dec _ _); [|lra]. unfold mock_out, mock_in, Rdiv. ring. Qed.

Lemma hobby_zero : hobby 0 0 = 1 / 3.
Proof. unfold hobby. rewrite sin_0, cos_0. replace (3 * (1 + / 2 * (sqrt 5 - 1) * 1 + / 2 * (3 - sqrt 5) * 1)) with 6 by lra. lra. Qed.
Lemma speed_zero t : 3 / 4 <= Rabs t -> has_speed t 0 0 (1 / (3 * Rabs t)).
Proof.
  intros T. right. split; [intros (_ & _ & M); unfold meeting in M; rewrite sin_0, Rabs_R0 in M; lra|].
  unfold speed. rewrite hobby_zero. rewrite Rmin_right; [field; lra|]. apply (Rmult_le_reg_r (Rabs t)); [lra|]. unfold Rdiv. rewrite Rmult_assoc, Rinv_l; lra.
Qed.

(** ** The turning angles *)
Lemma sequence_known {A} (f : nat -> option A) (g : nat -> A) m : forall k, (forall j, (k <= j < k + m)%nat -> f j = Some (g j)) -> sequence (map f (seq k m)) = Some (map g (seq k m)).
Proof.
  induction m as [|m IH]; intros k E; [reflexivity|]. cbn [seq map sequence]. rewrite E by lia. cbn [bind]. rewrite IH by (intros; apply E; lia). reflexivity.
Qed.

Section Run.
  Variables (N : nat) (K : heap) (p n : nat).
  Hypothesis N0 : (0 < N)%nat.
  Hypothesis pN : (p < N)%nat.
  Let i k := along N p k.

  Lemma dx_chord k : dx N K p k = chord_x N K (i k).
  Proof. unfold dx, chord_x, node, i. rewrite along_S by exact N0. reflexivity. Qed.
  Lemma dy_chord k : dy N K p k = chord_y N K (i k).
  Proof. unfold dy, chord_y, node, i. rewrite along_S by exact N0. reflexivity. Qed.
  Lemma delta_chord k : delta N K p k = chord N K (i k).
  Proof. unfold delta, chord. rewrite dx_chord, dy_chord. f_equal. ring. Qed.

  Definition psi_of (k : nat) : R :=
    let x := chord_x N K (i (k - 1)) in let y := chord_y N K (i (k - 1)) in let u := chord_x N K (i k) in let v := chord_y N K (i k) in
    let c := x / chord N K (i (k - 1)) in let s := y / chord N K (i (k - 1)) in n_arg (u * c + v * s) (v * c - u * s).
  Lemma turning_ok k : 0 < chord N K (i (k - 1)) -> turning N K p k = Some (psi_of k).
  Proof.
    intros P. unfold turning. rewrite delta_chord, !dx_chord, !dy_chord. rewrite frac_some by lra. cbn [bind]. rewrite frac_some by lra. reflexivity.
  Qed.
  Lemma psi_dir k : (1 <= k)%nat -> 0 < chord N K (i (k - 1)) -> 0 < chord N K (i k) ->
    same_dir (n_arg (chord_x N K (i (k - 1))) (chord_y N K (i (k - 1))) + psi_of k) (n_arg (chord_x N K (i k)) (chord_y N K (i k))).
  Proof. intros _ P Q. apply turn_dir; assumption. Qed.

  Lemma psis_ok : (1 <= n)%nat -> (forall k, (k < n)%nat -> 0 < chord N K (i k)) ->
    exists l, psis N K p n = Some l /\ (forall k, (1 <= k < n)%nat -> nth k l 0 = psi_of k) /\
      (ltype (K (i n)) <> EndCycle -> nth n l 0 = 0) /\ (ltype (K (i n)) = EndCycle -> nth n l 0 = psi_of n /\ nth (S n) l 0 = psi_of 1).
  Proof.
    intros N1 P. set (m := if closed N K p n then n else (n - 1)%nat).
    assert (sequence (map (turning N K p) (seq 1 m)) = Some (map psi_of (seq 1 m))) as E.
    { apply sequence_known. intros j J. apply turning_ok. apply P. unfold m in J. destruct (closed N K p n); lia. }
    unfold psis. fold m. rewrite E. cbn [bind]. eexists. split; [reflexivity|].
    assert (length (map psi_of (seq 1 m)) = m) as Len by (rewrite map_length, seq_length; reflexivity).
    assert (forall k z, (1 <= k <= m)%nat -> nth k (0 :: map psi_of (seq 1 m) ++ [z]) 0 = psi_of k) as At.
    { intros k z Hk. destruct k as [|k]; [lia|]. cbn [nth]. rewrite app_nth1 by lia. rewrite (nth_indep _ 0 (psi_of 0)) by lia. rewrite map_nth, seq_nth by lia. f_equal. }
    assert (forall z, nth (S m) (0 :: map psi_of (seq 1 m) ++ [z]) 0 = z) as End.
    { intros z. cbn [nth]. rewrite app_nth2 by lia. rewrite Len, Nat.sub_diag. reflexivity. }
    split; [|split].
    - intros k Hk. apply At. unfold m. destruct (closed N K p n); lia.
    - intros Q. assert (closed N K p n = false) as C by (unfold closed; destruct (is_spec (ltype (node N K p n)) EndCycle); [contradiction|reflexivity]).
      rewrite C. replace n with (S m) by (unfold m; rewrite C; lia). apply End.
    - intros Q. assert (closed N K p n = true) as C by (unfold closed, node; fold i; fold (i n); rewrite Q; reflexivity).
      rewrite C. assert (m = n) as M by (unfold m; rewrite C; reflexivity). split; [apply At; lia|]. rewrite <- M at 1. rewrite End. rewrite (nth_indep _ 0 (psi_of 0)) by lia. rewrite map_nth, seq_nth by lia. reflexivity.
  Qed.

  (** ** One run *)
  Section Angles.
    Variables th ph : nat -> R. (* by the number of the step *)
    Definition c_out k := tension_out K (i k).
    Definition c_in k := tension_in N K (i k).
    Definition fits (j k : nat) : Prop :=
      arrives N K (i j) (ph j) = leaves N K (i k) (th k) /\
      mock_in (1 / Rabs (c_out j)) (1 / Rabs (c_in j)) (chord N K (i j)) (th j) (ph j) = mock_out (1 / Rabs (c_out k)) (1 / Rabs (c_in k)) (chord N K (i k)) (th k) (ph k).
    Definition run_starts : Prop :=
      match rtype (K p) with
      | Given => forall a, rx (K p) = Some a -> leaves N K p (th 0%nat) = (cos a, sin a)
      | Curl => forall g, rx (K p) = Some g -> curled g (c_out 0) (c_in 0) (chord N K p) (th 0%nat) (ph 0%nat)
      | _ => True
      end.
    Definition run_ends : Prop :=
      match ltype (K (i n)) with
      | Given => forall a, lx (K (i n)) = Some a -> arrives N K (i (n - 1)) (ph (n - 1)%nat) = (cos a, sin a)
      | Curl => forall g, lx (K (i n)) = Some g -> curled g (c_in (n - 1)) (c_out (n - 1)) (chord N K (i (n - 1))) (ph (n - 1)%nat) (th (n - 1)%nat)
      | EndCycle => fits (n - 1) 0
      | _ => False
      end.
    Definition run_angles : Prop := run_starts /\ run_ends /\ forall k, (S k < n)%nat -> fits k (S k).
  End Angles.

  Definition run_result (th ph : nat -> R) (res : option heap) : Prop :=
    ((exists k, (k < n)%nat /\ flat (th k) (ph k)) -> res = None) /\
    ((forall k, (k < n)%nat -> ~ flat (th k) (ph k)) -> exists K', res = Some K' /\
       (forall k, (k < n)%nat -> controlled K K' (i k) (i (S k)) (chord_x N K (i k)) (chord_y N K (i k)) (c_out k) (c_in k) (th k) (ph k)) /\
       elsewhere K K' (fun a => exists k, (k < n)%nat /\ a = i k) (fun a => exists k, (k < n)%nat /\ a = i (S k))).

  Lemma solve_ok l : (1 <= n <= N)%nat -> psis N K p n = Some l ->
    (forall k, (k < n)%nat -> 0 < chord N K (i k)) ->
    (forall k, (k < n)%nat -> tense (ry (K (i k))) /\ tense (ly (K (i (S k))))) ->
    (forall k, (1 <= k < n)%nat -> ltype (K (i k)) = Open /\ rtype (K (i k)) = Open) ->
    value (rtype (K p)) (rx (K p)) ->
    (ltype (K (i n)) = EndCycle /\ rtype (K p) = Open /\ n = N \/ value (ltype (K (i n))) (lx (K (i n))) /\ ltype (K (i n)) <> Open) ->
    exists th ph, run_angles th ph /\ run_result th ph (solve_choices N p n (fun k => nth k l 0) K).
  Proof.
    intros Hn El Pc Tn Op Vs Ve. set (psi := fun k => nth k l 0).
    destruct (psis_ok ltac:(lia) Pc) as (l' & El' & Ps & Pe & Pz). rewrite El in El'. injection El' as <-.
    assert (i 0 = p) as I0 by (unfold i; apply along_0; assumption).
    assert (forall k, (k < n)%nat -> ry (K (i k)) = Some (c_out k) /\ 3 / 4 <= Rabs (c_out k) /\ ly (K (i (S k))) = Some (c_in k) /\ 3 / 4 <= Rabs (c_in k)) as T.
    { intros k Hk. destruct (Tn k Hk) as [(t & E & B) (t' & E' & B')]. unfold c_out, c_in, tension_out, tension_in. change (after N (i k)) with (next N (along N p k)).
      rewrite <- along_S by exact N0. fold (i (S k)). rewrite E, E'. auto. }
    assert (~ (n = 1%nat /\ rtype (K p) = Curl /\ ltype (K (i n)) = Curl) ->
      exists th ph, run_angles th ph /\ run_result th ph (let* theta := thetas N K p n psi in all_controls N K p psi (fun k => nth k theta 0) (seq 0 n) K)) as Gen.
    { intros Hne.
      set (Rv := fun k => match ry (node N K p k) with Some t => Rabs t | None => 0 end). set (Lv := fun k => match ly (node N K p k) with Some t => Rabs t | None => 0 end).
      assert (forall k, (k < n)%nat -> Rv k = Rabs (c_out k) /\ Lv (S k) = Rabs (c_in k)) as TV.
      { intros k Hk. destruct (T k Hk) as (E1 & _ & E2 & _). unfold Rv, Lv, node. fold (i k) (i (S k)). rewrite E1, E2. auto. }
      assert (forall k, (k < n)%nat -> rt N K p k = Some (Rv k) /\ 3 / 4 <= Rv k) as HR.
      { intros k Hk. destruct (T k Hk) as (E1 & B1 & _ & _). destruct (TV k Hk) as [-> _]. unfold rt, node. fold (i k). rewrite E1. auto. }
      assert (forall k, (1 <= k <= n)%nat -> lt N K p k = Some (Lv k) /\ 3 / 4 <= Lv k) as HL.
      { intros k Hk. destruct k as [|k]; [lia|]. destruct (T k) as (_ & _ & E1 & B1); [lia|]. destruct (TV k) as [_ ->]; [lia|]. unfold lt, node. fold (i (S k)). rewrite E1. auto. }
      assert (forall k, (k < n)%nat -> 0 < delta N K p k) as HD by (intros k Hk; rewrite delta_chord; apply Pc, Hk).
      assert (n = N -> forall k, i (n + k) = i k) as Per by (intros En k; unfold i; rewrite En; apply along_N, N0).
      destruct (thetas_ok N K p psi Lv Rv n) as (tl & Et & Ln & Ma & St & En); auto; try lia.
      { intros k Hk. apply Op, Hk. }
      { unfold node. fold (i 0). rewrite I0. exact Vs. }
      { unfold node. fold (i n) (i 0). rewrite I0. destruct Ve as [(Q1 & Q2 & Q3)|[Ve Nop]].
        - rewrite Q1. split; [exact Q2|]. assert (i n = i 0) as In by (rewrite <- (Per Q3 0%nat); f_equal; lia). assert (i (S n) = i 1) as ISn by (rewrite <- (Per Q3 1%nat); f_equal; lia).
          assert (node N K p n = node N K p 0) as Nn by (unfold node; fold (i n) (i 0); now rewrite In). assert (node N K p (S n) = node N K p 1) as NSn by (unfold node; fold (i (S n)) (i 1); now rewrite ISn).
          split; [|split].
          + unfold rt, Rv. rewrite Nn. apply (HR 0%nat). lia.
          + unfold lt, Lv. rewrite NSn. apply (HL 1%nat). lia.
          + rewrite delta_chord, In, <- delta_chord. apply HD. lia.
        - unfold value in Ve. destruct (ltype (K (i n))); try contradiction; auto. }
      { unfold node. fold (i 0) (i n). rewrite I0. exact Hne. }
      rewrite Et. cbn [bind]. set (th := fun k => nth k tl 0) in *. exists th, (phi_of psi th).
      assert (forall k, (1 <= k < n)%nat -> psi k = psi_of k) as Ps' by (intros; apply Ps; assumption).
      split; [split; [|split]|].
      - unfold run_starts, start_fits in *. unfold node in St. fold (i 0) in St. rewrite I0 in St. destruct (rtype (K p)) eqn:Ty; auto.
        + intros a Ea. rewrite leaves_dir by (rewrite <- I0; apply Pc; lia). specialize (St a Ea). rewrite dx_chord, dy_chord, I0 in St. rewrite St.
          set (A := n_arg _ _). pose proof (same_dir_add _ _ A (reduce_dir (a - A))) as [X Y]. rewrite (Rplus_comm A), X, Y. f_equal; f_equal; lra.
        + intros g Eg. unfold value in Vs. destruct Vs as (g' & Eg' & Gp). assert (g' = g) as -> by congruence.
          destruct (TV 0%nat) as [T1 T2]; [lia|]. destruct (T 0%nat) as (_ & B1 & _ & B2); [lia|]. rewrite T1, T2 in St.
          destruct (curl_ok g _ _ Gp B1 B2) as (f & Ef & _). eapply curled_ok; eauto. rewrite <- I0. apply Pc. lia.
      - unfold run_ends. unfold end_fits in En. unfold node in En. fold (i n) in En. set (m := (n - 1)%nat) in *. assert (n = S m) as Nm by (unfold m; lia).
        assert (0 < chord N K (i m)) as Pm by (apply Pc; lia).
        assert (ltype (K (i n)) <> EndCycle -> phi_of psi th m = - th n) as Phi.
        { intros Q. unfold phi_of. rewrite <- Nm. unfold psi at 1. rewrite Pe by exact Q. ring. }
        destruct Ve as [(Q1 & Q2 & Q3)|[Ve Nop]].
        + rewrite Q1 in *. destruct En as [En0 En1]. destruct (Pz eq_refl) as [Pz1 Pz2].
          assert (i n = i 0) as In by (rewrite <- (Per Q3 0%nat); f_equal; lia). assert (i (S n) = i 1) as ISn by (rewrite <- (Per Q3 1%nat); f_equal; lia).
          split.
          * rewrite leaves_dir, arrives_dir by (apply Pc; lia). unfold phi_of. rewrite <- Nm.
            pose proof (psi_dir n ltac:(lia) Pm ltac:(rewrite In; apply Pc; lia)) as D. fold m in D. rewrite In in D. apply (same_dir_add _ _ (th n)) in D. destruct D as [D1 D2].
            change (psi n) with (nth n l 0). rewrite Pz1, En0 in *. rewrite <- D1, <- D2. f_equal; f_equal; lra.
          * unfold matched, min_, mout in En1. fold m in En1. cbv beta in En1. rewrite (proj2 (Nat.eqb_neq m (S n)) ltac:(lia)), (proj2 (Nat.eqb_neq n (S n)) ltac:(lia)) in En1.
            unfold phi_of in En1. cbv beta in En1. rewrite <- Nm in En1. rewrite (proj2 (Nat.eqb_neq n (S n)) ltac:(lia)), Nat.eqb_refl in En1.
            assert (Rv n = Rv 0%nat) as RvE by (unfold Rv, node; fold (i n) (i 0); now rewrite In). assert (Lv (S n) = Lv 1%nat) as LvE by (unfold Lv, node; fold (i (S n)) (i 1); now rewrite ISn).
            rewrite RvE, LvE, !delta_chord, In, En0 in En1. destruct (TV 0%nat) as [T1 T2]; [lia|]. destruct (TV m) as [T3 T4]; [lia|]. rewrite <- Nm in T4. rewrite T1, T2, T3, T4 in En1.
            unfold phi_of. rewrite <- Nm, En0. change (psi (S n)) with (nth (S n) l 0) in En1. rewrite Pz2 in En1. rewrite En1. f_equal.
            destruct (Nat.eq_dec n 1) as [N1|N1]; [|rewrite Ps' by lia; reflexivity].
            change (psi 1%nat) with (nth 1 l 0). rewrite N1 in Pz1 at 1. rewrite Pz1, N1. reflexivity.
        + unfold value in Ve. destruct (ltype (K (i n))) eqn:Ty; try contradiction; specialize (Phi ltac:(discriminate)).
          * intros a Ea. specialize (En a Ea). rewrite dx_chord, dy_chord in En. rewrite arrives_dir by exact Pm. rewrite Phi. set (A := n_arg _ _) in *. rewrite En.
            pose proof (same_dir_add _ _ A (reduce_dir (a - A))) as [X Y]. unfold Rminus at 1 3. rewrite Ropp_involutive, (Rplus_comm A), X, Y. f_equal; f_equal; lra.
          * intros g Eg. destruct Ve as (g' & Eg' & Gp). assert (g' = g) as -> by congruence.
            destruct (TV m) as [T1 T2]; [lia|]. destruct (T m) as (_ & B1 & _ & B2); [lia|]. rewrite <- Nm in T2. rewrite T1, T2 in En.
            destruct (curl_ok g _ _ Gp B2 B1) as (f & Ef & _). eapply curled_ok; eauto. rewrite Phi. eapply En; eauto.
      - intros k Hk. specialize (Ma (S k) ltac:(lia)). split.
        + rewrite leaves_dir, arrives_dir by (apply Pc; lia). unfold phi_of.
          pose proof (psi_dir (S k) ltac:(lia)) as D. replace (S k - 1)%nat with k in D by lia. specialize (D ltac:(apply Pc; lia) ltac:(apply Pc; lia)). apply (same_dir_add _ _ (th (S k))) in D. destruct D as [D1 D2].
          rewrite Ps' by lia. rewrite <- D1, <- D2. f_equal; f_equal; lra.
        + unfold matched, min_, mout in Ma. replace (S k - 1)%nat with k in Ma by lia. rewrite !delta_chord in Ma.
          destruct (TV k) as [T1 T2]; [lia|]. destruct (TV (S k)) as [T3 T4]; [lia|]. rewrite T1, T2, T3, T4 in Ma. exact Ma.
      - destruct (controls_ok N N0 K p psi th c_out c_in n 0 K) as [C1 C2]; auto; try lia.
        { intros j J. apply T. lia. }
        split.
        + intros (k & Hk & F). apply C1. exists k. split; [lia|exact F].
        + intros F. destruct C2 as (K' & E' & C' & Pl & Pr & Pq); [intros j J; apply F; lia|]. exists K'. split; [exact E'|]. split.
          * intros k Hk. specialize (C' k ltac:(lia)). rewrite dx_chord, dy_chord in C'. exact C'.
          * split; [exact Pl|]. split; intros a Na; [apply Pr|apply Pq]; intros (j & J & ->); apply Na; exists j; split; auto; lia. }
    unfold solve_choices. unfold node at 1 2 3 4. fold (i 0) (i 1) (i n). rewrite I0.
    destruct (is_spec (rtype (K p)) Given) as [Gr|Gr]; [destruct (is_spec (ltype (K (i 1))) Given) as [Gl|Gl]|]; cbn [andb].
    { (* two given directions *)
      assert (n = 1%nat) as N1 by (destruct (Nat.eq_dec n 1); [assumption|]; destruct (Op 1%nat) as [Q _]; [lia|congruence]).
      unfold value in Vs. rewrite Gr in Vs. destruct Vs as [a Ea]. rewrite N1, Gl in Ve. destruct Ve as [[Q _]|[Ve _]]; [discriminate|]. destruct Ve as [b Eb].
      rewrite N1, Ea, Eb. cbn [bind]. rewrite dx_chord, dy_chord, I0. set (aa := n_arg (chord_x N K p) (chord_y N K p)).
      destruct (T 0%nat) as (E1 & B1 & E2 & B2); [lia|]. rewrite I0 in E1.
      destruct (set_controls_ok p (i 1) (chord_x N K p) (chord_y N K p) _ _ (a - aa) (- (b - aa)) K E1 E2 B1 B2) as [S1 S2]. rewrite sin_neg, cos_neg in S1, S2.
      pose proof (Pc 0%nat ltac:(lia)) as P0. rewrite I0 in P0.
      exists (fun _ => a - aa), (fun _ => - (b - aa)). split; [split; [|split]|].
      - unfold run_starts. rewrite Gr. intros a' Ea'. assert (a' = a) as -> by congruence. rewrite leaves_dir by exact P0. fold aa. f_equal; f_equal; lra.
      - unfold run_ends. rewrite N1, Gl. intros b' Eb'. assert (b' = b) as -> by congruence. cbn [Nat.sub]. rewrite I0. rewrite arrives_dir by exact P0. fold aa. f_equal; f_equal; lra.
      - intros; lia.
      - split; [intros (k & _ & F); apply S1, F|]. intros F. destruct S2 as (K' & E' & C' & Pl & Pr & Pq); [apply (F 0%nat); lia|]. exists K'. split; [exact E'|]. split.
        + intros k Hk. assert (k = 0%nat) as -> by lia. rewrite I0. exact C'.
        + split; [exact Pl|]. split; intros a' Na; [apply Pr|apply Pq]; intros <-; apply Na; exists 0%nat; split; auto; lia. }
    { rewrite Gr. cbn [is andb]. apply Gen. intros (_ & Q & _). congruence. }
    destruct (is_spec (rtype (K p)) Curl) as [Cr|Cr]; [destruct (is_spec (ltype (K (i 1))) Curl) as [Cl|Cl]|]; cbn [andb].
    - assert (n = 1%nat) as N1 by (destruct (Nat.eq_dec n 1); [assumption|]; destruct (Op 1%nat) as [Q _]; [lia|congruence]).
      destruct (T 0%nat) as (E1 & B1 & E2 & B2); [lia|]. rewrite I0 in E1. rewrite N1, E1, E2. cbn [bind]. rewrite frac_some by lra. cbn [bind]. rewrite frac_some by lra. cbn [bind].
      exists (fun _ => 0), (fun _ => 0). split; [split; [|split]|].
      + unfold run_starts. rewrite Cr. intros g _. apply curled_zero.
      + unfold run_ends. rewrite N1, Cl. intros g _. apply curled_zero.
      + intros; lia.
      + split; [intros (k & _ & [F _]); rewrite cos_0 in F; lra|]. intros _. eexists. split; [reflexivity|]. split.
        * intros k Hk. assert (k = 0%nat) as -> by lia. rewrite I0, dx_chord, dy_chord, I0. eexists. eexists. split; [apply speed_zero; exact B1|]. split; [apply speed_zero; exact B2|].
          rewrite sin_0, cos_0. split.
          -- rewrite upd_rside by reflexivity. rewrite upd_same. unfold rside, set_right. cbn [rtype rx ry]. f_equal; [f_equal|]; f_equal; ring.
          -- rewrite upd_same. unfold lside, set_left. cbn [ltype lx ly].
             match goal with |- context [upd p ?f K (i 1)] => assert (place (upd p f K (i 1)) = place (K (i 1))) as P by (apply upd_place; reflexivity) end.
             unfold place in P. injection P as Px Py. rewrite Px, Py. f_equal; [f_equal|]; f_equal; ring.
        * split; [|split]; intros a; [|intros Na|intros Na].
          -- rewrite upd_place by reflexivity. apply upd_place. reflexivity.
          -- rewrite upd_rside by reflexivity. apply f_equal, upd_other. intros ->. apply Na. exists 0%nat. split; [lia|auto].
          -- rewrite upd_other; [apply upd_lside; reflexivity|]. intros ->. apply Na. exists 0%nat. split; [lia|auto].
    - apply Gen. intros (N1 & _ & Q). rewrite N1 in Q. contradiction.
    - apply Gen. intros (_ & Q & _). contradiction.
  Qed.
End Run.
