(** Lines in graphs are cut exactly at the boundary of the graph. *)
From Coq Require Import Reals Bool List Lra Arith Lia.
From Verif Require Import GraphLineModel.
Import ListNotations.
Open Scope R_scope.

(** ** What should be drawn *)
Definition inside (v : vpos) : Prop := Forall (fun c => 0 <= c <= 1) v.
(** the point on a straight line *)
Fixpoint on (p q : vpos) (t : R) : vpos := match p, q with a :: p, b :: q => ((1 - t) * a + t * b) :: on p q t | _, _ => [] end.
(** Some (t0, t1): the line is in the graph from t0 to t1; None: it is not, or in a single point only *)
Definition clip (p q : vpos) (c : option (R * R)) : Prop :=
  match c with
  | Some (t0, t1) => 0 <= t0 <= t1 /\ t1 <= 1 /\ forall t, 0 <= t <= 1 -> (inside (on p q t) <-> t0 <= t <= t1)
  | None => forall t u, 0 <= t <= 1 -> 0 <= u <= 1 -> inside (on p q t) -> inside (on p q u) -> t = u
  end.
(** successive points *)
Fixpoint pairs (last : option vpos) (l : list (option vpos)) : list (vpos * vpos) :=
  match l with
  | [] => []
  | None :: l => pairs None l
  | Some q :: l => match last with Some p => [(p, q)] | None => [] end ++ pairs (Some q) l
  end.
(** The lines which are drawn: the parts in the graph, joined at points which are in the graph. *)
Definition insideb (v : vpos) : bool := forallb (fun c => negb (ltb c 0 || ltb 1 c)) v.
Fixpoint lines (last : option vpos) (open : list vpos) (l : list (option vpos)) (cuts : list (option (R * R))) : list (list vpos) :=
  let close := match open with [] => [] | _ => [open] end in
  match l with
  | [] => close
  | None :: l => close ++ lines None [] l cuts
  | Some q :: l =>
      match last, cuts with
      | None, _ => lines (Some q) [] l cuts
      | Some p, Some (t0, t1) :: cuts =>
          let open := (match open with [] => [on p q t0] | _ => open end) ++ [on p q t1] in
          if insideb q then lines (Some q) open l cuts else open :: lines (Some q) [] l cuts
      | Some p, _ :: cuts => lines (Some q) [] l cuts
      | Some p, [] => []
      end
  end.
Definition draw {P} (l : list P) : list (item P) :=
  match l with [] | [_] => [] | [p; q] => [MoveTo p; LineTo q] | p :: l => [MoveTo p; MultiLineTo l] end.

(** ** Proofs *)
Ltac lt a b := let H := fresh in destruct (Rlt_dec a b) as [H|H]; [|apply Rnot_lt_le in H].
Lemma ltb_true a b : a < b -> ltb a b = true. Proof. intros; unfold ltb; destruct (Rlt_dec a b); [reflexivity|lra]. Qed.
Lemma ltb_false a b : b <= a -> ltb a b = false. Proof. intros; unfold ltb; destruct (Rlt_dec a b); [lra|reflexivity]. Qed.
Lemma ltb_case a b : (a < b /\ ltb a b = true) \/ (b <= a /\ ltb a b = false).
Proof. unfold ltb. destruct (Rlt_dec a b); [left|right]; split; trivial; lra. Qed.
Lemma between_on p q t : between p q t = on p q t.
Proof. unfold between. revert q. induction p as [|a p IH]; intros [|b q]; try reflexivity. cbn. rewrite IH. f_equal. lra. Qed.
Lemma inside_on p q t : inside (on p q t) <-> Forall (fun '(a, b) => 0 <= (1 - t) * a + t * b <= 1) (combine p q).
Proof.
  unfold inside. revert q. induction p as [|a p IH]; intros [|b q]; cbn; [split; intros _; constructor|split; intros _; constructor|split; intros _; constructor|]. split; intros H; inversion H; subst; constructor; trivial; now apply IH.
Qed.
Lemma insideb_spec v : insideb v = true <-> inside v.
Proof.
  unfold insideb, inside. induction v as [|c v IH]; [cbn; split; [constructor|reflexivity]|]. cbn [forallb]. rewrite andb_true_iff, IH. assert (Forall (fun c => 0 <= c <= 1) (c :: v) <-> (0 <= c <= 1) /\ Forall (fun c => 0 <= c <= 1) v) as -> by (split; [intros H; inversion H; now split|intros [? ?]; now constructor]). destruct (ltb_case c 0) as [[? ->]|[? ->]], (ltb_case 1 c) as [[? ->]|[? ->]]; cbn; split; intros [? ?]; split; trivial; try lra; discriminate.
Qed.
Section Clip.
  Variable epsilon : R.
  Hypothesis eps : 0 <= epsilon.
  (** no coordinate is outside of the graph by less than epsilon *)
  Definition clear_ (v : vpos) : Prop := Forall (fun c => c < - epsilon \/ 0 <= c <= 1 \/ 1 + epsilon < c) v.
  Lemma valid_inside v : clear_ v -> valid epsilon v = insideb v.
  Proof.
    unfold clear_, valid, insideb. induction 1 as [|c v H F IH]; [reflexivity|]. cbn [forallb]. rewrite IH. f_equal.
    destruct (ltb_case c (- epsilon)) as [[? ->]|[? ->]], (ltb_case (1 + epsilon) c) as [[? ->]|[? ->]], (ltb_case c 0) as [[? ->]|[? ->]], (ltb_case 1 c) as [[? ->]|[? ->]]; cbn; trivial; exfalso; lra.
  Qed.
  Definition clearpair '(a, b) : Prop := (a < - epsilon \/ 0 <= a <= 1 \/ 1 + epsilon < a) /\ (b < - epsilon \/ 0 <= b <= 1 \/ 1 + epsilon < b).
  Lemma clear_pairs p q : clear_ p -> clear_ q -> Forall clearpair (combine p q).
  Proof. intros Hp. revert q. induction Hp as [|a p Ha Hp IH]; intros q Hq; [constructor|]. destruct Hq as [|b q Hb Hq]; [constructor|]. cbn. constructor; [now split|]. now apply IH. Qed.

  Lemma differs_true a b : epsilon < b - a \/ epsilon < a - b -> differs epsilon a b = true.
  Proof. intros H. apply ltb_true. destruct H; [apply Rlt_le_trans with (b - a); [assumption|apply Rle_abs]|]. rewrite Rabs_minus_sym. apply Rlt_le_trans with (a - b); [assumption|apply Rle_abs]. Qed.
  Lemma newcut_high v a b : 1 < v -> newcut v a b = Some ((1 - a) / (b - a)).
  Proof. intros H. unfold newcut. rewrite (ltb_true 1 v), (ltb_false v 0) by lra. reflexivity. Qed.
  Lemma newcut_low v a b : v < 0 -> newcut v a b = Some (- a / (b - a)).
  Proof. intros H. unfold newcut. rewrite (ltb_true v 0) by lra. reflexivity. Qed.
  Lemma newcut_none v a b : 0 <= v <= 1 -> newcut v a b = None.
  Proof. intros H. unfold newcut. rewrite !ltb_false by lra. reflexivity. Qed.
  (** t is not behind the boundary, for values which decrease or increase *)
  Lemma div_le n d t : 0 < d -> (n / d <= t <-> n <= t * d).
  Proof. intros D. split; intros H; [apply (Rmult_le_compat_r d) in H; [|lra]; unfold Rdiv in H; rewrite Rmult_assoc, Rinv_l, Rmult_1_r in H by lra; exact H|]. apply (Rmult_le_reg_r d); [exact D|]. unfold Rdiv. rewrite Rmult_assoc, Rinv_l, Rmult_1_r by lra. exact H. Qed.
  Lemma div_ge n d t : 0 < d -> (t <= n / d <-> t * d <= n).
  Proof. intros D. split; intros H; [apply (Rmult_le_compat_r d) in H; [|lra]; unfold Rdiv in H; rewrite Rmult_assoc, Rinv_l, Rmult_1_r in H by lra; exact H|]. apply (Rmult_le_reg_r d); [exact D|]. unfold Rdiv. rewrite Rmult_assoc, Rinv_l, Rmult_1_r by lra. exact H. Qed.
  Lemma flip n d : d <> 0 -> n / d = (- n) / (- d). Proof. intros. field. lra. Qed.

  Lemma smaller_spec c cut t : t <= smaller c cut <-> t <= cut /\ match c with Some n => t <= n | None => True end.
  Proof. unfold smaller. destruct c as [n|]; [|tauto]. destruct (ltb_case n cut) as [[? ->]|[? ->]]; split; try lra; intros; split; lra. Qed.
  Lemma larger_spec c cut t : larger c cut <= t <-> cut <= t /\ match c with Some n => n <= t | None => True end.
  Proof. unfold larger. destruct c as [n|]; [|tauto]. destruct (ltb_case cut n) as [[? ->]|[? ->]]; split; try lra; intros; split; lra. Qed.

  (** one coordinate: the boundaries of the part of the line in the graph *)
  Lemma one_from a b t : clearpair (a, b) -> 0 <= t <= 1 -> (a < 0 \/ 1 < a) -> ~ (1 < a /\ 1 < b) -> ~ (a < 0 /\ b < 0) ->
    differs epsilon a b = true /\ exists n, newcut a a b = Some n /\ 0 < n <= 1 /\ (n <= t <-> (a < 0 -> 0 <= (1 - t) * a + t * b) /\ (1 < a -> (1 - t) * a + t * b <= 1)).
  Proof.
    intros [Ca Cb] T [L|L] N1 N2.
    - assert (0 <= b) by lra. split; [apply differs_true; lra|]. exists (- a / (b - a)). split; [now apply newcut_low|]. split; [split; [apply Rdiv_lt_0_compat; lra|apply div_le; lra]|].
      rewrite div_le by lra. split; intros H'; [split; intros; lra|]. destruct H' as [H' _]. specialize (H' L). lra.
    - assert (b <= 1) by lra. split; [apply differs_true; lra|]. exists ((1 - a) / (b - a)). split; [now apply newcut_high|]. rewrite (flip (1 - a) (b - a)) by lra. split; [split; [apply Rdiv_lt_0_compat; lra|apply div_le; lra]|].
      rewrite div_le by lra. split; intros H'; [split; intros; lra|]. destruct H' as [_ H']. specialize (H' L). lra.
  Qed.
  Lemma one_to a b t : clearpair (a, b) -> 0 <= t <= 1 -> (b < 0 \/ 1 < b) -> ~ (1 < a /\ 1 < b) -> ~ (a < 0 /\ b < 0) ->
    differs epsilon a b = true /\ exists n, newcut b a b = Some n /\ 0 <= n < 1 /\ (t <= n <-> (b < 0 -> 0 <= (1 - t) * a + t * b) /\ (1 < b -> (1 - t) * a + t * b <= 1)).
  Proof.
    intros [Ca Cb] T [L|L] N1 N2.
    - assert (0 <= a) by lra. split; [apply differs_true; lra|]. exists (- a / (b - a)). split; [now apply newcut_low|]. rewrite (flip (- a) (b - a)) by lra. split.
      + split; [apply div_ge; lra|]. apply Rnot_le_lt. rewrite div_ge by lra. lra.
      + rewrite div_ge by lra. split; intros H'; [split; intros; lra|]. destruct H' as [H' _]. specialize (H' L). lra.
    - assert (a <= 1) by lra. split; [apply differs_true; lra|]. exists ((1 - a) / (b - a)). split; [now apply newcut_high|]. split.
      + split; [apply div_ge; lra|]. apply Rnot_le_lt. rewrite div_ge by lra. lra.
      + rewrite div_ge by lra. split; intros H'; [split; intros; lra|]. destruct H' as [_ H']. specialize (H' L). lra.
  Qed.

  Definition from_ a b := if differs epsilon a b then newcut a a b else None.
  Definition to_ a b := if differs epsilon a b then newcut b a b else None.
  Lemma both_in a b t : 0 <= t <= 1 -> 0 <= a <= 1 -> 0 <= b <= 1 -> 0 <= (1 - t) * a + t * b <= 1.
  Proof. intros T A B. split; [apply Rplus_le_le_0_compat; apply Rmult_le_pos; lra|]. assert ((1 - t) * a <= (1 - t) * 1) by (apply Rmult_le_compat_l; lra). assert (t * b <= t * 1) by (apply Rmult_le_compat_l; lra). lra. Qed.
  Lemma from_none a b : 0 <= a <= 1 -> from_ a b = None. Proof. intros H. unfold from_. rewrite newcut_none by exact H. now destruct (differs epsilon a b). Qed.
  Lemma to_none a b : 0 <= b <= 1 -> to_ a b = None. Proof. intros H. unfold to_. rewrite newcut_none by exact H. now destruct (differs epsilon a b). Qed.
  Lemma one a b t : clearpair (a, b) -> 0 <= t <= 1 -> ~ (1 < a /\ 1 < b) -> ~ (a < 0 /\ b < 0) ->
    (0 <= (1 - t) * a + t * b <= 1 <-> match from_ a b with Some n => n <= t | None => True end /\ match to_ a b with Some n => t <= n | None => True end) /\
    match from_ a b with Some n => 0 <= n <= 1 | None => True end /\ match to_ a b with Some n => 0 <= n <= 1 | None => True end.
  Proof.
    intros C T N1 N2.
    assert ((0 <= a <= 1) \/ (a < 0 \/ 1 < a)) as [Ia|Oa] by lra.
    - rewrite (from_none a b Ia). assert ((0 <= b <= 1) \/ (b < 0 \/ 1 < b)) as [Ib|Ob] by lra.
      + rewrite (to_none a b Ib). split; [|tauto]. split; [tauto|]. intros _. now apply both_in.
      + destruct (one_to a b t C T Ob N1 N2) as (D & n & E & B & Q). unfold to_. rewrite D, E. split; [|split; [exact I|lra]]. rewrite Q. split.
        * intros H. split; [exact I|]. split; intros; lra.
        * intros (_ & H1 & H2). destruct Ob as [Ob|Ob].
          -- specialize (H1 Ob). split; [exact H1|]. assert ((1 - t) * a <= (1 - t) * 1) by (apply Rmult_le_compat_l; lra). assert (t * b <= t * 0) by (apply Rmult_le_compat_l; lra). lra.
          -- specialize (H2 Ob). split; [|exact H2]. assert (0 <= (1 - t) * a) by (apply Rmult_le_pos; lra). assert (0 <= t * b) by (apply Rmult_le_pos; lra). lra.
    - destruct (one_from a b t C T Oa N1 N2) as (D & n & E & B & Q). unfold from_. rewrite D, E. assert ((0 <= b <= 1) \/ (b < 0 \/ 1 < b)) as [Ib|Ob] by lra.
      + rewrite (to_none a b Ib). split; [|split; [lra|exact I]]. rewrite Q. split.
        * intros H. split; [|exact I]. split; intros; lra.
        * intros ((H1 & H2) & _). destruct Oa as [Oa|Oa].
          -- specialize (H1 Oa). split; [exact H1|]. assert ((1 - t) * a <= (1 - t) * 0) by (apply Rmult_le_compat_l; lra). assert (t * b <= t * 1) by (apply Rmult_le_compat_l; lra). lra.
          -- specialize (H2 Oa). split; [|exact H2]. assert (0 <= (1 - t) * a) by (apply Rmult_le_pos; lra). assert (0 <= t * b) by (apply Rmult_le_pos; lra). lra.
      + destruct (one_to a b t C T Ob N1 N2) as (D' & n' & E' & B' & Q'). unfold to_. rewrite D', E'. split; [|split; lra]. rewrite Q, Q'. split.
        * intros H. split; split; intros; lra.
        * intros ((H1 & H2) & H3 & H4). destruct Oa as [Oa|Oa].
          -- specialize (H1 Oa). assert (1 < b) as Ob' by lra. specialize (H4 Ob'). lra.
          -- specialize (H2 Oa). assert (b < 0) as Ob' by lra. specialize (H3 Ob'). lra.
  Qed.
  Lemma smaller_bound c cut : 0 <= cut <= 1 -> match c with Some n => 0 <= n <= 1 | None => True end -> 0 <= smaller c cut <= 1.
  Proof. intros. unfold smaller. destruct c as [n|]; [|lra]. destruct (ltb n cut); lra. Qed.
  Lemma larger_bound c cut : 0 <= cut <= 1 -> match c with Some n => 0 <= n <= 1 | None => True end -> 0 <= larger c cut <= 1.
  Proof. intros. unfold larger. destruct c as [n|]; [|lra]. destruct (ltb cut n); lra. Qed.
  Notation coord t := (fun '(a, b) => 0 <= (1 - t) * a + t * b <= 1).
  Lemma Forall_cons2 {A} (Q : A -> Prop) x l : Forall Q (x :: l) <-> Q x /\ Forall Q l.
  Proof. split; [intros H; inversion H; now split|intros [? ?]; now constructor]. Qed.

  Lemma cutboth_ok l : Forall clearpair l -> forall f0 t0, 0 <= f0 <= 1 -> 0 <= t0 <= 1 ->
    match cutboth epsilon l f0 t0 with
    | Some (f1, t1) => 0 <= f1 <= 1 /\ 0 <= t1 <= 1 /\ forall t, 0 <= t <= 1 -> (f1 <= t <= t1 <-> f0 <= t <= t0 /\ Forall (coord t) l)
    | None => forall t, 0 <= t <= 1 -> ~ Forall (coord t) l
    end.
  Proof.
    induction 1 as [|[a b] l C F IH]; intros f0 t0 B1 B2.
    - cbn. repeat split; try lra; try constructor; intros; lra.
    - cbn [cutboth].
      destruct (ltb_case 1 a) as [[A1 Ea1]|[A1 Ea1]], (ltb_case 1 b) as [[A2 Eb1]|[A2 Eb1]], (ltb_case a 0) as [[A3 Ea0]|[A3 Ea0]], (ltb_case b 0) as [[A4 Eb0]|[A4 Eb0]]; rewrite Ea1, Eb1; cbn [andb]; try (exfalso; lra);
      try (intros t T H; inversion H as [|? ? H1 _]; subst; assert ((1 - t) * 1 <= (1 - t) * a) by (apply Rmult_le_compat_l; lra); assert (t * 1 <= t * b) by (apply Rmult_le_compat_l; lra); assert (~ t = 0 \/ t = 0) as [Z|Z] by lra; [assert (t * 1 < t * b) by (apply Rmult_lt_compat_l; lra); lra|subst t; lra]);
      rewrite Ea0, Eb0; cbn [andb]; try (intros t T H; inversion H as [|? ? H1 _]; subst; assert ((1 - t) * a <= (1 - t) * 0) by (apply Rmult_le_compat_l; lra); assert (t * b <= t * 0) by (apply Rmult_le_compat_l; lra); assert (~ t = 0 \/ t = 0) as [Z|Z] by lra; [assert (t * b < t * 0) by (apply Rmult_lt_compat_l; lra); lra|subst t; lra]).
      all: assert ((if differs epsilon a b then cutboth epsilon l (larger (newcut a a b) f0) (smaller (newcut b a b) t0) else cutboth epsilon l f0 t0) = cutboth epsilon l (larger (from_ a b) f0) (smaller (to_ a b) t0)) as -> by (unfold from_, to_; destruct (differs epsilon a b); reflexivity).
      all: assert (forall t, 0 <= t <= 1 -> (0 <= (1 - t) * a + t * b <= 1 <-> match from_ a b with Some n => n <= t | None => True end /\ match to_ a b with Some n => t <= n | None => True end)) as Q by (intros t T; apply (one a b t C T); lra).
      all: destruct (one a b 0 C ltac:(lra) ltac:(lra) ltac:(lra)) as (_ & Bf & Bt).
      all: specialize (IH (larger (from_ a b) f0) (smaller (to_ a b) t0) (larger_bound _ _ B1 Bf) (smaller_bound _ _ B2 Bt)).
      all: destruct (cutboth epsilon l (larger (from_ a b) f0) (smaller (to_ a b) t0)) as [[f1 t1]|];
        [destruct IH as (I1 & I2 & I3); split; [exact I1|split; [exact I2|]]; intros t T; rewrite I3 by exact T; rewrite Forall_cons2, (Q t T), larger_spec, smaller_spec; tauto
        |intros t T H; apply Forall_cons2 in H as [_ H]; now apply (IH t T)].
  Qed.
  Lemma inside_pairs (p q : vpos) : inside p -> forall x, In x (combine p q) -> 0 <= fst x <= 1.
  Proof. intros H x I. destruct x as [a b]. apply in_combine_l in I. exact (proj1 (Forall_forall _ _) H a I). Qed.
  Lemma cutend_ok l : Forall clearpair l -> (forall x, In x l -> 0 <= fst x <= 1) -> forall t0, 0 <= t0 <= 1 ->
    let c := fold_left (fun cut '(vstart, vend) => if differs epsilon vstart vend then smaller (newcut vend vstart vend) cut else cut) l t0 in
    0 <= c <= 1 /\ forall t, 0 <= t <= 1 -> (t <= c <-> t <= t0 /\ Forall (coord t) l).
  Proof.
    induction 1 as [|[a b] l C F IH]; intros Ip t0 B.
    - cbn. repeat split; try lra; try constructor; intros; lra.
    - cbn [fold_left]. pose proof (Ip (a, b) (or_introl eq_refl)) as Ia. cbn in Ia.
      assert ((if differs epsilon a b then smaller (newcut b a b) t0 else t0) = smaller (to_ a b) t0) as -> by (unfold to_; destruct (differs epsilon a b); reflexivity).
      destruct (one a b 0 C ltac:(lra) ltac:(lra) ltac:(lra)) as (_ & _ & Bt).
      destruct (IH (fun x H => Ip x (or_intror H)) _ (smaller_bound _ _ B Bt)) as (I1 & I2). split; [exact I1|]. intros t T. cbv zeta in I2. rewrite (I2 t T), smaller_spec, Forall_cons2.
      destruct (one a b t C T ltac:(lra) ltac:(lra)) as (Q & _ & _). rewrite Q, (from_none a b Ia). tauto.
  Qed.
  Lemma cutbeginning_ok l : Forall clearpair l -> (forall x, In x l -> 0 <= snd x <= 1) -> forall t0, 0 <= t0 <= 1 ->
    let c := fold_left (fun cut '(vstart, vend) => if differs epsilon vstart vend then larger (newcut vstart vstart vend) cut else cut) l t0 in
    0 <= c <= 1 /\ forall t, 0 <= t <= 1 -> (c <= t <-> t0 <= t /\ Forall (coord t) l).
  Proof.
    induction 1 as [|[a b] l C F IH]; intros Ip t0 B.
    - cbn. repeat split; try lra; try constructor; intros; lra.
    - cbn [fold_left]. pose proof (Ip (a, b) (or_introl eq_refl)) as Ia. cbn in Ia.
      assert ((if differs epsilon a b then larger (newcut a a b) t0 else t0) = larger (from_ a b) t0) as -> by (unfold from_; destruct (differs epsilon a b); reflexivity).
      destruct (one a b 0 C ltac:(lra) ltac:(lra) ltac:(lra)) as (_ & Bt & _).
      destruct (IH (fun x H => Ip x (or_intror H)) _ (larger_bound _ _ B Bt)) as (I1 & I2). split; [exact I1|]. intros t T. cbv zeta in I2. rewrite (I2 t T), larger_spec, Forall_cons2.
      destruct (one a b t C T ltac:(lra) ltac:(lra)) as (Q & _ & _). rewrite Q, (to_none a b Ia). tauto.
  Qed.
  Lemma on_1 p q : length p = length q -> on p q 1 = q.
  Proof. revert q. induction p as [|a p IH]; intros [|b q] L; try discriminate; [reflexivity|]. cbn. rewrite IH by (cbn in L; congruence). f_equal. lra. Qed.
  Lemma on_0 p q : length p = length q -> on p q 0 = p.
  Proof. revert q. induction p as [|a p IH]; intros [|b q] L; try discriminate; [reflexivity|]. cbn. rewrite IH by (cbn in L; congruence). f_equal. lra. Qed.

  (** *** The state *)
  Variable P : Type.
  Variable f : vpos -> P.
  Variable n : nat.
  Definition fits (o : option vpos) : Prop := match o with Some v => clear_ v /\ length v = n | None => True end.
  Notation data := (data P).
  Notation addp := (addpoint P f epsilon).
  (** the lines which are open end at a point in the graph *)
  Definition good_open (last : option vpos) (open : list vpos) : Prop := open = [] \/ ((2 <= length open)%nat /\ exists p, last = Some p /\ inside p).
  Lemma flush_draw (pt : list (item P)) l la : path P (addpointstopath P {| path := pt; linebasepoints := l; lastvpos := la |}) = pt ++ draw l.
  Proof. reflexivity. Qed.
  Lemma draw_close (open : list vpos) last : good_open last open -> flat_map draw (map (map f) (match open with [] => [] | _ => [open] end)) = draw (map f open).
  Proof. intros _. destruct open; [reflexivity|]. cbn [map flat_map]. now rewrite app_nil_r. Qed.

  Lemma line_ok l : Forall fits l -> forall pt open last, fits last -> good_open last open ->
    exists cuts, Forall2 (fun pq c => clip (fst pq) (snd pq) c) (pairs last l) cuts /\
      donepointstopath P (fold_left addp l {| path := pt; linebasepoints := map f open; lastvpos := last |}) = pt ++ flat_map draw (map (map f) (lines last open l cuts)).
  Proof.
    induction 1 as [|o l Ho Hl IH]; intros pt open last Hlast G.
    - exists []. split; [constructor|]. cbn [fold_left lines]. rewrite (draw_close open last G). unfold donepointstopath. cbn [linebasepoints]. rewrite map_length. destruct G as [->|[L _]]; [cbn; now rewrite app_nil_r|]. destruct (Nat.ltb_spec 1 (length open)); [reflexivity|lia].
    - cbn [fold_left]. destruct o as [q|].
      + destruct Ho as [Cq Lq]. cbn [pairs]. unfold addpoint at 2. cbn [linebasepoints lastvpos]. rewrite (valid_inside q Cq). destruct last as [p|].
        * destruct Hlast as [Cp Lp]. pose proof (clear_pairs p q Cp Cq) as Cpq.
          destruct open as [|o1 open]; cbn [map].
          -- destruct (insideb q) eqn:Iq; pose proof Iq as Iq'.
             ++ apply insideb_spec in Iq. destruct (cutbeginning_ok (combine p q) Cpq ltac:(intros [a b] H; apply in_combine_r in H; exact (proj1 (Forall_forall _ _) Iq b H)) 0 ltac:(lra)) as (B & S). fold (cutbeginning epsilon p q) in B, S.
                destruct (IH pt [on p q (cutbeginning epsilon p q); q] (Some q) (conj Cq Lq)) as (cuts & F & E); [right; split; [cbn; lia|now exists q]|].
                exists (Some (cutbeginning epsilon p q, 1) :: cuts). split.
                ** constructor; [|exact F]. cbn. split; [lra|]. split; [lra|]. intros t T. rewrite inside_on. specialize (S t T). tauto.
                ** unfold setlast, add. cbn [app]. rewrite between_on. cbn [lines]. rewrite Iq'. rewrite on_1 by congruence. exact E.
             ++ pose proof (cutboth_ok (combine p q) Cpq 0 1 ltac:(lra) ltac:(lra)) as S. destruct (cutboth epsilon (combine p q) 0 1) as [[c0 c1]|].
                ** destruct S as (B0 & B1 & S). destruct (ltb_case c0 c1) as [[Lc ->]|[Lc ->]].
                   --- unfold setlast, add. cbn [app]. unfold addpointstopath. cbn [linebasepoints path lastvpos]. rewrite !between_on.
                       destruct (IH (pt ++ [MoveTo (f (on p q c0)); LineTo (f (on p q c1))]) [] (Some q) (conj Cq Lq) (or_introl eq_refl)) as (cuts & F & E). exists (Some (c0, c1) :: cuts). split.
                       +++ constructor; [|exact F]. cbn. split; [lra|]. split; [lra|]. intros t T. rewrite inside_on. specialize (S t T). tauto.
                       +++ cbn [lines]. rewrite Iq'. cbn [map] in E. etransitivity; [exact E|]. rewrite <- app_assoc. reflexivity.
                   --- unfold setlast. cbn [path linebasepoints]. destruct (IH pt [] (Some q) (conj Cq Lq) (or_introl eq_refl)) as (cuts & F & E). exists (None :: cuts). split.
                       +++ constructor; [|exact F]. cbn. intros t u T U It Iu. rewrite inside_on in It, Iu. pose proof (proj2 (S t T) (conj T It)). pose proof (proj2 (S u U) (conj U Iu)). lra.
                       +++ exact E.
                ** unfold setlast. cbn [path linebasepoints]. destruct (IH pt [] (Some q) (conj Cq Lq) (or_introl eq_refl)) as (cuts & F & E). exists (None :: cuts). split.
                   --- constructor; [|exact F]. cbn. intros t u T U It Iu. rewrite inside_on in It. exfalso. exact (S t T It).
                   --- exact E.
          -- destruct G as [G|[G (p' & Ep & Ip)]]; [discriminate|]. injection Ep as <-.
             destruct (insideb q) eqn:Iq; pose proof Iq as Iq'.
             ++ apply insideb_spec in Iq. unfold setlast, add. cbn [path linebasepoints]. destruct (IH pt ((o1 :: open) ++ [q]) (Some q) (conj Cq Lq)) as (cuts & F & E); [right; split; [rewrite app_length; cbn; lia|now exists q]|].
                exists (Some (0, 1) :: cuts). split.
                ** constructor; [|exact F]. cbn. split; [lra|]. split; [lra|]. intros t T. split; [intros _; lra|]. intros _. rewrite inside_on. apply Forall_forall. intros [a b] H.
                   apply both_in; [exact T|exact (inside_pairs p q Ip (a, b) H)|]. apply in_combine_r in H. exact (proj1 (Forall_forall _ _) Iq b H).
                ** cbn [lines]. rewrite Iq'. rewrite on_1 by congruence. rewrite map_app in E. exact E.
             ++ destruct (cutend_ok (combine p q) Cpq (inside_pairs p q Ip) 1 ltac:(lra)) as (B & S). fold (cutend epsilon p q) in B, S.
                unfold setlast, add, addpointstopath. cbn [path linebasepoints lastvpos]. rewrite between_on.
                destruct (IH (pt ++ draw (map f ((o1 :: open) ++ [on p q (cutend epsilon p q)]))) [] (Some q) (conj Cq Lq) (or_introl eq_refl)) as (cuts & F & E). exists (Some (0, cutend epsilon p q) :: cuts). split.
                ** constructor; [|exact F]. cbn. split; [lra|]. split; [lra|]. intros t T. rewrite inside_on. specialize (S t T). tauto.
                ** cbn [lines]. rewrite Iq'. cbn [map flat_map]. rewrite app_assoc. rewrite !map_app in E. rewrite !map_app. exact E.
        * (* the first point *)
          destruct open as [|o1 open]; [|destruct G as [G|[_ (p & G & _)]]; discriminate]. cbn [map]. unfold setlast. cbn [path linebasepoints]. destruct (IH pt [] (Some q) (conj Cq Lq) (or_introl eq_refl)) as (cuts & F & E). exists cuts. split; [exact F|exact E].
      + cbn [pairs]. unfold addpoint at 2. cbn [linebasepoints]. rewrite map_length. destruct G as [->|[L _]].
        * cbn. destruct (IH pt [] None I (or_introl eq_refl)) as (cuts & F & E). exists cuts. split; [exact F|exact E].
        * destruct (Nat.ltb_spec 1 (length open)); [|lia]. unfold setlast. rewrite flush_draw. cbn [linebasepoints addpointstopath]. destruct (IH (pt ++ draw (map f open)) [] None I (or_introl eq_refl)) as (cuts & F & E). exists cuts. split; [exact F|].
          cbn [map] in E. etransitivity; [exact E|]. cbn [lines]. destruct open as [|o1 open]; [cbn in L; lia|]. cbn [app map flat_map]. now rewrite app_assoc.
  Qed.
End Clip.

(** ** C99 *)
(** The lines which are drawn are exactly the parts of the lines between successive points which are in the graph (parts which are a
    single point may be left out), joined at points in the graph. *)
Theorem line_is_clipped P (f : vpos -> P) epsilon n points : 0 <= epsilon -> Forall (fun p => length p = n) points -> Forall (fun p => match available p with Some v => clear_ epsilon v | None => True end) points ->
  let l := map available points in
  exists cuts, Forall2 (fun pq c => clip (fst pq) (snd pq) c) (pairs None l) cuts /\ line P f epsilon points = flat_map draw (map (map f) (lines None [] l cuts)).
Proof.
  intros He Hn Hc. cbv zeta.
  assert (Forall (fits epsilon n) (map available points)) as F.
  { apply Forall_map. apply Forall_forall. intros p Hp. pose proof (proj1 (Forall_forall _ _) Hn p Hp) as L. pose proof (proj1 (Forall_forall _ _) Hc p Hp) as C. cbv beta in L, C. unfold fits. destruct (available p) as [v|] eqn:E; [|exact I]. split; [exact C|].
    rewrite <- L. clear - E. revert v E. induction p as [|[c|] p IH]; intros v E; cbn in E; [injection E as <-; reflexivity| |discriminate]. fold (available p) in E. destruct (available p) as [v'|]; [|discriminate]. injection E as <-. cbn. now rewrite (IH v' eq_refl). }
  destruct (line_ok epsilon He P f n (map available points) F [] [] None I (or_introl eq_refl)) as (cuts & F2 & E). exists cuts. split; [exact F2|].
  unfold line. cbn [map app] in E. rewrite <- E. f_equal. clear. unfold initpointstopath. generalize {| path := @nil (item P); linebasepoints := []; lastvpos := None |}. induction points as [|p points IH]; intros d; [reflexivity|]. cbn [fold_left map]. apply IH.
Qed.
Print Assumptions line_is_clipped.
(** Nothing is drawn outside of the graph. *)
Theorem line_stays_inside P (f : vpos -> P) epsilon n points : 0 <= epsilon -> Forall (fun p => length p = n) points -> Forall (fun p => match available p with Some v => clear_ epsilon v | None => True end) points ->
  exists l, line P f epsilon points = flat_map draw (map (map f) l) /\ Forall (Forall inside) l.
Proof.
  intros He Hn Hc. destruct (line_is_clipped P f epsilon n points He Hn Hc) as (cuts & F & E). exists (lines None [] (map available points) cuts). split; [exact E|].
  clear - F. assert (forall last open, Forall inside open -> Forall2 (fun pq c => clip (fst pq) (snd pq) c) (pairs last (map available points)) cuts -> Forall (Forall inside) (lines last open (map available points) cuts)) as K.
  { clear F. intros last open. revert last open cuts. induction (map available points) as [|[q|] l IH]; intros last open cuts O F.
    - cbn. destruct open; constructor; [exact O|constructor].
    - cbn [pairs lines] in *. destruct last as [p|]; [|apply IH; [constructor|exact F]]. cbn [app] in F. inversion F as [|? [[t0 t1]|] ? cuts' C F']; subst.
      + destruct C as (B0 & B1 & C). cbn in C. assert (Forall inside ((match open with [] => [on p q t0] | _ => open end) ++ [on p q t1])) as O'.
        { apply Forall_app. split; [destruct open; [repeat constructor; apply C; lra|exact O]|repeat constructor; apply C; lra]. }
        destruct (insideb q); [apply IH; [exact O'|exact F']|]. constructor; [exact O'|]. apply IH; [constructor|exact F'].
      + apply IH; [constructor|exact F'].
    - cbn [pairs lines] in *. apply Forall_app. split; [destruct open; constructor; [exact O|constructor]|]. apply IH; [constructor|exact F]. }
  apply K; [constructor|exact F].
Qed.
Print Assumptions line_stays_inside.
(** Without the condition on the slivers it is not true: whatever epsilon is, a line can be drawn which leaves the graph by a
    quarter of its height. *)
Theorem line_leaves_graph_refuted epsilon : 0 < epsilon ->
  line vpos (fun v => v) epsilon [[Some (1 / 2); Some (1 / 2)]; [Some (1 + epsilon / 2); Some 0]; [Some (1 + 5 * epsilon / 2); Some 1]]
  = [MoveTo [1 / 2; 1 / 2]; MultiLineTo [[1 + epsilon / 2; 0]; [1; - (1 / 4)]]].
Proof.
  intros He. unfold line. cbn [fold_left available fold_right]. unfold initpointstopath.
  unfold addpoint at 3. cbn [linebasepoints lastvpos path]. unfold setlast. cbn [linebasepoints lastvpos path].
  assert (valid epsilon [1 + epsilon / 2; 0] = true) as V2 by (cbn; rewrite !ltb_false by lra; reflexivity).
  assert (valid epsilon [1 + 5 * epsilon / 2; 1] = false) as V3 by (cbn; rewrite (ltb_false (1 + 5 * epsilon / 2)), (ltb_true (1 + epsilon)) by lra; reflexivity).
  assert (cutbeginning epsilon [1 / 2; 1 / 2] [1 + epsilon / 2; 0] = 0) as C2.
  { unfold cutbeginning. cbn [combine fold_left]. rewrite !newcut_none by lra. cbn [larger]. destruct (differs epsilon (1 / 2) (1 + epsilon / 2)), (differs epsilon (1 / 2) 0); reflexivity. }
  assert (cutend epsilon [1 + epsilon / 2; 0] [1 + 5 * epsilon / 2; 1] = - (1 / 4)) as C3.
  { unfold cutend. cbn [combine fold_left]. rewrite (differs_true epsilon (1 + epsilon / 2)) by lra. rewrite (newcut_high (1 + 5 * epsilon / 2)) by lra. rewrite (newcut_none 1) by lra. cbn [smaller].
    replace ((1 - (1 + epsilon / 2)) / (1 + 5 * epsilon / 2 - (1 + epsilon / 2))) with (- (1 / 4)) by (field; lra). rewrite ltb_true by lra. now destruct (differs epsilon 0 1). }
  unfold addpoint at 2. cbn [linebasepoints lastvpos path]. rewrite V2, C2. unfold setlast, add. cbn [linebasepoints lastvpos path app].
  unfold addpoint. cbn [linebasepoints lastvpos path]. rewrite V3, C3. unfold addpointstopath, add, setlast. cbn [linebasepoints lastvpos path app].
  unfold donepointstopath. cbn [length linebasepoints Nat.ltb Nat.leb path]. unfold between. cbn [combine map].
  do 2 f_equal; [f_equal; [lra|f_equal; lra]|]. do 3 f_equal. f_equal; [lra|f_equal; lra].
Qed.
Print Assumptions line_leaves_graph_refuted.

(** A line which leaves the graph at the right, enters it again, and crosses a corner of it after a point is missing. *)
Example line_ex : line vpos (fun v => v) (/ 10)
  [[Some (1 / 2); Some (1 / 2)]; [Some (3 / 2); Some 1]; [Some (1 / 2); Some (1 / 4)]; [None; Some (1 / 2)]; [Some (3 / 2); Some (3 / 4)]; [Some (1 / 2); Some (-1 / 4)]]
  = [MoveTo [1 / 2; 1 / 2]; LineTo [1; 3 / 4]; MoveTo [1; 5 / 8]; LineTo [1 / 2; 1 / 4]; MoveTo [1; 1 / 4]; LineTo [3 / 4; 0]].
Proof.
  unfold line. cbn [fold_left available fold_right]. unfold initpointstopath.
  assert (valid (/ 10) [3 / 2; 1] = false) as V1 by (cbn; rewrite (ltb_false (3 / 2)), (ltb_true (1 + / 10)) by lra; reflexivity).
  assert (valid (/ 10) [1 / 2; 1 / 4] = true) as V2 by (cbn; rewrite !ltb_false by lra; reflexivity).
  assert (valid (/ 10) [1 / 2; -1 / 4] = false) as V3 by (cbn; rewrite (ltb_false (1 / 2)), (ltb_false (1 + / 10)), (ltb_true (-1 / 4)) by lra; reflexivity).
  assert (cutboth (/ 10) [(1 / 2, 3 / 2); (1 / 2, 1)] 0 1 = Some (0, 1 / 2)) as C1.
  { cbn [cutboth]. rewrite !(ltb_false 1 (1 / 2)), !(ltb_false (1 / 2) 0) by lra. cbn [andb]. rewrite !differs_true by lra.
    rewrite !(newcut_none (1 / 2)), (newcut_high (3 / 2)), (newcut_none 1) by lra. cbn [larger smaller]. replace ((1 - 1 / 2) / (3 / 2 - 1 / 2)) with (1 / 2) by field. now rewrite ltb_true by lra. }
  assert (cutbeginning (/ 10) [3 / 2; 1] [1 / 2; 1 / 4] = 1 / 2) as C2.
  { unfold cutbeginning. cbn [combine fold_left]. rewrite !differs_true by lra. rewrite (newcut_high (3 / 2)), (newcut_none 1) by lra. cbn [larger]. replace ((1 - 3 / 2) / (1 / 2 - 3 / 2)) with (1 / 2) by field. now rewrite ltb_true by lra. }
  assert (cutboth (/ 10) [(3 / 2, 1 / 2); (3 / 4, -1 / 4)] 0 1 = Some (1 / 2, 3 / 4)) as C3.
  { cbn [cutboth]. rewrite (ltb_false 1 (1 / 2)), (ltb_false (3 / 2) 0), (ltb_false 1 (3 / 4)), (ltb_false (3 / 4) 0), andb_false_r by lra. cbn [andb]. rewrite !differs_true by lra.
    rewrite (newcut_none (1 / 2)), (newcut_high (3 / 2)), (newcut_none (3 / 4)), (newcut_low (-1 / 4)) by lra. cbn [larger smaller]. replace ((1 - 3 / 2) / (1 / 2 - 3 / 2)) with (1 / 2) by field. replace (- (3 / 4) / (-1 / 4 - 3 / 4)) with (3 / 4) by field. now rewrite !ltb_true by lra. }
  unfold addpoint at 6. cbn [linebasepoints lastvpos path]. unfold setlast. cbn [linebasepoints lastvpos path].
  unfold addpoint at 5. cbn [linebasepoints lastvpos path combine]. rewrite V1, C1, (ltb_true 0 (1 / 2)) by lra. unfold addpointstopath, add, setlast. cbn [linebasepoints lastvpos path app].
  unfold addpoint at 4. cbn [linebasepoints lastvpos path]. rewrite V2, C2. unfold setlast, add. cbn [linebasepoints lastvpos path app].
  unfold addpoint at 3. cbn [linebasepoints lastvpos path length Nat.ltb Nat.leb]. unfold setlast, addpointstopath. cbn [linebasepoints lastvpos path app].
  unfold addpoint at 2. cbn [linebasepoints lastvpos path]. unfold setlast. cbn [linebasepoints lastvpos path].
  unfold addpoint. cbn [linebasepoints lastvpos path combine]. rewrite V3, C3, (ltb_true (1 / 2) (3 / 4)) by lra. unfold addpointstopath, add, setlast. cbn [linebasepoints lastvpos path app].
  unfold donepointstopath. cbn [length linebasepoints Nat.ltb Nat.leb path]. unfold between. cbn [combine map].
  repeat (f_equal; try lra).
Qed.
