(** * What the axes get from ranges of data (C112) *)

From Coq Require Import ZArith Ascii String List Bool Lia.
From Verif Require Import RangeModel RangeProps.
Import ListNotations.
Open Scope Z_scope.

Section Adjust.
Context {V : Type}.
Variable sub add : V -> V -> option V.

(** the data of a column *)
Fixpoint look (n : string) (data : list (string * list V)) : option (list V) :=
  match data with [] => None | (c, d) :: r => if String.eqb c n then Some d else look n r end.
Definition optl {A} (o : option A) : list A := match o with Some x => [x] | None => [] end.
Definition both (op : V -> V -> option V) (v d : option (list V)) : list (list V) := match v, d with Some v, Some d => [zip_with op v d] | _, _ => [] end.
Definition or_else {A} (a b : option A) : option A := match a with Some _ => a | None => b end.
Definition when {A} (b : bool) (o : option A) : option A := if b then o else None.

Lemma look_none n data : ~ In n (map fst data) -> look n data = None.
Proof.
  induction data as [|[c d] r IH]; cbn; [reflexivity|]. intros H. destruct (String.eqb_spec c n); [tauto|]. apply IH. tauto.
Qed.

Lemma distinct6 (a0 a1 a2 a3 a4 a5 : string) : NoDup [a0; a1; a2; a3; a4; a5] ->
  a0 <> a1 /\ a0 <> a2 /\ a0 <> a3 /\ a0 <> a4 /\ a0 <> a5 /\ a1 <> a2 /\ a1 <> a3 /\ a1 <> a4 /\ a1 <> a5 /\ a2 <> a3 /\ a2 <> a4 /\ a2 <> a5 /\ a3 <> a4 /\ a3 <> a5 /\ a4 <> a5.
Proof.
  intros H. do 5 (apply NoDup_cons_iff in H as [? H]). cbn [In] in *. repeat split; intros ->; tauto.
Qed.
Section Axis.
Variable u : string.
Variable mask : Z.
Let n1 := (u ++ "min")%string. Let n2 := (u ++ "max")%string. Let n3 := ("d" ++ u ++ "min")%string. Let n4 := ("d" ++ u ++ "max")%string. Let n5 := ("d" ++ u)%string.
Definition still (s : @deltas V) (r : list (string * list V)) : list (list V) :=
  let v := or_else (d_value s) (when (bit mask delta) (look u r)) in
  let dn := or_else (d_min s) (when (bit mask mask_dmin) (look n3 r)) in
  let dx := or_else (d_max s) (when (bit mask mask_dmax) (look n4 r)) in
  let d := or_else (d_both s) (when (bit mask mask_d) (look n5 r)) in
  optl (when (bit mask mask_min) (look n1 r)) ++ optl (when (bit mask mask_max) (look n2 r)) ++ both sub v dn ++ both add v dx ++ both sub v d ++ both add v d.
Definition consistent (s : @deltas V) (r : list (string * list V)) : Prop :=
  NoDup (map fst r) /\ (d_value s <> None -> ~ In u (map fst r) /\ d_min s = None /\ d_max s = None /\ d_both s = None) /\
  (d_min s <> None -> ~ In n3 (map fst r)) /\ (d_max s <> None -> ~ In n4 (map fst r)) /\ (d_both s <> None -> ~ In n5 (map fst r)).

Lemma at_most_one c : let e n := String.eqb c n in
  [e u; e n1; e n2; e n3; e n4; e n5] = [false; false; false; false; false; false] \/ (c = u /\ [e u; e n1; e n2; e n3; e n4; e n5] = [true; false; false; false; false; false]) \/
  (c = n1 /\ [e u; e n1; e n2; e n3; e n4; e n5] = [false; true; false; false; false; false]) \/ (c = n2 /\ [e u; e n1; e n2; e n3; e n4; e n5] = [false; false; true; false; false; false]) \/
  (c = n3 /\ [e u; e n1; e n2; e n3; e n4; e n5] = [false; false; false; true; false; false]) \/ (c = n4 /\ [e u; e n1; e n2; e n3; e n4; e n5] = [false; false; false; false; true; false]) \/
  (c = n5 /\ [e u; e n1; e n2; e n3; e n4; e n5] = [false; false; false; false; false; true]).
Proof.
  pose proof (names_distinct u) as DI. fold n3 n4 n5 n1 n2 in DI. clearbody n1 n2 n3 n4 n5. apply distinct6 in DI. destruct DI as (D01 & D02 & D03 & D04 & D05 & D12 & D13 & D14 & D15 & D23 & D24 & D25 & D34 & D35 & D45).
  assert (T : forall n : string, c = n -> String.eqb c n = true) by (intros n ->; apply String.eqb_refl).
  assert (F : forall m n : string, c = m -> m <> n -> String.eqb c n = false) by (intros m n -> N; apply String.eqb_neq; exact N).
  cbv zeta. destruct (string_dec c u) as [E|E0]; [right; left; split; [exact E|]; rewrite (T u E), !(F u _ E) by assumption; reflexivity|].
  destruct (string_dec c n1) as [E|E1]; [do 2 right; left; split; [exact E|]; rewrite (T n1 E), !(F n1 _ E) by congruence; reflexivity|].
  destruct (string_dec c n2) as [E|E2]; [do 3 right; left; split; [exact E|]; rewrite (T n2 E), !(F n2 _ E) by congruence; reflexivity|].
  destruct (string_dec c n3) as [E|E3]; [do 4 right; left; split; [exact E|]; rewrite (T n3 E), !(F n3 _ E) by congruence; reflexivity|].
  destruct (string_dec c n4) as [E|E4]; [do 5 right; left; split; [exact E|]; rewrite (T n4 E), !(F n4 _ E) by congruence; reflexivity|].
  destruct (string_dec c n5) as [E|E5]; [do 6 right; split; [exact E|]; rewrite (T n5 E), !(F n5 _ E) by congruence; reflexivity|].
  left. apply String.eqb_neq in E0, E1, E2, E3, E4, E5. rewrite E0, E1, E2, E3, E4, E5. reflexivity.
Qed.

Lemma adjust_step s c d r : consistent s ((c, d) :: r) ->
  let '(calls, s') := adjust sub add u mask s c d in
  consistent s' r /\ (forall x, In x (still s ((c, d) :: r)) <-> In x (calls ++ still s' r)) /\ List.length (still s ((c, d) :: r)) = List.length (calls ++ still s' r).
Proof.
  intros (ND & CV & CN & CX & CD). cbn [map fst] in *. apply NoDup_cons_iff in ND as [NI ND].
  pose proof (at_most_one c) as ONE. cbv zeta in ONE.
  pose proof (look_none u r) as L0. pose proof (look_none n1 r) as L1. pose proof (look_none n2 r) as L2. pose proof (look_none n3 r) as L3. pose proof (look_none n4 r) as L4. pose proof (look_none n5 r) as L5.
  unfold adjust, still, consistent. cbn [look]. fold n3 n4 n5 n1 n2. clearbody n1 n2 n3 n4 n5.
  destruct s as [sv sn sx sd]. cbn [d_value d_min d_max d_both In] in *.
  revert L0 L1 L2 L3 L4 L5 CV CN CX CD. revert ND NI.
  generalize (look u r) as l0, (look n1 r) as l1, (look n2 r) as l2, (look n3 r) as l3, (look n4 r) as l4, (look n5 r) as l5.
  generalize (map fst r) as names.
  generalize (bit mask delta) as b0, (bit mask mask_min) as b1, (bit mask mask_max) as b2, (bit mask mask_dmin) as b3, (bit mask mask_dmax) as b4, (bit mask mask_d) as b5.
  intros b0 b1 b2 b3 b4 b5 cs l0 l1 l2 l3 l4 l5 ND NI L0 L1 L2 L3 L4 L5 CV CN CX CD.
  destruct ONE as [E|[[EC E]|[[EC E]|[[EC E]|[[EC E]|[[EC E]|[EC E]]]]]]]; injection E as -> -> -> -> -> ->; try subst c; cbn [andb app].
  all: destruct sv as [sv|]; [destruct (CV ltac:(discriminate)) as (CV0 & -> & -> & ->); clear CV CN CX CD|clear CV].
  all: try (exfalso; apply CV0; left; reflexivity).
  all: repeat match goal with |- context [if ?b then mkd _ _ _ _ else _] => destruct b | |- context [if ?b then [_] else []] => destruct b end; cbn [d_value d_min d_max d_both or_else when].
  all: try (destruct sn as [sn|]; [pose proof (CN ltac:(discriminate)) as CN'|]); try (destruct sx as [sx|]; [pose proof (CX ltac:(discriminate)) as CX'|]); try (destruct sd as [sd|]; [pose proof (CD ltac:(discriminate)) as CD'|]).
  all: repeat match goal with H : ~ (_ = _ \/ _) |- _ => apply Decidable.not_or in H; destruct H end.
  all: try (exfalso; congruence).
  all: repeat match goal with H : ?P -> _, H1 : ?P |- _ => lazymatch P with ~ _ => specialize (H H1); try subst end end; cbn [d_value d_min d_max d_both or_else when].
  all: split; [refine (conj ND (conj _ (conj _ (conj _ _)))); intros Q; try congruence; try (refine (conj _ (conj eq_refl (conj eq_refl eq_refl)))); assumption|].
  all: clear; repeat match goal with |- context [when ?b None] => replace (when b None) with (@None (list V)) by (destruct b; reflexivity) end; cbn [or_else].
  all: repeat match goal with |- context [optl (when ?b ?l)] => generalize (optl (when b l)); intros ? end; repeat match goal with |- context [when ?b ?l] => generalize (when b l); intros ? end.
  all: repeat match goal with |- context [both _ ?o _] => is_var o; destruct o | |- context [both _ _ ?o] => is_var o; destruct o end; cbn [both app optl or_else].
  all: split; [intros x; rewrite ?in_app_iff; cbn [In]; rewrite ?in_app_iff; cbn [In]; tauto|rewrite ?app_length; cbn [List.length]; rewrite ?app_length; cbn [List.length]; lia].
Qed.

Lemma adjust_all_is : forall r s, consistent s r -> (forall x, In x (adjust_all sub add u mask s r) <-> In x (still s r)) /\ List.length (adjust_all sub add u mask s r) = List.length (still s r).
Proof.
  induction r as [|[c d] r IH]; intros s C.
  - cbn [adjust_all]. unfold still. cbn [look]. replace (when (bit mask mask_min) (@None (list V))) with (@None (list V)) by (destruct (bit mask mask_min); reflexivity).
    replace (when (bit mask mask_max) (@None (list V))) with (@None (list V)) by (destruct (bit mask mask_max); reflexivity).
    replace (when (bit mask delta) (@None (list V))) with (@None (list V)) by (destruct (bit mask delta); reflexivity).
    replace (when (bit mask mask_dmin) (@None (list V))) with (@None (list V)) by (destruct (bit mask mask_dmin); reflexivity).
    replace (when (bit mask mask_dmax) (@None (list V))) with (@None (list V)) by (destruct (bit mask mask_dmax); reflexivity).
    replace (when (bit mask mask_d) (@None (list V))) with (@None (list V)) by (destruct (bit mask mask_d); reflexivity).
    destruct C as (_ & CV & _). destruct s as [[sv|] sn sx sd]; cbn [d_value d_min d_max d_both] in *.
    + destruct (CV ltac:(discriminate)) as (_ & -> & -> & ->). cbn. split; [tauto|reflexivity].
    + destruct sn, sx, sd; cbn; split; try tauto; reflexivity.
  - cbn [adjust_all]. pose proof (adjust_step s c d r C) as S. destruct (adjust sub add u mask s c d) as [calls s']. destruct S as (C' & S1 & S2). destruct (IH s' C') as [I1 I2].
    split; [intros x; rewrite S1, !in_app_iff, I1; tauto|rewrite S2, !app_length, I2; reflexivity].
Qed.
End Axis.

(** The axis is adjusted to the columns of lower and upper ends and to the values less and plus the differences, to each once and to nothing else,
    in whatever order the columns are given. *)
Theorem range_adjusts : forall u cols data, NoDup cols -> NoDup (map fst data) -> (forall n, In n (map fst data) <-> In n cols) ->
  let got := adjust_all sub add u (mask_sum u cols) no_deltas data in
  let wanted := optl (look (u ++ "min") data) ++ optl (look (u ++ "max") data) ++
    both sub (look u data) (look ("d" ++ u ++ "min") data) ++ both add (look u data) (look ("d" ++ u ++ "max") data) ++
    both sub (look u data) (look ("d" ++ u) data) ++ both add (look u data) (look ("d" ++ u) data) in
  (forall x, In x got <-> In x wanted) /\ List.length got = List.length wanted.
Proof.
  intros u cols data NC ND SAME. cbv zeta.
  assert (C : consistent u no_deltas data) by (unfold consistent, no_deltas; cbn; repeat split; try assumption; try reflexivity; congruence).
  pose proof (adjust_all_is u (mask_sum u cols) data no_deltas C) as A.
  assert (L : forall n, has cols n = false -> look n data = None).
  { intros n H. apply look_none. rewrite SAME, <- has_in, H. discriminate. }
  assert (SI : still u (mask_sum u cols) no_deltas data = (optl (look (u ++ "min") data) ++ optl (look (u ++ "max") data) ++
    both sub (look u data) (look ("d" ++ u ++ "min") data) ++ both add (look u data) (look ("d" ++ u ++ "max") data) ++
    both sub (look u data) (look ("d" ++ u) data) ++ both add (look u data) (look ("d" ++ u) data))%list); [|rewrite <- SI; exact A].
  unfold still, no_deltas. cbn [d_value d_min d_max d_both or_else]. rewrite (mask_sum_weigh u cols NC).
  destruct (mask_bits (map (has cols) (RangeProps.names u)) eq_refl) as (v & mn & mx & dn & dx & d & E & _ & B1 & B2 & B3 & B4 & B5 & _ & B7 & _).
  destruct (ranged_bits cols u v mn mx dn dx d E) as (_ & _ & _ & _ & _ & _ & H3 & H4 & H5 & H1 & H2). rewrite B1, B2, B3, B4, B5, B7.
  assert (W : forall b n, has cols n = b -> when b (look n data) = look n data) by (intros [|] n H; [reflexivity|cbn; symmetry; exact (L n H)]).
  rewrite (W mn _ H1), (W mx _ H2), (W dn _ H3), (W dx _ H4), (W d _ H5).
  destruct (dn || dx || d) eqn:D; [reflexivity|]. apply orb_false_iff in D as [D D3]. apply orb_false_iff in D as [D1 D2].
  rewrite (L _ (eq_trans H3 D1)), (L _ (eq_trans H4 D2)), (L _ (eq_trans H5 D3)). cbn [when both]. destruct (look u data); reflexivity.
Qed.
End Adjust.
Print Assumptions range_adjusts.
(** the difference given before the value, with a column of other use between them *)
Example range_adjusts_ex :
  adjust_all (fun v d => Some (v - d)) (fun v d => Some (v + d)) "y" (mask_sum "y" ["dy"; "x"; "y"]%string) no_deltas [("dy", [1; 2]); ("x", [7; 8]); ("y", [10; 20])]%string = [[9; 18]; [11; 22]].
Proof. vm_compute. reflexivity. Qed.
