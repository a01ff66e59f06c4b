(** C156: data of functions; C157: joined data. *)
From Coq Require Import Reals ZArith List Bool String Arith Lia Lra.
From Verif Require Import FunctionDataModel.
Import ListNotations.
Open Scope R_scope.

Definition cell (v : value) : option R := match v with Num y => Some y | _ => None end.
Lemma points_map : forall f lg n a b is, n <> 1%nat -> (forall x, f x <> Failure) ->
  points f lg n a b is = Ok (map (fun i => let x := a + (b - a) * INR i / (INR n - 1) in let x := if lg then exp x else x in (x, cell (f x))) is).
Proof.
  intros f lg n a b is N F. induction is as [|i is IH]; [reflexivity|]. cbn [points map]. unfold sample at 1.
  destruct (Nat.eqb n 1) eqn:E; [apply Nat.eqb_eq in E; contradiction|]. cbn [bind]. cbv zeta.
  match goal with |- context [f ?x] => pose proof (F x) as Fx; destruct (f x) as [y| |] end; try congruence; cbn [bind cell]; rewrite IH; reflexivity.
Qed.
Lemma denominator : forall n, (2 <= n)%nat -> 1 <= INR n - 1.
Proof. intros n N. apply le_INR in N. change (INR 2) with 2 in N. lra. Qed.
(** C156: a function is evaluated at n points from the minimum to the maximum of the function or of the axis; the points have equal distances on the axis, that is
    equal differences or, for a logarithmic axis, equal differences of the logarithms; where the function is not defined there is no value *)
Theorem function_points : forall f fmin fmax amin amax lg n, (2 <= n)%nat -> (forall x, f x <> Failure) ->
  let min := match fmin with Some x => x | None => amin end in let max := match fmax with Some x => x | None => amax end in
  (lg = true -> 0 < min /\ 0 < max) -> let place := fun x => if lg then ln x else x in
  exists l, function_columns f fmin fmax amin amax lg n = Ok l /\ List.length l = n /\
  (forall p, In p l -> match f (fst p) with Num y => snd p = Some y | _ => snd p = None end) /\
  option_map fst (nth_error l 0) = Some min /\ option_map fst (nth_error l (n - 1)) = Some max /\
  (forall i p q, nth_error l i = Some p -> nth_error l (S i) = Some q -> place (fst q) - place (fst p) = (place max - place min) / (INR n - 1)).
Proof.
  intros f fmin fmax amin amax lg n N F min max P place. pose proof (denominator n N) as D.
  assert (Ln : forall x, (lg = true -> 0 < x) -> (if lg then log x else Ok x) = Ok (place x)).
  { intros x X. unfold place, log. destruct lg; auto. destruct (Rlt_dec 0 x); auto. exfalso. auto. }
  unfold function_columns. fold min max. rewrite Ln by (intros E; now apply P). cbn [bind]. rewrite Ln by (intros E; now apply P). cbn [bind].
  rewrite points_map by (auto; lia).
  set (g := fun i => let x := place min + (place max - place min) * INR i / (INR n - 1) in let x := if lg then exp x else x in (x, cell (f x))).
  exists (map g (seq 0 n)). split; [reflexivity|]. split; [now rewrite map_length, seq_length|].
  assert (Nth : forall i, (i < n)%nat -> nth_error (map g (seq 0 n)) i = Some (g i)).
  { intros i I. rewrite nth_error_map. rewrite (nth_error_nth' (seq 0 n) 0%nat) by (rewrite seq_length; lia). rewrite seq_nth by lia. reflexivity. }
  assert (Back : forall x, (lg = true -> 0 < x) -> (if lg then exp (place x) else place x) = x).
  { intros x X. unfold place. destruct lg; auto. apply exp_ln. auto. }
  split; [|split; [|split]].
  - intros p I. apply in_map_iff in I as (i & <- & _). unfold g. cbn [fst snd]. cbv zeta. match goal with |- context [f ?x] => destruct (f x) end; reflexivity.
  - rewrite Nth by lia. cbn [option_map]. unfold g. cbn [fst]. cbv zeta. cbn [INR]. replace (place min + (place max - place min) * 0 / (INR n - 1)) with (place min) by (field; lra).
    rewrite Back; auto. intros E. now apply P.
  - rewrite Nth by lia. cbn [option_map]. unfold g. cbn [fst]. cbv zeta. rewrite minus_INR by lia. change (INR 1) with 1.
    replace (place min + (place max - place min) * (INR n - 1) / (INR n - 1)) with (place max) by (field; lra). rewrite Back; auto. intros E. now apply P.
  - intros i p q Ip Iq. assert (Li : (S i < n)%nat).
    { assert (S i < List.length (map g (seq 0 n)))%nat by (apply nth_error_Some; congruence). now rewrite map_length, seq_length in H. }
    rewrite Nth in Ip, Iq by lia. injection Ip as <-. injection Iq as <-. unfold g. cbn [fst]. cbv zeta.
    assert (Pl : forall x, place (if lg then exp x else x) = x) by (intros x; unfold place; destruct lg; auto; apply ln_exp). rewrite !Pl, S_INR. field. lra.
Qed.
Print Assumptions function_points.
Example function_points_ex : exists l, function_columns (fun x => if Rlt_dec x 0 then Undefined else Num (sqrt x)) None (Some 1) (- (1)) 5 false 3 = Ok l /\
  map fst l = [- (1); 0; 1] /\ option_map snd (nth_error l 0) = Some None /\ option_map snd (nth_error l 2) = Some (Some 1).
Proof.
  unfold function_columns. cbn [bind]. rewrite points_map; [|lia|intros x; destruct (Rlt_dec x 0); discriminate].
  eexists. split; [reflexivity|]. cbn [map seq fst snd nth_error option_map]. replace (INR 3 - 1) with 2 by (cbn; lra). cbn [INR].
  split; [|split].
  - repeat apply f_equal2; try lra; auto.
  - destruct (Rlt_dec _ 0); [reflexivity|lra].
  - destruct (Rlt_dec _ 0); [lra|]. cbn [cell]. f_equal. f_equal. replace (- (1) + (1 - - (1)) * (1 + 1) / 2) with 1 by lra. apply sqrt_1.
Qed.
(** false: a single point is a division by zero, for functions and for parametric ones; a parametric function with no points is an error as well *)
Theorem single_point_refuted : forall f g fmin fmax amin amax keys min max,
  function_columns f fmin fmax amin amax false 1 = Exn /\ paramfunction g keys 1 min max = Exn /\ paramfunction g keys 0 min max = Exn.
Proof. intros. repeat split. Qed.
Print Assumptions single_point_refuted.

(** ** parametric functions *)
Lemma append_value_lookup : forall d k v k', lookup (append_value d k v) k' = if String.eqb k' k then option_map (fun l => l ++ [v]) (lookup d k') else lookup d k'.
Proof.
  induction d as [|[a l] d IH]; intros k v k'; cbn [append_value lookup]; [now destruct (String.eqb k' k)|].
  destruct (String.eqb_spec k a) as [->|Ka]; cbn [lookup]; destruct (String.eqb_spec k' a) as [->|Kb]; try rewrite IH; cbn [option_map]; auto.
  - destruct (String.eqb_spec a k); congruence.
Qed.
Lemma append_value_keys : forall d k v, map fst (append_value d k v) = map fst d.
Proof. induction d as [|[a l] d IH]; intros k v; cbn; auto. destruct (String.eqb k a); cbn; congruence. Qed.
Lemma append_values_keys : forall ks vs d, map fst (append_values d ks vs) = map fst d.
Proof. induction ks as [|k ks IH]; intros [|v vs] d; cbn; auto. now rewrite IH, append_value_keys. Qed.
Lemma append_values_other : forall ks vs d k, ~ In k ks -> lookup (append_values d ks vs) k = lookup d k.
Proof.
  induction ks as [|a ks IH]; intros [|v vs] d k N; cbn [append_values]; auto. rewrite IH by (intros I; apply N; now right). rewrite append_value_lookup.
  destruct (String.eqb_spec k a) as [->|]; auto. exfalso. apply N. now left.
Qed.
Lemma append_values_lookup : forall ks vs d j k, NoDup ks -> List.length vs = List.length ks -> nth_error ks j = Some k ->
  lookup (append_values d ks vs) k = option_map (fun l => l ++ [nth j vs 0]) (lookup d k).
Proof.
  induction ks as [|a ks IH]; intros [|v vs] d j k N L J; cbn in L; try discriminate; [destruct j; discriminate|].
  inversion N as [|? ? Na N']; subst. cbn [append_values]. destruct j as [|j]; cbn [nth_error nth] in *.
  - injection J as ->. rewrite append_values_other by auto. rewrite append_value_lookup. now rewrite String.eqb_refl.
  - rewrite (IH vs _ j k) by (auto; lia). rewrite append_value_lookup. destruct (String.eqb_spec k a) as [->|]; auto.
    exfalso. apply Na. eapply nth_error_In; eauto.
Qed.
Lemma filter_lookup : forall (d : list (string * list R)) a k, k <> a -> lookup (filter (fun p => negb (String.eqb (fst p) a)) d) k = lookup d k.
Proof.
  induction d as [|[b l] d IH]; intros a k N; cbn [filter lookup fst]; auto. destruct (String.eqb_spec b a) as [->|Nb]; cbn [negb lookup].
  - rewrite IH by auto. destruct (String.eqb_spec k a); congruence.
  - now rewrite IH by auto.
Qed.
Lemma new_lookup : forall ks k, In k ks -> lookup (new_columns ks) k = Some [].
Proof.
  induction ks as [|a ks IH]; intros k []; cbn [new_columns lookup].
  - subst. now rewrite String.eqb_refl.
  - destruct (String.eqb_spec k a) as [->|N]; auto. rewrite filter_lookup by auto. now apply IH.
Qed.
Lemma new_keys : forall ks, NoDup ks -> map fst (new_columns ks) = ks.
Proof.
  induction 1 as [|a ks Na N IH]; cbn [new_columns map fst]; auto. f_equal. transitivity (map fst (new_columns ks)); auto. f_equal.
  assert (G : forall d : list (string * list R), ~ In a (map fst d) -> filter (fun p => negb (String.eqb (fst p) a)) d = d).
  { induction d as [|[b l] d IHd]; intros Nd; cbn in *; auto. destruct (String.eqb_spec b a) as [->|]; [exfalso; apply Nd; auto|]. cbn. f_equal. apply IHd. tauto. }
  apply G. now rewrite IH.
Qed.
(** C156: the columns of a parametric function contain its values at n parameters with equal differences from min to max *)
Theorem param_points : forall f g keys n min max, (2 <= n)%nat -> NoDup keys -> (forall p, f p = Ok (g p) /\ List.length (g p) = List.length keys) ->
  exists d, paramfunction f keys n min max = Ok d /\ map fst d = keys /\
  forall j k, nth_error keys j = Some k -> exists c, lookup d k = Some c /\ List.length c = n /\
  forall i, (i < n)%nat -> nth_error c i = nth_error (g (min + (max - min) * (INR i / (INR n - 1)))) j.
Proof.
  intros f g keys n min max N Nk F. pose proof (denominator n N) as D. set (at_ := fun i => min + (max - min) * INR i / (INR n - 1)).
  assert (G : forall is d vs, List.length is <> 0%nat \/ (exists v, vs = Some v /\ List.length v = List.length keys) -> exists d' v, param_loop f keys n min max is d vs = Ok (d', Some v) /\ List.length v = List.length keys /\
    map fst d' = map fst d /\ forall j k, nth_error keys j = Some k -> lookup d' k = option_map (fun l => l ++ map (fun i => nth j (g (at_ i)) 0) is) (lookup d k)).
  { induction is as [|i is IH]; intros d vs H; cbn [param_loop].
    - destruct H as [H|(v & -> & Lv)]; [cbn in H; congruence|]. exists d, v. split; auto. split; auto. split; auto. intros j k J. cbn [map].
      destruct (lookup d k); cbn [option_map]; auto. now rewrite app_nil_r.
    - unfold sample. destruct (Nat.eqb n 1) eqn:E; [apply Nat.eqb_eq in E; lia|]. cbn [bind]. fold (at_ i). destruct (F (at_ i)) as [-> Lv]. cbn [bind].
      destruct (IH (append_values d keys (g (at_ i))) (Some (g (at_ i)))) as (d' & v & E1 & E2 & E3 & E4); [right; eauto|]. exists d', v. split; auto. split; auto.
      split; [rewrite E3; apply append_values_keys|]. intros j k J. rewrite (E4 j k J), (append_values_lookup keys _ d j k Nk Lv J).
      destruct (lookup d k); cbn [option_map map]; auto. now rewrite <- app_assoc. }
  destruct (G (seq 0 n) (new_columns keys) None) as (d & v & E1 & E2 & E3 & E4); [left; rewrite seq_length; lia|].
  unfold paramfunction. rewrite E1. cbn [bind]. rewrite E2, Nat.eqb_refl. exists d. split; auto. split; [now rewrite E3, new_keys|].
  intros j k J. rewrite (E4 j k J), new_lookup by (eapply nth_error_In; eauto). cbn [option_map app]. eexists. split; [reflexivity|]. split; [now rewrite map_length, seq_length|].
  intros i I. rewrite nth_error_map. rewrite (nth_error_nth' (seq 0 n) 0%nat) by (rewrite seq_length; lia). rewrite seq_nth by lia. cbn [option_map plus].
  unfold at_. replace (min + (max - min) * (INR i / (INR n - 1))) with (min + (max - min) * INR i / (INR n - 1)) by (field; lra).
  symmetry. apply nth_error_nth'. destruct (F (min + (max - min) * INR i / (INR n - 1))) as [_ ->]. apply nth_error_Some. congruence.
Qed.
Print Assumptions param_points.
Example param_points_ex : exists d, paramfunction (fun t => Ok [t; t * t]) ["x"%string; "y"%string] 3 0 2 = Ok d /\ lookup d "x" = Some [0; 1; 2] /\ lookup d "y" = Some [0; 1; 4].
Proof.
  eexists. split; [reflexivity|]. cbn. split; apply (f_equal Some); repeat (apply (f_equal2 cons); [lra|]); reflexivity.
Qed.
(** false: only the number of the last values is checked *)
Theorem param_sizes_refuted : exists f d, paramfunction f ["x"%string; "y"%string] 2 0 1 = Ok d /\
  option_map (@List.length R) (lookup d "x") = Some 2%nat /\ option_map (@List.length R) (lookup d "y") = Some 1%nat.
Proof.
  exists (fun t => if Rlt_dec t 1 then Ok [t] else Ok [t; t]). unfold paramfunction. cbn [seq param_loop].
  unfold sample at 1. cbn [Nat.eqb bind]. destruct (Rlt_dec _ 1) as [_|H]; [|cbn in H; lra]. cbn [bind].
  unfold sample at 1. cbn [Nat.eqb bind]. destruct (Rlt_dec _ 1) as [H|_]; [cbn in H; lra|]. cbn [bind List.length Nat.eqb].
  eexists. split; [reflexivity|]. split; reflexivity.
Qed.
Print Assumptions param_sizes_refuted.
(** false: no data with strokes can be read from a CBD file *)
Theorem strokes_refuted : forall n file x y, strokes (S n) file x y = Exn.
Proof.
  intros n file x y. cbn [strokes]. assert (E : stroke file = Exn); [|now rewrite E]. unfold stroke, later_than_text.
  destruct file as [|c1 [|c2 r]]; auto. destruct (Z.testbit c2 6); auto. destruct r as [|? [|? [|? [|? [|? [|? ?]]]]]]; reflexivity.
Qed.
Print Assumptions strokes_refuted.

(** ** C157 *)
Section JoinProps.
Context {A : Type}.
Definition rows (d : columns A) : nat := match d with [] => 0 | (_, c) :: _ => List.length c end.
(** the column of a data set, or one without values *)
Definition padded (k : string) (d : columns A) : list (option A) := match lookup d k with Some c => c | None => repeat None (rows d) end.
Lemma merge_one : forall l s, NoDup s -> NoDup (fold_left (fun s k => if existsb (String.eqb k) s then s else s ++ [k]) l s) /\
  forall k, In k (fold_left (fun s k => if existsb (String.eqb k) s then s else s ++ [k]) l s) <-> In k s \/ In k l.
Proof.
  induction l as [|a l IH]; intros s N; cbn [fold_left]; [split; auto; intros k; cbn; tauto|].
  assert (X : existsb (String.eqb a) s = true <-> In a s).
  { rewrite existsb_exists. split; [intros (b & I & E); apply String.eqb_eq in E; now subst|intros I; exists a; split; auto; apply String.eqb_refl]. }
  destruct (existsb (String.eqb a) s).
  - destruct (IH s N) as [H1 H2]. split; auto. intros k. rewrite H2. cbn. assert (In a s) by now apply X. split; [tauto|]. intros [I|[<-|I]]; auto.
  - assert (Na : ~ In a s) by (intros I; apply X in I; discriminate). destruct (IH (s ++ [a])) as [H1 H2].
    { rewrite <- (rev_involutive (s ++ [a])), rev_app_distr. apply NoDup_rev. cbn. constructor; [now rewrite <- in_rev|now apply NoDup_rev]. }
    split; auto. intros k. rewrite H2, in_app_iff. cbn. tauto.
Qed.
Lemma merge_spec : forall ls s, NoDup s -> NoDup (merge_lists s ls) /\ forall k, In k (merge_lists s ls) <-> In k s \/ exists l, In l ls /\ In k l.
Proof.
  induction ls as [|l ls IH]; intros s N; cbn [merge_lists].
  - split; auto. intros k. split; auto. intros [H|(l & [] & _)]; auto.
  - destruct (merge_one l s N) as [N1 I1]. destruct (IH _ N1) as [N2 I2]. split; auto. intros k. rewrite I2, I1. split.
    + intros [[H|H]|(l' & H1 & H2)]; [auto|right; exists l; cbn; auto|right; exists l'; cbn; auto].
    + intros [H|(l' & [<-|H1] & H2)]; auto. right. eauto.
Qed.
Lemma lookup_in : forall (d : columns A) k, In k (map fst d) -> exists c, lookup d k = Some c.
Proof. induction d as [|[a c] d IH]; intros k []; cbn [lookup]; cbn in *; [subst; rewrite String.eqb_refl; eauto|]. destruct (String.eqb k a); eauto. Qed.
Lemma lookup_some : forall (d : columns A) k c, lookup d k = Some c -> In (k, c) d.
Proof. induction d as [|[a c'] d IH]; intros k c H; cbn in *; [discriminate|]. destruct (String.eqb_spec k a) as [->|]; [injection H as ->; auto|auto]. Qed.
Definition table (d : columns A) : Prop := NoDup (map fst d) /\ Forall (fun kc => List.length (snd kc) = rows d) d.
(** C157: joined data sets have all columns of the data sets; a column contains one after the other the values of the data sets, in their order, with as many missing
    values as a data set has rows if it does not have the column, so that the rows of the data sets are kept *)
Theorem join_columns : forall ds : list (columns A), Forall table ds ->
  exists r, merge_dicts ds = Ok r /\ NoDup (map fst r) /\ (forall k, In k (map fst r) <-> exists d, In d ds /\ In k (map fst d)) /\
  forall k c, lookup r k = Some c -> c = List.concat (map (padded k) ds) /\ List.length c = fold_right (fun d n => rows d + n)%nat 0%nat ds.
Proof.
  intros ds T. unfold merge_dicts. set (keys := merge_lists [] (map (map fst) ds)).
  destruct (merge_spec (map (map fst) ds) [] (NoDup_nil _)) as [Nk Ik]. fold keys in Nk, Ik.
  assert (Ik' : forall k, In k keys <-> exists d, In d ds /\ In k (map fst d)).
  { intros k. rewrite Ik. split.
    - intros [[]|(l & L & K)]. apply in_map_iff in L as (d & <- & D). eauto.
    - intros (d & D & K). right. exists (map fst d). split; auto. now apply in_map. }
  assert (Ex : forall k, In k keys -> forall ds', incl ds' ds -> extend_all ds' keys k = Ok (List.concat (map (padded k) ds'))).
  { intros k K. induction ds' as [|d ds' IH]; intros I; [reflexivity|]. cbn [extend_all map List.concat].
    assert (Dd : In d ds) by (apply I; now left). rewrite IH by (intros x X; apply I; now right). unfold get, padded.
    destruct (lookup d k) as [c|] eqn:L; [reflexivity|]. unfold empty_for. destruct (Nat.eqb (List.length d) (List.length keys)) eqn:E.
    - exfalso. apply Nat.eqb_eq in E. rewrite Forall_forall in T. destruct (T d Dd) as [Nd _].
      assert (incl keys (map fst d)) as Inc.
      { apply NoDup_length_incl; [exact Nd|rewrite map_length; lia|]. intros x X. apply Ik'. eauto. }
      destruct (lookup_in d k (Inc k K)) as (c & Lc). congruence.
    - destruct d as [|[a c] d]; reflexivity. }
  assert (Fo : forall ks, incl ks keys -> fold_right (fun k r => bind (extend_all ds keys k) (fun c => bind r (fun r => Ok ((k, c) :: r)))) (Ok []) ks =
    Ok (map (fun k => (k, List.concat (map (padded k) ds))) ks)).
  { induction ks as [|k ks IH]; intros I; [reflexivity|]. cbn [fold_right map]. rewrite IH by (intros x X; apply I; now right). rewrite Ex; [reflexivity|apply I; now left|apply incl_refl]. }
  rewrite (Fo keys (incl_refl _)). eexists. split; [reflexivity|]. rewrite map_map. cbn [fst]. rewrite map_id. split; auto. split; auto.
  intros k c L. apply lookup_some in L. apply in_map_iff in L as (k' & E & K). injection E as -> <-. split; auto.
  clear -T. induction T as [|d ds' Td T IH]; [reflexivity|]. cbn [map List.concat fold_right]. rewrite app_length, IH. f_equal. unfold padded.
  destruct (lookup d k) as [c|] eqn:L; [|apply repeat_length]. apply lookup_some in L. destruct Td as [_ F]. rewrite Forall_forall in F. apply (F _ L).
Qed.
End JoinProps.
Print Assumptions join_columns.
Example join_ex : merge_dicts [[("x"%string, [Some 1%Z; Some 2%Z]); ("y"%string, [Some 3%Z; None])]; []; [("z"%string, [Some 5%Z]); ("x"%string, [Some 6%Z])]] =
  Ok [("x"%string, [Some 1%Z; Some 2%Z; Some 6%Z]); ("y"%string, [Some 3%Z; None; None]); ("z"%string, [None; None; Some 5%Z])].
Proof. reflexivity. Qed.
