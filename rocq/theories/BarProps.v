(** Bar axes (C28) *)
From Coq Require Import Reals Bool List Lra Lia Arith.
From Verif Require Import ParterModel ParterProofs3 AxisModel AxisSpec AxisProps.
Import ListNotations.
Open Scope R_scope.

(** ** the history of a bar axis *)
Definition adjust_all (b : bar) (columns : list (list bardatum)) : option bardata :=
  fold_left (fun d column => match d with Some d' => bar_adjustaxis b d' column | None => None end) columns (Some (bar_createdata b)).
(** the subaxis for a name: missing in the dictionary, switched off, or an axis *)
Definition offer (b : bar) (n : nat) : option (option (kind * axis)) :=
  match subaxes b with Some f => f n | None => Some (Some (defaultsubaxis b)) end.
Definition offered (b : bar) (n : nat) : bool := match offer b n with Some (Some _) => true | _ => false end.
Definition width (s : subaxis) : R := match size_of (skind s) (sdata s) with Some x => x | None => 1 end.
Definition turn_list {A} (reverse : bool) (l : list A) : list A := if reverse then rev l else l.

Lemma existsb_In n l : existsb (Nat.eqb n) l = true <-> In n l.
Proof.
  rewrite existsb_exists. split.
  - intros (x & H & E). apply Nat.eqb_eq in E. subst. auto.
  - intros H. exists n. split; auto. apply Nat.eqb_refl.
Qed.
Lemma firsts_snoc l n : firsts (l ++ [n]) = if existsb (Nat.eqb n) (firsts l) then firsts l else firsts l ++ [n].
Proof. unfold firsts. rewrite fold_left_app. reflexivity. Qed.
Lemma firsts_In l n : In n (firsts l) <-> In n l.
Proof.
  induction l as [|x l IH] using rev_ind; [easy|]. rewrite firsts_snoc. destruct (existsb (Nat.eqb x) (firsts l)) eqn:E.
  - apply existsb_In in E. rewrite IH. split; [intros; apply in_or_app; auto|]. intros H. apply in_app_or in H. destruct H as [H|[<-|[]]]; auto. apply IH; auto.
  - rewrite !in_app_iff, IH. tauto.
Qed.
Lemma firsts_NoDup l : NoDup (firsts l).
Proof.
  induction l as [|x l IH] using rev_ind; [constructor|]. rewrite firsts_snoc. destruct (existsb (Nat.eqb x) (firsts l)) eqn:E; auto.
  apply NoDup_rev in IH. rewrite <- (rev_involutive (firsts l ++ [x])). apply NoDup_rev. rewrite rev_app_distr. cbn. constructor; auto.
  rewrite <- in_rev. intros H. apply existsb_In in H. congruence.
Qed.
Lemma has_name_In d n : has_name d n = true <-> In n (map sname (bsubs d)).
Proof.
  unfold has_name. rewrite existsb_exists, in_map_iff. split; intros (s & H1 & H2); exists s.
  - apply Nat.eqb_eq in H2. auto.
  - split; auto. apply Nat.eqb_eq. auto.
Qed.
Lemma turn_In {A} r (l : list A) x : In x (turn_list r l) <-> In x l.
Proof. destruct r; cbn; [symmetry; apply in_rev|tauto]. Qed.

Record sub_ok (b : bar) (columns : list (list bardatum)) (s : subaxis) : Prop := {
  so_axis : offer b (sname s) = Some (Some (skind s, saxis s));
  so_data : covers (saxis s) (given columns (sname s)) (sdata s) }.
Record bar_ok (b : bar) (columns : list (list bardatum)) (more : list bardatum) (d : bardata) : Prop := {
  bo_names : map sname (bsubs d) = turn_list (bar_reverse b) (filter (offered b) (firsts (names_in (concat columns ++ more))));
  bo_subs : Forall (sub_ok b columns) (bsubs d);
  bo_size : bsize d = firstdist b + lastdist b - dist b + total (map (fun s => width s + dist b) (bsubs d));
  bo_defined : Forall (fun n => offer b n <> None) (names_in (concat columns ++ more)) }.
Lemma total_app l l' : total (l ++ l') = total l + total l'.
Proof. unfold total. induction l; cbn; lra. Qed.
Lemma names_app l l' : names_in (l ++ l') = names_in l ++ names_in l'.
Proof. apply flat_map_app. Qed.
Lemma given_name columns n v : given columns n v -> In n (names_in (concat columns)).
Proof.
  intros (c & Hc & Hv). apply in_flat_map. exists (Some n, Some v). split; [|cbn; auto]. apply in_concat. eauto.
Qed.

Lemma add_name_ok b columns more value d : bar_ok b columns more d ->
  match add_name b (Some d) value with
  | Some d' => bar_ok b columns (more ++ [value]) d'
  | None => exists n, fst value = Some n /\ offer b n = None
  end.
Proof.
  intros [N S Z D]. destruct value as [[n|] v]; cbn [add_name fst].
  - assert (names_in (concat columns ++ more ++ [(Some n, v)]) = names_in (concat columns ++ more) ++ [n]) as En.
    { rewrite app_assoc, names_app. reflexivity. }
    assert (has_name d n = true <-> In n (names_in (concat columns ++ more)) /\ offered b n = true) as Hn.
    { rewrite has_name_In, N, turn_In, filter_In, firsts_In. tauto. }
    assert (match has_name d n with true => Some d | false => match offer b n with None => None | Some None => Some d | Some (Some ka) => Some (addsubaxis b d n ka) end end =
            (if has_name d n then Some d else match subaxes b with
               | Some f => match f n with None => None | Some None => Some d | Some (Some ka) => Some (addsubaxis b d n ka) end
               | None => Some (addsubaxis b d n (defaultsubaxis b)) end)) as <-.
    { unfold offer. destruct (subaxes b); reflexivity. }
    destruct (has_name d n) eqn:E.
    + destruct Hn as [Hn _]. destruct (Hn eq_refl) as [Hi Ho]. split; auto.
      * rewrite En, firsts_snoc. replace (existsb (Nat.eqb n) (firsts (names_in (concat columns ++ more)))) with true; auto.
        symmetry. apply existsb_In, firsts_In; auto.
      * rewrite En. apply Forall_app. split; auto. constructor; auto. intros E'. unfold offered in Ho. rewrite E' in Ho. discriminate.
    + destruct (offer b n) as [[ka|]|] eqn:Eo; [| |exists n; auto].
      * assert (offered b n = true) as Ho by (unfold offered; rewrite Eo; auto).
        assert (~ In n (names_in (concat columns ++ more))) as Ni. { intros Hi. destruct Hn as [_ Hn]. specialize (Hn (conj Hi Ho)). congruence. }
        assert (existsb (Nat.eqb n) (firsts (names_in (concat columns ++ more))) = false) as Ef.
        { destruct (existsb (Nat.eqb n) (firsts (names_in (concat columns ++ more)))) eqn:Ex; auto. apply existsb_In in Ex. apply (proj1 (firsts_In _ _)) in Ex. tauto. }
        assert (sub_ok b columns (mksub n (fst ka) (snd ka) (createdata (snd ka)))) as So.
        { split; cbn; [rewrite Eo; destruct ka; auto|].
          assert (forall v, ~ given columns n v) as G. { intros w Hw. apply given_name in Hw. apply Ni. rewrite names_app. apply in_or_app. auto. }
          split; cbn [createdata fst snd].
          - unfold lower_limit. destruct (amin (snd ka)); auto.
          - unfold upper_limit. destruct (amax (snd ka)); auto. }
        split.
        -- rewrite En, firsts_snoc, Ef, filter_app. cbn [filter]. rewrite Ho. unfold addsubaxis. cbn [bsubs].
           destruct (bar_reverse b); cbn [turn_list] in *.
           ++ rewrite rev_app_distr. cbn. f_equal. auto.
           ++ rewrite map_app. cbn. f_equal. auto.
        -- unfold addsubaxis. cbn [bsubs]. destruct (bar_reverse b); [constructor; auto|]. apply Forall_app. auto.
        -- unfold addsubaxis. cbn [bsubs bsize]. destruct (bar_reverse b).
           ++ cbn [map total fold_right]. fold (total (map (fun s => width s + dist b) (bsubs d))). unfold width at 1. cbn [skind sdata]. lra.
           ++ rewrite map_app, total_app. cbn [map total fold_right]. unfold width at 2. cbn [skind sdata]. lra.
        -- rewrite En. apply Forall_app. split; auto. constructor; auto. congruence.
      * assert (offered b n = false) as Ho by (unfold offered; rewrite Eo; auto). split; auto.
        -- rewrite En, firsts_snoc. destruct (existsb (Nat.eqb n) (firsts (names_in (concat columns ++ more)))); auto.
           rewrite filter_app. cbn [filter]. rewrite Ho, app_nil_r. auto.
        -- rewrite En. apply Forall_app. split; auto. constructor; auto. congruence.
  - split; auto; rewrite app_assoc, names_app; cbn; rewrite app_nil_r; auto.
Qed.
Lemma add_none b column : fold_left (add_name b) column None = None.
Proof. induction column; cbn; auto. Qed.
Lemma add_names_ok b columns column : forall more d, bar_ok b columns more d ->
  match fold_left (add_name b) column (Some d) with
  | Some d' => bar_ok b columns (more ++ column) d'
  | None => exists n, In n (names_in column) /\ offer b n = None
  end.
Proof.
  induction column as [|value column IH]; intros more d H; cbn [fold_left]; [rewrite app_nil_r; auto|].
  pose proof (add_name_ok b columns more value d H) as K. destruct (add_name b (Some d) value) as [d'|].
  - specialize (IH _ _ K). rewrite <- app_assoc in IH. cbn in IH. destruct (fold_left (add_name b) column (Some d')); auto.
    destruct IH as (n & Hn & E). exists n. split; auto. cbn. apply in_or_app; auto.
  - rewrite add_none. destruct K as (n & E & E'). exists n. split; auto. cbn. rewrite E. cbn. auto.
Qed.
Definition adjusted (column : list bardatum) (s : subaxis) : subaxis :=
  mksub (sname s) (skind s) (saxis s) (adjustaxis (saxis s) (sdata s) (own_values (sname s) column)).
Lemma adjust_subs column subs : forall size done,
  fold_left (adjust_subaxis column) subs (size, done) =
  (size + total (map (fun s => width (adjusted column s) - width s) subs), done ++ map (adjusted column) subs).
Proof.
  induction subs as [|s subs IH]; intros size done; cbn [fold_left map].
  - rewrite app_nil_r. f_equal. unfold total. cbn. lra.
  - unfold adjust_subaxis at 2. cbn [fst snd]. rewrite IH. rewrite <- app_assoc. f_equal.
    cbn [total fold_right]. fold (total (map (fun s => width (adjusted column s) - width s) subs)).
    assert (match size_of (skind s) (sdata s) with Some old => match size_of (skind s) (adjustaxis (saxis s) (sdata s) (own_values (sname s) column)) with Some new => size - old + new | None => size end | None => size end = size + (width (adjusted column s) - width s)) as -> by (unfold width, adjusted; cbn [skind sdata]; destruct (skind s); cbn [size_of]; lra). lra.
Qed.
Lemma own_values_In n column v : In (Some v) (own_values n column) <-> In (Some n, Some v) column.
Proof.
  unfold own_values. rewrite in_map_iff. split.
  - intros ([m w] & E & H). cbn in E. subst w. apply filter_In in H. destruct H as [H E]. cbn in E. destruct m as [m|]; [|discriminate].
    apply Nat.eqb_eq in E. subst. auto.
  - intros H. exists (Some n, Some v). split; auto. apply filter_In. split; auto. cbn. apply Nat.eqb_refl.
Qed.
Lemma adjust_ok b columns column d : bar_ok b columns [] d ->
  match bar_adjustaxis b d column with
  | Some d' => bar_ok b (columns ++ [column]) [] d'
  | None => exists n, In n (names_in column) /\ offer b n = None
  end.
Proof.
  intros H. unfold bar_adjustaxis. pose proof (add_names_ok b columns column [] d H) as K.
  destruct (fold_left (add_name b) column (Some d)) as [d'|]; auto. rewrite adjust_subs. cbn [app] in *. destruct K as [N S Z D].
  assert (concat (columns ++ [column]) = concat columns ++ column) as Ec by (rewrite concat_app; cbn; rewrite app_nil_r; auto).
  split; cbn [bsubs bsize].
  - rewrite app_nil_r, Ec, <- N, map_map. reflexivity.
  - rewrite Forall_forall in *. intros s Hs. apply in_map_iff in Hs. destruct Hs as (t & <- & Ht). destruct (S t Ht) as [A C].
    split; cbn; auto. eapply covers_ext; [|apply covers_column, C]. intros v. cbn. rewrite own_values_In. unfold given. split.
    + intros [(c & H1 & H2)|H1]; [exists c|exists column]; (split; [apply in_or_app; cbn; auto|auto]).
    + intros (c & H1 & H2). apply in_app_or in H1. destruct H1 as [H1|[<-|[]]]; eauto.
  - rewrite Z, map_map. rewrite Rplus_assoc. f_equal. clear. induction (bsubs d') as [|s l IH]; cbn [map total fold_right]; [unfold total; cbn; lra|].
    fold (total (map (fun s => width s + dist b) l)). fold (total (map (fun s => width (adjusted column s) - width s) l)).
    fold (total (map (fun x => width (adjusted column x) + dist b) l)). lra.
  - rewrite app_nil_r, Ec. auto.
Qed.
Lemma adjust_all_ok b columns :
  match adjust_all b columns with
  | Some d => bar_ok b columns [] d
  | None => exists n, In n (names_in (concat columns)) /\ offer b n = None
  end.
Proof.
  induction columns as [|column columns IH] using rev_ind.
  - cbn. split; cbn; auto.
    + destruct (bar_reverse b); auto.
    + unfold total. cbn. lra.
  - unfold adjust_all in *. rewrite fold_left_app. cbn [fold_left].
    destruct (fold_left _ columns _) as [d|].
    + pose proof (adjust_ok b columns column d IH) as K. destruct (bar_adjustaxis b d column); auto.
      destruct K as (n & K & E). exists n. split; auto. rewrite concat_app, names_app. apply in_or_app. right. cbn. rewrite app_nil_r. auto.
    + destruct IH as (n & K & E). exists n. split; auto. rewrite concat_app, names_app. apply in_or_app. auto.
Qed.

(** C28: after any history of data the bars are the different names in the order of their
    first occurrence (reversed for a reversed axis), without the names switched off; each
    subaxis has the range of the values given with its name; and the size of the axis is the
    sum of the widths, the distances between them and those at the ends.  A history fails
    exactly if a name is not in the given dictionary. *)
Theorem bar_history b columns :
  match adjust_all b columns with
  | Some d =>
      map sname (bsubs d) = turn_list (bar_reverse b) (filter (offered b) (firsts (names_in (concat columns)))) /\
      NoDup (map sname (bsubs d)) /\
      (forall s, In s (bsubs d) -> offer b (sname s) = Some (Some (skind s, saxis s)) /\
         lower_limit (amin (saxis s)) (given columns (sname s)) (fst (sdata s)) /\
         upper_limit (amax (saxis s)) (given columns (sname s)) (snd (sdata s))) /\
      bsize d = firstdist b + lastdist b - dist b + total (map (fun s => width s + dist b) (bsubs d)) /\
      forall n, In n (names_in (concat columns)) -> offer b n <> None
  | None => exists n, In n (names_in (concat columns)) /\ offer b n = None
  end.
Proof.
  pose proof (adjust_all_ok b columns) as K. destruct (adjust_all b columns) as [d|]; auto. destruct K as [N S Z D].
  rewrite app_nil_r in *. split; [auto|split; [|split; [|split; [auto|]]]].
  - rewrite N. assert (NoDup (filter (offered b) (firsts (names_in (concat columns))))) as Nd by apply NoDup_filter, firsts_NoDup.
    destruct (bar_reverse b); auto. apply NoDup_rev; auto.
  - intros s Hs. rewrite Forall_forall in S. destruct (S s Hs) as [A [C1 C2]]. auto.
  - intros n Hn. rewrite Forall_forall in D. auto.
Qed.
Print Assumptions bar_history.
Definition example_bar := new_bar (1 / 2) None None false (Some (1 / 1000)) None (AutoSized, mkaxis (Some 0) None false).
Example history_ex :
  option_map bsize (adjust_all example_bar [[(Some 7%nat, Some 2); (Some 3%nat, Some 4)]; [(None, Some 1); (Some 7%nat, Some 3); (Some 5%nat, None)]]) =
  Some (1 / 2 * (1 / 2) + 1 / 2 * (1 / 2) - 1 / 2 + total [3 - 0 + 1 / 2; 4 - 0 + 1 / 2; 0 + 1 / 2]).
Proof.
  unfold adjust_all, example_bar, bar_adjustaxis, adjust_subaxis. cbn. unfold own_values, adjustaxis, total. cbn. unfold ltb.
  destruct (Rlt_dec 2 3); [|lra]. cbn. f_equal. lra.
Qed.

(** ** the regions of the bars *)
Definition wd (s : option R) : R := match s with Some x => x | None => 1 end.
Lemma regions_at size gap sizes : forall position v i, match nth_error sizes i with
  | Some s => exists r, nth_error (regions size gap position v sizes) i = Some r /\
      vmin r = (position + total (map wd (firstn i sizes)) + INR i * gap) / size /\
      vmax r = (position + total (map wd (firstn i sizes)) + INR i * gap + wd s) / size /\
      vminover r = (if Nat.eqb i 0 then v else (position + total (map wd (firstn i sizes)) + INR i * gap - 1 / 2 * gap) / size) /\
      vmaxover r = (if Nat.eqb (S i) (length sizes) then 1 else (position + total (map wd (firstn i sizes)) + INR i * gap + wd s + 1 / 2 * gap) / size)
  | None => nth_error (regions size gap position v sizes) i = None end.
Proof.
  induction sizes as [|s sizes IH]; intros position v i.
  - destruct i; reflexivity.
  - destruct i as [|i]; cbn [nth_error regions].
    + eexists. split; [reflexivity|]. cbn [vmin vmax vminover vmaxover firstn map total fold_right INR Nat.eqb length]. fold (wd s).
      split; [f_equal; ring|split; [f_equal; ring|split; [auto|]]]. destruct sizes; cbn; [auto|f_equal; ring].
    + set (over := match sizes with [] => 1 | _ => _ end). specialize (IH (position + wd s + 1 / 2 * gap + 1 / 2 * gap) over i). fold (wd s).
      destruct (nth_error sizes i) as [t|] eqn:E; auto. destruct IH as (r & Hr & H1 & H2 & H3 & H4). exists r. split; auto.
      cbn [firstn map total fold_right]. fold (total (map wd (firstn i sizes))). rewrite S_INR.
      split; [rewrite H1; f_equal; lra|split; [rewrite H2; f_equal; lra|split]].
      * rewrite H3. cbn [Nat.eqb]. destruct i as [|i]; cbn [Nat.eqb].
        -- unfold over. destruct sizes; [discriminate|]. fold (wd s). cbn [firstn map total fold_right INR]. f_equal. lra.
        -- f_equal. lra.
      * rewrite H4. cbn [length]. change (Nat.eqb (S (S i)) (S (length sizes))) with (Nat.eqb (S i) (length sizes)).
        destruct (Nat.eqb (S i) (length sizes)); auto. f_equal. lra.
Qed.
Lemma regions_length size gap sizes : forall position v, length (regions size gap position v sizes) = length sizes.
Proof. induction sizes; intros; cbn; auto. Qed.
Lemma map_wd subs : map wd (map (fun s => size_of (skind s) (sdata s)) subs) = map width subs.
Proof. rewrite map_map. reflexivity. Qed.
Lemma total_const l c : total (map (fun s => width s + c) l) = total (map width l) + INR (length l) * c.
Proof.
  induction l as [|s l IH]; [unfold total; cbn; lra|].
  cbn [map length total fold_right]. fold (total (map (fun s => width s + c) l)). fold (total (map width l)). rewrite IH, S_INR. lra.
Qed.
Lemma total_nonneg l : Forall (fun x => 0 <= x) l -> 0 <= total l.
Proof. unfold total. induction 1; cbn; lra. Qed.
Lemma total_firstn l i : Forall (fun x => 0 <= x) l -> 0 <= total (firstn i l) <= total l.
Proof.
  intros F. rewrite <- (firstn_skipn i l) at 3. rewrite total_app. rewrite <- (firstn_skipn i l) in F. apply Forall_app in F. destruct F as [F1 F2].
  pose proof (total_nonneg _ F1). pose proof (total_nonneg _ F2). lra.
Qed.

(** C28: the places of the bars.  In units of the total size the first bar starts after the
    first distance, each bar has its width, the next one follows after the distance, and the
    last distance remains at the end; the regions of the bars tile [0, 1], each containing its
    bar, with borders in the middle between the bars. *)
Theorem bar_regions b columns d rs :
  adjust_all b columns = Some d -> bar_create b d = Some rs -> 0 < bsize d ->
  0 <= dist b -> 0 <= firstdist b -> 0 <= lastdist b -> Forall (fun s => 0 <= width s) (bsubs d) ->
  length rs = length (bsubs d) /\
  (forall i s r, nth_error (bsubs d) i = Some s -> nth_error rs i = Some r ->
     bsize d * (vmax r - vmin r) = width s /\ 0 <= vminover r <= vmin r /\ vmin r <= vmax r /\ vmax r <= vmaxover r <= 1) /\
  (forall r, nth_error rs 0 = Some r -> bsize d * vmin r = firstdist b /\ vminover r = 0) /\
  (forall i r r', nth_error rs i = Some r -> nth_error rs (S i) = Some r' ->
     bsize d * (vmin r' - vmax r) = dist b /\ vminover r' = vmaxover r /\ vmaxover r = (vmax r + vmin r') / 2) /\
  (forall r, nth_error rs (length rs - 1) = Some r -> bsize d * (1 - vmax r) = lastdist b /\ vmaxover r = 1).
Proof.
  intros A C P D0 F0 L0 W. pose proof (bar_history b columns) as Hh. rewrite A in Hh. destruct Hh as (_ & _ & _ & Z & _).
  rewrite total_const in Z. unfold bar_create in C. destruct (Req_EM_T (bsize d) 0); [lra|].
  set (sizes := map (fun s => size_of (skind s) (sdata s)) (bsubs d)) in *. assert (rs = regions (bsize d) (dist b) (firstdist b) 0 sizes) as -> by congruence. clear C.
  set (size := bsize d) in *. assert (length sizes = length (bsubs d)) as Ln by (unfold sizes; apply map_length).
  assert (forall i, 0 <= total (map wd (firstn i sizes)) <= total (map width (bsubs d))) as T.
  { intros i. rewrite <- firstn_map. unfold sizes. rewrite map_wd. apply total_firstn. rewrite Forall_map. exact W. }
  assert (forall i s, nth_error (bsubs d) i = Some s -> nth_error sizes i = Some (size_of (skind s) (sdata s)) /\ wd (size_of (skind s) (sdata s)) = width s /\ 0 <= width s /\
            total (map wd (firstn (S i) sizes)) = total (map wd (firstn i sizes)) + width s) as N.
  { intros i s Hs. unfold sizes at 1. split; [rewrite nth_error_map, Hs; auto|]. split; [reflexivity|].
    split; [rewrite Forall_forall in W; apply W; eapply nth_error_In; eauto|].
    rewrite <- !firstn_map. unfold sizes. rewrite !map_wd. clear - Hs. revert i Hs. induction (bsubs d) as [|t l IH]; intros [|i] Hs; try discriminate.
    - injection Hs as ->. cbn. lra.
    - cbn [nth_error] in Hs. apply IH in Hs. cbn [map firstn total fold_right] in *.
      unfold total in Hs. unfold total. cbn [map firstn fold_right] in *. lra. }
  assert (forall i, INR i * dist b >= 0) as I0 by (intros i; pose proof (pos_INR i); nra).
  assert (forall x, size * (x / size) = x) as SD by (intros; field; lra).
  assert (forall x y, x <= y -> x / size <= y / size) as SL.
  { intros x y H. apply Rmult_le_compat_r; auto. left. apply Rinv_0_lt_compat; auto. }
  assert (size / size = 1) as S1 by (field; lra).
  assert (0 / size = 0) as S0 by (field; lra).
  assert (forall i s, nth_error (bsubs d) i = Some s -> total (map wd (firstn i sizes)) + width s <= total (map width (bsubs d)) /\ INR i * dist b <= (INR (length (bsubs d)) - 1) * dist b) as Bd.
  { intros i s Hs. destruct (N i s Hs) as (_ & _ & _ & E). rewrite <- E. split; [apply T|].
    assert (i < length (bsubs d))%nat as Hi by (apply nth_error_Some; congruence).
    assert (INR (S i) <= INR (length (bsubs d))) as H by (apply le_INR; lia). rewrite S_INR in H. nra. }
  split; [rewrite regions_length; auto|]. split; [|split; [|split]].
  - intros i s r Hs Hr. destruct (N i s Hs) as (Es & Ew & W0 & E1). pose proof (regions_at size (dist b) sizes (firstdist b) 0 i) as K. rewrite Es in K.
    destruct K as (r' & Hr' & H1 & H2 & H3 & H4). assert (r' = r) as -> by congruence. rewrite Ew in *. destruct (Bd i s Hs) as [B1 B2]. specialize (T i) as Ti. specialize (I0 i) as Ii.
    rewrite H1, H2. split; [|split; [|split]].
    + rewrite Rmult_minus_distr_l, !SD. lra.
    + rewrite H3. destruct i as [|i]; cbn [Nat.eqb].
      * split; [lra|]. rewrite <- S0 at 1. apply SL. lra.
      * assert (INR (S i) >= 1) as Hi by (rewrite S_INR; pose proof (pos_INR i); lra). split; [rewrite <- S0 at 1|]; apply SL; nra.
    + apply SL. lra.
    + rewrite H4. destruct (Nat.eqb_spec (S i) (length sizes)) as [El|El].
      * split; [|lra]. rewrite <- S1. apply SL. lra.
      * assert (S (S i) <= length (bsubs d))%nat as Hl. { assert (i < length (bsubs d))%nat by (apply nth_error_Some; congruence). lia. }
        apply le_INR in Hl. rewrite !S_INR in Hl. split; [apply SL; lra|]. rewrite <- S1. apply SL. nra.
  - intros r Hr. pose proof (regions_at size (dist b) sizes (firstdist b) 0 0) as K. destruct (nth_error sizes 0) as [s|]; [|congruence].
    destruct K as (r' & Hr' & H1 & H2 & H3 & H4). assert (r' = r) as -> by congruence. rewrite H1, H3, SD. unfold total. cbn. split; [lra|auto].
  - intros i r r' Hr Hr'. pose proof (regions_at size (dist b) sizes (firstdist b) 0 i) as K. destruct (nth_error sizes i) as [s|] eqn:Es; [|congruence].
    destruct K as (q & Hq & H1 & H2 & H3 & H4). assert (q = r) as -> by congruence.
    pose proof (regions_at size (dist b) sizes (firstdist b) 0 (S i)) as K. destruct (nth_error sizes (S i)) as [s'|] eqn:Es'; [|congruence].
    destruct K as (q & Hq' & G1 & G2 & G3 & G4). assert (q = r') as -> by congruence.
    assert (exists t, nth_error (bsubs d) i = Some t) as (t & Ht).
    { destruct (nth_error (bsubs d) i) eqn:E; eauto. apply nth_error_None in E. assert (i < length sizes)%nat by (apply nth_error_Some; congruence). lia. }
    destruct (N i t Ht) as (Et & Ew & _ & E1). assert (s = size_of (skind t) (sdata t)) as -> by congruence. rewrite Ew in *.
    assert (S i < length sizes)%nat as Hl by (apply nth_error_Some; congruence).
    destruct (Nat.eqb_spec (S i) (length sizes)) as [El|El]; [lia|]. cbn [Nat.eqb] in G3. rewrite E1, S_INR in G1, G3.
    rewrite G3, H4, G1, H2. split; [rewrite Rmult_minus_distr_l, !SD; lra|split; [f_equal; lra|field; lra]].
  - intros r Hr. rewrite regions_length in Hr. pose proof (regions_at size (dist b) sizes (firstdist b) 0 (length sizes - 1)) as K.
    destruct (nth_error sizes (length sizes - 1)) as [s|] eqn:Es; [|congruence].
    destruct K as (q & Hq & H1 & H2 & H3 & H4). assert (q = r) as -> by congruence.
    assert (0 < length sizes)%nat as Hl by (destruct sizes; [destruct (0 - 1)%nat; discriminate|cbn; lia]).
    replace (S (length sizes - 1)) with (length sizes) in H4 by lia. rewrite Nat.eqb_refl in H4. split; auto.
    assert (exists t, nth_error (bsubs d) (length sizes - 1) = Some t) as (t & Ht).
    { destruct (nth_error (bsubs d) (length sizes - 1)) eqn:E; eauto. apply nth_error_None in E. lia. }
    destruct (N _ t Ht) as (Et & Ew & _ & E1). assert (s = size_of (skind t) (sdata t)) as -> by congruence. rewrite Ew in *.
    replace (S (length sizes - 1)) with (length sizes) in E1 by lia. rewrite firstn_all in E1. unfold sizes in E1 at 1. rewrite map_wd in E1.
    rewrite minus_INR, Ln in H2 by lia. cbn [INR] in H2. rewrite Rmult_minus_distr_l, H2, SD, Rmult_1_r. rewrite Ln in *. lra.
Qed.
Print Assumptions bar_regions.

(** C28: a value given with a name is converted into the bar of that name, at the place of
    the value in the range of the subaxis; values outside of the range are refused *)
Theorem bar_convert_inside b columns d rs n i s r v :
  adjust_all b columns = Some d -> bar_create b d = Some rs -> 0 < bsize d ->
  nth_error (bsubs d) i = Some s -> sname s = n -> nth_error rs i = Some r ->
  forall lo hi, sdata s = (Some lo, Some hi) -> lo < hi -> (forall e, bar_epsilon b = Some e -> 0 < e) ->
  (lo <= v <= hi -> exists f, v = along lo hi f /\ 0 <= f <= 1 /\
      bar_convert b d rs (Some n) v = Some (along (vmin r) (vmax r) (turned (reverse (saxis s)) f))) /\
  (forall e, bar_epsilon b = Some e -> v <= lo - e * (hi - lo) \/ hi + e * (hi - lo) <= v -> bar_convert b d rs (Some n) v = None).
Proof.
  intros A C P Hs Hn Hr lo hi Hd L E0. pose proof (bar_history b columns) as Hh. rewrite A in Hh. destruct Hh as (_ & Nd & _).
  assert (place n (bsubs d) = Some i) as Pl.
  { clear - Hs Hn Nd. revert i Hs. induction (bsubs d) as [|t l IH]; intros [|i] Hs; try discriminate; cbn [place].
    - injection Hs as ->. rewrite Hn, Nat.eqb_refl. auto.
    - cbn in Hs, Nd. inversion Nd as [|? ? Ni Nd']; subst. destruct (Nat.eqb_spec (sname t) (sname s)) as [E|E].
      + exfalso. apply Ni. rewrite E. apply in_map. eapply nth_error_In; eauto.
      + rewrite (IH Nd' i Hs). reflexivity. }
  unfold bar_convert. rewrite Pl, Hs, Hr, Hd.
  assert (linear_convert (reverse (saxis s)) lo hi v = Some (turned (reverse (saxis s)) ((v - lo) / (hi - lo)))) as ->.
  { apply linear_convert_exact; [lra|]. unfold along, turned. destruct (reverse (saxis s)); field; lra. }
  assert (0 < / (hi - lo)) as I by (apply Rinv_0_lt_compat; lra). split.
  - intros B. exists ((v - lo) / (hi - lo)). assert (0 <= (v - lo) / (hi - lo) <= 1) as F.
    { split; [apply Rmult_le_pos; lra|]. apply (Rmult_le_reg_r (hi - lo)); [lra|]. unfold Rdiv. rewrite Rmult_assoc, Rinv_l by lra. lra. }
    split; [unfold along; field; lra|split; [auto|]]. unfold along. destruct (bar_epsilon b) as [e|]; auto. specialize (E0 e eq_refl).
    assert (0 <= turned (reverse (saxis s)) ((v - lo) / (hi - lo)) <= 1) as F' by (unfold turned; destruct (reverse (saxis s)); lra).
    destruct (ltb_case (- e) (turned (reverse (saxis s)) ((v - lo) / (hi - lo)))) as [[-> _]|[_ H]]; [|lra].
    destruct (ltb_case (turned (reverse (saxis s)) ((v - lo) / (hi - lo))) (1 + e)) as [[-> _]|[_ H]]; [|lra]. reflexivity.
  - intros e -> B. assert ((v - lo) / (hi - lo) <= - e \/ 1 + e <= (v - lo) / (hi - lo)) as B'.
    { destruct B as [B|B]; [left|right]; apply (Rmult_le_reg_r (hi - lo)); try lra; unfold Rdiv; rewrite Rmult_assoc, Rinv_l by lra; lra. }
    assert (turned (reverse (saxis s)) ((v - lo) / (hi - lo)) <= - e \/ 1 + e <= turned (reverse (saxis s)) ((v - lo) / (hi - lo))) as F by (unfold turned; destruct (reverse (saxis s)); lra).
    destruct (ltb_case (- e) (turned (reverse (saxis s)) ((v - lo) / (hi - lo)))) as [[-> H]|[-> H]]; auto.
    destruct (ltb_case (turned (reverse (saxis s)) ((v - lo) / (hi - lo))) (1 + e)) as [[-> H']|[-> H']]; auto. lra.
Qed.
Print Assumptions bar_convert_inside.
(** two bars of width 1 with distance 1/2: the size is 3 *)
Example regions_ex : regions 3 (1 / 2) (1 / 4) 0 [None; Some 1] = 
  [mkregion ((1 / 4) / 3) ((1 / 4 + 1) / 3) 0 ((1 / 4 + 1 + 1 / 2 * (1 / 2)) / 3);
   mkregion ((1 / 4 + 1 + 1 / 2 * (1 / 2) + 1 / 2 * (1 / 2)) / 3) ((1 / 4 + 1 + 1 / 2 * (1 / 2) + 1 / 2 * (1 / 2) + 1) / 3) ((1 / 4 + 1 + 1 / 2 * (1 / 2)) / 3) 1].
Proof. reflexivity. Qed.
