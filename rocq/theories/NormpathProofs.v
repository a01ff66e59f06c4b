(** Proofs about arc lengths of paths of several subpaths. *)
From Coq Require Import Reals Lra Lia ZArith Bool List.
From Verif Require Import PyDict BboxModel CurveModel CurveSpec CurveProofs2 NormsubModel NormsubSpec NormsubProofs NormsubProofs4 NormsubProofs5 NormpathModel NormpathSpec.
Import ListNotations.
Open Scope R_scope.

Local Notation pt := (R * R)%type.

Lemma path_cons ls np : path_length (ls :: np) = total_length ls + path_length np.
Proof. unfold path_length. simpl. apply total_app. Qed.
Lemma path_app a b : path_length (a ++ b) = path_length a + path_length b.
Proof. unfold path_length. rewrite concat_app. apply total_app. Qed.
Lemma path_nonneg np : 0 <= path_length np.
Proof. apply total_nonneg. Qed.
Lemma path_arclen_ok np : path_arclen np = path_length np.
Proof. unfold path_arclen. induction np as [|ls np IH]; [reflexivity|]. rewrite path_cons. simpl. rewrite IH, lines_arclen_total. reflexivity. Qed.
Lemma nsp_arclentoparam_ok ls xs : nsp_arclentoparam ls xs = (map (a2p 0 ls) xs, total_length ls).
Proof.
  destruct (arclentoparam_loop_ok ls 0 (map (fun l => (l, None)) xs) 0) as [E1 E2]. unfold nsp_arclentoparam.
  destruct (arclentoparam_loop 0 ls _ 0) as [st total]. simpl in *. f_equal; [|lra]. rewrite E1, map_map. reflexivity.
Qed.

(** ** from lengths to parameters *)
Fixpoint pa2p (k : nat) (np : list (list (pt * pt))) (x : R) : option (nat * option R) :=
  match np with
  | [] => None
  | ls :: np' =>
      if (ltb (x - total_length ls) 0 || match np' with [] => true | _ => false end)%bool then Some (k, a2p 0 ls x)
      else pa2p (S k) np' (x - total_length ls)
  end.
Lemma path_loop_ok np : forall k st,
  map snd (path_arclentoparam_loop k np st) = map (fun '(x, r) => match r with Some _ => r | None => pa2p k np x end) st.
Proof.
  induction np as [|ls np IH]; intros k st; cbn [path_arclentoparam_loop].
  - apply map_ext. intros [x [r|]]; auto.
  - rewrite nsp_arclentoparam_ok.
    assert (E : forall (g : R * option (nat * option R) * option R -> R * option (nat * option R)),
      map g (combine st (map (a2p 0 ls) (map fst st))) = map (fun s => g (s, a2p 0 ls (fst s))) st).
    { intros g. induction st as [|s st IHs]; simpl; auto. now rewrite IHs. }
    rewrite E.
    destruct (forallb (fun '(_, result) => match result with Some _ => true | None => false end) st) eqn:A.
    + rewrite map_map. apply map_ext_in. intros [x [r|]] I; auto. rewrite forallb_forall in A. specialize (A _ I). discriminate.
    + rewrite IH, map_map. apply map_ext. intros [x [r|]]; simpl; auto. destruct (ltb (x - total_length ls) 0); simpl; auto. destruct np; auto.
Qed.
Lemma path_arclentoparam_ok np xs : path_arclentoparam np xs = map (pa2p 0 np) xs.
Proof. unfold path_arclentoparam. rewrite path_loop_ok, map_map. reflexivity. Qed.

(** the parameters found lie on their subpath *)
Lemma a2p_range ls : Forall (fun l => 0 < len l) ls -> ls <> [] -> forall k x, exists t, a2p k ls x = Some t /\
  (0 <= x -> INR k <= t) /\ (x < total_length ls -> t < INR k + INR (length ls)).
Proof.
  induction ls as [|l ls IH]; intros F N k x; [congruence|]. inversion F as [|? ? F1 F2]; subst. cbn [a2p].
  assert (Q : 0 <= x -> 0 <= x / len l) by (intros; apply Rmult_le_pos; [auto|apply Rlt_le, Rinv_0_lt_compat; auto]).
  destruct (ltb_spec (x - len l) 0) as [L|L]; simpl orb; cbv iota.
  - exists (INR k + x / len l). split; auto. split; [intros H; specialize (Q H); lra|]. intros _.
    assert (x / len l < 1) by (apply Rmult_lt_reg_r with (len l); auto; unfold Rdiv; rewrite Rmult_assoc, Rinv_l; lra).
    cbn [length]. rewrite S_INR. pose proof (pos_INR (length ls)). lra.
  - destruct ls as [|m ls].
    + exists (INR k + x / len l). split; auto. split; [intros H; specialize (Q H); lra|]. rewrite total_cons. unfold total_length. simpl. lra.
    + destruct (IH F2 ltac:(discriminate) (S k) (x - len l)) as (t & E & R1 & R2). exists t. split; auto. rewrite S_INR in *. split.
      * intros _. specialize (R1 ltac:(lra)). lra.
      * intros H. rewrite total_cons in H. specialize (R2 ltac:(lra)). cbn [length] in *. rewrite (S_INR (S (length ls))). lra.
Qed.
Lemma nth_path_length np k ls : nth_error np k = Some ls -> path_length (firstn (S k) np) = path_length (firstn k np) + total_length ls.
Proof.
  revert np. induction k as [|k IH]; intros [|a np] H; try discriminate.
  - injection H as ->. simpl firstn. rewrite path_cons. unfold path_length, total_length. simpl. ring.
  - rewrite firstn_cons, path_cons, (IH np H), firstn_cons, path_cons. ring.
Qed.
Definition proper_lines' (np : list (list (pt * pt))) := Forall (fun ls => ls <> [] /\ Forall (fun l => 0 < len l) ls) np.
Lemma proper_lines_iff np : proper_lines np -> np <> [] /\ proper_lines' np.
Proof.
  intros [N H]. split; auto. apply Forall_forall. intros ls I. destruct (H ls I) as [N' P]. split; auto. apply Forall_forall. intros [a b] J. now apply P.
Qed.
Lemma pa2p_ok np : proper_lines' np -> np <> [] -> forall k x, (k = 0%nat \/ 0 <= x) ->
  exists j ls t, pa2p k np x = Some ((k + j)%nat, Some t) /\ nth_error np j = Some ls /\ arc_length_at ls t (x - path_length (firstn j np)) /\
    ((k + j = 0)%nat \/ 0 <= t) /\ (S j = length np \/ t < INR (length ls)).
Proof.
  induction np as [|ls np IH]; intros F N k x Hk; [congruence|]. inversion F as [|? ? [F0 F1] F2]; subst. cbn [pa2p].
  destruct (a2p_range ls F1 F0 0 x) as (t & E & R1 & R2). rewrite E. simpl INR in R1, R2. destruct (a2p_spec ls x F1 F0) as (t' & E' & At). rewrite E in E'. injection E' as <-.
  assert (Z : x - path_length (firstn 0 (ls :: np)) = x) by (unfold path_length, total_length; simpl; ring).
  destruct (ltb_spec (x - total_length ls) 0) as [L|L]; simpl orb; cbv iota.
  - exists 0%nat, ls, t. split; [do 2 f_equal; lia|]. split; auto. rewrite Z. split; auto. split; [destruct Hk; [left; lia|right; auto]|right; specialize (R2 ltac:(lra)); lra].
  - pose proof (total_nonneg ls). destruct np as [|m np].
    + exists 0%nat, ls, t. split; [do 2 f_equal; lia|]. split; auto. rewrite Z. split; auto. split; [right; apply R1; lra|left; auto].
    + destruct (IH F2 ltac:(discriminate) (S k) (x - total_length ls)) as (j & ms & u & Eu & Hj & Au & H1 & H2); [right; lra|].
      exists (S j), ms, u. split; [rewrite Eu; do 2 f_equal; lia|]. split; auto. rewrite firstn_cons, path_cons.
      split; [replace (x - (total_length ls + path_length (firstn j (m :: np)))) with (x - total_length ls - path_length (firstn j (m :: np))) by ring; auto|].
      split; [right; destruct H1; [lia|auto]|]. destruct H2; [left; simpl in *; lia|auto].
Qed.

(** ** from parameters to lengths *)
Definition q2a (ls : list (pt * pt)) (t : R) : R := match ls with [] => 0 | _ => p2a ls t end.
Lemma nsp_paramtoarclen_q ls ts : nsp_paramtoarclen ls ts = (map (fun t => Some (q2a ls t)) ts, total_length ls).
Proof.
  destruct ls as [|l ls]; [|rewrite nsp_paramtoarclen_ok by discriminate; reflexivity].
  unfold nsp_paramtoarclen. f_equal.
Qed.
Fixpoint pstarts (k : nat) (np : list (list (pt * pt))) (total : R) : list (nat * list (pt * pt) * R) :=
  match np with [] => [] | ls :: np' => (k, ls, total) :: pstarts (S k) np' (total + total_length ls) end.
Definition ppart (d : list (nat * (list nat * list R))) (x : nat * list (pt * pt) * R) : list (nat * R) :=
  let '(j, ls, t0) := x in
  match dget Nat.eqb j d with Some (ix, ss) => combine ix (map (fun t => t0 + q2a ls t) ss) | None => [] end.
Lemma path_paramtoarclen_loop_ok d : forall n np k result total, (n <= length np)%nat ->
  path_paramtoarclen_loop k np n d result total = Some (sets (flat_map (ppart d) (pstarts k (firstn n np) total)) result).
Proof.
  induction n as [|n IH]; intros [|ls np] k result total H; cbn [path_paramtoarclen_loop firstn]; auto; try (simpl in H; lia).
  cbn [pstarts flat_map]. unfold sets. rewrite fold_left_app. cbn [ppart]. simpl in H.
  destruct (dget Nat.eqb k d) as [[ix ss]|].
  - rewrite nsp_paramtoarclen_q, IH by lia. unfold sets. do 2 f_equal.
    clear. revert ss result. induction ix as [|i ix IH]; intros [|s ss] result; simpl; auto.
  - rewrite IH by lia. unfold sets. simpl fold_left at 2. rewrite lines_arclen_total. reflexivity.
Qed.
Lemma path_paramtoarclen_loop_none d : forall n np k result total, (length np < n)%nat -> path_paramtoarclen_loop k np n d result total = None.
Proof.
  induction n as [|n IH]; intros [|ls np] k result total H; cbn [path_paramtoarclen_loop]; auto; try (simpl in H; lia).
  simpl in H. destruct (dget Nat.eqb k d) as [[ix ss]|]; [destruct (nsp_paramtoarclen ls ss)|]; apply IH; lia.
Qed.
Lemma pstarts_In np : forall k total j ls t0, In (j, ls, t0) (pstarts k np total) <->
  exists n, j = (k + n)%nat /\ nth_error np n = Some ls /\ t0 = total + path_length (firstn n np).
Proof.
  induction np as [|a np IH]; intros k total j ls t0; cbn [pstarts].
  - split; [intros []|]. intros ([|n] & _ & H & _); discriminate.
  - cbn [In]. rewrite IH. split.
    + intros [[= <- <- <-]|(n & -> & Hn & ->)].
      * exists 0%nat. split; [lia|]. split; auto. unfold path_length, total_length. simpl. ring.
      * exists (S n). split; [lia|]. split; auto. rewrite firstn_cons, path_cons. ring.
    + intros ([|n] & -> & Hn & ->).
      * left. injection Hn as ->. unfold path_length, total_length. simpl. rewrite Nat.add_0_r, Rplus_0_r. reflexivity.
      * right. exists n. split; [lia|]. split; auto. rewrite firstn_cons, path_cons. ring.
Qed.
Definition pp2a (np : list (list (pt * pt))) (p : nat * R) : R := path_length (firstn (fst p) np) + q2a (nth (fst p) np []) (snd p).
Lemma max_ge l x : In x l -> (x <= fold_right Nat.max 0 l)%nat.
Proof. induction l as [|y l IH]; simpl; [tauto|]. intros [->|H]; [lia|]. specialize (IH H). lia. Qed.
Lemma max_lt l n : (0 < n)%nat -> (forall x, In x l -> (x < n)%nat) -> (fold_right Nat.max 0 l < n)%nat.
Proof. intros N. induction l as [|y l IH]; simpl; auto. intros H. pose proof (H y (or_introl eq_refl)). assert (fold_right Nat.max 0 l < n)%nat by (apply IH; auto). lia. Qed.
Lemma distribute_keys {A B} (index : A -> nat) (sub : A -> B) : forall ps k d x, In x (map fst (distribute_from index sub k ps d)) -> In x (map fst d) \/ In x (map index ps).
Proof.
  induction ps as [|p ps IH]; intros k d x H; cbn [distribute_from] in H; auto. destruct (IH _ _ _ H) as [K|K]; [|simpl; auto].
  apply in_map_iff in K as ([k' v'] & <- & K). apply dset_In in K as [[= -> ->]|K]; [simpl; auto|]. left. apply in_map_iff. exists (k', v'). auto.
Qed.
Lemma path_paramtoarclen_ok np params : params <> [] -> (forall p, In p params -> (fst p < length np)%nat) ->
  path_paramtoarclen np params = Some (map (fun p => Some (pp2a np p)) params).
Proof.
  intros N Hp. unfold path_paramtoarclen. destruct params as [|p0 ps] eqn:EP; [congruence|]. rewrite <- EP in *. clear EP p0 ps.
  destruct (distribute_ok (fst : param -> nat) (snd : param -> R) params params 0 []) as [E V]; [auto|simpl; tauto|intros j p H; lia|].
  unfold path_distribute. change (distribute_from fst snd 0 params []) with (distribute (fst : param -> nat) (snd : param -> R) params) in *. simpl in V.
  assert (K : forall x, In x (map fst (distribute (fst : param -> nat) (snd : param -> R) params)) -> exists p, In p params /\ fst p = x).
  { intros x H. apply distribute_keys in H as [[]|H]. apply in_map_iff in H as (p & <- & H). eauto. }
  set (d := distribute (fst : param -> nat) (snd : param -> R) params) in *.
  set (m := fold_right Nat.max 0%nat (map fst d)).
  assert (Hm : (m < length np)%nat).
  { apply max_lt. - destruct params as [|p ps]; [congruence|]. specialize (Hp p (or_introl eq_refl)). lia. - intros x H. destruct (K x H) as (p & I & <-). auto. }
  change (path_paramtoarclen_loop 0 np (S m) d (repeat None (length params)) 0 = Some (map (fun p : nat * R => Some (pp2a np p)) params)).
  rewrite path_paramtoarclen_loop_ok by lia. f_equal.
  apply nth_error_ext. intros j. destruct (nth_error params j) as [p|] eqn:P.
  - assert (Hj : (j < length params)%nat) by (apply nth_error_Some; congruence).
    rewrite (map_nth_error _ j params P). apply sets_value.
    + rewrite repeat_length. auto.
    + intros c Hc. apply in_flat_map in Hc as ([[key ls] t0] & Hs & Hc). apply pstarts_In in Hs as (n & -> & Hn & ->). unfold ppart in Hc. simpl plus in Hc.
      destruct (dget Nat.eqb n d) as [[ix ss]|] eqn:G; [|destruct Hc]. apply (dget_In Nat.eqb Nat.eqb_spec) in G. destruct (E _ G) as [_ F]. simpl in F.
      rewrite combine_map in Hc. apply in_map_iff in Hc as ([j' b] & [= -> <-] & Hc). destruct (F j b Hc) as (t' & T' & I' & <-).
      assert (T2 : Some p = Some t') by (rewrite <- P; exact T'). injection T2 as <-. unfold pp2a. rewrite I'.
      assert (Ln : (n < length (firstn (S m) np))%nat) by (apply nth_error_Some; congruence). rewrite firstn_length in Ln.
      assert (Ef : forall k, (k <= S m)%nat -> firstn k (firstn (S m) np) = firstn k np) by (intros k Hk; rewrite firstn_firstn; f_equal; lia).
      rewrite Ef by lia. rewrite Rplus_0_l. f_equal. f_equal. symmetry. apply nth_error_nth. rewrite <- Hn. rewrite <- (firstn_skipn (S m) np) at 1.
      apply nth_error_app1. rewrite firstn_length. lia.
    + left. destruct (V j p Hj P) as (ix & ss & G & I).
      assert (Lp : (fst p <= m)%nat). { apply max_ge. apply in_map_iff. exists (fst p, (ix, ss)). split; auto. apply (dget_In Nat.eqb Nat.eqb_spec) in G. exact G. }
      assert (Lp2 : (fst p < length np)%nat) by (apply Hp; eapply nth_error_In; eauto).
      apply in_map_iff. exists (j, 0 + path_length (firstn (fst p) np) + q2a (nth (fst p) np []) (snd p)).
      split; auto. apply in_flat_map. exists (fst p, nth (fst p) np [], 0 + path_length (firstn (fst p) np)). split.
      * apply pstarts_In. exists (fst p). split; auto. split.
        -- rewrite <- (nth_error_nth' np [] (n := fst p)) by (apply Hp; eapply nth_error_In; eauto). symmetry. rewrite <- (firstn_skipn (S m) np) at 1. apply nth_error_app1. rewrite firstn_length. lia.
        -- rewrite firstn_firstn. do 3 f_equal. lia.
      * unfold ppart. rewrite G, combine_map. apply in_map_iff. exists (j, snd p). auto.
  - assert (Hj : (length params <= j)%nat) by (apply nth_error_None; auto).
    transitivity (@None (option R)); [|symmetry; apply nth_error_None; rewrite map_length; auto].
    apply nth_error_None. rewrite sets_length, repeat_length. auto.
Qed.
