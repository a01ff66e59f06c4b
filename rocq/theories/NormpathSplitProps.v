(** Splitting of paths: which way the pieces go. *)
From Coq Require Import Reals Lra Lia ZArith Bool List.
From Verif Require Import CurveModel CurveSpec NormsubModel NormsubSpec NormsubProofs NormsubProofs5 NormpathModel NormpathProps2 NormpathProps3.
Import ListNotations.
Open Scope R_scope.
Local Notation pt := (R * R)%type.

(** ** The way from one parameter to the next *)
(** a part of a subpath from a parameter to another one, a whole subpath, a whole subpath backwards *)
Inductive stretch := Part (k : nat) (t u : R) | Whole (k : nat) | Back (k : nat).
Definition upto (np : normpath) (k : nat) : R := match nth_error np k with Some s => INR (length (items s)) | None => 0 end.
Definition way (np : normpath) (a b : param) : list stretch :=
  let '(k, t) := a in let '(i, u) := b in
  if (i =? k)%nat then [Part k t u]
  else if (k <? i)%nat then Part k t (upto np k) :: map Whole (seq (S k) (i - k - 1)) ++ [Part i 0 u]
  else Part k t 0 :: map Back (rev (seq (S i) (k - i - 1))) ++ [Part i (upto np i) u].
(** from the last parameter to the end of the path *)
Definition tail_way (np : normpath) (a : param) : list stretch := Part (fst a) (snd a) (upto np (fst a)) :: map Whole (seq (S (fst a)) (length np - S (fst a))).
Fixpoint ways (np : normpath) (l : list param) : list (list stretch) :=
  match l with
  | [] => []
  | [a] => [tail_way np a]
  | a :: ((b :: _) as l') => way np a b :: ways np l'
  end.
Definition route (np : normpath) (l : list param) : list (list stretch) :=
  match l with
  | [] => []
  | a :: _ => (map Whole (seq 0 (fst a)) ++ [Part (fst a) 0 (snd a)]) :: ways np l
  end.
(** a subpath goes along a stretch *)
Definition along (fuel : nat) (np : normpath) (r : nsp) (w : stretch) : Prop :=
  match w with
  | Part k t u => exists s x y, nth_error np k = Some s /\ on_path (items s) t x /\ on_path (items s) u y /\ nsp_atbegin r = Some x /\ nsp_atend r = Some y
  | Whole k => nth_error np k = Some r
  | Back k => exists s, nth_error np k = Some s /\ nsp_reversed fuel s = Ok r
  end.

(** ** Proofs *)
Section Split.
  Variables (fuel : nat) (np : normpath).
  Hypothesis Sm : forall s, In s np -> simple s.
  Notation ok := (along fuel np).
  Notation oks := (Forall2 (Forall2 ok)).

  Lemma wholes a n : (a + n <= length np)%nat -> Forall2 ok (firstn n (skipn a np)) (map Whole (seq a n)).
  Proof.
    revert a. induction n as [|n IH]; intros a L; [constructor|]. destruct (skipn a np) as [|s l] eqn:E; [apply (f_equal (@length _)) in E; rewrite skipn_length in E; cbn in E; lia|].
    assert (nth_error np a = Some s) as N by (rewrite <- (Nat.add_0_r a), <- (firstn_skipn a np), E, nth_error_app2; rewrite firstn_length_le by lia; [now replace (a + 0 - a)%nat with 0%nat by lia|lia]).
    assert (skipn (S a) np = l) as E2.
    { clear - E. revert np E. induction a as [|a IH]; intros [|x l0] E; cbn in *; try discriminate; [congruence|]. now apply IH. }
    cbn [firstn seq map]. constructor; [exact N|]. rewrite <- E2. apply IH. lia.
  Qed.
  Lemma backs l ks back : Forall2 ok l (map Whole ks) -> all_ok (nsp_reversed fuel) (rev l) = Ok back -> Forall2 ok back (map Back (rev ks)).
  Proof.
    intros F. assert (Forall2 ok (rev l) (map Whole (rev ks))) as F'.
    { clear -F. revert ks F. induction l as [|s l IH]; intros [|k ks] F; inversion F; subst; [constructor|]. cbn. rewrite map_app. apply Forall2_app; [now apply IH|]. constructor; [assumption|constructor]. }
    clear F. revert F' back. generalize (rev ks) as js. induction (rev l) as [|s l' IH]; intros js F back E; destruct js as [|j js]; inversion F; subst; cbn in E; [injection E as <-; constructor|].
    destruct (nsp_reversed fuel s) as [r| |] eqn:Er; try discriminate. cbn [bind] in E. destruct (all_ok (nsp_reversed fuel) l') as [rs| |] eqn:Es; try discriminate. injection E as <-. cbn [map]. constructor; [exists s; split; assumption|]. now apply IH.
  Qed.
  (** the pieces of a subpath *)
  Lemma pieces_along k s ts c0 c1 lst ro done rd done' last' gs : nth_error np k = Some s ->
    nsp_segments fuel s ((c0 :: ts) ++ [c1]) = Ok gs -> add_pieces gs done lst = Ok (done', last') -> oks done rd -> Forall2 ok lst ro ->
    forall t0 tr, ts = t0 :: tr ->
    exists rd', oks done' (rd ++ rd') /\ Forall2 ok last' [Part k (last tr t0) c1] /\
      forall rest more, rd' ++ (Part k (last tr t0) c1 :: more) :: rest =
        (ro ++ [Part k c0 t0]) :: (fix go t l := match l with [] => (Part k t c1 :: more) :: rest | u :: l => [Part k t u] :: go u l end) t0 tr.
  Proof.
    intros Hk G A D L t0 tr ->. destruct (segments_simple fuel s _ gs (Sm s (nth_error_In _ _ Hk)) G) as (Len & H).
    destruct gs as [|g gs]; [cbn in Len; rewrite app_length in Len; cbn in Len; lia|].
    assert (forall j r t u, nth_error (g :: gs) j = Some r -> nth_error ((c0 :: t0 :: tr) ++ [c1]) j = Some t -> nth_error ((c0 :: t0 :: tr) ++ [c1]) (S j) = Some u -> ok r (Part k t u)) as O.
    { intros j r t u H1 H2 H3. destruct (H j r t u H1 H2 H3) as (x & y & O1 & O2 & B & E). exists s, x, y. auto. }
    clear H G. cbn [add_pieces] in A. injection A as A1 A2. subst done' last'. pose proof (O 0%nat g c0 t0 eq_refl eq_refl eq_refl) as O0.
    assert (forall j r t u, nth_error gs j = Some r -> nth_error (t0 :: tr ++ [c1]) j = Some t -> nth_error (t0 :: tr ++ [c1]) (S j) = Some u -> ok r (Part k t u)) as O1 by (intros j; exact (O (S j))).
    assert (length gs = S (length tr)) as Lg by (cbn in Len; rewrite app_length in Len; cbn in Len; lia). clear O Len.
    assert (forall tr t0 gs, length gs = S (length tr) -> (forall j r t u, nth_error gs j = Some r -> nth_error (t0 :: tr ++ [c1]) j = Some t -> nth_error (t0 :: tr ++ [c1]) (S j) = Some u -> ok r (Part k t u)) ->
      exists ws, oks (removelast (map (fun g => [g]) gs)) ws /\ Forall2 ok (last (map (fun g => [g]) gs) []) [Part k (last tr t0) c1] /\
        forall rest more, ws ++ (Part k (last tr t0) c1 :: more) :: rest = (fix go t l := match l with [] => (Part k t c1 :: more) :: rest | u :: l => [Part k t u] :: go u l end) t0 tr) as K.
    { clear. induction tr as [|t tr IH]; intros t0 gs Lg O.
      - destruct gs as [|g [|? ?]]; try (cbn in Lg; lia). exists []. split; [constructor|]. split; [constructor; [exact (O 0%nat g t0 c1 eq_refl eq_refl eq_refl)|constructor]|reflexivity].
      - destruct gs as [|g gs]; [cbn in Lg; lia|]. destruct (IH t gs ltac:(cbn in Lg; lia) (fun j => O (S j))) as (ws & W1 & W2 & W3).
        destruct gs as [|g' gs]; [cbn in Lg; lia|]. exists ([Part k t0 t] :: ws). split; [|split].
        + change (removelast (map (fun g => [g]) (g :: g' :: gs))) with ([g] :: removelast (map (fun g => [g]) (g' :: gs))). constructor; [|exact W1]. constructor; [exact (O 0%nat g t0 t eq_refl eq_refl eq_refl)|constructor].
        + rewrite last_cons. change (last (map (fun g => [g]) (g :: g' :: gs)) []) with (last (map (fun g => [g]) (g' :: gs)) []). exact W2.
        + intros rest more. rewrite last_cons. cbn [app]. now rewrite W3. }
    destruct (K tr t0 gs Lg O1) as (ws & W1 & W2 & W3). exists ((ro ++ [Part k c0 t0]) :: ws).
    destruct gs as [|g' gs]; [cbn in Lg; lia|].
    change (removelast ((lst ++ [g]) :: map (fun g => [g]) (g' :: gs))) with ((lst ++ [g]) :: removelast (map (fun g => [g]) (g' :: gs))).
    change (last ((lst ++ [g]) :: map (fun g => [g]) (g' :: gs)) []) with (last (map (fun g => [g]) (g' :: gs)) []). split; [|split; [exact W2|]].
    - apply Forall2_app; [exact D|]. constructor; [|exact W1]. apply Forall2_app; [exact L|]. constructor; [exact O0|constructor].
    - intros rest more. cbn [app]. now rewrite W3.
  Qed.
  (** the ways within a subpath *)
  Lemma ways_same k t0 tr c1 more rest params : (forall t, ways np ((k, t) :: params) = (Part k t c1 :: more) :: rest) ->
    (fix go t l := match l with [] => (Part k t c1 :: more) :: rest | u :: l => [Part k t u] :: go u l end) t0 tr = ways np ((k, t0) :: map (pair k) tr ++ params).
  Proof.
    intros H. revert t0. induction tr as [|t tr IH]; intros t0; [symmetry; apply H|]. rewrite IH. cbn [map app]. change (ways np ((k, t0) :: (k, t) :: map (pair k) tr ++ params)) with (way np (k, t0) (k, t) :: ways np ((k, t) :: map (pair k) tr ++ params)). unfold way. now rewrite Nat.eqb_refl.
  Qed.
  Lemma split_along params : forall done rd lst ro c0 t0 tr k result, oks done rd -> ((k < length np)%nat -> Forall2 ok lst ro) ->
    split_loop fuel np params done lst (c0 :: t0 :: tr) (Some k) = Ok result ->
    oks result (rd ++ (ro ++ [Part k c0 t0]) :: ways np ((k, t0) :: map (pair k) tr ++ params)).
  Proof.
    induction params as [|[i t] params IH]; intros done rd lst ro c0 t0 tr k result D L E; cbn [split_loop] in E.
    - destruct (nth_error np k) as [s|] eqn:Hk; [|discriminate]. destruct (nsp_segments fuel s ((c0 :: t0 :: tr) ++ [INR (length (items s))])) as [gs| |] eqn:G; try discriminate. cbn [bind] in E.
      destruct (add_pieces gs done lst) as [[done' last']| |] eqn:A; try discriminate. cbn [bind] in E. injection E as <-.
      assert (k < length np)%nat as Lk by (apply nth_error_Some; congruence).
      destruct (pieces_along k s _ _ _ _ ro _ _ _ _ _ Hk G A D (L Lk) t0 tr eq_refl) as (rd' & O1 & O2 & O3).
      refine (eq_ind_r (fun x => oks _ (rd ++ _ :: x)) _ (eq_sym (ways_same k t0 tr (INR (length (items s))) (map Whole (seq (S k) (length np - S k))) [] [] _))).
      + rewrite <- O3. rewrite app_assoc. apply Forall2_app; [exact O1|]. constructor; [|constructor].
        change (Part k (last tr t0) (INR (length (items s))) :: map Whole (seq (S k) (length np - S k))) with ([Part k (last tr t0) (INR (length (items s)))] ++ map Whole (seq (S k) (length np - S k))).
        apply Forall2_app; [exact O2|]. pose proof (wholes (S k) (length np - S k) ltac:(lia)) as Wk. rewrite firstn_all2 in Wk by (rewrite skipn_length; apply Nat.le_refl). exact Wk.
      + intros t. cbn [ways]. unfold tail_way, upto. cbn [fst snd]. rewrite Hk. reflexivity.
    - destruct (Nat.eqb_spec i k) as [->|Nk].
      + pose proof (IH done rd lst ro c0 t0 (tr ++ [t]) k result D L E) as I. rewrite map_app in I. cbn [map] in I. rewrite <- app_assoc in I. exact I.
      + destruct (nth_error np k) as [s|] eqn:Hk; [|discriminate]. destruct (nth_error np i) as [s'|] eqn:Hi; [|discriminate].
        assert (k < length np)%nat as Lk by (apply nth_error_Some; congruence). assert (i < length np)%nat as Li by (apply nth_error_Some; congruence).
        set (c1 := if (k <? i)%nat then INR (length (items s)) else 0) in E.
        destruct (nsp_segments fuel s ((c0 :: t0 :: tr) ++ [c1])) as [gs| |] eqn:G; try discriminate. cbn [bind] in E.
        destruct (add_pieces gs done lst) as [[done' last']| |] eqn:A; try discriminate. cbn [bind] in E.
        destruct (pieces_along k s _ _ _ _ ro _ _ _ _ _ Hk G A D (L Lk) t0 tr eq_refl) as (rd' & O1 & O2 & O3).
        assert (exists mids back e, split_loop fuel np params done' (last' ++ back) [e; t] (Some i) = Ok result /\ Forall2 ok back mids /\ forall u, way np (k, u) (i, t) = Part k u c1 :: mids ++ [Part i e t]) as (mids & back & e & E' & M & W).
        { unfold way, upto. rewrite Hk, Hi. destruct (Nat.eqb_spec i k); [congruence|]. unfold c1 in *. destruct (Nat.ltb_spec k i).
          - exists (map Whole (seq (S k) (i - k - 1))), (firstn (i - k - 1) (skipn (S k) np)), 0. split; [exact E|]. split; [apply wholes; lia|reflexivity].
          - destruct (all_ok (nsp_reversed fuel) (rev (firstn (k - i - 1) (skipn (S i) np)))) as [back| |] eqn:Ab; try discriminate. cbn [bind] in E.
            exists (map Back (rev (seq (S i) (k - i - 1)))), back, (INR (length (items s'))). split; [exact E|]. split; [|reflexivity]. apply (backs (firstn (k - i - 1) (skipn (S i) np)) (seq (S i) (k - i - 1))); [apply wholes; lia|exact Ab]. }
        pose proof (IH done' (rd ++ rd') (last' ++ back) ([Part k (last tr t0) c1] ++ mids) e t [] i result O1 (fun _ => Forall2_app O2 M) E') as I. cbn [map app] in I.
        refine (eq_ind_r (fun x => oks _ (rd ++ _ :: x)) _ (eq_sym (ways_same k t0 tr c1 (mids ++ [Part i e t]) (ways np ((i, t) :: params)) ((i, t) :: params) _))).
        * rewrite <- O3. rewrite app_assoc. exact I.
        * intros u. change (ways np ((k, u) :: (i, t) :: params)) with (way np (k, u) (i, t) :: ways np ((i, t) :: params)). now rewrite W.
  Qed.
End Split.

(** C76: the pieces go along the ways from each parameter to the next one: within a subpath, or forwards or backwards through the
    subpaths in between *)
Theorem path_split_route : forall fuel np params result, (forall s, In s np -> simple s) -> params <> [] -> path_split fuel np params = Ok result ->
  Forall2 (Forall2 (along fuel np)) result (route np params).
Proof.
  intros fuel np params result Sm N E. destruct params as [|[i t] params]; [congruence|]. unfold path_split in E. cbn [split_loop] in E.
  pose proof (split_along fuel np Sm params [] [] (firstn i np) (map Whole (seq 0 i)) 0 t [] i result (Forall2_nil _) (fun L => wholes fuel np 0 i ltac:(lia)) E) as I. exact I.
Qed.
Print Assumptions path_split_route.
(** Splitting in the second subpath and then in the first one: the middle piece goes backwards. *)
Example path_split_route_ex : map (fun l => length l) (route two_subpaths [(1%nat, 2 / 5); (0%nat, 1 / 2)]) = [2; 2; 2]%nat /\
  nth 1 (route two_subpaths [(1%nat, 2 / 5); (0%nat, 1 / 2)]) [] = [Part 1 (2 / 5) 0; Part 0 (upto two_subpaths 0) (1 / 2)].
Proof. split; reflexivity. Qed.
