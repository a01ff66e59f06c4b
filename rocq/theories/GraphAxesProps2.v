(** * When the axes of graphs are created, and the ranges they show *)
From Coq Require Import ZArith QArith Arith Bool List Lia.
From Verif Require Import GraphAxesModel GraphAxesProps GraphAxesProofs.
Import ListNotations.
Open Scope nat_scope.

(** nothing has happened yet: no calls, no canvases, no positioners, no ticks; the axes have data *)
Definition fresh (s : state) : Prop :=
  calls s = [] /\ events s = [] /\ (forall p, In p (axes s) -> a_shown (snd p) = None /\ a_pos (snd p) = false /\ a_data (snd p) < length (datas s)) /\
  (forall d, ticks (get_data d s) = false).

Lemma get_in k s a : get k s = Some a -> In (k, a) (axes s).
Proof.
  unfold get. destruct (find _ (axes s)) as [p|] eqn:F; [|discriminate]. intros E. injection E as <-. apply find_some in F. destruct F as (F1 & F2).
  apply key_eqb_spec in F2. subst k. destruct p; exact F1.
Qed.

Section Worlds.
  Variable partition : data -> Q * Q -> option (Q * Q).
  Variable static : nat -> list (key * list Q).
  Variable dynamic : nat -> list data -> list (key * list Q).
  Variable s0 : state.
  Hypothesis start : fresh s0.
  (** values are for axes of the graph they are plotted in *)
  Hypothesis values_known : forall g ds k vs, In (k, vs) (static g ++ dynamic g ds) -> fst k = g /\ get k s0 <> None.

  Let cfg k := info k s0.
  Let limits d := (fixmin (get_data d s0), fixmax (get_data d s0)).
  Let INV := Inv static dynamic cfg limits (length (datas s0)).

  Lemma world_values : forall g ds k vs, In (k, vs) (static g ++ dynamic g ds) -> fst k = g /\ cfg k <> None.
  Proof. intros g ds k vs H. destruct (values_known g ds k vs H) as (A & B). split; [exact A|]. unfold cfg, info. destruct (get k s0); congruence. Qed.
  Lemma world_data : forall k kd d p, cfg k = Some (kd, d, p) -> d < length (datas s0).
  Proof.
    intros k kd d p H. unfold cfg, info in H. destruct (get k s0) as [a|] eqn:G; [|discriminate]. injection H as <- <- <-. apply get_in in G.
    destruct start as (_ & _ & S & _). apply (S _ G).
  Qed.
  Lemma world_start : INV s0.
  Proof.
    destruct start as (S1 & S2 & S3 & S4).
    assert (Sh : forall k, shown k s0 = None).
    { intros k. unfold shown. destruct (get k s0) as [a|] eqn:G; [|reflexivity]. apply get_in in G. apply (S3 _ G). }
    constructor.
    - reflexivity.
    - intros l1 k l2 H. rewrite S2 in H. destruct l1; discriminate.
    - intros k. rewrite S2, Sh. cbn. split; [contradiction|congruence].
    - intros k H. exfalso. unfold pos in H. destruct (get k s0) as [a|] eqn:G; [|discriminate]. apply get_in in G. destruct (S3 _ G) as (_ & P & _). cbn in P. congruence.
    - intros g. rewrite S2. unfold did. rewrite S1. cbn. split; [discriminate|contradiction].
    - intros d H. rewrite S4 in H. discriminate.
    - intros _ k r kd d p H. rewrite Sh in H. discriminate.
    - reflexivity.
    - intros _ g d H. rewrite S2 in H. contradiction.
    - intros _ k lo hi H. rewrite S2 in H. contradiction.
    - reflexivity.
  Qed.

  (** Each axis gets its canvas once at most, whatever is called in which order and whatever goes wrong; before that the ranges of its
      graph are complete, the axis in front of which it is placed has been created, and if it is linked and painted an anchored axis
      with the same data has been created *)
  Theorem axes_in_order n ops s k l1 l2 : run partition static dynamic n ops s0 = Some s -> events s = l1 ++ Created k :: l2 ->
    ~ In (Created k) l1 /\ ~ In (Created k) l2 /\ In (Ranged (fst k)) l1 /\
    (2 < snd (snd k) -> In (Created (fst k, (fst (snd k), snd (snd k) - 2))) l1) /\
    exists a, get k s0 = Some a /\
      forall t, a_kind a = Linked t -> a_paint a = true -> exists r b, get r s0 = Some b /\ a_kind b = Anchored /\ a_data b = a_data a /\ In (Created r) l1.
  Proof.
    intros R E. assert (I := inv_run partition static dynamic cfg limits _ world_values world_data n ops s0 s world_start R).
    destruct (J1 _ _ _ _ _ _ I l1 k l2 E) as (A1 & (A2 & A3) & kd & d & p & A4 & A5). split; [exact A1|]. split; [|split; [exact A2|]; split].
    - intros F. apply in_split in F. destruct F as (m1 & m2 & F). assert (E' : events s = (l1 ++ Created k :: m1) ++ Created k :: m2) by (rewrite E, F, <- app_assoc; reflexivity).
      destruct (J1 _ _ _ _ _ _ I _ k m2 E') as (B1 & _). apply B1. apply in_or_app. right; left; reflexivity.
    - intros H. apply A3 in H. destruct k as [g [l m]]. exact H.
    - unfold cfg, info in A4. destruct (get k s0) as [a|] eqn:G; [|discriminate]. exists a. split; [reflexivity|]. injection A4 as K D P. intros t Ht Hp.
      destruct A5 as [A5|A5]; [congruence|]. destruct A5 as (r & q & R1 & R2); [congruence|]. unfold cfg, info in R1. destruct (get r s0) as [b|] eqn:Gr; [|discriminate].
      injection R1 as K' D' P'. exists r, b. split; [exact Gr|]. split; [exact K'|]. split; [congruence|exact R2].
  Qed.

  (** In graphs whose linked axes are linked to axes of the same graph an axis shows the range it converts values with, for good; and
      the range the partition is made for contains all values of the graph for the axis, apart from limits which were given *)
  Hypothesis painters : forall k a t, get k s0 = Some a -> a_kind a = Linked t -> a_paint a = true.
  Hypothesis own_data : forall k a k' a', get k s0 = Some a -> get k' s0 = Some a' -> a_kind a = Anchored -> a_kind a' = Anchored -> a_data a = a_data a' -> k = k'.
  Hypothesis one_graph : forall k a k' a', get k s0 = Some a -> get k' s0 = Some a' -> a_data a = a_data a' -> fst k = fst k'.
  Lemma world_usual : usual cfg.
  Proof.
    unfold usual, cfg, info. split; [|split].
    - intros k t d p. destruct (get k s0) as [a|] eqn:G; [|discriminate]. intros H. injection H as K D P. rewrite <- P. exact (painters k a t G K).
    - intros k k' d p p'. destruct (get k s0) as [a|] eqn:G; [|discriminate]. destruct (get k' s0) as [a'|] eqn:G'; [|discriminate].
      intros H H'. injection H as K D P. injection H' as K' D' P'. apply (own_data k a k' a' G G' K K'). congruence.
    - intros k k' kd kd' d p p'. destruct (get k s0) as [a|] eqn:G; [|discriminate]. destruct (get k' s0) as [a'|] eqn:G'; [|discriminate].
      intros H H'. injection H as K D P. injection H' as K' D' P'. apply (one_graph k a k' a' G G'). congruence.
  Qed.

  Theorem axes_show_ranges n ops s : run partition static dynamic n ops s0 = Some s ->
    (forall k a r, get k s = Some a -> a_shown a = Some r -> r = (dmin (get_data (a_data a) s), dmax (get_data (a_data a) s))) /\
    (forall k lo hi, In (Parted k lo hi) (events s) -> exists a ds, get k s0 = Some a /\
       forall k' a' vs v, In (k', vs) (static (fst k) ++ dynamic (fst k) ds) -> get k' s0 = Some a' -> a_data a' = a_data a -> In v vs ->
         (fixmin (get_data (a_data a) s0) = None -> (lo <= v)%Q) /\ (fixmax (get_data (a_data a) s0) = None -> (v <= hi)%Q)).
  Proof.
    intros R. assert (I := inv_run partition static dynamic cfg limits _ world_values world_data n ops s0 s world_start R). split.
    - intros k a r G S. pose proof (J0 _ _ _ _ _ _ I k) as C. rewrite (info_get k s a G) in C.
      apply (J6 _ _ _ _ _ _ I world_usual k r (a_kind a) (a_data a) (a_paint a)); [unfold shown; rewrite G; exact S|symmetry; exact C].
    - intros k lo hi H. destruct (J9 _ _ _ _ _ _ I world_usual k lo hi H) as (kd & d & p & C & ds & F). unfold cfg, info in C. destruct (get k s0) as [a|] eqn:G; [|discriminate].
      injection C as K D P. exists a, ds. split; [reflexivity|]. intros k' a' vs v Hi G' D' Hv. subst d. apply (F k' vs v (a_kind a') (a_paint a') Hi Hv).
      unfold cfg. rewrite (info_get k' s0 a' G'). congruence.
  Qed.
End Worlds.
Print Assumptions axes_in_order.
Print Assumptions axes_show_ranges.

(** ** The calls come to an end *)
Section Ends.
  Variable partition : data -> Q * Q -> option (Q * Q).
  Variable static : nat -> list (key * list Q).
  Variable dynamic : nat -> list data -> list (key * list Q).

  (** the targets of the links never change *)
  Definition kinds (s : state) : list (key * kind) := map (fun p => (fst p, a_kind (snd p))) (axes s).
  Definition kind_of (k : key) (l : list (key * kind)) : option kind := match find (fun p => key_eqb k (fst p)) l with Some p => Some (snd p) | None => None end.
  Lemma kind_of_get k s : kind_of k (kinds s) = match get k s with Some a => Some (a_kind a) | None => None end.
  Proof. unfold kind_of, kinds, get. induction (axes s) as [|p l IH]; [reflexivity|]. cbn [map find fst]. destruct (key_eqb k (fst p)); [reflexivity|exact IH]. Qed.
  Definition onward (s s' : state) : Prop := (forall k, kind_of k (kinds s') = kind_of k (kinds s)) /\ (forall c, In c (calls s) -> In c (calls s')).
  Lemma onward_trans a b c : onward a b -> onward b c -> onward a c.
  Proof. intros (A1 & A2) (B1 & B2). split; [intros k; rewrite B1; apply A1|auto]. Qed.
  Lemma onward_refl a : onward a a. Proof. split; auto. Qed.
  Lemma onward_axes s s' : axes s' = axes s -> (forall c, In c (calls s) -> In c (calls s')) -> onward s s'.
  Proof. intros A C. split; [|exact C]. unfold kinds. rewrite A. reflexivity. Qed.
  Lemma onward_set k a b s s1 : axes s1 = axes s -> calls s1 = calls s -> get k s = Some a -> a_kind b = a_kind a -> onward s (set_axis k b s1).
  Proof.
    intros A C G K. split; [|intros c; cbn; rewrite C; auto]. intros k'. rewrite !kind_of_get. assert (G1 : forall k, get k s1 = get k s) by (intros; unfold get; rewrite A; reflexivity).
    destruct (key_dec k k') as [<-|N]; [rewrite get_set_same by (rewrite G1; congruence); rewrite G, K; reflexivity|rewrite get_set_other by exact N; rewrite G1; reflexivity].
  Qed.
  Lemma onward_ranges g s : onward s (out (doranges static dynamic g s)).
  Proof.
    unfold doranges. destruct (did (DidRanges g) s); [apply onward_refl|]. destruct (adjusts (static g) (mark (DidRanges g) s)) as [s1|] eqn:A1.
    - destruct (adjusts_facts _ _ _ A1) as (E1 & E2 & _). destruct (adjusts (dynamic g (datas s1)) s1) as [s2|] eqn:A2; cbn [out].
      + destruct (adjusts_facts _ _ _ A2) as (F1 & F2 & _). apply onward_axes; cbn [log axes calls]; [rewrite F1, E1; reflexivity|]. intros c Hc. rewrite F2, E2. right; exact Hc.
      + apply onward_axes; [exact E1|]. intros c Hc. rewrite E2. right; exact Hc.
    - apply onward_axes; [reflexivity|]. intros c Hc. right; exact Hc.
  Qed.
  Lemma onward_setpos k s : onward s (out (setpositioner k s)).
  Proof. unfold setpositioner. destruct (get k s) as [a|] eqn:G; [|apply onward_refl]. destruct (a_pos a); [apply onward_refl|]. eapply onward_set; [reflexivity|reflexivity|exact G|reflexivity]. Qed.
  Lemma onward_anchored k a s : get k s = Some a -> onward s (out (create_anchored partition k a s)).
  Proof.
    intros G. unfold create_anchored. destruct (negb (a_pos a)); [apply onward_refl|]. destruct (dmin _) as [lo|]; [|apply onward_refl]. destruct (dmax _) as [hi|]; [|apply onward_refl].
    destruct (partition _ _) as [(lo', hi')|]; [|apply onward_axes; auto]. cbn [out]. unfold show.
    match goal with |- onward s (log ?e ?x) => apply (onward_trans _ x) end; [|apply onward_axes; auto].
    eapply onward_set; [reflexivity|reflexivity|exact G|reflexivity].
  Qed.
  Lemma onward_linked k a s : get k s = Some a -> onward s (out (create_linked k a s)).
  Proof.
    intros G. unfold create_linked. destruct (_ && _); [apply onward_refl|]. cbn [out]. unfold show.
    match goal with |- onward s (log ?e ?x) => apply (onward_trans _ x) end; [|apply onward_axes; auto].
    eapply onward_set; [reflexivity|reflexivity|exact G|reflexivity].
  Qed.

  (** a set of axes which the calls do not leave *)
  Definition closed (U : list key) (s : state) : Prop :=
    (forall k, In k U -> 2 < snd (snd k) -> In (dependson k) U) /\ (forall k t, In k U -> kind_of k (kinds s) = Some (Linked (Some t)) -> In t U).
  Lemma closed_onward U s s' : closed U s -> onward s s' -> closed U s'.
  Proof. intros (A & B) (C & _). split; [exact A|]. intros k t Hk. rewrite C. apply B. exact Hk. Qed.
  Definition todo (U : list key) (s : state) : nat := length (filter (fun k => negb (did (DidCreate k) s)) U).
  Lemma todo_onward U s s' : onward s s' -> todo U s' <= todo U s.
  Proof.
    intros (_ & C). unfold todo. induction U as [|k U IH]; [auto|]. cbn [filter].
    assert (M : did (DidCreate k) s = true -> did (DidCreate k) s' = true) by (rewrite !did_spec; apply C).
    destruct (did (DidCreate k) s); [rewrite (M eq_refl); exact IH|]. destruct (did (DidCreate k) s'); cbn [negb length]; lia.
  Qed.
  Lemma todo_mark U k s : In k U -> did (DidCreate k) s = false -> todo U (mark (DidCreate k) s) < todo U s.
  Proof.
    intros Hk D. assert (O : onward s (mark (DidCreate k) s)) by (apply onward_axes; [reflexivity|intros c Hc; right; exact Hc]).
    induction U as [|k' U IH]; [contradiction|]. unfold todo in *. cbn [filter].
    pose proof (todo_onward U _ _ O) as Le. unfold todo in Le.
    assert (M : did (DidCreate k') s = true -> did (DidCreate k') (mark (DidCreate k) s) = true) by (rewrite !did_spec; apply O).
    destruct Hk as [->|Hk].
    - rewrite D. assert (did (DidCreate k) (mark (DidCreate k) s) = true) by (apply did_spec; left; reflexivity). rewrite H. cbn [negb length]. lia.
    - specialize (IH Hk). destruct (did (DidCreate k') s); [rewrite (M eq_refl); exact IH|]. destruct (did (DidCreate k') (mark (DidCreate k) s)); cbn [negb length]; lia.
  Qed.

  Lemma create_ends U : forall n k s, closed U s -> In k U -> todo U s <= n ->
    exists r, doaxiscreate partition static dynamic n k s = Some r /\ onward s (out r).
  Proof.
    induction n as [|n IH]; intros k s C Hk Hn; cbn [doaxiscreate]; destruct (did (DidCreate k) s) eqn:D.
    1, 3: eexists; split; [reflexivity|apply onward_refl].
    { exfalso. pose proof (todo_mark U k s Hk D). lia. }
    set (s1 := mark (DidCreate k) s). assert (O1 : onward s s1) by (apply onward_axes; [reflexivity|intros c Hc; right; exact Hc]).
    assert (T1 : todo U s1 <= n) by (pose proof (todo_mark U k s Hk D); unfold s1; lia).
    match goal with |- exists r, bind ?p ?f = _ /\ _ => set (P := p); set (F := f) end.
    assert (HP : exists r, P = Some r /\ onward s1 (out r)).
    { subst P. destruct (did (DidPositioner k) s1); [eexists; split; [reflexivity|apply onward_refl]|].
      set (s2 := mark (DidPositioner k) s1). assert (O2 : onward s1 s2) by (apply onward_axes; [reflexivity|intros c Hc; right; exact Hc]).
      pose proof (onward_ranges (fst k) s2) as O3. destruct (doranges static dynamic (fst k) s2) as [s3|s3]; cbn [bind out] in *;
        [|eexists; split; [reflexivity|exact (onward_trans _ _ _ O2 O3)]].
      assert (O13 := onward_trans _ _ _ O2 O3). destruct (snd (snd k) <=? 2) eqn:N.
      - eexists. split; [reflexivity|]. exact (onward_trans _ _ _ O13 (onward_setpos k s3)).
      - apply Nat.leb_gt in N. assert (O03 := onward_trans _ _ _ O1 O13).
        destruct (IH (dependson k) s3) as (r & Er & Or); [exact (closed_onward _ _ _ C O03)|apply C; assumption|pose proof (todo_onward U _ _ O13); lia|].
        rewrite Er. destruct r as [s4|s4]; cbn [bind out] in *; [|eexists; split; [reflexivity|exact (onward_trans _ _ _ O13 Or)]].
        assert (O14 := onward_trans _ _ _ O13 Or).
        destruct (get (dependson k) s4) as [a|]; [|eexists; split; [reflexivity|exact O14]].
        destruct (a_pos a); [|eexists; split; [reflexivity|exact O14]].
        destruct (a_shown a); [|eexists; split; [reflexivity|exact O14]].
        eexists. split; [reflexivity|]. exact (onward_trans _ _ _ O14 (onward_setpos k s4)). }
    destruct HP as (r & -> & Or). destruct r as [s2|s2]; cbn [bind out] in *; [|eexists; split; [reflexivity|exact (onward_trans _ _ _ O1 Or)]].
    assert (O02 := onward_trans _ _ _ O1 Or). subst F. cbv beta.
    destruct (get k s2) as [a|] eqn:G; [|eexists; split; [reflexivity|exact O02]].
    destruct (a_shown a); [eexists; split; [reflexivity|exact O02]|].
    destruct (a_kind a) as [|[t|]] eqn:Ka.
    - eexists. split; [reflexivity|]. exact (onward_trans _ _ _ O02 (onward_anchored k a s2 G)).
    - destruct (negb (a_pos a)); [eexists; split; [reflexivity|exact O02]|].
      match goal with |- exists r, bind ?p ?f = _ /\ _ => set (P := p); set (F := f) end.
      assert (HP : exists r, P = Some r /\ onward s2 (out r)).
      { subst P. destruct (get t s2) as [b|]; [|eexists; split; [reflexivity|apply onward_refl]]. destruct (a_shown b); [eexists; split; [reflexivity|apply onward_refl]|].
        apply IH; [exact (closed_onward _ _ _ C O02)| |pose proof (todo_onward U _ _ Or); lia].
        apply (proj2 (closed_onward _ _ _ C O02) k t Hk). rewrite kind_of_get, G, Ka. reflexivity. }
      destruct HP as (r & -> & Or2). destruct r as [s3|s3]; cbn [bind out] in *; [|eexists; split; [reflexivity|exact (onward_trans _ _ _ O02 Or2)]].
      assert (O03 := onward_trans _ _ _ O02 Or2). subst F. cbv beta. destruct (get k s3) as [a'|] eqn:G'; [|eexists; split; [reflexivity|exact O03]].
      eexists. split; [reflexivity|]. exact (onward_trans _ _ _ O03 (onward_linked k a' s3 G')).
    - eexists. split; [reflexivity|exact O02].
  Qed.

  (** names with smaller numbers *)
  Definition down (k : key) : list key := map (fun m => (fst k, (fst (snd k), m))) (seq 0 (S (snd (snd k)))).
  Definition targets (s : state) : list key := flat_map (fun p => match a_kind (snd p) with Linked (Some t) => [t] | _ => [] end) (axes s).
  Lemma down_self k : In k (down k).
  Proof. unfold down. apply in_map_iff. exists (snd (snd k)). destruct k as [g [l m]]. split; [reflexivity|]. cbn [fst snd]. apply in_seq. lia. Qed.
  Lemma closed_universe s ks : closed (flat_map down (ks ++ targets s)) s.
  Proof.
    split.
    - intros k Hk _. apply in_flat_map in Hk. destruct Hk as (k0 & H0 & Hk). apply in_flat_map. exists k0. split; [exact H0|].
      unfold down in *. apply in_map_iff in Hk. destruct Hk as (m & <- & Hm). apply in_seq in Hm. apply in_map_iff. exists (m - 2). split; [reflexivity|]. apply in_seq. lia.
    - intros k t _ Hk. apply in_flat_map. exists t. split; [|apply down_self]. apply in_or_app. right. unfold targets. apply in_flat_map.
      rewrite kind_of_get in Hk. destruct (get k s) as [a|] eqn:G; [|discriminate]. exists (k, a). split; [exact (get_in _ _ _ G)|]. injection Hk as Hk. cbn [snd]. rewrite Hk. left; reflexivity.
  Qed.
  Lemma creates_end U ks : forall n s, closed U s -> (forall k, In k ks -> In k U) -> todo U s <= n -> exists r, creates partition static dynamic n ks s = Some r /\ onward s (out r).
  Proof.
    induction ks as [|k ks IH]; intros n s C Hk Hn; cbn [creates]; [eexists; split; [reflexivity|apply onward_refl]|].
    destruct (create_ends U n k s C (Hk k (or_introl eq_refl)) Hn) as (r & Er & Or). rewrite Er. destruct r as [s1|s1]; cbn [bind out] in *; [|eexists; split; [reflexivity|exact Or]].
    destruct (IH n s1) as (r & E & O); [exact (closed_onward _ _ _ C Or)|intros k' Hk'; apply Hk; right; exact Hk'|pose proof (todo_onward U _ _ Or); lia|].
    exists r. split; [exact E|exact (onward_trans _ _ _ Or O)].
  Qed.

  (** the axes an operation begins with *)
  Definition begins (s : state) (o : op) : list key := match o with Create k | Convert k => [k] | _ => [] end.
  Lemma step_ends U n o s : closed U s -> (forall k, In k (begins s o) -> In k U) -> (forall k, In k (map fst (kinds s)) -> In k U) -> todo U s <= n ->
    exists r, step partition static dynamic n o s = Some r /\ onward s (out r).
  Proof.
    intros C Hb Hk Hn. destruct o as [g|k|k|g]; cbn [step begins] in *.
    - eexists. split; [reflexivity|apply onward_ranges].
    - apply (create_ends U); [exact C|apply Hb; left; reflexivity|exact Hn].
    - destruct (get k s) as [a|]; [|eexists; split; [reflexivity|apply onward_refl]]. destruct (a_shown a); [eexists; split; [reflexivity|apply onward_refl]|].
      apply (create_ends U); [exact C|apply Hb; left; reflexivity|exact Hn].
    - unfold dolayout. destruct (did (DidLayout g) s); [eexists; split; [reflexivity|apply onward_refl]|].
      set (s1 := mark (DidLayout g) s). assert (O1 : onward s s1) by (apply onward_axes; [reflexivity|intros c Hc; right; exact Hc]).
      destruct (creates_end U (filter (fun k => fst k =? g) (map fst (axes s))) n s1) as (r & E & O).
      + exact (closed_onward _ _ _ C O1).
      + intros k Hi. apply filter_In in Hi. apply Hk. unfold kinds. rewrite map_map. exact (proj1 Hi).
      + pose proof (todo_onward U _ _ O1). lia.
      + exists r. split; [exact E|exact (onward_trans _ _ _ O1 O)].
  Qed.

  (** Whatever the caller does, the calls of functions do not go deeper than some bound *)
  Theorem axes_terminate ops s : exists n s', run partition static dynamic n ops s = Some s'.
  Proof.
    set (U := flat_map down ((flat_map (begins s) ops ++ map fst (kinds s)) ++ targets s)).
    exists (todo U s). assert (Cs : closed U s) by apply closed_universe. assert (Us : forall k, In k (map fst (kinds s)) -> In k U).
    { intros k Hk. apply in_flat_map. exists k. split; [apply in_or_app; left; apply in_or_app; right; exact Hk|apply down_self]. }
    assert (Ub : forall o k, In o ops -> In k (begins s o) -> In k U).
    { intros o k Ho Hk. apply in_flat_map. exists k. split; [|apply down_self]. apply in_or_app; left. apply in_or_app; left. apply in_flat_map. exists o. auto. }
    assert (Gen : forall n s1, onward s s1 -> (forall k, In k (map fst (kinds s1)) -> In k U) -> todo U s1 <= n ->
      (forall o k, In o ops -> In k (begins s o) -> In k U) -> exists s', run partition static dynamic n ops s1 = Some s').
    { clear Ub. clearbody U. induction ops as [|o ops IH]; intros n s1 O K T B; cbn [run]; [eexists; reflexivity|].
      destruct (step_ends U n o s1) as (r & E & O'); [exact (closed_onward _ _ _ Cs O)|intros k; apply (B o k (or_introl eq_refl))|exact K|exact T|].
      rewrite E. apply IH; [exact (onward_trans _ _ _ O O')| |pose proof (todo_onward U _ _ O'); lia|intros o' k Ho; apply B; right; exact Ho].
      intros k Hk. apply K. assert (X1 : kind_of k (kinds (out r)) <> None).
      { unfold kind_of. apply in_map_iff in Hk. destruct Hk as (p & <- & Hp). destruct (find (fun q => key_eqb (fst p) (fst q)) (kinds (out r))) eqn:Fd; [discriminate|].
        pose proof (find_none _ _ Fd p Hp) as Q1. cbn in Q1. rewrite key_eqb_refl in Q1. discriminate. }
      rewrite (proj1 O' k) in X1. unfold kind_of in X1. destruct (find (fun q => key_eqb k (fst q)) (kinds s1)) as [p|] eqn:Fd; [|congruence].
      apply find_some in Fd. destruct Fd as (Fp & Fk). apply key_eqb_spec in Fk. subst k. apply in_map. exact Fp. }
    apply (Gen (todo U s) s); [apply onward_refl|exact Us|lia|exact Ub].
  Qed.
End Ends.
Print Assumptions axes_terminate.

(** ** Examples *)
Definition x : key := (0, (X, 1)). Definition x2 : key := (0, (X, 2)). Definition x3 : key := (0, (X, 3)). Definition y : key := (0, (Y, 1)).
Definition anchor (d : nat) : axis := mkaxis Anchored d true false None.
Definition link (t : key) (d : nat) : axis := mkaxis (Linked (Some t)) d true false None.
Definition nodata : data := mkdata None None None None false.
(** the range is kept if it is not empty *)
Definition keep_range (d : data) (r : Q * Q) : option (Q * Q) := if Qeq_bool (fst r) (snd r) then None else Some r.
(** a graph with the axes x, x2 (linked to x), x3 and y, and values for x, x2 and y *)
Definition world : state := mkstate [(x2, link x 0); (x, anchor 0); (x3, anchor 1); (y, anchor 2)] [nodata; mkdata (Some 0) (Some 9) (Some 0) (Some 9) false; nodata]%Q [] [].
Definition values (g : nat) : list (key * list Q) := match g with 0 => [(x, [2; 5]); (x2, [7]); (y, [1; 3])]%Q | _ => [] end.
Example axes_in_order_ex : exists s, run keep_range values (fun _ _ => []) 5 [Convert x3; Layout 0] world = Some s /\
  events s = [Ranged 0; Parted x 2 7; Created x; Parted x3 0 9; Created x3; Created x2; Parted y 1 3; Created y]%Q /\
  option_map a_shown (get x2 s) = Some (Some (Some 2, Some 7))%Q.
Proof. exists (match run keep_range values (fun _ _ => []) 5 [Convert x3; Layout 0] world with Some s => s | None => world end). split; [vm_compute; reflexivity|]. split; vm_compute; reflexivity. Qed.
Example world_fresh : fresh world.
Proof.
  split; [reflexivity|]. split; [reflexivity|]. split.
  - intros p Hp. cbn in Hp. repeat destruct Hp as [<-|Hp]; cbn; auto with arith. contradiction.
  - intros [|[|[|[|d]]]]; reflexivity.
Qed.

(** ** What goes wrong *)
(** after an exception the second try is silent: without values for y the first dolayout raises an exception, the second does not, and
    the axis y has no canvas *)
Definition novalues (g : nat) : list (key * list Q) := match g with 0 => [(x, [2; 5])]%Q | _ => [] end.
Theorem failed_layout_refuted : exists s1 s2, dolayout keep_range novalues (fun _ _ => []) 5 0 world = Some (Exn s1) /\
  dolayout keep_range novalues (fun _ _ => []) 5 0 s1 = Some (Ok s2) /\ option_map a_shown (get y s2) = Some None.
Proof.
  set (f := fun o => match o with Some r => out r | None => world end).
  exists (f (dolayout keep_range novalues (fun _ _ => []) 5 0 world)), (f (dolayout keep_range novalues (fun _ _ => []) 5 0 (f (dolayout keep_range novalues (fun _ _ => []) 5 0 world)))).
  split; [vm_compute; reflexivity|]. split; vm_compute; reflexivity.
Qed.
Print Assumptions failed_layout_refuted.

(** linked axes of two graphs: x of graph 1 is linked to x of graph 0, and the values of graph 1 go further.  After the first graph is
    laid out, the second one changes the range: the axes show different ranges, and x of graph 0 shows another range than it converts with *)
Definition two : state := mkstate [(x, anchor 0); ((1, (X, 1)), link x 0)] [nodata] [] [].
Definition values2 (g : nat) : list (key * list Q) := match g with 0 => [(x, [2; 5])]%Q | 1 => [((1, (X, 1)), [20%Q])] | _ => [] end.
Theorem linked_range_refuted : exists s, run keep_range values2 (fun _ _ => []) 5 [Layout 0; Layout 1] two = Some s /\
  option_map a_shown (get x s) = Some (Some (Some 2, Some 5))%Q /\ option_map a_shown (get (1, (X, 1)) s) = Some (Some (Some 2, Some 20))%Q /\
  dmax (get_data 0 s) = Some 20%Q.
Proof.
  exists (match run keep_range values2 (fun _ _ => []) 5 [Layout 0; Layout 1] two with Some s => s | None => two end).
  split; [vm_compute; reflexivity|]. split; [vm_compute; reflexivity|]. split; vm_compute; reflexivity.
Qed.
Print Assumptions linked_range_refuted.
