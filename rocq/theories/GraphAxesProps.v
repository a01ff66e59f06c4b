(** * Which axes a graph has (GraphAxesModel.v, first part) *)
From Coq Require Import Arith Bool List Lia.
From Verif Require Import GraphAxesModel.
Import ListNotations.
Open Scope nat_scope.

Lemma letter_eqb_spec a b : letter_eqb a b = true <-> a = b.
Proof. destruct a, b; cbn; split; congruence. Qed.
Lemma name_eqb_spec a b : name_eqb a b = true <-> a = b.
Proof.
  destruct a as [l n], b as [m k]. unfold name_eqb. cbn [fst snd]. rewrite andb_true_iff, letter_eqb_spec, Nat.eqb_eq. split.
  - intros (-> & ->). reflexivity.
  - intros E. split; congruence.
Qed.
Lemma name_eqb_refl a : name_eqb a a = true. Proof. apply name_eqb_spec; reflexivity. Qed.
Lemma name_eqb_neq a b : a <> b -> name_eqb a b = false.
Proof. intros N. destruct (name_eqb a b) eqn:E; [|reflexivity]. apply name_eqb_spec in E. contradiction. Qed.
Lemma name_dec (a b : name) : a = b \/ a <> b.
Proof. destruct (name_eqb a b) eqn:E; [left; apply name_eqb_spec; exact E|right; intros ->; rewrite name_eqb_refl in E; discriminate]. Qed.

Section Dict.
  Context {B : Type}.
  Implicit Types d : dict B.
  Lemma lookup_nil n : lookup (B := B) n [] = None. Proof. reflexivity. Qed.
  Lemma lookup_cons n p d : lookup n (p :: d) = if name_eqb n (fst p) then Some (snd p) else lookup n d.
  Proof. unfold lookup. cbn [find]. destruct (name_eqb n (fst p)); reflexivity. Qed.
  Lemma lookup_store_same n b d : lookup n (store n b d) = Some b.
  Proof.
    induction d as [|p d IH]; cbn [store]; [rewrite lookup_cons; cbn [fst snd]; rewrite name_eqb_refl; reflexivity|].
    destruct (name_eqb n (fst p)) eqn:E; rewrite lookup_cons; cbn [fst snd]; [rewrite name_eqb_refl; reflexivity|rewrite E; exact IH].
  Qed.
  Lemma lookup_store_other n m b d : n <> m -> lookup m (store n b d) = lookup m d.
  Proof.
    intros N. induction d as [|p d IH]; cbn [store].
    - rewrite lookup_cons; cbn [fst snd]. rewrite name_eqb_neq by congruence. reflexivity.
    - destruct (name_eqb n (fst p)) eqn:E; rewrite !lookup_cons; cbn [fst snd].
      + apply name_eqb_spec in E. rewrite <- E, name_eqb_neq by congruence. reflexivity.
      + rewrite IH. reflexivity.
  Qed.
  Lemma lookup_none n d : lookup n d = None <-> ~ In n (map fst d).
  Proof.
    induction d as [|p d IH]; [cbn; split; [tauto|reflexivity]|]. rewrite lookup_cons. cbn [map In].
    destruct (name_eqb n (fst p)) eqn:E.
    - apply name_eqb_spec in E. split; [discriminate|intros N; exfalso; apply N; left; congruence].
    - rewrite IH. split; [intros N [F|F]; [subst; rewrite name_eqb_refl in E; discriminate|contradiction]|tauto].
  Qed.
  Lemma store_names n b d : map fst (store n b d) = if existsb (fun p => name_eqb n (fst p)) d then map fst d else map fst d ++ [n].
  Proof.
    induction d as [|p d IH]; [reflexivity|]. cbn [store existsb]. destruct (name_eqb n (fst p)) eqn:E; cbn [orb map fst].
    - apply name_eqb_spec in E. rewrite E. reflexivity.
    - rewrite IH. destruct (existsb _ d); reflexivity.
  Qed.
  Lemma nodup_store n b d : NoDup (map fst d) -> NoDup (map fst (store n b d)).
  Proof.
    intros H. rewrite store_names. destruct (existsb _ d) eqn:E; [exact H|].
    rewrite <- rev_involutive. apply NoDup_rev. rewrite rev_app_distr. cbn. constructor; [|apply NoDup_rev; exact H].
    intros F. apply in_rev in F. apply in_map_iff in F. destruct F as (p & <- & Hp).
    assert (existsb (fun q => name_eqb (fst p) (fst q)) d = true) by (apply existsb_exists; exists p; split; [exact Hp|apply name_eqb_refl]). congruence.
  Qed.
  Lemma lookup_app n d d' : lookup n (d ++ d') = match lookup n d with Some b => Some b | None => lookup n d' end.
  Proof. induction d as [|p d IH]; [reflexivity|]. cbn [app]. rewrite !lookup_cons. destruct (name_eqb n (fst p)); [reflexivity|exact IH]. Qed.
End Dict.

Section Table.
  Variables A K : Type.
  Variable default : A.
  Variable change : K -> A -> option A.
  Variable change_linked : K -> option K.
  Notation entry := (entry A K).

  Lemma default_lookup l (axes : dict (option A)) n : lookup n (default_axis A default l axes) =
    if name_eqb n (l, 1) then match lookup (l, 1) axes with Some x => Some x | None => match lookup (l, 2) axes with Some (Some _) => None | _ => Some (Some default) end end
    else lookup n axes.
  Proof.
    unfold default_axis. destruct (name_dec n (l, 1)) as [->|N].
    - rewrite name_eqb_refl. destruct (lookup (l, 1) axes) eqn:E; [exact E|].
      destruct (lookup (l, 2) axes) as [[a|]|] eqn:E2; [exact E| |]; apply lookup_store_same.
    - rewrite (name_eqb_neq _ _ N). destruct (lookup (l, 1) axes); [reflexivity|].
      destruct (lookup (l, 2) axes) as [[a|]|]; [reflexivity| |]; apply lookup_store_other; congruence.
  Qed.
  Lemma default_nodup l (axes : dict (option A)) : NoDup (map fst axes) -> NoDup (map fst (default_axis A default l axes)).
  Proof. intros H. unfold default_axis. destruct (lookup (l, 1) axes); [exact H|]. destruct (lookup (l, 2) axes) as [[a|]|]; [exact H| |]; apply nodup_store; exact H. Qed.

  Lemma apply_split_ok split : forall axes later, NoDup (map fst split) -> NoDup (map fst axes) ->
    match apply_split A K change split axes later with
    | Some (axes', later') => NoDup (map fst axes') /\
        (forall n, match lookup n split with
                   | None => lookup n axes' = lookup n axes
                   | Some k => match lookup n axes with
                               | Some (Some a) => exists a', change k a = Some a' /\ lookup n axes' = Some (Some a')
                               | Some None => False
                               | None => lookup n axes' = None
                               end
                   end) /\
        later' = later ++ filter (fun p => match lookup (fst p) axes with None => true | Some _ => false end) split
    | None => exists n k, lookup n split = Some k /\ match lookup n axes with Some (Some a) => change k a = None | Some None => True | None => False end
    end.
  Proof.
    induction split as [|(n, k) split IH]; intros axes later Hs Ha; cbn [apply_split].
    - split; [exact Ha|]. split; [intros n; reflexivity|]. cbn. rewrite app_nil_r. reflexivity.
    - inversion Hs as [|? ? Hn Hs']; subst. assert (Ln : lookup n split = None) by (apply lookup_none; exact Hn).
      destruct (lookup n axes) as [[a|]|] eqn:E.
      + destruct (change k a) as [a'|] eqn:C.
        * specialize (IH (store n (Some a') axes) later Hs' (nodup_store _ _ _ Ha)).
          destruct (apply_split A K change split (store n (Some a') axes) later) as [(axes', later')|].
          -- destruct IH as (I1 & I2 & I3). split; [exact I1|]. split.
             ++ intros m. rewrite lookup_cons. cbn [fst snd]. specialize (I2 m). destruct (name_dec m n) as [->|N].
                ** rewrite name_eqb_refl, E. exists a'. split; [exact C|]. rewrite Ln, lookup_store_same in I2. exact I2.
                ** rewrite (name_eqb_neq _ _ N). rewrite lookup_store_other in I2 by congruence. exact I2.
             ++ rewrite I3. cbn [filter fst]. rewrite E. f_equal. apply filter_ext_in. intros (m, k') Hm. cbn [fst].
                rewrite lookup_store_other; [reflexivity|]. intros <-. apply Hn. apply in_map_iff. exists (n, k'). split; [reflexivity|exact Hm].
          -- destruct IH as (m & k' & I1 & I2). exists m, k'. rewrite lookup_cons. cbn [fst snd].
             assert (N : m <> n) by (intros ->; rewrite Ln in I1; discriminate). rewrite (name_eqb_neq _ _ N). split; [exact I1|].
             rewrite lookup_store_other in I2 by congruence. exact I2.
        * exists n, k. rewrite lookup_cons. cbn [fst snd]. rewrite name_eqb_refl, E. split; [reflexivity|exact C].
      + exists n, k. rewrite lookup_cons. cbn [fst snd]. rewrite name_eqb_refl, E. split; [reflexivity|exact I].
      + specialize (IH axes (later ++ [(n, k)]) Hs' Ha). destruct (apply_split A K change split axes (later ++ [(n, k)])) as [(axes', later')|].
        * destruct IH as (I1 & I2 & I3). split; [exact I1|]. split.
          -- intros m. rewrite lookup_cons. cbn [fst snd]. destruct (name_dec m n) as [->|N].
             ++ rewrite name_eqb_refl, E. specialize (I2 n). rewrite Ln, E in I2. exact I2.
             ++ rewrite (name_eqb_neq _ _ N). apply I2.
          -- rewrite I3. cbn [filter fst]. rewrite E, <- app_assoc. reflexivity.
        * destruct IH as (m & k' & I1 & I2). exists m, k'. rewrite lookup_cons. cbn [fst snd].
          assert (N : m <> n) by (intros ->; rewrite Ln in I1; discriminate). rewrite (name_eqb_neq _ _ N). split; [exact I1|exact I2].
  Qed.

  Lemma anchored_names n (axes : dict (option A)) : In n (map fst (anchored A K axes)) -> In n (map fst axes).
  Proof.
    induction axes as [|(m, [a|]) axes IH]; cbn [anchored map In fst]; [tauto| |].
    - intros [E|E]; [left; exact E|right; auto].
    - intros E; right; auto.
  Qed.
  Lemma anchored_lookup n (axes : dict (option A)) : NoDup (map fst axes) ->
    lookup n (anchored A K axes) = match lookup n axes with Some (Some a) => Some (Own a) | _ => None end.
  Proof.
    induction axes as [|(m, o) axes IH]; [reflexivity|]. intros H. inversion H as [|? ? Hm H']; subst. rewrite lookup_cons. cbn [fst snd].
    destruct o as [a|]; cbn [anchored].
    - rewrite lookup_cons. cbn [fst snd]. destruct (name_eqb n m); [reflexivity|apply IH; exact H'].
    - destruct (name_eqb n m) eqn:E; [|apply IH; exact H']. apply name_eqb_spec in E. subst. apply lookup_none. intros F. apply Hm, anchored_names, F.
  Qed.

  Definition bad (l : letter) (at_ : bool) (axes : dict (option A)) : Prop := lookup (l, 1) axes = Some None /\ lookup (l, 2) axes = None /\ at_ = true.

  Lemma add_linked_ok l at_ (axes : dict (option A)) (s : dict entry) :
    (lookup (l, 1) axes = None -> exists a, lookup (l, 2) axes = Some (Some a)) ->
    (lookup (l, 1) s = match lookup (l, 1) axes with Some (Some a) => Some (Own a) | _ => None end) ->
    match add_linked A K l at_ axes s with
    | Some s' => ~ bad l at_ axes /\
        forall n, lookup n s' =
          if name_eqb n (l, 1) then match lookup (l, 1) axes with None => Some (LinkedTo (l, 2) None) | Some _ => lookup n s end
          else if name_eqb n (l, 2) then match lookup (l, 2) axes with None => if at_ then Some (LinkedTo (l, 1) None) else lookup n s | Some _ => lookup n s end
          else lookup n s
    | None => bad l at_ axes
    end.
  Proof.
    intros H1 H2. unfold add_linked, bad. destruct (lookup (l, 1) axes) as [o|] eqn:E1.
    - destruct (lookup (l, 2) axes) as [o2|] eqn:E2.
      + split; [intros (_ & F & _); discriminate|]. intros n. destruct (name_eqb n (l, 1)); [reflexivity|]. destruct (name_eqb n (l, 2)); reflexivity.
      + destruct at_.
        * rewrite H2. destruct o as [a|]; [|auto]. split; [intros (F & _); discriminate|]. intros n. destruct (name_dec n (l, 2)) as [->|N].
          -- rewrite lookup_store_same. rewrite (name_eqb_neq (l, 2) (l, 1)) by congruence. rewrite name_eqb_refl. reflexivity.
          -- rewrite lookup_store_other by congruence. rewrite (name_eqb_neq n (l, 2)) by exact N. destruct (name_eqb n (l, 1)); reflexivity.
        * split; [intros (_ & _ & F); discriminate|]. intros n. destruct (name_eqb n (l, 1)); [reflexivity|]. destruct (name_eqb n (l, 2)); reflexivity.
    - destruct (H1 eq_refl) as (a & E2). rewrite E2. split; [intros (F & _); discriminate|]. intros n. destruct (name_dec n (l, 1)) as [->|N].
      + rewrite lookup_store_same, name_eqb_refl. reflexivity.
      + rewrite lookup_store_other by congruence. rewrite (name_eqb_neq n (l, 1)) by exact N. destruct (name_eqb n (l, 2)); reflexivity.
  Qed.

  (** a keyword applied to an axis *)
  Definition changed (e : entry) (k : K) : option entry :=
    match e with
    | Own a => match change k a with Some a' => Some (Own a') | None => None end
    | LinkedTo t _ => match change_linked k with Some k' => Some (LinkedTo t (Some k')) | None => None end
    end.
  Lemma apply_later_ok later : forall s : dict entry, NoDup (map fst later) ->
    match apply_later A K change change_linked later s with
    | Some s' => forall n, match lookup n later with
                           | None => lookup n s' = lookup n s
                           | Some k => exists e e', lookup n s = Some e /\ changed e k = Some e' /\ lookup n s' = Some e'
                           end
    | None => exists n k, lookup n later = Some k /\ match lookup n s with Some e => changed e k = None | None => True end
    end.
  Proof.
    induction later as [|(n, k) later IH]; intros s H; cbn [apply_later]; [intros n; reflexivity|].
    inversion H as [|? ? Hn H']; subst. assert (Ln : lookup n later = None) by (apply lookup_none; exact Hn).
    assert (Step : forall e', (exists e, lookup n s = Some e /\ changed e k = Some e') ->
      match apply_later A K change change_linked later (store n e' s) with
      | Some s' => forall m, match lookup m ((n, k) :: later) with
                             | None => lookup m s' = lookup m s
                             | Some k => exists e e', lookup m s = Some e /\ changed e k = Some e' /\ lookup m s' = Some e'
                             end
      | None => exists m k', lookup m ((n, k) :: later) = Some k' /\ match lookup m s with Some e => changed e k' = None | None => True end
      end).
    { intros e' (e & He & Hc). specialize (IH (store n e' s) H'). destruct (apply_later A K change change_linked later (store n e' s)) as [s'|].
      - intros m. rewrite lookup_cons. cbn [fst snd]. specialize (IH m). destruct (name_dec m n) as [->|N].
        + rewrite name_eqb_refl. rewrite Ln, lookup_store_same in IH. exists e, e'. auto.
        + rewrite (name_eqb_neq _ _ N). rewrite lookup_store_other in IH by congruence. exact IH.
      - destruct IH as (m & k' & I1 & I2). exists m, k'. rewrite lookup_cons. cbn [fst snd].
        assert (N : m <> n) by (intros ->; rewrite Ln in I1; discriminate). rewrite (name_eqb_neq _ _ N). split; [exact I1|].
        rewrite lookup_store_other in I2 by congruence. exact I2. }
    assert (Fail : (match lookup n s with Some e => changed e k = None | None => True end) ->
       exists m k', lookup m ((n, k) :: later) = Some k' /\ match lookup m s with Some e => changed e k' = None | None => True end).
    { intros F. exists n, k. rewrite lookup_cons. cbn [fst snd]. rewrite name_eqb_refl. split; [reflexivity|exact F]. }
    destruct (lookup n s) as [[a|t o]|] eqn:E.
    - destruct (change k a) as [a'|] eqn:C.
      + apply Step. exists (Own a). split; [reflexivity|]. cbn. rewrite C. reflexivity.
      + apply Fail. cbn. rewrite C. reflexivity.
    - destruct (change_linked k) as [k'|] eqn:C.
      + apply Step. exists (LinkedTo t o). split; [reflexivity|]. cbn. rewrite C. reflexivity.
      + apply Fail. cbn. rewrite C. reflexivity.
    - apply Fail. exact I.
  Qed.

  (** the axis a name stands for if no keywords with an underscore are given *)
  Definition plain (axes : dict (option A)) (xat yat : bool) (n : name) : option entry :=
    match lookup n axes with
    | Some (Some a) => Some (Own a)
    | Some None => None
    | None => match n with
              | (l, 1) => match lookup (l, 2) axes with Some (Some _) => Some (LinkedTo (l, 2) None) | _ => Some (Own default) end
              | (l, 2) => if (match l with X => xat | Y => yat end) then Some (LinkedTo (l, 1) None) else None
              | _ => None
              end
    end.

  Lemma lookup_filter n f (d : dict K) : (forall p, In p d -> fst p = n -> f p = true) -> lookup n (filter f d) = lookup n d.
  Proof.
    induction d as [|p d IH]; [reflexivity|]. intros H. cbn [filter]. destruct (f p) eqn:E; rewrite ?lookup_cons.
    - destruct (name_eqb n (fst p)); [reflexivity|]. apply IH. intros q Hq. apply H. right; exact Hq.
    - destruct (name_eqb n (fst p)) eqn:F.
      + apply name_eqb_spec in F. rewrite (H p (or_introl eq_refl) (eq_sym F)) in E. discriminate.
      + apply IH. intros q Hq. apply H. right; exact Hq.
  Qed.
  Lemma lookup_filter_none n f (d : dict K) : (forall p, In p d -> fst p = n -> f p = false) -> lookup n (filter f d) = None.
  Proof.
    intros H. apply lookup_none. intros F. apply in_map_iff in F. destruct F as (p & E & Hp). apply filter_In in Hp. destruct Hp as (Hp & Hf).
    rewrite (H p Hp E) in Hf. discriminate.
  Qed.
  Lemma nodup_filter f (d : dict K) : NoDup (map fst d) -> NoDup (map fst (filter f d)).
  Proof.
    induction d as [|p d IH]; [auto|]. intros H. inversion H as [|? ? Hp H']; subst. cbn [filter]. destruct (f p); [|auto]. cbn [map]. constructor; [|auto].
    intros F. apply Hp. apply in_map_iff in F. destruct F as (q & E & Hq). apply filter_In in Hq. rewrite <- E. apply in_map. tauto.
  Qed.

  Theorem graph_axes axes split xat yat : NoDup (map fst axes) -> NoDup (map fst split) ->
    match graphxy_axes A K default change change_linked axes split xat yat with
    | Some r => ~ bad X xat axes /\ ~ bad Y yat axes /\
        forall n, match plain axes xat yat n, lookup n split with
                  | o, None => lookup n r = o
                  | Some e, Some k => exists e', changed e k = Some e' /\ lookup n r = Some e'
                  | None, Some _ => False
                  end
    | None => bad X xat axes \/ bad Y yat axes \/
        exists n k, lookup n split = Some k /\ match plain axes xat yat n with Some e => changed e k = None | None => True end
    end.
  Proof.
    intros Ha Hs. unfold graphxy_axes.
    set (a1 := default_axis A default Y (default_axis A default X axes)).
    assert (N1 : NoDup (map fst a1)) by (apply default_nodup, default_nodup, Ha).
    assert (L1 : forall l m, lookup (l, m) a1 = if m =? 1 then match lookup (l, 1) axes with Some x => Some x | None => match lookup (l, 2) axes with Some (Some _) => None | _ => Some (Some default) end end else lookup (l, m) axes).
    { intros l m. unfold a1. rewrite !default_lookup. unfold name_eqb. cbn [fst snd]. destruct l; cbn [letter_eqb andb].
      - destruct (m =? 1) eqn:E; [apply Nat.eqb_eq in E; subst m|]; reflexivity.
      - destruct (m =? 1) eqn:E; [apply Nat.eqb_eq in E; subst m|]; reflexivity. }
    assert (B1 : forall l at_, bad l at_ a1 <-> bad l at_ axes).
    { intros l at_. unfold bad. rewrite !L1. change (1 =? 1) with true. change (2 =? 1) with false. cbv iota.
      destruct (lookup (l, 1) axes); [tauto|]. destruct (lookup (l, 2) axes) as [[a|]|]; split; intros (F & _); discriminate. }
    clearbody a1.
    pose proof (apply_split_ok split a1 [] Hs N1) as P. destruct (apply_split A K change split a1 []) as [(a2, later)|].
    2: { destruct P as (n & k & P1 & P2). right; right. exists n, k. split; [exact P1|]. destruct n as [l m]. rewrite L1 in P2. unfold plain.
         destruct (m =? 1) eqn:E.
         - apply Nat.eqb_eq in E. subst m. destruct (lookup (l, 1) axes) as [[a|]|]; [cbn; rewrite P2; reflexivity|exact I|].
           destruct (lookup (l, 2) axes) as [[a|]|]; [contradiction| |]; cbn; rewrite P2; reflexivity.
         - destruct (lookup (l, m) axes) as [[a|]|]; [cbn; rewrite P2; reflexivity|exact I|contradiction]. }
    destruct P as (N2 & L2 & Hl). cbn [app] in Hl.
    assert (L2' : forall n, match lookup n a2 with None => lookup n a1 = None | Some None => lookup n a1 = Some None | Some (Some a) => exists b, lookup n a1 = Some (Some b) end).
    { intros n. specialize (L2 n). destruct (lookup n split).
      - destruct (lookup n a1) as [[b|]|] eqn:E; [|contradiction|rewrite L2; reflexivity]. destruct L2 as (a' & _ & ->). exists b. reflexivity.
      - rewrite L2. destruct (lookup n a1) as [[b|]|]; eauto. }
    assert (B2 : forall l at_, bad l at_ a2 <-> bad l at_ axes).
    { intros l at_. rewrite <- B1. unfold bad. pose proof (L2' (l, 1)) as Q1. pose proof (L2' (l, 2)) as Q2.
      destruct (lookup (l, 1) a2) as [[a|]|]; [destruct Q1 as (b & ->)|rewrite Q1|rewrite Q1]; split; intros (F1 & F2 & F3); try discriminate;
        (split; [reflexivity|]); (split; [|exact F3]); destruct (lookup (l, 2) a2) as [[a2'|]|]; try destruct Q2 as (b2 & Q2); congruence. }
    assert (G : forall l, lookup (l, 1) a2 = None -> exists a, lookup (l, 2) a2 = Some (Some a)).
    { intros l F. pose proof (L2' (l, 1)) as Q1. rewrite F in Q1. rewrite L1 in Q1. change (1 =? 1) with true in Q1. cbv iota in Q1.
      destruct (lookup (l, 1) axes); [discriminate|]. destruct (lookup (l, 2) axes) as [[a|]|] eqn:E; try discriminate.
      pose proof (L2' (l, 2)) as Q2. rewrite L1 in Q2. change (2 =? 1) with false in Q2. cbv iota in Q2. rewrite E in Q2.
      destruct (lookup (l, 2) a2) as [[a'|]|]; [eexists; reflexivity|discriminate|discriminate]. }
    assert (AX := add_linked_ok X xat a2 (anchored A K a2) (G X) (anchored_lookup _ _ N2)).
    destruct (add_linked A K X xat a2 (anchored A K a2)) as [s1|]; [|left; apply B2; exact AX].
    destruct AX as (BX & LX).
    assert (AY : lookup (Y, 1) s1 = match lookup (Y, 1) a2 with Some (Some a) => Some (Own a) | _ => None end).
    { rewrite LX. cbn. apply anchored_lookup. exact N2. }
    apply (add_linked_ok Y yat a2 s1 (G Y)) in AY. destruct (add_linked A K Y yat a2 s1) as [s2|]; [|right; left; apply B2; exact AY].
    destruct AY as (BY & LY).
    (* the axes before the keywords for linked axes *)
    assert (S2 : forall n, lookup n s2 = match lookup n a2 with Some (Some a) => Some (Own a) | Some None => None | None => plain axes xat yat n end).
    { intros (l, m). rewrite LY, !LX. rewrite (anchored_lookup _ _ N2). unfold name_eqb. cbn [fst snd].
      pose proof (L2' (l, m)) as Q. rewrite L1 in Q. unfold plain.
      destruct m as [|[|[|m]]]; cbn [Nat.eqb] in Q.
      - destruct (lookup (l, 0) a2) as [[a|]|] eqn:E; [| |rewrite Q]; destruct l; cbn [letter_eqb andb Nat.eqb]; rewrite ?E; reflexivity.
      - destruct (lookup (l, 1) a2) as [[a|]|] eqn:E; destruct l; cbn [letter_eqb andb Nat.eqb]; rewrite ?E; try reflexivity;
          (destruct (lookup (_, 1) axes); [discriminate|]); (destruct (lookup (_, 2) axes) as [[a|]|]; [reflexivity|discriminate|discriminate]).
      - destruct (lookup (l, 2) a2) as [[a|]|] eqn:E; [| |rewrite Q]; destruct l; cbn [letter_eqb andb Nat.eqb]; rewrite ?E; reflexivity.
      - destruct (lookup (l, S (S (S m))) a2) as [[a|]|] eqn:E; [| |rewrite Q]; destruct l; cbn [letter_eqb andb Nat.eqb]; rewrite ?E; reflexivity. }
    assert (NL : NoDup (map fst later)) by (rewrite Hl; apply nodup_filter; exact Hs).
    assert (LL : forall n, lookup n later = match lookup n a1 with None => lookup n split | Some _ => None end).
    { intros n. rewrite Hl. destruct (lookup n a1) eqn:E.
      - apply lookup_filter_none. intros p _ <-. rewrite E. reflexivity.
      - apply lookup_filter. intros p _ <-. rewrite E. reflexivity. }
    assert (Pl : forall n, match lookup n a1 with Some (Some a) => plain axes xat yat n = Some (Own a) | Some None => plain axes xat yat n = None | None => lookup n axes = None end).
    { intros (l, m). rewrite L1. unfold plain. destruct (m =? 1) eqn:E.
      - apply Nat.eqb_eq in E. subst m. destruct (lookup (l, 1) axes) as [[a|]|]; try reflexivity. destruct (lookup (l, 2) axes) as [[a|]|]; reflexivity.
      - destruct (lookup (l, m) axes) as [[a|]|]; reflexivity. }
    pose proof (apply_later_ok later s2 NL) as R. destruct (apply_later A K change change_linked later s2) as [r|].
    - split; [rewrite <- B2; exact BX|]. split; [rewrite <- B2; exact BY|]. intros n. specialize (R n). rewrite LL in R. specialize (S2 n). specialize (L2 n). specialize (Pl n).
      destruct (lookup n split) as [k|] eqn:Ek.
      + destruct (lookup n a1) as [[a|]|] eqn:E1.
        * destruct L2 as (a' & C & L2). rewrite Pl. exists (Own a'). cbn. rewrite C. split; [reflexivity|]. rewrite R, S2, L2. reflexivity.
        * contradiction.
        * destruct R as (e & e' & R1 & R2 & R3). rewrite S2, L2 in R1. rewrite R1. exists e'. auto.
      + assert (R' : lookup n r = lookup n s2) by (destruct (lookup n a1); exact R).
        rewrite R', S2, L2. destruct (lookup n a1) as [[a|]|] eqn:E1; [rewrite Pl; destruct (plain axes xat yat n); congruence|rewrite Pl; reflexivity|].
        destruct (plain axes xat yat n); reflexivity.
    - destruct R as (n & k & R1 & R2). right; right. exists n, k. rewrite LL in R1. specialize (S2 n). specialize (L2 n).
      destruct (lookup n a1) eqn:E1; [discriminate|]. rewrite R1, ?E1 in L2. split; [exact R1|]. rewrite S2, L2 in R2. exact R2.
  Qed.
End Table.
Print Assumptions graph_axes.

(** x2=5, y2=None, x_7 and x2_8: the x axis is linked to x2, the keyword for x changes its painter, that for x2 the axis; y is a default axis *)
Example graph_axes_ex :
  graphxy_axes nat nat 0 (fun k a => Some (a + k)) (fun k => Some k) [((X, 2), Some 5); ((Y, 2), None); ((Y, 3), Some 9)] [((X, 1), 7); ((X, 2), 8)] true true
  = Some [((X, 2), Own 13); ((Y, 3), Own 9); ((Y, 1), Own 0); ((X, 1), LinkedTo (X, 2) (Some 7))].
Proof. reflexivity. Qed.
(** without arguments: two axes and two linked to them *)
Example graph_axes_ex2 :
  graphxy_axes nat nat 0 (fun k a => Some (a + k)) (fun k => Some k) [] [] true true
  = Some [((X, 1), Own 0); ((Y, 1), Own 0); ((X, 2), LinkedTo (X, 1) None); ((Y, 2), LinkedTo (Y, 1) None)].
Proof. reflexivity. Qed.

(** axes can not be switched off alone: x=None without x2 is an exception *)
Theorem no_axis_refuted : exists (axes : dict (option nat)), (forall l m, lookup (l, m) axes = if name_eqb (l, m) (X, 1) then Some None else None) /\
  graphxy_axes nat nat 0 (fun k a => Some (a + k)) (fun k => Some k) axes [] true true = None /\
  graphxy_axes nat nat 0 (fun k a => Some (a + k)) (fun k => Some k) (axes ++ [((X, 2), None)]) [] true true = Some [((Y, 1), Own 0); ((Y, 2), LinkedTo (Y, 1) None)].
Proof.
  exists [((X, 1), None)]. split; [|split; reflexivity]. intros l m. rewrite lookup_cons. cbn [fst snd]. destruct (name_eqb (l, m) (X, 1)); reflexivity.
Qed.
Print Assumptions no_axis_refuted.
