(** C158: numbers and path data of SVG files *)
From Coq Require Import Ascii String ZArith QArith Qpower List Bool Lia Lqa ZifyBool Arith.
From Verif Require Import SvgTextModel SvgTextSpec.
Import ListNotations.
Open Scope Z_scope.

Lemma span_app p a r : Forall (fun c => p c = true) a -> match r with [] => True | c :: _ => p c = false end -> span p (a ++ r) = (a, r).
Proof.
  intros F R. induction F as [|c a C F IH]; cbn [app span].
  - destruct r as [|c r]; cbn [span]; auto. now rewrite R.
  - now rewrite C, IH.
Qed.
Lemma digit_iff c : digit c = true <-> isdigit c.
Proof. unfold digit, isdigit. lia. Qed.
Lemma digits_span a r : Forall isdigit a -> match r with [] => True | c :: _ => ~ isdigit c end -> span digit (a ++ r) = (a, r).
Proof.
  intros F R. apply span_app; [eapply Forall_impl; [|exact F]; intros c; apply digit_iff|]. destruct r as [|c r]; auto. destruct (digit c) eqn:E; auto. apply digit_iff in E. contradiction.
Qed.
Lemma wsp_space c : wsp c -> isspace c = true.
Proof. unfold wsp. cbn. intros [<-|[<-|[<-|[<-|[<-|[]]]]]]; reflexivity. Qed.
(** the first character of what comes next: no white space and no comma *)
Definition plain (r : list Z) : Prop := match r with [] => True | c :: _ => isspace c = false /\ c <> 44 end.
Lemma skip_wsp a r : Forall wsp a -> match r with [] => True | c :: _ => isspace c = false end -> skip_space (a ++ r) = r.
Proof. intros F R. unfold skip_space. rewrite span_app; auto. eapply Forall_impl; [|exact F]. exact wsp_space. Qed.
Lemma sep_read s r : is_sep s -> plain r -> separator (s ++ r) = r.
Proof.
  intros (a & b & A & B & E) P. assert (P' : match r with [] => True | c :: _ => isspace c = false end) by (destruct r; [auto|apply P]).
  unfold separator. destruct E as [-> | ->].
  - rewrite app_assoc_reverse. assert (E : skip_space (a ++ b ++ r) = r) by (rewrite app_assoc; apply skip_wsp; [apply Forall_app; auto|auto]). rewrite E.
    destruct r as [|c r]; cbn [expect]; auto. destruct P as [_ P]. destruct (44 =? c) eqn:F; auto. lia.
  - rewrite <- app_assoc. cbn [app]. rewrite (skip_wsp a (44 :: b ++ r)) by (auto; reflexivity). cbn [expect Z.eqb]. change (Pos.eqb 44 44) with true. cbv iota. apply skip_wsp; auto.
Qed.
Lemma int_from : forall s a, fold_left (fun a c => 10 * a + (c - 48)) s a = a * 10 ^ Z.of_nat (List.length s) + decimal s.
Proof.
  induction s as [|c s IH]; intros a; cbn [fold_left List.length decimal]; [cbn; lia|]. rewrite IH. rewrite Nat2Z.inj_succ, Z.pow_succ_r by lia. ring.
Qed.
Lemma int_decimal s : int_of s = decimal s. Proof. unfold int_of. rewrite int_from. lia. Qed.
Lemma decimal_app a b : decimal (a ++ b) = decimal a * 10 ^ Z.of_nat (List.length b) + decimal b.
Proof. rewrite <- !int_decimal. unfold int_of at 1. rewrite fold_left_app. fold (int_of a). rewrite int_from. now rewrite !int_decimal. Qed.
Lemma power10 n : Qpower 10 (Z.of_nat n) == inject_Z (10 ^ Z.of_nat n).
Proof. rewrite Zpower_Qpower by lia. reflexivity. Qed.
(** what may follow a number without being part of it *)
Definition stops (n : num) (r : list Z) : Prop :=
  match r with [] => True | c :: _ => ~ isdigit c /\ (ex n = None -> c <> 101 /\ c <> 69) /\ (frac n = None -> ex n = None -> c <> 46) end.
Lemma sign_read s r : match r with [] => True | c :: _ => c <> 45 /\ c <> 43 end -> sign (sign_text s ++ r) = (match s with Some true => true | _ => false end, r).
Proof.
  intros R. destruct s as [[|]|]; cbn [sign_text app sign]; auto. destruct r as [|c r]; cbn [sign]; auto. destruct R as [R1 R2].
  destruct (c =? 45) eqn:E; [lia|]. destruct (c =? 43) eqn:F; [lia|]. reflexivity.
Qed.
Lemma digits_nosign ds r : ds <> [] -> Forall isdigit ds -> match ds ++ r with [] => True | c :: _ => c <> 45 /\ c <> 43 end.
Proof. intros N F. destruct F as [|c ds C F]; [congruence|]. cbn. unfold isdigit in C. lia. Qed.
Lemma exponent_read n r : is_num n -> stops n r -> exponent (match ex n with Some (u, s, ds) => (if u then 69 else 101) :: sign_text s ++ ds | None => [] end ++ r) =
  (match ex n with Some (_, s, ds) => signed s (decimal ds) | None => 0 end, r).
Proof.
  intros (_ & _ & E) S. unfold stops in S. destruct (ex n) as [[[u s] ds]|].
  - destruct E as [Nd Fd]. cbn [app exponent]. assert (((if u then 69 else 101) =? 101) || ((if u then 69 else 101) =? 69) = true) as -> by (destruct u; reflexivity).
    rewrite <- app_assoc, sign_read by (now apply digits_nosign). rewrite digits_span; [|exact Fd|destruct r; [exact I|apply S]].
    destruct ds as [|d ds]; [congruence|]. rewrite int_decimal. unfold signed. destruct s as [[|]|]; reflexivity.
  - cbn [app]. unfold exponent. destruct r as [|c r]; auto. destruct S as (S1 & S2 & S3). destruct (S2 eq_refl) as [A B].
    destruct (c =? 101) eqn:C; [lia|]. destruct (c =? 69) eqn:D; [lia|]. reflexivity.
Qed.
Lemma number_read n r : is_num n -> stops n r -> exists q, number (num_text n ++ r) = Some (q, r) /\ (q == num_value n)%Q.
Proof.
  intros N S. pose proof (exponent_read n r N S) as X. destruct N as (Fw & Nf & Ne). unfold num_text, number.
  set (e := match ex n with Some (u, s, ds) => (if u then 69 else 101) :: sign_text s ++ ds | None => [] end) in *.
  set (ev := match ex n with Some (_, s, ds) => signed s (decimal ds) | None => 0 end) in *.
  assert (He : match e ++ r with [] => True | c :: _ => ~ isdigit c /\ (frac n = None -> c <> 46) end).
  { unfold e. unfold stops in S. destruct (ex n) as [[[u s] ds]|]; cbn [app].
    - destruct u; unfold isdigit; split; try lia; intros; lia.
    - destruct r as [|c r]; auto. destruct S as (S1 & S2 & S3). split; auto. }
  rewrite <- !app_assoc. rewrite sign_read.
  2:{ destruct (whole n) as [|c w] eqn:W.
      - destruct (frac n); [cbn; lia|]. destruct Nf. reflexivity.
      - inversion Fw as [|? ? C _]; subst. cbn. unfold isdigit in C. lia. }
  rewrite digits_span; auto.
  2:{ destruct (frac n) as [f|]; cbn [app]; [unfold isdigit; lia|]. destruct (e ++ r); auto. apply He. }
  destruct (frac n) as [f|] eqn:Ff.
  - destruct Nf as [Nn Nd]. cbn [app expect Z.eqb]. change (Pos.eqb 46 46) with true. cbv iota. rewrite digits_span; auto.
    2:{ destruct (e ++ r); auto. apply He. }
    destruct f as [|f0 f']; [congruence|]. set (f := f0 :: f') in *. rewrite X. eexists. split; [reflexivity|].
    unfold num_value, magnitude. rewrite Ff. fold ev. rewrite int_decimal, decimal_app, Qpower_minus by discriminate. rewrite power10.
    set (p := 10 ^ Z.of_nat (List.length f)). assert (Hp : 0 < p) by (apply Z.pow_pos_nonneg; lia).
    assert (Hq : ~ inject_Z p == 0) by (unfold inject_Z, Qeq; cbn; lia).
    rewrite inject_Z_mult, inject_Z_plus, inject_Z_mult. destruct (sg n) as [[|]|]; field; auto.
  - cbn [app]. assert (P : expect 46 (e ++ r) = None).
    { destruct (e ++ r) as [|c t]; auto. cbn [expect]. destruct He as [_ He]. specialize (He eq_refl). destruct (46 =? c) eqn:E; auto. lia. }
    rewrite P. destruct (whole n) as [|w0 w'] eqn:W; [congruence|]. rewrite X. eexists. split; [reflexivity|].
    unfold num_value, magnitude. rewrite Ff, W. fold ev. rewrite app_nil_r, int_decimal. cbn [List.length]. rewrite Z.sub_0_r.
    destruct (sg n) as [[|]|]; rewrite inject_Z_mult; field.
Qed.
(** ** tokens *)
Definition start (c : Z) : Prop := isdigit c \/ c = 43 \/ c = 45 \/ c = 46.
Lemma num_start n r : is_num n -> exists c t, num_text n ++ r = c :: t /\ start c.
Proof.
  intros (Fw & Nf & _). unfold num_text, start. destruct (sg n) as [[|]|]; cbn [sign_text app]; [eauto 8|eauto 8|].
  destruct (whole n) as [|c w]; cbn [app].
  - destruct (frac n); [|congruence]. cbn [app]. eauto 8.
  - inversion Fw; subst. eauto 8.
Qed.
Lemma tokens_start l t : tokens l t -> t = [] \/ exists c r, t = c :: r /\ start c.
Proof.
  intros [|n s l' r N S C T|b s l' r S T]; auto; right.
  - apply num_start; auto.
  - eexists _, _. split; [reflexivity|]. left. destruct b; unfold isdigit; lia.
Qed.
Lemma start_plain l t : tokens l t -> plain t.
Proof. intros T. destruct (tokens_start l t T) as [-> | (c & r & -> & S)]; cbn; auto. unfold start, isdigit in S. unfold isspace. cbn [existsb]. lia. Qed.
Lemma sep_first s r c t : is_sep s -> s ++ r = c :: t -> s <> [] -> wsp c \/ c = 44.
Proof.
  intros (a & b & A & B & E) H N. destruct A as [|x a X A].
  - destruct E as [-> | ->]; cbn [app] in *; [|injection H as <- _; auto]. destruct B as [|y b Y B]; [congruence|]. cbn in H. injection H as <- _. auto.
  - destruct E as [-> | ->]; cbn in H; injection H as <- _; auto.
Qed.
Lemma unit_none c t : ~ In c [112; 109; 99; 105; 37] -> unit_of (c :: t) = (NoUnit, c :: t).
Proof. intros N. destruct c as [|p|p]; try reflexivity. do 7 (destruct p; try reflexivity; try (exfalso; apply N; cbn; tauto)). Qed.
Lemma float_read res u n l t : tokens (TNum n :: l) t -> exists q r, to_float res u t = Some (q, r) /\ (q == num_value n * (if u then 72 / res else 1))%Q /\ tokens l r.
Proof.
  intros T. inversion T as [|n' s l' r N S C T'|]; subst.
  assert (St : stops n (s ++ r) /\ unit_of (s ++ r) = (NoUnit, s ++ r)).
  { destruct (s ++ r) as [|c t'] eqn:E; [split; [exact I|reflexivity]|]. destruct s as [|s0 s'].
    - cbn [app] in E. subst r. destruct (C eq_refl) as [D|(c' & r' & E & K)]; [discriminate|]. injection E as <- <-. split.
      + unfold stops, isdigit. split; [lia|]. split; [lia|]. intros F G. destruct K as [K|[K|[_ [K|K]]]]; try lia; congruence.
      + apply unit_none. cbn. lia.
    - assert (W : wsp c \/ c = 44) by (eapply sep_first; eauto; discriminate). unfold wsp in W. cbn in W. split.
      + unfold stops, isdigit. split; [lia|]. split; intros; lia.
      + apply unit_none. cbn. lia. }
  destruct St as [St U]. destruct (number_read n (s ++ r) N St) as (q & E & V). unfold to_float. rewrite E. cbn [bind]. rewrite U.
  rewrite sep_read by (auto; eapply start_plain; eauto). destruct u; eexists _, _; (split; [reflexivity|]); split; auto; cbn [unit_pt]; rewrite V; [reflexivity|ring].
Qed.
Lemma flag_read b l t : tokens (TFlag b :: l) t -> exists r, to_bool t = Some (b, r) /\ tokens l r.
Proof. intros T. inversion T as [| |b' s l' r S T']; subst. exists r. split; auto. assert (separator (s ++ r) = r) by (apply sep_read; auto; eapply start_plain; eauto). destruct b; cbn [to_bool]; now rewrite H. Qed.
Lemma tokens_length l t : tokens l t -> (List.length l <= List.length t)%nat.
Proof.
  induction 1 as [|n s l r N S C T IH|b s l r S T IH]; cbn [List.length]; auto.
  - destruct (num_start n (s ++ r) N) as (c & t & E & _). destruct (num_text n) as [|x y] eqn:F.
    + exfalso. destruct (num_start n [] N) as (? & ? & G & _). rewrite F in G. discriminate.
    + rewrite !app_length. cbn [List.length]. lia.
  - rewrite app_length. lia.
Qed.
Lemma tokens_nonempty x l t : tokens (x :: l) t -> exists c r, t = c :: r.
Proof. intros T. apply tokens_length in T. destruct t; [cbn in T; lia|eauto]. Qed.
Lemma tokens_none t : tokens [] t -> t = []. Proof. now inversion 1. Qed.
(** C158: the numbers of a list are read with their values, times the factor of the unit without a name if units are allowed *)
Theorem floats_read : forall res u l t, numbers l t ->
  let '(vs, bad) := to_floats res u t in Forall2 (fun n v => (v == num_value n * (if u then 72 / res else 1))%Q) l vs /\ bad = false.
Proof.
  intros res u l t T. unfold to_floats. pose proof (tokens_length _ _ T) as L. rewrite map_length in L. unfold numbers in T.
  generalize dependent t. generalize (le_n 0). intros _. 
  assert (G : forall l fuel t, tokens (map TNum l) t -> (List.length l <= fuel)%nat -> let '(vs, bad) := floats_loop res u fuel t in Forall2 (fun n v => (v == num_value n * (if u then 72 / res else 1))%Q) l vs /\ bad = false).
  { clear l. induction l as [|n l IH]; intros fuel t T L; cbn [map] in T.
    - apply tokens_none in T. subst. destruct fuel; split; auto; constructor.
    - destruct fuel as [|fuel]; [cbn in L; lia|]. destruct (tokens_nonempty _ _ _ T) as (c & r & ->). cbn [floats_loop].
      destruct (float_read res u n _ _ T) as (q & r' & -> & V & T'). specialize (IH fuel r' T' ltac:(cbn in L; lia)). destruct (floats_loop res u fuel r') as [vs bad]. destruct IH. split; auto. }
  intros t T L. apply G; auto.
Qed.
Print Assumptions floats_read.
