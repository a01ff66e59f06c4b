(** Axis labels: decimal (C30), default (C31) and rational (C32) texters. *)
From Coq Require Import String Ascii ZArith QArith Qpower Qabs Bool List Lia ZifyBool Lqa.
From Verif Require Import TickModel TickSpec TickProofs TickProofs2 TickProps TexterModel TexterSpec TexterProofs
  TexterProofs2 TexterProofs3 TexterProofs4.
Import ListNotations.
Open Scope Z_scope.

(** the notation of a decimal texter *)
Definition in_notation (t : decimaltexter) : option nat -> list ascii -> Q -> Prop :=
  denotes (dprefix t) (dinfix t) (dsuffix t) (dplus t) (dminus t) (decimalsep t) (thousandsep t) (thousandthpartsep t)
    (period_before t) (period_behind t).

(** the decimal texter with default arguments, l.47-50: the period is shown by overlining *)
Definition decimal0 : decimaltexter :=
  mkdecimal [] [] [] false (chars ".") [] [] [] (chars "-") (chars "\overline{") (chars "}").
Definition with_equalprecision (t : decimaltexter) := mkdecimal (dprefix t) (dinfix t) (dsuffix t) true (decimalsep t)
  (thousandsep t) (thousandthpartsep t) (dplus t) (dminus t) (period_before t) (period_behind t).
Definition with_thousandth (sep : text) (t : decimaltexter) := mkdecimal (dprefix t) (dinfix t) (dsuffix t) (equalprecision t)
  (decimalsep t) (thousandsep t) sep (dplus t) (dminus t) (period_before t) (period_behind t).
Definition with_thousand (sep : text) (t : decimaltexter) := mkdecimal (dprefix t) (dinfix t) (dsuffix t) (equalprecision t)
  (decimalsep t) sep (thousandthpartsep t) (dplus t) (dminus t) (period_before t) (period_behind t).

(** C30: without a separator of thousandth parts, all labels are the exact values,
    finite fractions if possible and periodic fractions otherwise; with equal precision
    all finite ones have the same number of digits. *)
Theorem decimal_labels_denote : forall t ticks, Forall (fun r => denom r <> 0) ticks -> thousandthpartsep t = [] ->
  exists labels N, decimal_labels t ticks = Some labels /\
    Forall2 (fun r l => (terminating (value r) -> exists k, in_notation t (Some k) l (value r) /\ (equalprecision t = true -> k = N)) /\
                        (~ terminating (value r) -> in_notation t None l (value r))) ticks labels.
Proof. exact decimal_labels_period. Qed.
Print Assumptions decimal_labels_denote.

Example decimal_labels_ex : decimal_labels decimal0 [mkrat 1 3; mkrat (-5) 4; mkrat 7 (-6); mkrat 12345 1]
  = Some [chars "0.\overline{3}"; chars "-1.25"; chars "-1.1\overline{6}"; chars "12345"].
Proof. vm_compute. reflexivity. Qed.
Example decimal_labels_ex2 : decimal_labels (with_thousand (chars ",") (with_equalprecision decimal0)) [mkrat 1234567 1; mkrat 1 8]
  = Some [chars "1,234,567.000"; chars "0.125"].
Proof. vm_compute. reflexivity. Qed.
Example decimal_labels_ex3 : terminating (value (mkrat (-5) 4)) /\ ~ terminating (value (mkrat 1 3)).
Proof.
  split.
  - exists 2, (-125). split; [lia|reflexivity].
  - intros (k & z & Hk & E). unfold value in E. cbn [num denom] in E.
    assert (inject_Z (10 ^ k) == inject_Z (z * 3))%Q as E2 by (rewrite (inject_Z_mult z 3), <- E; field).
    rewrite inject_Z_injective in E2. assert (10 ^ k mod 3 = 1) as M.
    { clear - Hk. revert k Hk. apply natlike_ind; [reflexivity|]. intros k Hk IH. rewrite Z.pow_succ_r by auto.
      rewrite Z.mul_mod, IH by lia. reflexivity. }
    rewrite E2, Z.mod_mul in M by lia. discriminate.
Qed.

(** C30: with a separator of thousandth parts, the labels of finite fractions are exact
    if no zeros are added. *)
Theorem decimal_labels_separated : forall t ticks, Forall (fun r => denom r <> 0) ticks -> equalprecision t = false ->
  exists labels, decimal_labels t ticks = Some labels /\
    Forall2 (fun r l => terminating (value r) -> exists k, in_notation t (Some k) l (value r)) ticks labels.
Proof. exact decimal_labels_finite. Qed.
Print Assumptions decimal_labels_separated.

Example decimal_labels_separated_ex :
  decimal_labels (with_thousandth (chars ",") decimal0) [mkrat 12345678 10000000; mkrat (-1) 16]
  = Some [chars "1.234,567,8"; chars "-0.062,5"].
Proof. vm_compute. reflexivity. Qed.

(** C30: separators must not change the digits and the place of the period, but for
    periodic fractions they move the begin of the period: the label of 1/7 is 0.1
    followed by the period 42857, which is another number. *)
Definition without (c : ascii) (s : list ascii) : list ascii := filter (fun x => negb (Ascii.eqb x c)) s.
Theorem period_separators_refuted :
  ~ (forall r l l', denom r <> 0 -> decimal_labels (with_thousandth (chars ",") decimal0) [r] = Some [l] ->
     decimal_labels decimal0 [r] = Some [l'] -> without "," l = l').
Proof.
  intros H. specialize (H (mkrat 1 7) (chars "0.1\overline{42,857}") (chars "0.\overline{142857}") ltac:(discriminate) eq_refl eq_refl).
  discriminate.
Qed.
Print Assumptions period_separators_refuted.

(** C30: the separators within added zeros are misplaced: 0.1000,0 instead of 0.100,00. *)
Theorem padding_separators_refuted :
  ~ (forall ticks labels l, decimal_labels (with_thousandth (chars ",") (with_equalprecision decimal0)) ticks = Some labels ->
     In l labels -> forall t, l = chars "0." ++ t -> exists f, grouped_left (chars ",") f t /\ forall c, In c f -> exists v, digit_value c v).
Proof.
  intros H. destruct (H [mkrat 1 10; mkrat 12345 100000] [chars "0.1000,0"; chars "0.123,45"] (chars "0.1000,0") eq_refl
    (or_introl eq_refl) (chars "1000,0") eq_refl) as (f & G & D).
  inversion G as [ds L E1 E2|ds t a b c N G' E1 E2]; subst.
  - cbn in L. lia.
Qed.
Print Assumptions padding_separators_refuted.

(** C30: only ticks without label, but with a label level get a label; nothing else changes. *)
Theorem decimal_ticks : forall t ticks, Forall (fun k => denom (lpos k) <> 0) ticks -> thousandthpartsep t = [] ->
  exists ticks', decimal_run t ticks = Some ticks' /\
    Forall2 (fun k k' => lpos k' = lpos k /\ llevel k' = llevel k /\
      (llabel k = None -> llevel k <> None -> exists n s, llabel k' = Some s /\ in_notation t n s (value (lpos k))) /\
      (llabel k <> None \/ llevel k = None -> llabel k' = llabel k)) ticks ticks'.
Proof.
  intros t ticks H Ht. unfold decimal_run.
  destruct (decimal_labels_exact t (map lpos (filter wants_label ticks))) as (labels & N & E & F); auto.
  { rewrite Forall_forall in *. intros r Hr. apply in_map_iff in Hr. destruct Hr as (k & <- & Hk). apply filter_In in Hk. now apply H. }
  rewrite E. eexists. split; [reflexivity|]. apply Forall2_map_l in F.
  eapply Forall2_impl; [|apply set_labels_spec; exact F]. intros k k' (A & B & C & D). split; auto. split; auto.
  unfold wants_label in *. destruct (llabel k) as [l|], (llevel k) as [v|]; (split; [try congruence|auto]).
  - intros _ _. destruct (D eq_refl) as (s & Es & n & X & _). exists n, s. auto.
  - intros [X|X]; congruence.
Qed.
Print Assumptions decimal_ticks.

Example decimal_ticks_ex : decimal_run decimal0 [mkltick (mkrat 1 2) (Some 0) None; mkltick (mkrat 1 3) None None;
    mkltick (mkrat 1 4) (Some 1) (Some (chars "x"))]
  = Some [mkltick (mkrat 1 2) (Some 0) (Some (chars "0.5")); mkltick (mkrat 1 3) None None; mkltick (mkrat 1 4) (Some 1) (Some (chars "x"))].
Proof. vm_compute. reflexivity. Qed.

(** C31: mantissa and exponent of a tick. *)
Theorem mantissa_exponent : forall b r, (1 < b)%Q -> denom r <> 0 -> num r <> 0 ->
  exists s m e, decompose b r = Some (s, m, e) /\ (s = 1 \/ s = -1) /\ (1 <= m < b)%Q /\
    (value r == inject_Z s * m * Qpower b e)%Q.
Proof.
  intros b r Hb Hd Hn. destruct (decompose_spec b r Hb Hd Hn) as (s & m & e & E & S & _ & M & V). eauto 10.
Qed.
Print Assumptions mantissa_exponent.

Example mantissa_exponent_ex : exists m, decompose 10 (mkrat (-1234) 100000) = Some (-1, m, -2) /\ (m == 1234 # 1000)%Q.
Proof. eexists. split; [vm_compute; reflexivity|reflexivity]. Qed.

(** the formatting of the number x as a float loses nothing *)
Definition formats (fmt : Q -> text) (x : Q) : Prop := exists q, decimal (fmt x) q /\ (q == x)%Q.
(** the meaning of the labels of a default texter *)
Definition default_denotes (t : defaulttexter) (l : deflabel) (q : Q) : Prop :=
  match l with
  | DPlain s => exists k, in_notation (mantissatexter t) k s q
  | DExp m sign b e => exponential (in_notation (mantissatexter t)) (in_notation (basetexter t)) (in_notation (exponenttexter t)) m sign b e q
  end.

(** C31: all labels are exact, provided the float formatting is; labels with exponents
    are those of ticks out of range and, with uniformexponent, of all others except for
    zero. *)
Theorem default_labels_denote : forall fmt t ticks, (1 < base t)%Q ->
  thousandthpartsep (mantissatexter t) = [] -> thousandthpartsep (basetexter t) = [] -> thousandthpartsep (exponenttexter t) = [] ->
  formats fmt (base t) -> Forall (fun r => denom r <> 0) ticks ->
  Forall (fun r => forall s m e, decompose (base t) r = Some (s, m, e) -> formats fmt (inject_Z s * m) /\ formats fmt (inject_Z e)) ticks ->
  let out r := out_of_range (base t) (minnegexponent t) (minexponent t) (value r) in
  exists labels, default_labels fmt t ticks = Some labels /\
    Forall2 (fun r l => default_denotes t l (value r) /\
      ((exists m s b e, l = DExp m s b e) <->
       out r \/ (uniformexponent t = true /\ ~ (value r == 0)%Q /\ exists r', In r' ticks /\ out r'))) ticks labels.
Proof.
  intros fmt t ticks Hb H1 H2 H3 Xb Hd Hx out.
  destruct (default_labels_spec fmt t ticks Hb H1 H2 H3 Xb Hd Hx) as (labels & E & F). exists labels. split; auto.
  eapply Forall2_In; [|exact F]. intros r l Hr _ (D & X). split; [exact D|].
  rewrite Forall_forall in Hd. assert (is_exp l = true <-> exists m s b e, l = DExp m s b e) as EX.
  { destruct l; cbn; split; intros G; try discriminate; eauto. destruct G as (? & ? & ? & ? & ?). discriminate. }
  rewrite <- EX, X. unfold out. rewrite (outlying_spec t r Hb (Hd r Hr)).
  assert (~ (value r == 0)%Q <-> num r <> 0) as NZ.
  { unfold value. assert (~ inject_Z (denom r) == 0)%Q as N by (now apply inject_nz; auto). split; intros G C; apply G.
    - rewrite C. unfold Qdiv. apply Qmult_0_l.
    - assert (inject_Z (num r) == 0)%Q as C' by (setoid_replace (inject_Z (num r)) with (inject_Z (num r) / inject_Z (denom r) * inject_Z (denom r))%Q by (field; auto); rewrite C; ring).
      change 0%Q with (inject_Z 0) in C'. exact (proj1 (inject_Z_injective _ _) C'). }
  rewrite NZ. split; (intros [O|(U & N & r' & Ir & O)]; [now left|right]); split; auto; split; auto; exists r'; split; auto;
    now apply (outlying_spec t r' Hb (Hd r' Ir)).
Qed.
Print Assumptions default_labels_denote.

(** the default texter with its default arguments, l.156-165 *)
Definition default0 : defaulttexter := mkdefault (chars "\cdot") 10 All (chars "-") 4 4 true decimal0 decimal0 decimal0.
(** exact formatting of the numbers below *)
Definition fmt0 (x : Q) : text :=
  if Qeq_bool x 10 then chars "10" else if Qeq_bool x (-(3 # 2)) then chars "-1.5" else if Qeq_bool x 1 then chars "1"
  else if Qeq_bool x 5 then chars "5" else if Qeq_bool x 0 then chars "0" else chars "2".
Example default_labels_ex : default_labels fmt0 default0 [mkrat (-150000) 1; mkrat 0 1; mkrat 1 1]
  = Some [DExp (Some (chars "-1.5")) (-1) (chars "10") (chars "5"); DPlain (chars "0"); DExp (Some (chars "1")) 1 (chars "10") (chars "0")].
Proof. vm_compute. reflexivity. Qed.
Example default_labels_ex2 : default_labels fmt0 default0 [mkrat (-10) 1; mkrat 100000 1]
  = Some [DExp None (-1) (chars "10") (chars "1"); DExp None 1 (chars "10") (chars "5")].
Proof. vm_compute. reflexivity. Qed.
Lemma decimal_by_parsing s : forall r, initfromstring s = Some r -> exists q, decimal s q /\ (q == value r)%Q.
Proof. intros r H. destruct (initfromstring_sound _ _ H) as (_ & q & D & E). exists q. split; auto. symmetry. exact E. Qed.
Example default_hypotheses_ex : formats fmt0 (base default0) /\
  Forall (fun r => forall s m e, decompose (base default0) r = Some (s, m, e) -> formats fmt0 (inject_Z s * m) /\ formats fmt0 (inject_Z e))
    [mkrat (-150000) 1; mkrat 0 1; mkrat 1 1].
Proof.
  assert (forall x r, initfromstring (fmt0 x) = Some r -> (value r == x)%Q -> formats fmt0 x) as P.
  { intros x r H E. destruct (decimal_by_parsing _ _ H) as (q & D & Eq). exists q. split; auto. now rewrite Eq. }
  split.
  - now apply (P _ (mkrat 10 1)).
  - repeat (constructor; [intros s m e H; vm_compute in H; injection H as <- <- <-|]); [| | |constructor].
    + split; [apply (P _ (mkrat (-15) 10)); reflexivity|apply (P _ (mkrat 5 1)); reflexivity].
    + split; [apply (P _ (mkrat 0 1)); reflexivity|apply (P _ (mkrat 0 1)); reflexivity].
    + split; [apply (P _ (mkrat 1 1)); reflexivity|apply (P _ (mkrat 0 1)); reflexivity].
Qed.

(** C31: no formatting of floats makes the mantissa tick of 10000/3 exact (Tick(x)
    takes a decimal text of the mantissa 10/3). *)
Theorem mantissa_formatting_refuted :
  ~ (exists fmt, forall x : Q, exists r, as_tick fmt x = Some r /\ (value r == x)%Q).
Proof.
  intros (fmt & H). destruct (H (1 # 3)) as (r & E & V). unfold as_tick, new_rational in E. cbn [Z.eqb] in E.
  destruct (initfromstring (fmt (1 # 3))) as [r'|] eqn:I; [|discriminate].
  assert (r' = r) as -> by (unfold finish in E; destruct (denom r' =? 0); cbn in E; congruence).
  now apply (decimal_not_third _ _ I).
Qed.
Print Assumptions mantissa_formatting_refuted.

(** the meaning of the labels of a rational texter *)
Definition fraction_label (t : rationaltexter) (sign n d : Z) (l : ratlabel) : Prop :=
  match l with
  | RText s => shows_text (rprefix t) (rinfix t) (rsuffix t) (numprefix t) (numinfix t) (numsuffix t)
                 (denomprefix t) (denominfix t) (denomsuffix t) (rplus t) (rminus t) (minuspos t) sign n d s
  | RFrac a b c e => shows_fraction (rprefix t) (rinfix t) (rsuffix t) (numprefix t) (numinfix t) (numsuffix t)
                 (denomprefix t) (denominfix t) (denomsuffix t) (rplus t) (rminus t) (minuspos t) sign n d a b c e
  end.

(** C32: the labels show fractions of the values, in lowest terms or all with the least
    common denominator E: the numbers which turn all values into integers are the
    multiples of E.  Missing: with equaldenom, the ticks without label must have a label
    level. *)
Theorem rational_labels_partial : forall t ticks, Forall (fun k => denom (lpos k) <> 0) ticks ->
  minuspos t = 0 \/ minuspos t = 1 \/ minuspos t = -1 ->
  (equaldenom t = true -> Forall (fun k => llabel k = None -> llevel k <> None) ticks) ->
  let selected := filter (fun k => match llabel k, llevel k with None, Some _ => true | _, _ => false end) ticks in
  exists labels E, rational_labels t ticks = Some labels /\ 0 < E /\
    (forall c, Forall (fun k => exists z, value (lpos k) * inject_Z c == inject_Z z)%Q selected <-> (E | c)) /\
    Forall2 (fun k l => exists sign n d, (sign = 1 \/ sign = -1) /\ 0 <= n /\ 0 < d /\
       (value (lpos k) == inject_Z sign * (inject_Z n / inject_Z d))%Q /\
       (equaldenom t = false -> Z.gcd n d = 1) /\ (equaldenom t = true -> d = E) /\ fraction_label t sign n d l)
      selected labels.
Proof. intros t ticks. exact (rational_labels_spec t ticks). Qed.
Print Assumptions rational_labels_partial.

(** the rational texter with its default arguments, but suffix pi *)
Definition rational0 (eq : bool) : rationaltexter :=
  mkrational [] [] (chars "\pi") [] [] [] [] [] [] [] (chars "-") 0 eq true true true true.
Example rational_labels_ex : rational_labels (rational0 false)
    [mkltick (mkrat 2 (-4)) (Some 0) None; mkltick (mkrat 1 1) (Some 0) None; mkltick (mkrat 0 3) (Some 0) None;
     mkltick (mkrat 14 7) (Some 0) None; mkltick (mkrat 1 7) None None]
  = Some [RFrac (chars "-") (chars "1") (chars "2") (chars "\pi"); RText (chars "\pi"); RText (chars "0"); RText (chars "2\pi")].
Proof. vm_compute. reflexivity. Qed.
Example rational_labels_ex2 : rational_labels (rational0 true)
    [mkltick (mkrat 2 (-4)) (Some 0) None; mkltick (mkrat 1 1) (Some 0) None; mkltick (mkrat 2 6) (Some 0) None]
  = Some [RFrac (chars "-") (chars "3") (chars "6") (chars "\pi"); RFrac [] (chars "6") (chars "6") (chars "\pi");
          RFrac [] (chars "2") (chars "6") (chars "\pi")].
Proof. vm_compute. reflexivity. Qed.

(** C32: labels fail for equal denominators as soon as there is a tick without label and
    label level. *)
Theorem equaldenom_fails_refuted :
  ~ (forall t ticks, Forall (fun k => denom (lpos k) <> 0) ticks -> minuspos t = 0 -> exists labels, rational_labels t ticks = Some labels).
Proof.
  intros H. destruct (H (rational0 true) [mkltick (mkrat 1 2) (Some 0) None; mkltick (mkrat 1 3) None None]) as (l & E); auto.
  - repeat constructor; discriminate.
  - discriminate.
Qed.
Print Assumptions equaldenom_fails_refuted.
