(** C64: color conversions *)
From Coq Require Import Reals Lra Lia ZArith.
From Verif Require Import ColorModel.
Open Scope R_scope.

Definition unit (x : R) : Prop := 0 <= x <= 1.
(** the colors which can be constructed *)
Definition valid (x : color) : Prop :=
  match x with
  | Gray g => unit g
  | RGB r g b => unit r /\ unit g /\ unit b
  | HSB h s b => unit h /\ unit s /\ unit b
  | CMYK c m y k => unit c /\ unit m /\ unit y /\ unit k
  end.
Lemma check_ok x o : unit x -> check x o = o.
Proof. unfold check, unit. intros H. destruct (Rlt_dec x 0); [lra|]. destruct (Rgt_dec x 1); [lra|]. auto. Qed.
Lemma check_inv x o c : check x o = Some c -> unit x /\ o = Some c.
Proof. unfold check, unit. destruct (Rlt_dec x 0); [discriminate|]. destruct (Rgt_dec x 1); [discriminate|]. intros H. split; auto. lra. Qed.
Lemma rgb_ok r g b : unit r -> unit g -> unit b -> new_rgb r g b = Some (RGB r g b).
Proof. intros. unfold new_rgb. now rewrite !check_ok. Qed.
Lemma hsb_ok r g b : unit r -> unit g -> unit b -> new_hsb r g b = Some (HSB r g b).
Proof. intros. unfold new_hsb. now rewrite !check_ok. Qed.
Lemma cmyk_ok c m y k : unit c -> unit m -> unit y -> unit k -> new_cmyk c m y k = Some (CMYK c m y k).
Proof. intros. unfold new_cmyk. now rewrite !check_ok. Qed.
Lemma gray_ok g : unit g -> new_gray g = Some (Gray g).
Proof. intros. unfold new_gray. now rewrite !check_ok. Qed.

Ltac rm := unfold unit, clamp in *; unfold Rmax, Rmin in *; repeat match goal with |- context [Rle_dec ?a ?b] => destruct (Rle_dec a b) | H : context [Rle_dec ?a ?b] |- _ => destruct (Rle_dec a b) end.

(** the colors on the edges of the hue hexagon, by sector and position in it *)
Definition sector (i : Z) (f s v : R) : R * R * R :=
  let p := v * (1 - s) in
  let q := v * (1 - s * f) in
  let t := v * (1 - s * (1 - f)) in
  match i with 0%Z => (v, t, p) | 1%Z => (q, v, p) | 2%Z => (p, v, t) | 3%Z => (p, q, v) | 4%Z => (t, p, v) | _ => (v, p, q) end.
Lemma int_known x (i : Z) : IZR i <= x < IZR i + 1 -> Int_part x = i.
Proof.
  intros [A B]. unfold Int_part. replace i with (i + 1 - 1)%Z by lia. f_equal. symmetry. apply tech_up; rewrite plus_IZR; lra.
Qed.
Lemma int_bounds x : IZR (Int_part x) <= x < IZR (Int_part x) + 1.
Proof. destruct (base_Int_part x). lra. Qed.
Lemma hsv_sector i f s v : (0 <= i <= 5)%Z -> 0 <= f <= 1 -> s <> 0 -> hsv_to_rgb ((IZR i + f) / 6) s v = sector i f s v.
Proof.
  intros I F S. unfold hsv_to_rgb. destruct (Req_EM_T s 0); [contradiction|].
  replace ((IZR i + f) / 6 * 6) with (IZR i + f) by field.
  destruct (Rle_lt_or_eq_dec f 1 (proj2 F)) as [L| ->].
  - rewrite (int_known _ i) by lra. rewrite Z.mod_small by lia. replace (IZR i + f - IZR i) with f by ring. reflexivity.
  - rewrite (int_known _ (i + 1)) by (rewrite plus_IZR; lra). replace (IZR i + 1 - IZR (i + 1)) with 0 by (rewrite plus_IZR; ring).
    assert (i = 0 \/ i = 1 \/ i = 2 \/ i = 3 \/ i = 4 \/ i = 5)%Z as D by lia.
    destruct D as [->|[->|[->|[->|[->| ->]]]]]; unfold sector; cbn [Z.add Z.modulo Z.div_eucl Z.pos_div_eucl]; cbn; repeat (f_equal; [|try ring]); try ring; repeat f_equal; ring.
Qed.
Lemma hue_sector h : unit h -> exists i f, (0 <= i <= 5)%Z /\ 0 <= f <= 1 /\ h = (IZR i + f) / 6.
Proof.
  intros H. destruct (Req_dec h 1) as [->|N].
  - exists 5%Z, 1. split; [lia|]. split; [lra|]. lra.
  - exists (Int_part (h * 6)), (h * 6 - IZR (Int_part (h * 6))). destruct (int_bounds (h * 6)) as [A B]. unfold unit in H. split.
    + split.
      * assert (-1 < Int_part (h * 6))%Z; [|lia]. apply lt_IZR. lra.
      * assert (Int_part (h * 6) < 6)%Z; [|lia]. apply lt_IZR. lra.
    + split; lra.
Qed.
Lemma sector_valid i f s v : (0 <= i <= 5)%Z -> 0 <= f <= 1 -> unit s -> unit v -> let '(r, g, b) := sector i f s v in unit r /\ unit g /\ unit b.
Proof.
  unfold unit. intros I F S V.
  assert (0 <= v * (1 - s) <= 1) as P by nra.
  assert (0 <= s * f <= 1) as SF by nra. assert (0 <= s * (1 - f) <= 1) as SF' by nra.
  assert (0 <= v * (1 - s * f) <= 1) as Q by nra. assert (0 <= v * (1 - s * (1 - f)) <= 1) as T by nra.
  assert (i = 0 \/ i = 1 \/ i = 2 \/ i = 3 \/ i = 4 \/ i = 5)%Z as D by lia.
  destruct D as [->|[->|[->|[->|[->| ->]]]]]; unfold sector; tauto.
Qed.
Lemma frac_small x : 0 <= x < 1 -> frac_part x = x.
Proof. intros H. unfold frac_part. rewrite (int_known x 0) by lra. lra. Qed.
Lemma frac_negative x : -1 <= x < 0 -> frac_part x = x + 1.
Proof. intros H. unfold frac_part. rewrite (int_known x (-1)) by (cbn; lra). cbn. lra. Qed.
Lemma div_unit a b : 0 <= a -> a <= b -> 0 < b -> 0 <= a / b <= 1.
Proof. intros A B P. split; [apply Rmult_le_pos; [lra|apply Rlt_le, Rinv_0_lt_compat; lra]|]. apply Rmult_le_reg_r with b; auto. unfold Rdiv. rewrite Rmult_assoc, Rinv_l by lra. lra. Qed.

(** the hue, saturation and brightness of a color which is not gray: the sector of the color *)
Lemma rgb_hsv_sector r g b : unit r -> unit g -> unit b -> ~ (r = g /\ g = b) ->
  exists i f s v, rgb_to_hsv r g b = ((IZR i + f) / 6, s, v) /\ (0 <= i <= 5)%Z /\ 0 <= f <= 1 /\ 0 < s <= 1 /\ unit v /\ sector i f s v = (r, g, b).
Proof.
  intros Ur Ug Ub N. unfold rgb_to_hsv.
  set (M := Rmax (Rmax r g) b). set (m := Rmin (Rmin r g) b).
  assert (r <= M /\ g <= M /\ b <= M /\ m <= r /\ m <= g /\ m <= b /\ (M = r \/ M = g \/ M = b) /\ (m = r \/ m = g \/ m = b)) as (M1 & M2 & M3 & m1 & m2 & m3 & DM & Dm).
  { unfold M, m. rm; repeat split; auto; try lra. }
  unfold unit in *. clearbody M m.
  destruct (Req_EM_T m M) as [E|NE]; [exfalso; apply N; lra|]. assert (0 < M - m) as P by lra. assert (0 < M) as PM by lra.
  assert (0 < (M - m) / M <= 1) as S.
  { destruct (div_unit (M - m) M) as [_ ?]; try lra. split; auto. apply Rmult_lt_0_compat; [lra|]. apply Rinv_0_lt_compat; lra. }
  assert (M * ((M - m) / M) = M - m) as K by (field; lra).
  assert (M * (1 - (M - m) / M) = m) as Kp by (field; lra).
  assert (forall f, M * (1 - (M - m) / M * f) = M - (M - m) * f) as Kq by (intros; field; lra).
  destruct (Req_EM_T r M) as [Er|Nr]; [|destruct (Req_EM_T g M) as [Eg|Ng]].
  - destruct (Rle_dec b g) as [L|L].
    + assert (m = b) as -> by lra. exists 0%Z, ((g - b) / (M - b)), ((M - b) / M), M.
      destruct (div_unit (g - b) (M - b)) as [D1 D2]; try lra.
      replace ((M - b) / (M - b) - (M - g) / (M - b)) with ((g - b) / (M - b)) by (field; lra).
      rewrite frac_small by lra. split; [f_equal; f_equal; cbn; lra|]. split; [lia|]. split; [lra|]. split; [lra|]. split; [split; lra|].
      unfold sector. rewrite Kq, Kp. rewrite Er. repeat f_equal. field. lra.
    + assert (m = g) as -> by lra. exists 5%Z, (1 - (b - g) / (M - g)), ((M - g) / M), M.
      destruct (div_unit (b - g) (M - g)) as [D1 D2]; try lra.
      replace ((M - b) / (M - g) - (M - g) / (M - g)) with (- ((b - g) / (M - g))) by (field; lra).
      assert (0 < (b - g) / (M - g)) by (apply Rmult_lt_0_compat; [lra|apply Rinv_0_lt_compat; lra]).
      rewrite frac_negative by lra. split; [f_equal; f_equal; lra|]. split; [lia|]. split; [lra|]. split; [lra|]. split; [split; lra|].
      unfold sector. rewrite Kq, Kp. rewrite Er. repeat f_equal. field. lra.
  - destruct (Rle_dec r b) as [L|L].
    + assert (m = r) as -> by lra. exists 2%Z, ((b - r) / (M - r)), ((M - r) / M), M.
      destruct (div_unit (b - r) (M - r)) as [D1 D2]; try lra.
      replace (2 + (M - r) / (M - r) - (M - b) / (M - r)) with (2 + (b - r) / (M - r)) by (field; lra).
      rewrite frac_small by lra. split; [f_equal; f_equal; lra|]. split; [lia|]. split; [lra|]. split; [lra|]. split; [split; lra|].
      unfold sector. rewrite Kq, Kp. rewrite Eg. repeat f_equal. field. lra.
    + assert (m = b) as -> by lra. exists 1%Z, ((M - r) / (M - b)), ((M - b) / M), M.
      destruct (div_unit (M - r) (M - b)) as [D1 D2]; try lra.
      replace (2 + (M - r) / (M - b) - (M - b) / (M - b)) with (1 + (M - r) / (M - b)) by (field; lra).
      rewrite frac_small by lra. split; [f_equal; f_equal; lra|]. split; [lia|]. split; [lra|]. split; [lra|]. split; [split; lra|].
      unfold sector. rewrite Kq, Kp. rewrite Eg. repeat f_equal. field. lra.
  - assert (M = b) as -> by lra. destruct (Rle_dec g r) as [L|L].
    + assert (m = g) as -> by lra. exists 4%Z, ((r - g) / (b - g)), ((b - g) / b), b.
      destruct (div_unit (r - g) (b - g)) as [D1 D2]; try lra.
      replace (4 + (b - g) / (b - g) - (b - r) / (b - g)) with (4 + (r - g) / (b - g)) by (field; lra).
      rewrite frac_small by lra. split; [f_equal; f_equal; lra|]. split; [lia|]. split; [lra|]. split; [lra|]. split; [split; lra|].
      unfold sector. rewrite Kq, Kp. repeat f_equal. field. lra.
    + assert (m = r) as -> by lra. exists 3%Z, ((b - g) / (b - r)), ((b - r) / b), b.
      destruct (div_unit (b - g) (b - r)) as [D1 D2]; try lra.
      replace (4 + (b - g) / (b - r) - (b - r) / (b - r)) with (3 + (b - g) / (b - r)) by (field; lra).
      rewrite frac_small by lra. split; [f_equal; f_equal; lra|]. split; [lia|]. split; [lra|]. split; [lra|]. split; [split; lra|].
      unfold sector. rewrite Kq, Kp. repeat f_equal. field. lra.
Qed.
Lemma gray_hsv g : rgb_to_hsv g g g = (0, 0, g).
Proof.
  unfold rgb_to_hsv. assert (Rmax (Rmax g g) g = g) as -> by (rm; lra). assert (Rmin (Rmin g g) g = g) as -> by (rm; lra).
  destruct (Req_EM_T g g); [auto|congruence].
Qed.

(** ** conversions never fail and give colors of the class asked for *)
Lemma to_rgb_valid x : valid x -> exists r g b, to_rgb x = Some (RGB r g b) /\ valid (RGB r g b).
Proof.
  destruct x as [g|r g b|h s v|c m y k]; cbn [valid to_rgb].
  - intros G. exists g, g, g. rewrite rgb_ok; auto.
  - intros (? & ? & ?). exists r, g, b. rewrite rgb_ok; auto.
  - intros (H & S & V). destruct (Req_dec s 0) as [->|N].
    + exists v, v, v. unfold hsv_to_rgb. destruct (Req_EM_T 0 0); [|congruence]. rewrite rgb_ok; auto.
    + destruct (hue_sector h H) as (i & f & I & F & ->). rewrite hsv_sector by auto.
      pose proof (sector_valid i f s v I F S V) as W. destruct (sector i f s v) as [[r g] b]. destruct W as (? & ? & ?).
      exists r, g, b. rewrite rgb_ok; auto.
  - intros (C & M & Y & K). exists (1 - Rmin 1 (c + k)), (1 - Rmin 1 (m + k)), (1 - Rmin 1 (y + k)).
    assert (forall a, unit a -> unit (1 - Rmin 1 (a + k))) as A by (intros a Ha; rm; lra).
    rewrite rgb_ok; auto.
Qed.
(** C64: converting a color never raises an error, whatever functions for under color removal are
    set, if the black generation keeps the range *)
Theorem conversions_total : forall d x, valid x -> (forall k, unit k -> unit (bg d k)) ->
  (exists y, to_rgb x = Some y /\ valid y) /\ (exists y, to_gray x = Some y /\ valid y) /\
  (exists y, to_hsb x = Some y /\ valid y) /\ (exists y, to_cmyk d x = Some y /\ valid y).
Proof.
  intros d x V B.
  destruct (to_rgb_valid x V) as (r & g & b & E & W).
  assert (forall r g b, valid (RGB r g b) -> exists y, rgb_gray (RGB r g b) = Some y /\ valid y) as HG.
  { intros r' g' b' (? & ? & ?). cbn. unfold unit in *. eexists. rewrite gray_ok; [split; [reflexivity|]|]; cbn; unfold unit; lra. }
  assert (forall r g b, valid (RGB r g b) -> exists y, rgb_hsb (RGB r g b) = Some y /\ valid y) as HH.
  { intros r' g' b' (H1 & H2 & H3). cbn [rgb_hsb]. destruct (Req_dec r' g') as [->|N]; [destruct (Req_dec g' b') as [->|N]|].
    - rewrite gray_hsv. exists (HSB 0 0 b'). rewrite hsb_ok; cbn; unfold unit in *; repeat split; auto; lra.
    - destruct (rgb_hsv_sector g' g' b') as (i & f & s & v & -> & I & F & S & U & _); auto; [tauto|].
      exists (HSB ((IZR i + f) / 6) s v). assert (0 <= IZR i <= 5) as IR by (split; apply IZR_le; lia).
      rewrite hsb_ok; cbn; unfold unit in *; repeat split; auto; lra.
    - destruct (rgb_hsv_sector r' g' b') as (i & f & s & v & -> & I & F & S & U & _); auto; [tauto|].
      exists (HSB ((IZR i + f) / 6) s v). assert (0 <= IZR i <= 5) as IR by (split; apply IZR_le; lia).
      rewrite hsb_ok; cbn; unfold unit in *; repeat split; auto; lra. }
  assert (forall r g b, valid (RGB r g b) -> exists y, rgb_cmyk d (RGB r g b) = Some y /\ valid y) as HC.
  { intros r' g' b' (H1 & H2 & H3). cbn [rgb_cmyk]. assert (forall a, unit (clamp a)) as A by (intros a; rm; lra).
    assert (unit (bg d (Rmin (Rmin (1 - r') (1 - g')) (1 - b')))) as K by (apply B; rm; lra).
    eexists. rewrite cmyk_ok by auto. split; [reflexivity|]. cbn. auto. }
  split; [eauto|]. split; [|split].
  - destruct x; cbn [to_gray]; auto.
    + exists (Gray g0). rewrite gray_ok; auto.
    + rewrite E. cbn [option_bind]. auto.
    + cbn in V. destruct V as (C & M & Y & K). eexists. rewrite gray_ok; [split; [reflexivity|]|]; cbn; rm; lra.
  - destruct x; cbn [to_hsb]; auto.
    + exists (HSB 0 0 g0). cbn in V. rewrite hsb_ok; cbn; unfold unit in *; repeat split; lra.
    + exists (HSB h s b0). destruct V as (? & ? & ?). rewrite hsb_ok; cbn; auto.
    + rewrite E. cbn [option_bind]. auto.
  - destruct x; cbn [to_cmyk]; auto.
    + exists (CMYK 0 0 0 (1 - g0)). cbn in V. rewrite cmyk_ok; cbn; unfold unit in *; repeat split; lra.
    + rewrite E. cbn [option_bind]. auto.
    + exists (CMYK c m y k). destruct V as (? & ? & ? & ?). rewrite cmyk_ok; cbn; auto.
Qed.
Print Assumptions conversions_total.

(** ** round trips *)
(** C64: from rgb to hsb and back *)
Theorem rgb_hsb_rgb : forall r g b, valid (RGB r g b) -> option_bind (to_hsb (RGB r g b)) to_rgb = Some (RGB r g b).
Proof.
  intros r g b (H1 & H2 & H3). cbn [to_hsb rgb_hsb]. destruct (Req_dec r g) as [->|N]; [destruct (Req_dec g b) as [->|N]|].
  - rewrite gray_hsv. rewrite hsb_ok by (unfold unit in *; auto; lra). cbn [option_bind to_rgb]. unfold hsv_to_rgb. destruct (Req_EM_T 0 0); [|congruence].
    now rewrite rgb_ok.
  - destruct (rgb_hsv_sector g g b) as (i & f & s & v & -> & I & F & S & U & E); auto; [tauto|].
    assert (0 <= IZR i <= 5) as IR by (split; apply IZR_le; lia). rewrite hsb_ok by (unfold unit in *; auto; lra). cbn [option_bind to_rgb].
    rewrite hsv_sector by (auto; lra). rewrite E. now rewrite rgb_ok.
  - destruct (rgb_hsv_sector r g b) as (i & f & s & v & -> & I & F & S & U & E); auto; [tauto|].
    assert (0 <= IZR i <= 5) as IR by (split; apply IZR_le; lia). rewrite hsb_ok by (unfold unit in *; auto; lra). cbn [option_bind to_rgb].
    rewrite hsv_sector by (auto; lra). rewrite E. now rewrite rgb_ok.
Qed.
Print Assumptions rgb_hsb_rgb.
Lemma sector_max i f s v : (0 <= i <= 5)%Z -> 0 <= f <= 1 -> 0 < s <= 1 -> 0 < v <= 1 ->
  let '(r, g, b) := sector i f s v in Rmax (Rmax r g) b = v /\ Rmin (Rmin r g) b = v * (1 - s).
Proof.
  intros I F S V.
  assert (0 <= s * f <= s) as SF by nra. assert (0 <= s * (1 - f) <= s) as SF' by nra.
  assert (v * (1 - s) <= v * (1 - s * f) <= v) as Q by nra. assert (v * (1 - s) <= v * (1 - s * (1 - f)) <= v) as T by nra.
  assert (i = 0 \/ i = 1 \/ i = 2 \/ i = 3 \/ i = 4 \/ i = 5)%Z as D by lia.
  destruct D as [->|[->|[->|[->|[->| ->]]]]]; unfold sector; split; rm; lra.
Qed.
(** C64: from hsb to rgb and back, for colors which have a hue *)
Theorem hsb_rgb_hsb : forall h s b, 0 <= h < 1 -> 0 < s <= 1 -> 0 < b <= 1 -> option_bind (to_rgb (HSB h s b)) to_hsb = Some (HSB h s b).
Proof.
  intros h s v H S V. assert (unit h) as UH by (unfold unit; lra). cbn [to_rgb].
  assert (exists i f, (0 <= i <= 5)%Z /\ 0 <= f < 1 /\ h = (IZR i + f) / 6) as (i & f & I & F & E).
  { exists (Int_part (h * 6)), (h * 6 - IZR (Int_part (h * 6))). destruct (int_bounds (h * 6)) as [A B]. split.
    + split.
      * assert (-1 < Int_part (h * 6))%Z; [|lia]. apply lt_IZR. lra.
      * assert (Int_part (h * 6) < 6)%Z; [|lia]. apply lt_IZR. lra.
    + split; lra. }
  subst h. rewrite hsv_sector by (auto; lra).
  pose proof (sector_valid i f s v I ltac:(lra) ltac:(unfold unit; lra) ltac:(unfold unit; lra)) as W.
  pose proof (sector_max i f s v I ltac:(lra) S V) as X.
  assert (0 < v * s) as VS by nra. assert (0 <= v * s * f < v * s) as VSF by nra.
  assert (v * (1 - s) = v - v * s) as Ep by ring.
  assert (v * (1 - s * f) = v - v * s * f) as Eq by ring.
  assert (v * (1 - s * (1 - f)) = v - v * s + v * s * f) as Et by ring.
  destruct (sector i f s v) as [[r g] b] eqn:ES. destruct W as (W1 & W2 & W3). rewrite rgb_ok by auto. cbn [option_bind to_hsb rgb_hsb].
  unfold rgb_to_hsv. destruct X as [-> ->].
  destruct (Req_EM_T (v * (1 - s)) v) as [Q|_]; [lra|].
  replace (v - v * (1 - s)) with (v * s) by ring.
  assert (v * s / v = s) as -> by (field; lra).
  assert (0 <= IZR i <= 5) as IR by (split; apply IZR_le; lia).
  set (hue := if Req_EM_T r v then _ else _).
  assert (frac_part (hue / 6) = (IZR i + f) / 6) as ->.
  2:{ apply hsb_ok; unfold unit in *; auto; lra. }
  assert (forall a, (v - (v - v * s + v * s * a)) / (v * s) = 1 - a) as Q1 by (intros; field; nra).
  assert (forall a, (v - (v - v * s * a)) / (v * s) = a) as Q2 by (intros; field; nra).
  assert ((v - v) / (v * s) = 0) as Q3 by (field; nra).
  assert ((v - (v - v * s)) / (v * s) = 1) as Q4 by (field; nra).
  unfold hue, sector in *. rewrite Ep, Eq, Et in ES.
  assert (i = 0 \/ i = 1 \/ i = 2 \/ i = 3 \/ i = 4 \/ i = 5)%Z as D by lia.
  destruct D as [->|[->|[->|[->|[->| ->]]]]]; injection ES as <- <- <-.
  - destruct (Req_EM_T v v); [|congruence]. rewrite Q1, Q4. rewrite frac_small by lra. lra.
  - destruct (Req_EM_T (v - v * s * f) v) as [Z0|_].
    + assert (f = 0) as -> by nra. rewrite Q4, Q3. rewrite frac_small by lra. lra.
    + destruct (Req_EM_T v v); [|congruence]. rewrite Q2, Q4. rewrite frac_small by lra. lra.
  - destruct (Req_EM_T (v - v * s) v) as [Z0|_]; [lra|]. destruct (Req_EM_T v v); [|congruence]. rewrite Q1, Q4. rewrite frac_small by lra. lra.
  - destruct (Req_EM_T (v - v * s) v) as [Z0|_]; [lra|]. destruct (Req_EM_T (v - v * s * f) v) as [Z0|_].
    + assert (f = 0) as -> by nra. rewrite Q4, Q3. rewrite frac_small by lra. lra.
    + rewrite Q2, Q4. rewrite frac_small by lra. lra.
  - destruct (Req_EM_T (v - v * s + v * s * f) v) as [Z0|_]; [lra|]. destruct (Req_EM_T (v - v * s) v) as [Z0|_]; [lra|].
    rewrite Q1, Q4. rewrite frac_small by lra. lra.
  - destruct (Req_EM_T v v); [|congruence]. rewrite Q2, Q4. destruct (Req_dec f 1); [lra|]. rewrite frac_negative by lra. lra.
Qed.
Print Assumptions hsb_rgb_hsb.
(** C64: from rgb to cmyk and back, with the functions set at first *)
Theorem rgb_cmyk_rgb : forall r g b, valid (RGB r g b) -> option_bind (to_cmyk linear_device (RGB r g b)) to_rgb = Some (RGB r g b).
Proof.
  intros r g b (H1 & H2 & H3). cbn [to_cmyk rgb_cmyk]. cbn.
  rewrite cmyk_ok by (rm; lra). cbn [option_bind to_rgb].
  rewrite rgb_ok by (rm; lra). f_equal. f_equal; rm; lra.
Qed.
Print Assumptions rgb_cmyk_rgb.
(** C64: from cmyk to rgb and back, for colors without black to be removed *)
(** C64: under color removal and black generation: with k the largest amount of gray in the color, the black is the value of the black
    generation function at k, and from each component the value of its own function at k is taken away, within the range *)
Theorem undercolor_removal : forall d r g b c m y k', valid (RGB r g b) -> to_cmyk d (RGB r g b) = Some (CMYK c m y k') ->
  exists k, k <= 1 - r /\ k <= 1 - g /\ k <= 1 - b /\ (k = 1 - r \/ k = 1 - g \/ k = 1 - b) /\ k' = bg d k /\
    (let near x z := (0 <= z <= 1 -> x = z) /\ (z < 0 -> x = 0) /\ (1 < z -> x = 1) in near c (1 - r - ucrc d k) /\ near m (1 - g - ucrm d k) /\ near y (1 - b - ucry d k)).
Proof.
  intros d r g b c m y k' (H1 & H2 & H3) E. cbn [to_cmyk rgb_cmyk] in E. set (k := Rmin (Rmin (1 - r) (1 - g)) (1 - b)) in *.
  assert (forall c m y k x, new_cmyk c m y k = Some x -> x = CMYK c m y k) as N.
  { intros c0 m0 y0 k0 x. unfold new_cmyk, check. repeat match goal with |- context[Rlt_dec ?a ?b] => destruct (Rlt_dec a b); try discriminate | |- context[Rgt_dec ?a ?b] => destruct (Rgt_dec a b); try discriminate end. congruence. }
  apply N in E. injection E as -> -> -> ->. exists k. 
  assert (k <= 1 - r /\ k <= 1 - g /\ k <= 1 - b /\ (k = 1 - r \/ k = 1 - g \/ k = 1 - b)) as (K1 & K2 & K3 & K4) by (unfold k, Rmin; destruct (Rle_dec (1 - r) (1 - g)); match goal with |- context[Rle_dec ?a ?b] => destruct (Rle_dec a b) end; repeat split; try lra; tauto).
  assert (forall z, (0 <= z <= 1 -> clamp z = z) /\ (z < 0 -> clamp z = 0) /\ (1 < z -> clamp z = 1)) as CL by (intros z; repeat split; intros; rm; lra).
  refine (conj K1 (conj K2 (conj K3 (conj K4 (conj eq_refl _))))). cbv zeta. exact (conj (CL _) (conj (CL _) (CL _))).
Qed.
Print Assumptions undercolor_removal.
Example undercolor_ex : to_cmyk {| ucrc := fun x => x; ucrm := fun x => x / 2; ucry := fun _ => 0; bg := fun x => x / 4 |} (RGB (1 / 2) (1 / 4) 0) = Some (CMYK 0 (1 / 2) 1 (1 / 8)).
Proof.
  cbn [to_cmyk rgb_cmyk ucrc ucrm ucry bg]. assert (Rmin (Rmin (1 - 1 / 2) (1 - 1 / 4)) (1 - 0) = 1 / 2) as -> by (rm; lra). rewrite cmyk_ok by (rm; lra). f_equal. f_equal; rm; lra.
Qed.
Theorem cmyk_rgb_cmyk : forall c m y k, valid (CMYK c m y k) -> Rmin (Rmin c m) y = 0 -> c + k <= 1 -> m + k <= 1 -> y + k <= 1 ->
  option_bind (to_rgb (CMYK c m y k)) (to_cmyk linear_device) = Some (CMYK c m y k).
Proof.
  intros c m y k (C & M & Y & K) Z L1 L2 L3. cbn [to_rgb]. rewrite rgb_ok by (rm; lra). cbn [option_bind to_cmyk rgb_cmyk linear_device ucrc ucrm ucry bg].
  rewrite (Rmin_right 1 (c + k)), (Rmin_right 1 (m + k)), (Rmin_right 1 (y + k)) by lra. replace (1 - (1 - (c + k))) with (c + k) by ring. replace (1 - (1 - (m + k))) with (m + k) by ring. replace (1 - (1 - (y + k))) with (y + k) by ring.
  assert (Rmin (Rmin (c + k) (m + k)) (y + k) = k) as -> by (rm; lra).
  replace (c + k - k) with c by ring. replace (m + k - k) with m by ring. replace (y + k - k) with y by ring.
  assert (forall a, unit a -> clamp a = a) as CL by (intros; rm; lra). rewrite !CL by auto. apply cmyk_ok; auto.
Qed.
Print Assumptions cmyk_rgb_cmyk.
(** C64: from gray to any class and back *)
Theorem gray_and_back : forall d g, valid (Gray g) ->
  option_bind (to_rgb (Gray g)) to_gray = Some (Gray g) /\ option_bind (to_cmyk d (Gray g)) to_gray = Some (Gray g) /\
  option_bind (to_hsb (Gray g)) to_gray = Some (Gray g).
Proof.
  intros d g G. cbn [valid] in G. cbn [to_rgb to_cmyk to_hsb]. split; [|split].
  - rewrite rgb_ok by auto. cbn [option_bind to_gray rgb_gray]. replace (0.3 * g + 0.59 * g + 0.11 * g) with g by lra. now apply gray_ok.
  - rewrite cmyk_ok by (unfold unit in *; lra). cbn [option_bind to_gray]. assert (1 - Rmin 1 (0.3 * 0 + 0.59 * 0 + 0.11 * 0 + (1 - g)) = g) as -> by (rm; lra). now apply gray_ok.
  - rewrite hsb_ok by (unfold unit in *; lra). cbn [option_bind to_gray to_rgb]. unfold hsv_to_rgb. destruct (Req_EM_T 0 0); [|congruence].
    rewrite rgb_ok by auto. cbn [option_bind rgb_gray]. replace (0.3 * g + 0.59 * g + 0.11 * g) with g by lra. now apply gray_ok.
Qed.
Print Assumptions gray_and_back.
(** C64: the gray of a color is the same directly and by hsb or cmyk *)
Theorem gray_by_any_way : forall r g b, valid (RGB r g b) ->
  option_bind (to_cmyk linear_device (RGB r g b)) to_gray = to_gray (RGB r g b) /\ option_bind (to_hsb (RGB r g b)) to_gray = to_gray (RGB r g b).
Proof.
  intros r g b V. split.
  - destruct V as (H1 & H2 & H3). cbn [to_cmyk rgb_cmyk]. cbn [linear_device ucrc ucrm ucry bg]. rewrite cmyk_ok by (rm; lra). cbn [option_bind to_gray rgb_gray]. f_equal.
    set (k := Rmin (Rmin (1 - r) (1 - g)) (1 - b)). assert (k <= 1 - r /\ k <= 1 - g /\ k <= 1 - b /\ 0 <= k) as (K1 & K2 & K3 & K4) by (unfold k; rm; lra). clearbody k.
    assert (forall a, 0 <= a <= 1 -> clamp a = a) as CL by (intros; rm; lra). unfold unit in *. rewrite !CL by lra. rewrite Rmin_right by lra. lra.
  - pose proof (rgb_hsb_rgb r g b V) as E. destruct (to_hsb (RGB r g b)) as [y|] eqn:EH; [|discriminate]. cbn [option_bind] in *.
    cbn [to_hsb rgb_hsb] in EH. destruct (rgb_to_hsv r g b) as [[h s] v]. unfold new_hsb in EH.
    apply check_inv in EH as [_ EH]. apply check_inv in EH as [_ EH]. apply check_inv in EH as [_ EH]. injection EH as <-.
    cbn [to_gray]. rewrite E. reflexivity.
Qed.
Print Assumptions gray_by_any_way.
(** the gray of a cmyk color with more than full ink is not that of its rgb color *)
Theorem gray_of_cmyk_refuted : exists x, valid x /\ option_bind (to_rgb x) to_gray <> to_gray x.
Proof.
  exists (CMYK 1 0 0 (1/2)). split; [cbn; unfold unit; lra|]. cbn [to_rgb to_gray].
  assert (1 - Rmin 1 (1 + 1 / 2) = 0) as -> by (rm; lra). assert (1 - Rmin 1 (0 + 1 / 2) = 1/2) as -> by (rm; lra).
  assert (1 - Rmin 1 (0.3 * 1 + 0.59 * 0 + 0.11 * 0 + 1 / 2) = 0.2) as -> by (rm; lra).
  rewrite rgb_ok by (unfold unit; lra). cbn [option_bind to_gray rgb_gray]. rewrite !gray_ok by (unfold unit; lra).
  intros E. injection E as E. lra.
Qed.
Print Assumptions gray_of_cmyk_refuted.
(** a color with a hue of 1 comes back with the hue 0, which is the same color *)
Example hue_one : option_bind (to_rgb (HSB 1 1 1)) to_hsb = Some (HSB 0 1 1).
Proof.
  cbn [to_rgb]. replace 1 with ((IZR 5 + 1) / 6) at 1 by lra. rewrite hsv_sector by (try lia; lra). cbn [sector].
  replace (1 * (1 - 1)) with 0 by ring. replace (1 * (1 - 1 * 1)) with 0 by ring.
  rewrite rgb_ok by (unfold unit; lra). cbn [option_bind to_hsb rgb_hsb]. unfold rgb_to_hsv.
  assert (Rmax (Rmax 1 0) 0 = 1) as -> by (rm; lra). assert (Rmin (Rmin 1 0) 0 = 0) as -> by (rm; lra).
  destruct (Req_EM_T 0 1); [lra|]. destruct (Req_EM_T 1 1); [|congruence].
  replace (((1 - 0) / (1 - 0) - (1 - 0) / (1 - 0)) / 6) with 0 by field. rewrite frac_small by lra. replace ((1 - 0) / 1) with 1 by field. apply hsb_ok; unfold unit; lra.
Qed.
(** orange *)
Example conversions_ex : to_hsb (RGB 1 (1/2) 0) = Some (HSB (1/12) 1 1) /\ to_cmyk linear_device (RGB 1 (1/2) 0) = Some (CMYK 0 (1/2) 1 0) /\ to_gray (RGB 1 (1/2) 0) = Some (Gray 0.595).
Proof.
  split; [|split].
  - cbn [to_hsb rgb_hsb]. unfold rgb_to_hsv. assert (Rmax (Rmax 1 (1/2)) 0 = 1) as -> by (rm; lra). assert (Rmin (Rmin 1 (1/2)) 0 = 0) as -> by (rm; lra).
    destruct (Req_EM_T 0 1); [lra|]. destruct (Req_EM_T 1 1); [|congruence].
    replace (((1 - 0) / (1 - 0) - (1 - 1 / 2) / (1 - 0)) / 6) with (1/12) by field. rewrite frac_small by lra. replace ((1 - 0) / 1) with 1 by field. apply hsb_ok; unfold unit; lra.
  - cbn [to_cmyk rgb_cmyk linear_device ucrc ucrm ucry bg]. assert (Rmin (Rmin (1 - 1) (1 - 1 / 2)) (1 - 0) = 0) as -> by (rm; lra).
    assert (clamp (1 - 1 - 0) = 0) as -> by (rm; lra). assert (clamp (1 - 1 / 2 - 0) = 1/2) as -> by (rm; lra). assert (clamp (1 - 0 - 0) = 1) as -> by (rm; lra). apply cmyk_ok; unfold unit; lra.
  - cbn [to_gray rgb_gray]. replace (0.3 * 1 + 0.59 * (1 / 2) + 0.11 * 0) with 0.595 by lra. apply gray_ok; unfold unit; lra.
Qed.
