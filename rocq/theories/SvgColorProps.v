(** C160: colors of SVG files *)
From Coq Require Import Ascii String ZArith QArith List Bool Lia Lqa ZifyBool Arith.
From Verif Require Import SvgTextModel SvgTextSpec SvgTextProps.
Import ListNotations.
Open Scope Z_scope.

(** the names of colors in SVG 1.1 with their values as hexadecimal numbers *)
Definition svg_names : list (string * Z) := [
  ("aliceblue", 0xF0F8FF); ("antiquewhite", 0xFAEBD7); ("aqua", 0x00FFFF); ("aquamarine", 0x7FFFD4); ("azure", 0xF0FFFF); ("beige", 0xF5F5DC); 
  ("bisque", 0xFFE4C4); ("black", 0x000000); ("blanchedalmond", 0xFFEBCD); ("blue", 0x0000FF); ("blueviolet", 0x8A2BE2); ("brown", 0xA52A2A); 
  ("burlywood", 0xDEB887); ("cadetblue", 0x5F9EA0); ("chartreuse", 0x7FFF00); ("chocolate", 0xD2691E); ("coral", 0xFF7F50); 
  ("cornflowerblue", 0x6495ED); ("cornsilk", 0xFFF8DC); ("crimson", 0xDC143C); ("cyan", 0x00FFFF); ("darkblue", 0x00008B); ("darkcyan", 0x008B8B); 
  ("darkgoldenrod", 0xB8860B); ("darkgray", 0xA9A9A9); ("darkgreen", 0x006400); ("darkgrey", 0xA9A9A9); ("darkkhaki", 0xBDB76B); 
  ("darkmagenta", 0x8B008B); ("darkolivegreen", 0x556B2F); ("darkorange", 0xFF8C00); ("darkorchid", 0x9932CC); ("darkred", 0x8B0000); 
  ("darksalmon", 0xE9967A); ("darkseagreen", 0x8FBC8F); ("darkslateblue", 0x483D8B); ("darkslategray", 0x2F4F4F); ("darkslategrey", 0x2F4F4F); 
  ("darkturquoise", 0x00CED1); ("darkviolet", 0x9400D3); ("deeppink", 0xFF1493); ("deepskyblue", 0x00BFFF); ("dimgray", 0x696969); 
  ("dimgrey", 0x696969); ("dodgerblue", 0x1E90FF); ("firebrick", 0xB22222); ("floralwhite", 0xFFFAF0); ("forestgreen", 0x228B22); 
  ("fuchsia", 0xFF00FF); ("gainsboro", 0xDCDCDC); ("ghostwhite", 0xF8F8FF); ("gold", 0xFFD700); ("goldenrod", 0xDAA520); ("gray", 0x808080); 
  ("grey", 0x808080); ("green", 0x008000); ("greenyellow", 0xADFF2F); ("honeydew", 0xF0FFF0); ("hotpink", 0xFF69B4); ("indianred", 0xCD5C5C); 
  ("indigo", 0x4B0082); ("ivory", 0xFFFFF0); ("khaki", 0xF0E68C); ("lavender", 0xE6E6FA); ("lavenderblush", 0xFFF0F5); ("lawngreen", 0x7CFC00); 
  ("lemonchiffon", 0xFFFACD); ("lightblue", 0xADD8E6); ("lightcoral", 0xF08080); ("lightcyan", 0xE0FFFF); ("lightgoldenrodyellow", 0xFAFAD2); 
  ("lightgray", 0xD3D3D3); ("lightgreen", 0x90EE90); ("lightgrey", 0xD3D3D3); ("lightpink", 0xFFB6C1); ("lightsalmon", 0xFFA07A); 
  ("lightseagreen", 0x20B2AA); ("lightskyblue", 0x87CEFA); ("lightslategray", 0x778899); ("lightslategrey", 0x778899); ("lightsteelblue", 0xB0C4DE); 
  ("lightyellow", 0xFFFFE0); ("lime", 0x00FF00); ("limegreen", 0x32CD32); ("linen", 0xFAF0E6); ("magenta", 0xFF00FF); ("maroon", 0x800000); 
  ("mediumaquamarine", 0x66CDAA); ("mediumblue", 0x0000CD); ("mediumorchid", 0xBA55D3); ("mediumpurple", 0x9370DB); ("mediumseagreen", 0x3CB371); 
  ("mediumslateblue", 0x7B68EE); ("mediumspringgreen", 0x00FA9A); ("mediumturquoise", 0x48D1CC); ("mediumvioletred", 0xC71585); 
  ("midnightblue", 0x191970); ("mintcream", 0xF5FFFA); ("mistyrose", 0xFFE4E1); ("moccasin", 0xFFE4B5); ("navajowhite", 0xFFDEAD); 
  ("navy", 0x000080); ("oldlace", 0xFDF5E6); ("olive", 0x808000); ("olivedrab", 0x6B8E23); ("orange", 0xFFA500); ("orangered", 0xFF4500); 
  ("orchid", 0xDA70D6); ("palegoldenrod", 0xEEE8AA); ("palegreen", 0x98FB98); ("paleturquoise", 0xAFEEEE); ("palevioletred", 0xDB7093); 
  ("papayawhip", 0xFFEFD5); ("peachpuff", 0xFFDAB9); ("peru", 0xCD853F); ("pink", 0xFFC0CB); ("plum", 0xDDA0DD); ("powderblue", 0xB0E0E6); 
  ("purple", 0x800080); ("red", 0xFF0000); ("rosybrown", 0xBC8F8F); ("royalblue", 0x4169E1); ("saddlebrown", 0x8B4513); ("salmon", 0xFA8072); 
  ("sandybrown", 0xF4A460); ("seagreen", 0x2E8B57); ("seashell", 0xFFF5EE); ("sienna", 0xA0522D); ("silver", 0xC0C0C0); ("skyblue", 0x87CEEB); 
  ("slateblue", 0x6A5ACD); ("slategray", 0x708090); ("slategrey", 0x708090); ("snow", 0xFFFAFA); ("springgreen", 0x00FF7F); ("steelblue", 0x4682B4); 
  ("tan", 0xD2B48C); ("teal", 0x008080); ("thistle", 0xD8BFD8); ("tomato", 0xFF6347); ("turquoise", 0x40E0D0); ("violet", 0xEE82EE); 
  ("wheat", 0xF5DEB3); ("white", 0xFFFFFF); ("whitesmoke", 0xF5F5F5); ("yellow", 0xFFFF00); ("yellowgreen", 0x9ACD32)]%string.
(** the color with three bytes *)
Definition is_bytes (r g b : Z) (p : option paint) : Prop :=
  exists x y z, p = Some (Paint (x, y, z)) /\ (x == inject_Z r / 255)%Q /\ (y == inject_Z g / 255)%Q /\ (z == inject_Z b / 255)%Q.
(** C160: each name is the color of SVG *)
Theorem color_names : forall n v inherit, In (n, v) svg_names -> is_bytes (v / 65536) (v / 256 mod 256) (v mod 256) (to_color (codes n) inherit).
Proof.
  intros n v inherit I.
  set (ok := fun nv : string * Z => match to_color (codes (fst nv)) inherit with Some (Paint (x, y, z)) =>
    Qeq_bool x (inject_Z (snd nv / 65536) / 255) && Qeq_bool y (inject_Z (snd nv / 256 mod 256) / 255) && Qeq_bool z (inject_Z (snd nv mod 256) / 255) | _ => false end).
  assert (A : forallb ok svg_names = true) by (vm_compute; reflexivity).
  rewrite forallb_forall in A. specialize (A _ I). unfold ok in A. cbn [fst snd] in A. unfold is_bytes.
  destruct (to_color (codes n) inherit) as [[|[[x y] z]]|]; try discriminate. exists x, y, z.
  apply andb_prop in A as [A C]. apply andb_prop in A as [A B]. repeat split; now apply Qeq_bool_eq.
Qed.
Print Assumptions color_names.
Example color_names_ex : List.length svg_names = 147%nat /\ exists x y z, to_color (codes "coral") NoPaint = Some (Paint (x, y, z)) /\ (x == 1)%Q /\ (y == 127 # 255)%Q /\ (z == 80 # 255)%Q.
Proof. split; [reflexivity|]. eexists _, _, _. split; [vm_compute; reflexivity|]. repeat split. Qed.
(** false: a name with white space around it is an error, though white space is allowed around rgb(...) and hexadecimal numbers *)
Theorem name_space_refuted : forall n v inherit, In (n, v) svg_names -> to_color (32 :: codes n) inherit = None /\ to_color (codes n ++ [32]) inherit = None.
Proof.
  intros n v inherit I.
  set (ok := fun nv : string * Z => match to_color (32 :: codes (fst nv)) inherit, to_color (codes (fst nv) ++ [32]) inherit with None, None => true | _, _ => false end).
  assert (A : forallb ok svg_names = true) by (vm_compute; reflexivity).
  rewrite forallb_forall in A. specialize (A _ I). unfold ok in A. cbn [fst] in A.
  destruct (to_color (32 :: codes n) inherit); [discriminate|]. destruct (to_color (codes n ++ [32]) inherit); [discriminate|]. auto.
Qed.
Print Assumptions name_space_refuted.

(** ** numbers *)
Lemma eqtext_eq : forall a b, eqtext a b = true -> a = b.
Proof. induction a as [|x a IH]; intros [|y b] E; cbn in E; try discriminate; auto. apply andb_prop in E as [E F]. apply IH in F. subst. f_equal. lia. Qed.
(** the texts with a character which is in no name *)
Lemma no_name c s inherit : In c s -> (c = 40 \/ c = 35) -> to_color s inherit =
  match rgb_pattern false (strip s) with
  | Some (r, g, b) => new_rgb (inject_Z r / 255) (inject_Z g / 255) (inject_Z b / 255)
  | None => match rgb_pattern true (strip s) with Some (r, g, b) => new_rgb (inject_Z r / 100) (inject_Z g / 100) (inject_Z b / 100) | None => rgbfromhexstring s end
  end.
Proof.
  intros I C. unfold to_color.
  assert (N : forall k, forallb (fun x => negb ((x =? 40) || (x =? 35))) (codes k) = true -> eqtext s (codes k) = false /\ eqtext (codes k) s = false).
  { intros k K. rewrite forallb_forall in K. split; (destruct (eqtext _ _) eqn:E; [|reflexivity]; apply eqtext_eq in E; subst s || (rewrite <- E in I); exfalso; specialize (K c); rewrite <- ?E in K; specialize (K I); lia). }
  destruct (N "currentColor"%string eq_refl) as [-> _]. destruct (N "inherit"%string eq_refl) as [-> _]. destruct (N "none"%string eq_refl) as [-> _].
  assert (find (fun p => eqtext (codes (fst p)) s) names = None) as ->; [|reflexivity].
  assert (A : forallb (fun p => forallb (fun x => negb ((x =? 40) || (x =? 35))) (codes (fst p))) names = true) by (vm_compute; reflexivity).
  rewrite forallb_forall in A. destruct (find _ names) as [p|] eqn:F; auto. apply find_some in F as [F1 F2]. destruct (N (fst p) (A p F1)) as [_ X]. congruence.
Qed.
Lemma strip_core a s b x y m : Forall wsp a -> Forall wsp b -> s = x :: m ++ [y] -> isspace x = false -> isspace y = false -> strip (a ++ s ++ b) = s.
Proof.
  intros A B E X Y. unfold strip. rewrite (skip_wsp a (s ++ b) A) by (subst s; exact X). rewrite rev_app_distr.
  rewrite (skip_wsp (rev b) (rev s)); [apply rev_involutive|now apply Forall_rev|]. subst s. change (x :: m ++ [y]) with ((x :: m) ++ [y]). rewrite rev_app_distr. exact Y.
Qed.
Lemma unit_value z m : 0 <= z -> 0 < m -> (Qle_bool 0 (inject_Z z / inject_Z m) && Qle_bool (inject_Z z / inject_Z m) 1) = (z <=? m).
Proof.
  intros Z0 M. assert (Mq : (0 < inject_Z m)%Q) by (change 0%Q with (inject_Z 0); rewrite <- Zlt_Qlt; lia).
  assert (Qle_bool 0 (inject_Z z / inject_Z m) = true) as ->.
  { apply Qle_bool_iff. apply Qle_shift_div_l; auto. rewrite Qmult_0_l. change 0%Q with (inject_Z 0). rewrite <- Zle_Qle. lia. }
  cbn [andb]. destruct (z <=? m) eqn:E.
  - apply Qle_bool_iff. apply Qle_shift_div_r; auto. rewrite Qmult_1_l. rewrite <- Zle_Qle. lia.
  - destruct (Qle_bool _ 1) eqn:F; auto. apply Qle_bool_iff in F. exfalso. apply (Qmult_le_compat_r _ _ (inject_Z m)) in F; [|lra].
    assert (G : (inject_Z z / inject_Z m * inject_Z m == inject_Z z)%Q) by (field; lra). rewrite G, Qmult_1_l, <- Zle_Qle in F. lia.
Qed.
Lemma new_rgb_value r g b m : 0 <= r -> 0 <= g -> 0 <= b -> 0 < m -> new_rgb (inject_Z r / inject_Z m) (inject_Z g / inject_Z m) (inject_Z b / inject_Z m) =
  if (r <=? m) && (g <=? m) && (b <=? m) then Some (Paint (inject_Z r / inject_Z m, inject_Z g / inject_Z m, inject_Z b / inject_Z m)%Q) else None.
Proof. intros R G B M. unfold new_rgb. rewrite !unit_value by auto. reflexivity. Qed.
Lemma component_read (pc : bool) w d w' r : Forall wsp w -> d <> [] -> Forall isdigit d -> Forall wsp w' -> match r with [] => True | c :: _ => isspace c = false /\ ~ isdigit c end ->
  component pc (w ++ d ++ (if pc then [37] else []) ++ w' ++ r) = Some (decimal d, r).
Proof.
  intros W N D W' R. unfold component. rewrite skip_wsp; auto.
  2:{ destruct D as [|c d C D]; [congruence|]. cbn. unfold isdigit in C. unfold isspace. cbn [existsb]. lia. }
  rewrite digits_span; auto.
  2:{ destruct pc; cbn [app]; [unfold isdigit; lia|]. destruct W' as [|c w' C W']; cbn [app]; [destruct r; [auto|apply R]|]. unfold wsp in C. unfold isdigit. cbn in C. lia. }
  destruct d as [|c d]; [congruence|]. destruct pc; cbn [bind app]; (rewrite skip_wsp; [|assumption|destruct r; [exact I|apply R]]); rewrite int_decimal; reflexivity.
Qed.
(** rgb with numbers or percentages *)
Definition rgb_text (pc : bool) (up : bool * bool * bool) (w1 dr w2 w3 dg w4 w5 db w6 : list Z) : list Z :=
  let p := if pc then [37] else [] in let '(a, b, c) := up in
  (if a then 82 else 114) :: (if b then 71 else 103) :: (if c then 66 else 98) :: 40 :: w1 ++ dr ++ p ++ w2 ++ 44 :: w3 ++ dg ++ p ++ w4 ++ 44 :: w5 ++ db ++ p ++ w6 ++ [41].
Lemma decimal_nonneg d : Forall isdigit d -> 0 <= decimal d.
Proof. induction 1 as [|c d C D IH]; cbn [decimal]; [lia|]. unfold isdigit in C. assert (0 < 10 ^ Z.of_nat (List.length d)) by (apply Z.pow_pos_nonneg; lia). nia. Qed.
Lemma pattern_read (pc : bool) up w1 dr w2 w3 dg w4 w5 db w6 : Forall wsp (w1 ++ w2 ++ w3 ++ w4 ++ w5 ++ w6) -> dr <> [] -> dg <> [] -> db <> [] -> Forall isdigit (dr ++ dg ++ db) ->
  rgb_pattern pc (rgb_text pc up w1 dr w2 w3 dg w4 w5 db w6) = Some (decimal dr, decimal dg, decimal db) /\
  (pc = true -> rgb_pattern false (rgb_text pc up w1 dr w2 w3 dg w4 w5 db w6) = None).
Proof.
  intros W Nr Ng Nb D. rewrite !Forall_app in W. rewrite !Forall_app in D. destruct W as (W1 & W2 & W3 & W4 & W5 & W6). destruct D as (Dr & Dg & Db).
  destruct up as [[a b] c]. unfold rgb_text, rgb_pattern.
  assert ((lower (if a then 82 else 114) =? 114) && (lower (if b then 71 else 103) =? 103) && (lower (if c then 66 else 98) =? 98) = true) as -> by (destruct a, b, c; reflexivity).
  assert (C44 : isspace 44 = false /\ ~ isdigit 44) by (split; [reflexivity|unfold isdigit; lia]).
  cbn [expect Z.eqb]. change (Pos.eqb 40 40) with true. cbn [bind].
  split.
  - rewrite component_read; auto. cbn [bind expect Z.eqb]. change (Pos.eqb 44 44) with true. cbn [bind]. rewrite component_read; auto. cbn [bind expect Z.eqb]. change (Pos.eqb 44 44) with true. cbn [bind].
    rewrite component_read; auto.
  - intros ->. cbn [app]. pose proof (component_read false w1 dr [] (37 :: w2 ++ 44 :: w3 ++ dg ++ 37 :: w4 ++ 44 :: w5 ++ db ++ 37 :: w6 ++ [41]) W1 Nr Dr (Forall_nil _)) as X. cbn [app] in X.
    rewrite X by (split; [reflexivity|unfold isdigit; lia]). cbn [bind expect Z.eqb Pos.eqb]. reflexivity.
Qed.
(** C160: rgb with numbers up to 255 or percentages up to 100, in upper or lower case and with white space between and around; larger ones are errors *)
Theorem color_numbers : forall (pc : bool) up w0 w1 dr w2 w3 dg w4 w5 db w6 w7 inherit, Forall wsp (w1 ++ w2 ++ w3 ++ w4 ++ w5 ++ w6) -> Forall wsp w0 -> Forall wsp w7 ->
  dr <> [] -> dg <> [] -> db <> [] -> Forall isdigit (dr ++ dg ++ db) -> let m := if pc then 100 else 255 in
  let t := w0 ++ rgb_text pc up w1 dr w2 w3 dg w4 w5 db w6 ++ w7 in
  (decimal dr <= m /\ decimal dg <= m /\ decimal db <= m -> to_color t inherit = Some (Paint (inject_Z (decimal dr) / inject_Z m, inject_Z (decimal dg) / inject_Z m, inject_Z (decimal db) / inject_Z m)%Q)) /\
  (m < decimal dr \/ m < decimal dg \/ m < decimal db -> to_color t inherit = None).
Proof.
  intros pc up w0 w1 dr w2 w3 dg w4 w5 db w6 w7 inherit W W0 W7 Nr Ng Nb D m t.
  assert (E : to_color t inherit = new_rgb (inject_Z (decimal dr) / inject_Z m) (inject_Z (decimal dg) / inject_Z m) (inject_Z (decimal db) / inject_Z m)).
  { rewrite (no_name 40).
    2:{ unfold t, rgb_text. destruct up as [[a b] c]. apply in_app_iff. right. cbn. tauto. }
    2:{ auto. }
    destruct (pattern_read pc up w1 dr w2 w3 dg w4 w5 db w6 W Nr Ng Nb D) as [P1 P2].
    assert (S : strip t = rgb_text pc up w1 dr w2 w3 dg w4 w5 db w6).
    { unfold t. destruct up as [[a b] c]. unfold rgb_text. set (p := if pc then [37] else []).
      apply (strip_core w0 _ w7 (if a then 82 else 114) 41
        ((if b then 71 else 103) :: (if c then 66 else 98) :: 40 :: w1 ++ dr ++ p ++ w2 ++ 44 :: w3 ++ dg ++ p ++ w4 ++ 44 :: w5 ++ db ++ p ++ w6)); [exact W0|exact W7| |destruct a; reflexivity|reflexivity].
      cbn [app]. do 4 apply f_equal. repeat (rewrite <- app_assoc; cbn [app]). reflexivity. }
    rewrite S. destruct pc; [rewrite (P2 eq_refl), P1|rewrite P1]; reflexivity. }
  rewrite !Forall_app in D. destruct D as (Dr & Dg & Db). rewrite E, new_rgb_value by (try (apply decimal_nonneg; assumption); destruct pc; reflexivity).
  split; intros H; destruct ((decimal dr <=? m) && (decimal dg <=? m) && (decimal db <=? m)) eqn:C; auto; lia.
Qed.
Print Assumptions color_numbers.
Example color_numbers_ex : exists x y z, to_color (codes " RGB( 51,0 , 255 )") NoPaint = Some (Paint (x, y, z)) /\ (x == 1 # 5)%Q /\ (y == 0)%Q /\ (z == 1)%Q /\
  to_color (codes "rgb(300, 0, 0)") NoPaint = None.
Proof. eexists _, _, _. split; [vm_compute; reflexivity|]. repeat split. Qed.
(** ** hexadecimal numbers *)
Definition hex (c v : Z) : Prop := (isdigit c /\ v = c - 48) \/ (97 <= c <= 102 /\ v = c - 87) \/ (65 <= c <= 70 /\ v = c - 55).
Lemma hex_read c v : hex c v -> hexdigit c = Some v.
Proof.
  intros [[D ->]|[[D ->]|[D ->]]]; unfold hexdigit.
  - apply digit_iff in D. now rewrite D.
  - assert (digit c = false) as -> by (unfold digit; lia). assert (lower c = c) as -> by (unfold lower; destruct ((65 <=? c) && (c <=? 90)) eqn:E; lia). destruct ((97 <=? c) && (c <=? 102)) eqn:E; auto. lia.
  - assert (digit c = false) as -> by (unfold digit; lia). assert (lower c = c + 32) as -> by (unfold lower; destruct ((65 <=? c) && (c <=? 90)) eqn:E; lia). destruct ((97 <=? c + 32) && (c + 32 <=? 102)) eqn:E; [f_equal; lia|lia].
Qed.
Lemma hex_range c v : hex c v -> 0 <= v <= 15 /\ isspace c = false /\ c <> 35.
Proof. unfold hex, isdigit, isspace. cbn [existsb]. lia. Qed.
Lemma hash_pattern p t : rgb_pattern p (35 :: t) = None.
Proof. unfold rgb_pattern. destruct t as [|g [|b s]]; reflexivity. Qed.
Lemma hexbyte_read a b u v : hex a u -> hex b v -> hexbyte a b = Some (inject_Z (16 * u + v) / 255)%Q.
Proof. intros A B. unfold hexbyte. rewrite (hex_read a u A), (hex_read b v B). reflexivity. Qed.
(** C160: numbers with six hexadecimal digits, and with three, each of which stands for two *)
Theorem color_hex : forall w w' inherit, Forall wsp w -> Forall wsp w' ->
  (forall a a' b b' c c' x x' y y' z z', hex a x -> hex a' x' -> hex b y -> hex b' y' -> hex c z -> hex c' z' ->
    is_bytes (16 * x + x') (16 * y + y') (16 * z + z') (to_color (w ++ [35; a; a'; b; b'; c; c'] ++ w') inherit)) /\
  (forall a b c x y z, hex a x -> hex b y -> hex c z -> is_bytes (17 * x) (17 * y) (17 * z) (to_color (w ++ [35; a; b; c] ++ w') inherit)).
Proof.
  intros w w' inherit W W'. split.
  - intros a a' b b' c c' x x' y y' z z' A A' B B' C C'. rewrite (no_name 35) by (try (apply in_app_iff; right; now left); auto).
    destruct (hex_range _ _ A) as (A1 & A2 & A3). destruct (hex_range _ _ A') as (A4 & _ & _). destruct (hex_range _ _ B) as (B1 & _ & _). destruct (hex_range _ _ B') as (B2 & _ & _).
    destruct (hex_range _ _ C) as (C1 & _ & _). destruct (hex_range _ _ C') as (C2 & C3 & _).
    assert (S : strip (w ++ [35; a; a'; b; b'; c; c'] ++ w') = [35; a; a'; b; b'; c; c']) by (apply (strip_core w _ w' 35 c' [a; a'; b; b'; c]); auto).
    unfold rgbfromhexstring. rewrite S, !hash_pattern.
    assert (span (Z.eqb 35) (35 :: [a; a'; b; b'; c; c']) = ([35], [a; a'; b; b'; c; c'])) as -> by (apply (span_app (Z.eqb 35) [35] [a; a'; b; b'; c; c']); [repeat constructor|lia]). cbn [snd].
    rewrite (hexbyte_read a a' x x' A A'), (hexbyte_read b b' y y' B B'), (hexbyte_read c c' z z' C C'). cbn [bind]. change 255%Q with (inject_Z 255). rewrite new_rgb_value by lia.
    destruct ((16 * x + x' <=? 255) && (16 * y + y' <=? 255) && (16 * z + z' <=? 255)) eqn:E; [|lia]. eexists _, _, _. split; [reflexivity|]. repeat split; reflexivity.
  - intros a b c x y z A B C. rewrite (no_name 35) by (try (apply in_app_iff; right; now left); auto).
    destruct (hex_range _ _ A) as (A1 & A2 & A3). destruct (hex_range _ _ B) as (B1 & _ & _). destruct (hex_range _ _ C) as (C1 & C3 & _).
    assert (S : strip (w ++ [35; a; b; c] ++ w') = [35; a; b; c]) by (apply (strip_core w _ w' 35 c [a; b]); auto).
    unfold rgbfromhexstring. rewrite S, !hash_pattern.
    assert (span (Z.eqb 35) (35 :: [a; b; c]) = ([35], [a; b; c])) as -> by (apply (span_app (Z.eqb 35) [35] [a; b; c]); [repeat constructor|lia]). cbn [snd].
    rewrite (hexbyte_read a a x x A A), (hexbyte_read b b y y B B), (hexbyte_read c c z z C C). cbn [bind]. change 255%Q with (inject_Z 255). rewrite new_rgb_value by lia.
    destruct ((16 * x + x <=? 255) && (16 * y + y <=? 255) && (16 * z + z <=? 255)) eqn:E; [|lia]. eexists _, _, _. split; [reflexivity|].
    replace (16 * x + x) with (17 * x) by lia. replace (16 * y + y) with (17 * y) by lia. replace (16 * z + z) with (17 * z) by lia. repeat split; reflexivity.
Qed.
Print Assumptions color_hex.
Example color_hex_ex : exists x y z, to_color (codes "#0aF") NoPaint = Some (Paint (x, y, z)) /\ (x == 0)%Q /\ (y == 2 # 3)%Q /\ (z == 1)%Q.
Proof. eexists _, _, _. split; [vm_compute; reflexivity|]. repeat split. Qed.
(** false: an unknown word of hexadecimal digits is a color, and currentColor is no color, whatever the color is *)
Theorem color_words_refuted : (exists c, to_color (codes "facade") NoPaint = Some (Paint c)) /\ forall inherit, to_color (codes "currentColor") inherit = Some NoPaint.
Proof. split; [eexists; vm_compute; reflexivity|reflexivity]. Qed.
Print Assumptions color_words_refuted.
(** C160: none and inherit *)
Theorem color_inherited : forall inherit, to_color (codes "none") inherit = Some NoPaint /\ to_color (codes "inherit") inherit = Some inherit.
Proof. split; reflexivity. Qed.
Print Assumptions color_inherited.
