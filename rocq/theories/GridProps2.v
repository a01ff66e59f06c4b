(** * The image of density graphs (C105) *)

From Coq Require Import Reals Bool List Lra Lia Permutation Sorted.
From Verif Require Import ImagePlaceModel ImagePlaceSpec ImagePlaceProps Graph3dModel TrafoModel GridModel GridSpec GridProps.
Import ListNotations.
Open Scope R_scope.

Lemma insert_perm x l : Permutation (insert x l) (x :: l).
Proof.
  induction l as [|y l IH]; cbn; [auto|]. destruct (ltb y x); [|auto]. etransitivity; [apply perm_skip, IH|]. apply perm_swap.
Qed.
Lemma insert_sorted x l : StronglySorted Rle l -> StronglySorted Rle (insert x l).
Proof.
  induction 1 as [|y l S IH F]; cbn; [repeat constructor|]. unfold ltb. destruct (Rlt_dec y x) as [L|L].
  - constructor; [exact IH|]. eapply Permutation_Forall; [symmetry; apply insert_perm|]. constructor; [lra|exact F].
  - constructor; [constructor; assumption|]. constructor; [lra|]. eapply Forall_impl; [|exact F]. intros; cbn in *; lra.
Qed.
(** the values of the grid are put in order *)
Theorem grid_sorted : forall values, Permutation (sorted values) values /\ StronglySorted Rle (sorted values).
Proof.
  induction values as [|x l [P S]]; cbn; [split; constructor|]. split; [|apply insert_sorted, S].
  etransitivity; [apply insert_perm|]. constructor. exact P.
Qed.
Print Assumptions grid_sorted.
Example grid_sorted_ex : sorted [2; 1; 3] = [1; 2; 3].
Proof.
  assert (insert 3 [] = [3]) as A by reflexivity.
  assert (insert 1 [3] = [1; 3]) as B by (cbn; unfold ltb; destruct (Rlt_dec 3 1); [lra|reflexivity]).
  assert (insert 2 [1; 3] = [1; 2; 3]) as E by (cbn; unfold ltb; destruct (Rlt_dec 1 2); [|lra]; destruct (Rlt_dec 3 2); [lra|reflexivity]).
  unfold sorted. cbn [fold_right]. rewrite A, B, E. reflexivity.
Qed.

(** the data of the image are line by line, from left to right, those of the grid *)
Theorem density_pixels : forall (D C B : Type) (conv : C -> option B) g colors vs1 vs2 i j a b,
  nth_error vs1 i = Some a -> nth_error vs2 j = Some b ->
  nth_error (pixels D C conv g colors vs1 vs2) (j * length vs1 + i) = Some (pixel D C conv g colors a b) /\
  length (pixels D C conv g colors vs1 vs2) = (length vs1 * length vs2)%nat.
Proof.
  intros D C B conv g colors vs1 vs2 i j a b I J. unfold pixels. split.
  - revert j J. induction vs2 as [|v vs2 IH]; intros [|j] J; try discriminate; cbn [flat_map].
    + injection J as ->. cbn [Nat.mul Nat.add]. rewrite nth_error_app1 by (rewrite map_length; apply nth_error_Some; congruence). rewrite nth_error_map, I. reflexivity.
    + cbn in J. cbn [Nat.mul]. rewrite nth_error_app2 by (rewrite map_length; lia). rewrite map_length.
      replace (length vs1 + j * length vs1 + i - length vs1)%nat with (j * length vs1 + i)%nat by lia. apply IH, J.
  - clear J I. induction vs2 as [|v vs2 IH]; cbn [flat_map]; [rewrite Nat.mul_0_r; reflexivity|]. rewrite app_length, map_length, IH. cbn [length]. lia.
Qed.
Print Assumptions density_pixels.
Example density_pixels_ex : pixels unit nat Some (mkgrid unit [0; 1] [0; 1] [] None) [] [0; 1] [0; 1] = [None; None; None; None].
Proof. reflexivity. Qed.

Lemma pixel_bytes_length m a p : (forall c, p = Some c -> length c = m) -> length (pixel_bytes m a p) = (if a then S m else m).
Proof. intros H. destruct p as [c|]; cbn; [rewrite app_length, (H c eq_refl); destruct a; cbn; lia|apply repeat_length]. Qed.
Lemma flat_const {X} (f : X -> list nat) n l : Forall (fun x => length (f x) = n) l ->
  length (flat_map f l) = (length l * n)%nat /\
  forall k x, nth_error l k = Some x -> firstn n (skipn (k * n) (flat_map f l)) = f x.
Proof.
  induction 1 as [|x l L F [IH1 IH2]]; cbn [flat_map length].
  - split; [reflexivity|]. intros [|k]; discriminate.
  - split; [rewrite app_length, IH1, L; lia|]. intros [|k] y K.
    + injection K as <-. cbn [Nat.mul skipn]. rewrite firstn_app, L, Nat.sub_diag. cbn. rewrite app_nil_r, <- L. apply firstn_all.
    + cbn in K. cbn [Nat.mul]. rewrite skipn_app, L. rewrite skipn_all2 by (rewrite L; lia). cbn [app]. replace (n + k * n - n)%nat with (k * n)%nat by lia. apply IH2, K.
Qed.
(** Each pixel has the bytes of its color at its place, followed by 255 if some other pixel is empty; the bytes of empty pixels are
    zero, including the alpha channel. *)
Theorem density_bytes : forall modelen l, Forall (fun p => forall c, p = Some c -> length c = modelen) l ->
  let n := if needalpha l then S modelen else modelen in
  length (image_bytes modelen l) = (length l * n)%nat /\
  (needalpha l = true <-> In None l) /\
  forall k p, nth_error l k = Some p ->
    firstn n (skipn (k * n) (image_bytes modelen l)) =
    match p with Some c => c ++ (if needalpha l then [255%nat] else []) | None => repeat 0%nat (S modelen) end.
Proof.
  intros m l F n. unfold image_bytes.
  assert (Forall (fun p => length (pixel_bytes m (needalpha l) p) = n) l) as G by (eapply Forall_impl; [|exact F]; intros p H; apply pixel_bytes_length, H).
  destruct (flat_const _ n l G) as [L1 L2].
  assert (needalpha l = true <-> In None l) as A.
  { unfold needalpha. rewrite existsb_exists. split; [intros ([c|] & I & Q); [discriminate|exact I]|intros I; exists None; auto]. }
  split; [exact L1|]. split; [exact A|]. intros k p K. rewrite (L2 k p K). destruct p as [c|]; [reflexivity|]. cbn.
  rewrite (proj2 A (nth_error_In _ _ K)). reflexivity.
Qed.
Print Assumptions density_bytes.
Example density_bytes_ex : image_bytes 3 [Some [1; 2; 3]; None; Some [4; 5; 6]]%nat = [1; 2; 3; 255; 0; 0; 0; 0; 4; 5; 6; 255]%nat /\
  image_bytes 1 [Some [7]; Some [8]]%nat = [7; 8]%nat.
Proof. split; reflexivity. Qed.

Lemma last_cons2 (x y : R) l d : last (x :: y :: l) d = last (y :: l) d.
Proof. reflexivity. Qed.
Lemma equidistant_nth e f r l k values : equidistant_from e f r l k values = true ->
  forall i a, nth_error values i = Some a -> Rabs (a - f - INR (k + i) * r / l) <= e.
Proof.
  revert k. induction values as [|v vs IH]; intros k H [|i] a I; try discriminate.
  - injection I as ->. cbn [equidistant_from] in H. apply andb_true_iff in H as [H _]. apply negb_true_iff in H. unfold ltb in H.
    destruct (Rlt_dec _ _) in H; [discriminate|]. rewrite Nat.add_0_r. lra.
  - cbn [equidistant_from] in H. apply andb_true_iff in H as [_ H]. specialize (IH (S k) H i a I). replace (k + S i)%nat with (S k + i)%nat by lia. exact IH.
Qed.
(** the i-th value is where it should be, up to [epsilon] *)
Lemma equidistant_spec e vs : equidistant e vs = true ->
  (2 <= length vs)%nat /\ forall i a, nth_error vs i = Some a ->
  Rabs (a - (hd 0 vs + INR i * ((last vs 0 - hd 0 vs) / (INR (length vs) - 1)))) <= e.
Proof.
  destruct vs as [|x [|y l]]; try discriminate. intros H. split; [cbn; lia|]. intros i a I. unfold equidistant in H.
  pose proof (equidistant_nth _ _ _ _ _ _ H i a I) as Q. cbn [Nat.add hd] in *.
  replace (INR (length (x :: y :: l)) - 1) with (INR (length (x :: y :: l) - 1)) by (rewrite minus_INR by (cbn; lia); cbn [INR]; lra).
  unfold Rdiv in *. rewrite Rmult_assoc in Q. replace (a - (x + INR i * ((last (x :: y :: l) 0 - x) * / INR (length (x :: y :: l) - 1)))) with
    (a - x - INR i * ((last (x :: y :: l) 0 - x) * / INR (length (x :: y :: l) - 1))) by ring. exact Q.
Qed.

(** Pixels are rectangles of the size of the distance of the values of the grid around the points: the position ([s], [t]) within
    the pixel in column [i] and line [j] of the image is at the coordinates (a + (s - 1/2) w1, b + (t - 1/2) w2), if a and b are the
    values of the grid there. *)
Theorem density_position : forall epsilon vpos vs1 vs2 i j a b,
  equidistant epsilon vs1 = true -> equidistant epsilon vs2 = true -> affine vpos ->
  nth_error vs1 i = Some a -> nth_error vs2 j = Some b ->
  let w1 := (last vs1 0 - hd 0 vs1) / (INR (length vs1) - 1) in let w2 := (last vs2 0 - hd 0 vs2) / (INR (length vs2) - 1) in
  exists d1 d2, Rabs d1 <= epsilon /\ Rabs d2 <= epsilon /\
  forall s t p, pdf_at (pdf_cm (density_trafo vpos vs1 vs2)) (INR (length vs1)) (INR (length vs2)) (INR i + s, INR j + t) p <->
    p = vpos (a + d1 + (s - 1/2) * w1) (b + d2 + (t - 1/2) * w2).
Proof.
  intros e vpos vs1 vs2 i j a b E1 E2 (px & py & qx & qy & sx & sy & V) I J w1 w2.
  destruct (equidistant_spec e vs1 E1) as (L1 & P1). destruct (equidistant_spec e vs2 E2) as (L2 & P2).
  specialize (P1 i a I). specialize (P2 j b J). fold w1 in P1. fold w2 in P2.
  exists (hd 0 vs1 + INR i * w1 - a), (hd 0 vs2 + INR j * w2 - b).
  split; [rewrite Rabs_minus_sym; exact P1|]. split; [rewrite Rabs_minus_sym; exact P2|].
  intros s t p. unfold pdf_at, pdf_cm. change (pdfmatrix (density_trafo vpos vs1 vs2)) with (psmatrix (density_trafo vpos vs1 vs2)). rewrite ps_apply.
  apply le_INR in L1. apply le_INR in L2. replace (INR 2) with 2 in * by (cbn; lra).
  assert (forall vs, 2 <= INR (length vs) -> enlargement vs = ((last vs 0 - hd 0 vs) / (INR (length vs) - 1)) / 2) as En.
  { intros vs L. unfold enlargement. rewrite minus_INR by (apply INR_le; cbn; lra). cbn [INR]. replace 0.5 with (/ 2) by lra. field. lra. }
  assert (forall vs w, 2 <= INR (length vs) -> w = (last vs 0 - hd 0 vs) / (INR (length vs) - 1) -> last vs 0 = hd 0 vs + (INR (length vs) - 1) * w) as La.
  { intros vs w L ->. field. lra. }
  unfold density_trafo. rewrite (En vs1 L1), (En vs2 L2). fold w1 w2. rewrite (La vs1 w1 L1 eq_refl), (La vs2 w2 L2 eq_refl). rewrite !V.
  unfold apply_pt. cbn [m00 m01 m10 m11 v0 v1 fst snd].
  assert (forall (u v : R * R), u = v -> (p = u <-> p = v)) as X by (intros; subst; tauto). apply X.
  f_equal; field; lra.
Qed.
Print Assumptions density_position.
Example density_position_ex : affine (fun u v => (10 + 100 * u, 20 + 50 * v)) /\
  pdf_at (pdf_cm (density_trafo (fun u v => (10 + 100 * u, 20 + 50 * v)) [0; 0.5; 1] [0; 1])) 3 2 (1 + 1/2, 0 + 1/2) (60, 20).
Proof.
  split; [exists 10, 20, 100, 0, 0, 50; intros; f_equal; ring|]. unfold density_trafo, enlargement, pdf_at, pdf_cm, pdfmatrix, matrix_apply. cbn. f_equal; lra.
Qed.
