(** Properties of MeshModel.v *)
From Coq Require Import Reals ZArith Bool List Lia Lra.
From Verif Require Import ColorModel BboxModel ParterModel ParterProofs ArcProps MeshModel MeshSpec.
Import ListNotations.
Open Scope R_scope.

(** ** the check *)
Definition in_space (k : nat) (n : node) : Prop := colorspace (value n) = Some k.
Lemma check_space_seen k l : check_space (Some k) l = (if forallb (fun n => match colorspace (value n) with Some j => Nat.eqb j k | None => false end) l then Some (Some k) else None).
Proof.
  induction l as [|n l IH]; [reflexivity|]. cbn [check_space forallb]. destruct (colorspace (value n)) as [j|]; [|reflexivity].
  destruct (Nat.eqb j k); [exact IH|reflexivity].
Qed.
Lemma forallb_space k l : forallb (fun n => match colorspace (value n) with Some j => Nat.eqb j k | None => false end) l = true <-> Forall (in_space k) l.
Proof.
  rewrite forallb_forall, Forall_forall. unfold in_space. split; intros H n Hn; specialize (H n Hn).
  - destruct (colorspace (value n)) as [j|]; [|discriminate]. apply Nat.eqb_eq in H. congruence.
  - rewrite H. apply Nat.eqb_refl.
Qed.
Lemma check_space_some k l : check_space (Some k) l = Some (Some k) <-> Forall (in_space k) l.
Proof. rewrite check_space_seen, <- forallb_space. destruct (forallb _ l); split; congruence. Qed.
Lemma check_space_other k l o : check_space (Some k) l = Some o -> o = Some k.
Proof. rewrite check_space_seen. destruct (forallb _ l); congruence. Qed.
Definition triangle (e : element) : Prop := length e = 3%nat /\ Forall (fun n => length (coords n) = 2%nat) e.
Lemma forallb_coords (e : element) : forallb (fun n => Nat.eqb (length (coords n)) 2) e = true <-> Forall (fun n => length (coords n) = 2%nat) e.
Proof. rewrite forallb_forall, Forall_forall. split; intros H n Hn; apply Nat.eqb_eq; auto. Qed.
Lemma check_seen k m : check_elements (Some k) m = true <-> Forall triangle m /\ Forall (in_space k) (nodes m).
Proof.
  unfold nodes. induction m as [|e m IH]; [cbn; split; auto|]. cbn [check_elements concat]. rewrite Forall_app, Forall_cons_iff. unfold triangle at 1.
  destruct (Nat.eqb_spec (length e) 3) as [E3|E3].
  - destruct (check_space (Some k) e) as [o|] eqn:E.
    + rewrite (check_space_other _ _ _ E) in E |- *. apply check_space_some in E. rewrite andb_true_iff, IH, forallb_coords. tauto.
    + split; [discriminate|]. intros [_ [H _]]. apply check_space_some in H. congruence.
  - split; [discriminate|]. tauto.
Qed.
(** A mesh is accepted exactly if its elements are triangles in the plane and all colors are of one of the three
    color spaces of shadings. *)
Theorem mesh_check m :
  new_mesh m = Some m <->
  (forall e, In e m -> length e = 3%nat /\ forall n, In n e -> length (coords n) = 2%nat) /\
  exists k, forall e n, In e m -> In n e ->
    match value n with Gray _ => k = 1%nat | RGB _ _ _ => k = 3%nat | CMYK _ _ _ _ => k = 4%nat | HSB _ _ _ => False end.
Proof.
  assert (K : forall k n, in_space k n <-> match value n with Gray _ => k = 1%nat | RGB _ _ _ => k = 3%nat | CMYK _ _ _ _ => k = 4%nat | HSB _ _ _ => False end).
  { intros k n. unfold in_space. destruct (value n); cbn; (split; [intros H; injection H as <-; reflexivity || (cbn in H; discriminate H)| intros H; subst; reflexivity || destruct H]) || (split; [discriminate|intros []]). }
  assert (T : Forall triangle m <-> forall e, In e m -> length e = 3%nat /\ forall n, In n e -> length (coords n) = 2%nat).
  { rewrite Forall_forall. unfold triangle. split; intros H e He; specialize (H e He); rewrite Forall_forall in *; exact H. }
  assert (N : forall k, Forall (in_space k) (nodes m) <-> forall e n, In e m -> In n e -> in_space k n).
  { intros k. rewrite Forall_forall. unfold nodes. split.
    - intros H e n He Hn. apply H. apply in_concat. eauto.
    - intros H n Hn. apply in_concat in Hn. destruct Hn as [e [He Hn]]. eauto. }
  unfold new_mesh. destruct m as [|e m].
  { cbn. split; [|reflexivity]. intros _. split; [tauto|]. exists 1%nat. tauto. }
  assert (C : check_elements None (e :: m) = true <-> Forall triangle (e :: m) /\ exists k, Forall (in_space k) (nodes (e :: m))).
  { cbn [check_elements]. destruct (Nat.eqb_spec (length e) 3) as [E3|E3].
    2: { split; [discriminate|]. rewrite Forall_cons_iff. unfold triangle at 1. tauto. }
    destruct e as [|n e]; [discriminate|]. unfold nodes. cbn [check_space concat app].
    destruct (colorspace (value n)) as [k|] eqn:Ek.
    - assert (U : (exists k0, Forall (in_space k0) (n :: e ++ concat m)) <-> Forall (in_space k) e /\ Forall (in_space k) (nodes m)).
      { unfold nodes. rewrite <- Forall_app. split.
        - intros [k0 H]. apply Forall_cons_iff in H. destruct H as [H1 H]. unfold in_space in H1. assert (k0 = k) by congruence. subst. exact H.
        - intros H. exists k. constructor; [exact Ek|exact H]. }
      rewrite U. destruct (check_space (Some k) e) as [o|] eqn:E.
      + rewrite (check_space_other _ _ _ E) in E |- *. rewrite andb_true_iff, check_seen, forallb_coords. apply check_space_some in E.
        rewrite (Forall_cons_iff triangle). unfold triangle at 2. tauto.
      + split; [discriminate|]. intros [_ [H _]]. apply check_space_some in H. congruence.
    - split; [discriminate|]. intros [_ [k H]]. apply Forall_cons_iff in H. destruct H as [H _]. unfold in_space in H. congruence. }
  assert (S : (if check_elements None (e :: m) then Some (e :: m) else None) = Some (e :: m) <-> check_elements None (e :: m) = true)
    by (destruct (check_elements None (e :: m)); split; congruence).
  rewrite S, C, T. split; intros [H1 [k H2]]; (split; [exact H1|]); exists k.
  - intros e0 n He Hn. apply K. apply (proj1 (N k) H2 e0); auto.
  - apply N. intros e0 n He Hn. apply K. exact (H2 e0 n He Hn).
Qed.
Print Assumptions mesh_check.

(** ** quantisation *)
Lemma trunc_pos x : 0 <= x -> trunc x = floor x.
Proof. intros H. unfold trunc. destruct (ParterModel.ltb x 0) eqn:E; [|reflexivity]. unfold ParterModel.ltb in E. destruct (Rlt_dec x 0); [lra|discriminate]. Qed.
Lemma quantised lo hi c (k : Z) : lo < hi -> lo <= c <= hi -> (0 < k)%Z ->
  let n := trunc ((c - lo) * IZR k / (hi - lo)) in
  (0 <= n <= k)%Z /\
  (let y := lo + IZR n * (hi - lo) / IZR k in y <= c /\ c - y < (hi - lo) / IZR k /\ lo <= y <= hi /\ (c = lo -> y = lo) /\ (c = hi -> y = hi)).
Proof.
  intros Hl Hc Hk. assert (0 < IZR k) as Hk' by (apply IZR_lt; exact Hk).
  set (q := (c - lo) * IZR k / (hi - lo)).
  assert (Q0 : 0 <= q). { unfold q, Rdiv. apply Rmult_le_pos; [apply Rmult_le_pos; lra|]. left. apply Rinv_0_lt_compat. lra. }
  assert (Q : q * (hi - lo) = (c - lo) * IZR k) by (unfold q; field; lra).
  assert (Q1 : q <= IZR k). { apply (Rmult_le_reg_r (hi - lo)); [lra|]. rewrite Q. rewrite (Rmult_comm (IZR k)). apply Rmult_le_compat_r; lra. }
  assert (QK : c - lo = q * (hi - lo) / IZR k) by (rewrite Q; field; lra).
  assert (E0 : c = lo -> q = 0) by (intros ->; unfold q; field; lra).
  assert (E1 : c = hi -> q = IZR k) by (intros ->; unfold q; field; lra).
  rewrite trunc_pos by exact Q0. cbv zeta. pose proof (floor_spec q) as F. set (n := floor q) in *.
  assert (N0 : (0 <= n)%Z) by (apply floor_ge; exact Q0).
  assert (N1 : (n <= k)%Z). { assert (n < k + 1)%Z; [|lia]. apply lt_IZR. rewrite plus_IZR. lra. }
  split; [lia|]. set (w := (hi - lo) / IZR k). assert (0 < w) as Hw by (unfold w; apply Rdiv_lt_0_compat; lra).
  replace (IZR n * (hi - lo) / IZR k) with (IZR n * w) by (unfold w; field; lra).
  assert (C : c = lo + q * w) by (unfold w; replace (q * ((hi - lo) / IZR k)) with (q * (hi - lo) / IZR k) by (field; lra); lra).
  assert (W : IZR k * w = hi - lo) by (unfold w; field; lra).
  assert (NR : 0 <= IZR n <= IZR k) by (split; apply IZR_le; lia).
  assert (0 <= IZR n * w) by (apply Rmult_le_pos; lra).
  assert (IZR n * w <= IZR k * w) by (apply Rmult_le_compat_r; lra).
  repeat split.
  - rewrite C. apply Rplus_le_compat_l. apply Rmult_le_compat_r; lra.
  - replace (c - (lo + IZR n * w)) with ((q - IZR n) * w) by (rewrite C; ring). rewrite <- (Rmult_1_l w) at 2. apply Rmult_lt_compat_r; lra.
  - lra.
  - lra.
  - intros e. rewrite (E0 e) in F. assert (n = 0)%Z as ->; [|lra]. assert (n < 1)%Z; [|lia]. apply lt_IZR. lra.
  - intros e. assert (n = k) as ->; [|lra]. assert (k < n + 1)%Z; [|lia]. apply lt_IZR. rewrite plus_IZR. rewrite (E1 e) in F. lra.
Qed.

Lemma bytes24 n : (0 <= n < 2 ^ 24)%Z -> number24 ((n / 65536) mod 256) ((n / 256) mod 256) (n mod 256) = n.
Proof.
  intros H. unfold number24. change (2 ^ 24)%Z with (65536 * 256)%Z in H.
  assert (n / 65536 < 256)%Z by (apply Z.div_lt_upper_bound; lia). assert (0 <= n / 65536)%Z by (apply Z.div_pos; lia).
  rewrite (Z.mod_small (n / 65536)) by lia.
  pose proof (Z.div_mod n 256 ltac:(lia)). pose proof (Z.div_mod (n / 256) 256 ltac:(lia)) as D. rewrite Z.div_div in D by lia. change (256 * 256)%Z with 65536%Z in D. lia.
Qed.

Lemma coordinate c lo hi : lo < hi -> lo <= c <= hi ->
  exists a b d, coords24bit c lo hi = Some [a; b; d] /\ within_step lo hi 24 c (decode lo hi 24 (number24 a b d)) /\
    number24 a b d = trunc ((c - lo) * 16777215 / (hi - lo)).
Proof.
  intros Hl Hc. destruct (quantised lo hi c 16777215 Hl Hc ltac:(lia)) as [N Q]. unfold coords24bit.
  destruct (Req_EM_T (hi - lo) 0) as [Z0|_]; [lra|]. set (n := trunc _) in *. unfold pack24.
  destruct (Z.leb_spec 0 n); [|lia]. destruct (Z.ltb_spec n (2 ^ 32)); [|lia]. cbn [andb].
  exists ((n / 65536) mod 256)%Z, ((n / 256) mod 256)%Z, (n mod 256)%Z. split; [reflexivity|]. rewrite bytes24 by lia. split; [exact Q|reflexivity].
Qed.
Lemma component x : 0 <= x <= 1 -> exists b, color_byte x = Some b /\ within_step 0 1 8 x (decode 0 1 8 b).
Proof.
  intros H. destruct (quantised 0 1 x 255 ltac:(lra) H ltac:(lia)) as [N Q]. unfold color_byte. cbv zeta in N, Q |- *.
  replace ((x - 0) * 255 / (1 - 0)) with (x * 255) in N, Q by (field; lra). set (n := trunc (x * 255)) in *.
  destruct (Z.leb_spec 0 n); [|lia]. destruct (Z.leb_spec n 255); [|lia]. exists n. split; [reflexivity|]. exact Q.
Qed.
Definition valid (c : color) : Prop := Forall (fun x => 0 <= x <= 1) (components c).
Lemma colors_decoded l : Forall (fun x => 0 <= x <= 1) l ->
  exists bs, all_some (map color_byte l) = Some bs /\ length bs = length l /\
    Forall2 (within_step 0 1 8) l (decode_colors (concat (map (fun _ : Z => [0; 1]) bs)) bs).
Proof.
  induction 1 as [|x l Hx _ [bs [E [L F]]]]; [exists []; repeat split; constructor|]. destruct (component x Hx) as [b [Eb Hb]].
  exists (b :: bs). cbn [map all_some]. rewrite Eb. cbn [option_map]. rewrite E. split; [reflexivity|]. split; [cbn; lia|]. cbn. constructor; assumption.
Qed.
Lemma color_decoded c k : valid c -> colorspace c = Some k ->
  exists bs, to8bitbytes c = Some bs /\ length bs = k /\ Forall2 (within_step 0 1 8) (components c) (decode_colors (concat (map (fun _ : Z => [0; 1]) bs)) bs).
Proof.
  intros V K. destruct (colors_decoded (components c) V) as [bs [E [L F]]]. exists bs.
  destruct c; try discriminate; injection K as <-; cbn [to8bitbytes]; (split; [exact E|split; [exact L|exact F]]).
Qed.

(** ** the extent *)
Lemma fold_min l x : smallest (fold_left Rmin l x) (x :: l).
Proof.
  revert x. induction l as [|y l IH]; intros x; [split; [left; reflexivity|intros z [->|[]]; cbn; lra]|]. cbn [fold_left].
  destruct (IH (Rmin x y)) as [I M]. assert (fold_left Rmin l (Rmin x y) <= Rmin x y) as B by (apply M; left; reflexivity). split.
  - destruct I as [I|I].
    + rewrite <- I. unfold Rmin. destruct (Rle_dec x y); [left|right; left]; reflexivity.
    + right. right. exact I.
  - intros z [<-|[<-|Hz]].
    + pose proof (Rmin_l x y). lra.
    + pose proof (Rmin_r x y). lra.
    + apply M. right. exact Hz.
Qed.
Lemma fold_max l x : largest (fold_left Rmax l x) (x :: l).
Proof.
  revert x. induction l as [|y l IH]; intros x; [split; [left; reflexivity|intros z [->|[]]; cbn; lra]|]. cbn [fold_left].
  destruct (IH (Rmax x y)) as [I M]. assert (Rmax x y <= fold_left Rmax l (Rmax x y)) as B by (apply M; left; reflexivity). split.
  - destruct I as [I|I].
    + rewrite <- I. unfold Rmax. destruct (Rle_dec x y); [right; left|left]; reflexivity.
    + right. right. exact I.
  - intros z [<-|[<-|Hz]].
    + pose proof (Rmax_l x y). lra.
    + pose proof (Rmax_r x y). lra.
    + apply M. right. exact Hz.
Qed.
Lemma extent_known m : nodes m <> [] -> exists llx lly urx ury, mesh_bbox m = Some (llx, lly, urx, ury) /\
  smallest llx (map nx (nodes m)) /\ smallest lly (map ny (nodes m)) /\ largest urx (map nx (nodes m)) /\ largest ury (map ny (nodes m)).
Proof.
  intros N. unfold mesh_bbox. destruct (nodes m) as [|n l]; [congruence|]. cbn [map minimum maximum].
  eexists _, _, _, _. split; [reflexivity|]. repeat apply conj; (apply fold_min || apply fold_max).
Qed.

(** ** the data *)
Definition shown (b : R * R * R * R) (n : node) (v : vertex) : Prop :=
  let '(llx, lly, urx, ury) := b in
  flag v = 0%Z /\ within_step llx urx 24 (nx n) (vx v) /\ within_step lly ury 24 (ny n) (vy v) /\
  Forall2 (within_step 0 1 8) (components (value n)) (vcolor v).
Lemma limits_same {A B} (l : list A) (l' : list B) : length l = length l' -> concat (map (fun _ => [0; 1]) l) = concat (map (fun _ => [0; 1]) l').
Proof. revert l'. induction l as [|a l IH]; intros [|b l'] H; try discriminate; [reflexivity|]. cbn. f_equal. f_equal. apply IH. cbn in H. lia. Qed.
Lemma decoded llx lly urx ury k (cs : list Z) l fuel : llx < urx -> lly < ury -> length cs = k ->
  Forall (fun n => valid (value n) /\ in_space k n /\ llx <= nx n <= urx /\ lly <= ny n <= ury) l ->
  (forall d, all_some (map (node_data (llx, lly, urx, ury)) l) = Some d -> (length l <= fuel)%nat ->
    exists vs, vertices fuel ([llx; urx; lly; ury] ++ concat (map (fun _ => [0; 1]) cs)) k (concat d) = Some vs /\
      Forall2 (shown (llx, lly, urx, ury)) l vs) /\
  exists d, all_some (map (node_data (llx, lly, urx, ury)) l) = Some d /\ (length l <= length (concat d))%nat.
Proof.
  intros Hx Hy Hc H. revert fuel. induction H as [|n l [V [K [Bx By]]] _ IH]; intros fuel.
  - split; [|exists []; split; [reflexivity|cbn; lia]]. intros d E _. injection E as <-. exists []. split; [destruct fuel; reflexivity|constructor].
  - destruct (coordinate (nx n) llx urx Hx Bx) as [a [b [c [Ex [Wx _]]]]]. destruct (coordinate (ny n) lly ury Hy By) as [a' [b' [c' [Ey [Wy _]]]]].
    destruct (color_decoded (value n) k V K) as [bs [Eb [Lb Fb]]].
    assert (D : node_data (llx, lly, urx, ury) n = Some ([0; a; b; c; a'; b'; c']%Z ++ bs)) by (unfold node_data; rewrite Ex, Ey, Eb; reflexivity).
    cbn [map all_some]. rewrite D. split.
    + intros d E Hf. destruct (all_some (map (node_data (llx, lly, urx, ury)) l)) as [d'|] eqn:E'; [|discriminate]. cbn [option_map] in E. injection E as <-.
      destruct fuel as [|fuel]; [cbn in Hf; lia|]. destruct (IH fuel) as [IH1 _]. destruct (IH1 d' eq_refl ltac:(cbn in Hf; lia)) as [vs [Ev Fv]].
      cbn [concat app] in Ev |- *. cbn [vertices].
      rewrite app_length. destruct (Nat.leb_spec k (length bs + length (concat d'))); [|lia].
      assert (F1 : firstn k (bs ++ concat d') = bs) by (rewrite <- Lb, firstn_app, firstn_all, Nat.sub_diag; cbn; apply app_nil_r).
      assert (F2 : skipn k (bs ++ concat d') = concat d') by (rewrite <- Lb, skipn_app, skipn_all, Nat.sub_diag; reflexivity).
      rewrite F1, F2. rewrite Ev. cbn [option_map]. eexists. split; [reflexivity|]. constructor; [|exact Fv].
      unfold shown. cbn [flag vx vy vcolor]. split; [reflexivity|]. split; [exact Wx|]. split; [exact Wy|].
      rewrite (limits_same cs bs) by congruence. exact Fb.
    + destruct (IH 0%nat) as [_ [d [Ed Ld]]]. rewrite Ed. cbn [option_map]. eexists. split; [reflexivity|].
      cbn [concat]. rewrite app_length. cbn [length app]. lia.
Qed.

(** The data of a mesh which was accepted, has valid colors and some extent in both directions, read as described for
    shadings, gives back the nodes in their order: each triangle anew (flag 0), coordinates less than one step of
    24 bits below and components less than one step of 8 bits below the true ones, exact at the limits; the limits are
    those of the mesh. *)
Theorem mesh_written m :
  new_mesh m = Some m ->
  (forall n, In n (nodes m) -> valid (value n)) ->
  (exists n n', In n (nodes m) /\ In n' (nodes m) /\ nx n <> nx n') ->
  (exists n n', In n (nodes m) /\ In n' (nodes m) /\ ny n <> ny n') ->
  exists llx lly urx ury k rest d vs,
    smallest llx (map nx (nodes m)) /\ smallest lly (map ny (nodes m)) /\ largest urx (map nx (nodes m)) /\ largest ury (map ny (nodes m)) /\
    mesh_bbox m = Some (llx, lly, urx, ury) /\
    length rest = (2 * k)%nat /\ (forall n, In n (nodes m) -> length (components (value n)) = k) /\
    shading m = Some (llx :: urx :: lly :: ury :: rest, d) /\
    vertices (length d) (llx :: urx :: lly :: ury :: rest) k d = Some vs /\
    Forall2 (fun n v => flag v = 0%Z /\ within_step llx urx 24 (nx n) (vx v) /\ within_step lly ury 24 (ny n) (vy v) /\
                        Forall2 (within_step 0 1 8) (components (value n)) (vcolor v)) (nodes m) vs.
Proof.
  intros C V [nx1 [nx2 [Ix1 [Ix2 Dx]]]] [ny1 [ny2 [Iy1 [Iy2 Dy]]]].
  apply mesh_check in C. destruct C as [_ [k K]].
  assert (K' : forall n, In n (nodes m) -> in_space k n).
  { intros n Hn. unfold nodes in Hn. apply in_concat in Hn. destruct Hn as [e [He Hn]]. specialize (K e n He Hn). unfold in_space.
    destruct (value n); subst; try reflexivity. destruct K. }
  destruct (extent_known m) as [llx [lly [urx [ury [B [Sx [Sy [Lx Ly]]]]]]]]; [intros Z0; rewrite Z0 in Ix1; destruct Ix1|].
  assert (Bx : forall n, In n (nodes m) -> llx <= nx n <= urx) by (intros n Hn; split; [apply Sx|apply Lx]; apply in_map; exact Hn).
  assert (By : forall n, In n (nodes m) -> lly <= ny n <= ury) by (intros n Hn; split; [apply Sy|apply Ly]; apply in_map; exact Hn).
  assert (Hx : llx < urx) by (pose proof (Bx _ Ix1); pose proof (Bx _ Ix2); destruct (Rlt_dec llx urx); [assumption|exfalso; apply Dx; lra]).
  assert (Hy : lly < ury) by (pose proof (By _ Iy1); pose proof (By _ Iy2); destruct (Rlt_dec lly ury); [assumption|exfalso; apply Dy; lra]).
  unfold shading, mesh_data. rewrite B. destruct (nodes m) as [|n0 l] eqn:Em; [destruct Ix1|].
  destruct (color_decoded (value n0) k (V n0 (or_introl eq_refl)) (K' n0 (or_introl eq_refl))) as [cs [Ec [Lc _]]]. rewrite Ec.
  assert (F : Forall (fun n => valid (value n) /\ in_space k n /\ llx <= nx n <= urx /\ lly <= ny n <= ury) (n0 :: l)).
  { apply Forall_forall. intros n Hn. repeat split; try apply (Bx n Hn); try apply (By n Hn); [exact (V n Hn)|exact (K' n Hn)]. }
  destruct (decoded llx lly urx ury k cs (n0 :: l) 0 Hx Hy Lc F) as [_ [d [Ed Ld]]]. rewrite Ed. cbn [option_map].
  destruct (decoded llx lly urx ury k cs (n0 :: l) (length (concat d)) Hx Hy Lc F) as [D _]. destruct (D d Ed Ld) as [vs [Ev Fv]].
  exists llx, lly, urx, ury, k, (concat (map (fun _ : Z => [0; 1]) cs)), (concat d), vs.
  repeat (split; [assumption || reflexivity|]).
  split. { rewrite <- Lc. clear. induction cs; cbn in *; lia. }
  split. { intros n Hn. specialize (K' n Hn). unfold in_space in K'. destruct (value n); cbn in *; congruence. }
  split; [reflexivity|]. split; [exact Ev|]. exact Fv.
Qed.
Print Assumptions mesh_written.

(** Quantisation keeps the order, so triangles are not turned over within a row and shared corners stay shared. *)
Theorem mesh_monotone lo hi c c' a b d a' b' d' : lo < hi -> lo <= c -> c <= c' -> c' <= hi ->
  coords24bit c lo hi = Some [a; b; d] -> coords24bit c' lo hi = Some [a'; b'; d'] ->
  decode lo hi 24 (number24 a b d) <= decode lo hi 24 (number24 a' b' d').
Proof.
  intros Hl H1 H2 H3 E E'. destruct (coordinate c lo hi Hl ltac:(lra)) as [x [y [z [F [_ N]]]]]. destruct (coordinate c' lo hi Hl ltac:(lra)) as [x' [y' [z' [F' [_ N']]]]].
  rewrite F in E. rewrite F' in E'. injection E as <- <- <-. injection E' as <- <- <-. rewrite N, N'. unfold decode. apply Rplus_le_compat_l.
  assert (0 < IZR (2 ^ 24 - 1)) as P by (apply IZR_lt; lia). unfold Rdiv. apply Rmult_le_compat_r; [left; apply Rinv_0_lt_compat; exact P|]. apply Rmult_le_compat_r; [lra|]. apply IZR_le.
  assert (P0 : forall t, lo <= t -> 0 <= (t - lo) * 16777215 * / (hi - lo)) by (intros t Ht; apply Rmult_le_pos; [apply Rmult_le_pos; lra|left; apply Rinv_0_lt_compat; lra]).
  rewrite !trunc_pos by (apply P0; lra). apply floor_ge. apply Rle_trans with ((c - lo) * 16777215 * / (hi - lo)); [apply floor_spec|].
  apply Rmult_le_compat_r; [left; apply Rinv_0_lt_compat; lra|]. lra.
Qed.
Print Assumptions mesh_monotone.

(** A mesh whose nodes all have the same x coordinate is accepted but not written. *)
Theorem mesh_flat_refuted : exists m, new_mesh m = Some m /\ (forall n, In n (nodes m) -> valid (value n)) /\ nodes m <> [] /\ shading m = None.
Proof.
  exists [[mknode [1; 0] (Gray 0); mknode [1; 2] (Gray 1); mknode [1; 3] (Gray (1 / 2))]].
  split; [reflexivity|]. split.
  { intros n [<-|[<-|[<-|[]]]]; unfold valid; cbn; repeat constructor; lra. }
  split; [discriminate|]. unfold shading. destruct (mesh_bbox _) as [[[[a b] c] d]|] eqn:B; [|reflexivity].
  unfold mesh_bbox in B. cbn in B. injection B as <- _ <- _. cbn [nodes concat app value].
  destruct (to8bitbytes (Gray 0)); [|reflexivity]. unfold mesh_data, node_data, coords24bit. cbn [nodes concat app map nx coords nth].
  destruct (Req_EM_T _ 0) as [|N]; [reflexivity|]. exfalso. apply N. rewrite !Rmin_left, !Rmax_left by (rewrite ?Rmin_left, ?Rmax_left; lra). ring.
Qed.
Print Assumptions mesh_flat_refuted.

(** A triangle with corners (0,0), (3,0), (1,2): its data *)
Example mesh_example :
  shading [[mknode [0; 0] (Gray 0); mknode [3; 0] (Gray 1); mknode [1; 2] (Gray (1 / 2))]] =
  Some ([0; 3; 0; 2; 0; 1], [0; 0; 0; 0; 0; 0; 0; 0;  0; 255; 255; 255; 0; 0; 0; 255;  0; 85; 85; 85; 255; 255; 255; 127]%Z).
Proof.
  assert (B : mesh_bbox [[mknode [0; 0] (Gray 0); mknode [3; 0] (Gray 1); mknode [1; 2] (Gray (1 / 2))]] = Some (0, 0, 3, 2)).
  { unfold mesh_bbox. cbn. unfold Rmin, Rmax. repeat destruct (Rle_dec _ _); try lra; reflexivity. }
  unfold shading. rewrite B. cbn [nodes concat app value].
  assert (T : forall x (k : Z), (0 <= k)%Z -> IZR k <= x < IZR k + 1 -> trunc x = k).
  { intros x k Hk Hx. apply IZR_le in Hk. rewrite trunc_pos by lra. apply floor_known. exact Hx. }
  unfold mesh_data, node_data, coords24bit, to8bitbytes, color_byte. cbn [nodes concat app map nx ny coords nth value components].
  destruct (Req_EM_T (3 - 0) 0); [lra|]. destruct (Req_EM_T (2 - 0) 0); [lra|].
  rewrite (T ((0 - 0) * 16777215 / (3 - 0)) 0%Z), (T ((3 - 0) * 16777215 / (3 - 0)) 16777215%Z), (T ((1 - 0) * 16777215 / (3 - 0)) 5592405%Z) by (lia || lra).
  rewrite (T ((0 - 0) * 16777215 / (2 - 0)) 0%Z), (T ((2 - 0) * 16777215 / (2 - 0)) 16777215%Z) by (lia || lra).
  rewrite (T (0 * 255) 0%Z), (T (1 * 255) 255%Z), (T (1 / 2 * 255) 127%Z) by (lia || lra). reflexivity.
Qed.
