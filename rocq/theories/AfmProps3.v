(** C145: widths of texts and kernings from AFM files *)
From Coq Require Import Ascii String ZArith QArith List Bool Lia Lqa.
From Verif Require Import MapModel MapSpec MapProps AfmModel AfmSpec AfmProps AfmProps2.
Import ListNotations.
Open Scope Q_scope.

Lemma sum_from : forall l a, fold_left Qplus l a == a + fold_left Qplus l 0.
Proof. induction l as [|x l IH]; intros a; cbn [fold_left]; [lra|]. rewrite (IH (a + x)), (IH (0 + x)). lra. Qed.
Lemma sequence_app {A} : forall l m : list (option A), sequence (l ++ m) = bind (sequence l) (fun a => bind (sequence m) (fun b => Some (a ++ b)%list)).
Proof.
  induction l as [|[x|] l IH]; intros m; cbn [sequence app bind]; auto; [destruct (sequence m); reflexivity|]. rewrite IH. destruct (sequence l); cbn [bind]; auto. destruct (sequence m); reflexivity.
Qed.
(** C145: a glyph with the width w in the file is w thousandths of the size of the font wide, and the widths of the parts of a text add up *)
Theorem text_width : forall a size,
  (forall n c w h, get_char a n = Some c -> width0 c = Some (w, h) -> exists q, width_pt a [n] size = Some q /\ q * 1000 == w * size) /\
  (exists q, width_pt a [] size = Some q /\ q == 0) /\
  (forall l m p q, width_pt a l size = Some p -> width_pt a m size = Some q -> exists r, width_pt a (l ++ m) size = Some r /\ r == p + q) /\
  (forall l m, width_pt a l size = None -> width_pt a (l ++ m) size = None).
Proof.
  intros a size. unfold width_pt. split; [|split; [|split]].
  - intros n c w h C W. cbn [map]. unfold width_ds. rewrite C, W. cbn [option_map fst sequence bind fold_left]. eexists. split; [reflexivity|]. field.
  - cbn. eexists. split; [reflexivity|]. reflexivity.
  - intros l m p q. rewrite map_app, sequence_app. destruct (sequence (map (width_ds a) l)) as [x|]; [|discriminate]. destruct (sequence (map (width_ds a) m)) as [y|]; [|discriminate].
    cbn [option_map bind]. intros E F. injection E as <-. injection F as <-. eexists. split; [reflexivity|]. rewrite fold_left_app, (sum_from y). field.
  - intros l m. rewrite map_app, sequence_app. destruct (sequence (map (width_ds a) l)); [discriminate|reflexivity].
Qed.
Print Assumptions text_width.
Example text_width_ex : exists a q, parse fdec dec dec sample = Some a /\ width_pt a [key "f"; key "fi"; key "A"] 10 = Some q /\ q == 1445 # 100.
Proof. eexists _, _. split; [vm_compute; reflexivity|]. split; [vm_compute; reflexivity|reflexivity]. Qed.
(** C145: between two glyphs with a pair in the file is the horizontal kerning of the pair, in the order of the glyphs and in thousandths of the size; without a pair there is none *)
Theorem pair_kerning : forall a n1 n2,
  (forall p, get_pair a (ByName n1) (ByName n2) = Some p -> kerning a n1 n2 None = Some (kx p) /\ forall s, exists q, kerning a n1 n2 (Some s) = Some q /\ q * 1000 == kx p * s) /\
  (get_pair a (ByName n1) (ByName n2) = None -> forall s, kerning a n1 n2 s = None).
Proof.
  intros a n1 n2. unfold kerning. split.
  - intros p ->. split; [reflexivity|]. intros s. eexists. split; [reflexivity|]. field.
  - intros ->. reflexivity.
Qed.
Print Assumptions pair_kerning.
Example pair_kerning_ex : exists a q, parse fdec dec dec sample = Some a /\ kerning a (key "f") (key "A") (Some 10) = Some q /\ q == 1 # 10 /\ kerning a (key "A") (key "A") (Some 10) = None.
Proof. eexists _, _. split; [vm_compute; reflexivity|]. split; [vm_compute; reflexivity|]. split; reflexivity. Qed.
