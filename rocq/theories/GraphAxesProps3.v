(** * Positioners of axes: C169 *)
From Coq Require Import ZArith QArith Arith Bool List Lia.
From Verif Require Import GraphAxesModel GraphAxesProps GraphAxesProofs GraphAxesProps2.
Import ListNotations.
Open Scope nat_scope.

(** C169: an axis gets a positioner once: exactly when it is there and has none yet; all other axes stay as they are, and
    setting another one then is an exception which changes nothing. *)
Theorem one_positioner : forall k s,
  (forall s', setpositioner k s = Ok s' -> (exists a, get k s = Some a /\ a_pos a = false) /\ (exists a, get k s' = Some a /\ a_pos a = true) /\
    (forall k', k' <> k -> get k' s' = get k' s) /\ setpositioner k s' = Exn s') /\
  (forall s', setpositioner k s = Exn s' -> s' = s /\ forall a, get k s = Some a -> a_pos a = true).
Proof.
  intros k s. unfold setpositioner at 1 3. destruct (get k s) as [a|] eqn:G.
  - destruct (a_pos a) eqn:P; (split; intros s' E; [|]); try discriminate; injection E as <-.
    + split; [reflexivity|]. intros a' A. congruence.
    + assert (S : get k (set_axis k (mkaxis (a_kind a) (a_data a) (a_paint a) true (a_shown a)) s) = Some (mkaxis (a_kind a) (a_data a) (a_paint a) true (a_shown a)))
        by (apply get_set_same; congruence).
      split; [eauto|]. split; [eauto|]. split; [intros k' N; apply get_set_other; congruence|]. unfold setpositioner. rewrite S. reflexivity.
  - split; intros s' E; [discriminate|]. injection E as <-. split; [reflexivity|discriminate].
Qed.
Print Assumptions one_positioner.
Example one_positioner_ex : match setpositioner x world with Ok s => option_map a_pos (get x s) = Some true /\ option_map a_pos (get y s) = Some false /\ setpositioner x s = Exn s | Exn _ => False end.
Proof. vm_compute. repeat split. Qed.
