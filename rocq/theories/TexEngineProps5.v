(** * The order of preambles after a restart: C167 *)
From Coq Require Import ZArith QArith Arith Bool Ascii String List Lia.
From Verif Require Import TexMsgModel TexEngineModel TexEngineProps TexEngineProps2 TexEngineProps3.
Import ListNotations.
Open Scope nat_scope.
Open Scope list_scope.

Section Order.
  Variable tex : list command -> bool * str.
  Variable encodable : str -> bool.
  Variable k : kind.

  (** the calls of preamble one after the other, whether they fail or not *)
  Fixpoint preamble_calls (l : list (str * list parser)) (m : multi) : multi :=
    match l with [] => m | (x, ps) :: l' => preamble_calls l' (fst (multi_preamble tex encodable k x ps m)) end.
  (** C167: an engine for restarts that was new remembers its preambles in the order of the calls; the i-th one executed after
      a restart is the i-th one asked for. *)
  Theorem preambles_in_order : forall l i, nth_error (preambles (preamble_calls l new_multi)) i = nth_error l i.
  Proof.
    intros l i. f_equal. change l with (preambles new_multi ++ l) at 2. generalize new_multi. induction l as [|(x, ps) l IH]; intros m; cbn [preamble_calls].
    - now rewrite app_nil_r.
    - rewrite IH. unfold multi_preamble. destruct (do_preamble _ _ _ _ _ _) as [e r]. cbn [fst preambles]. now rewrite <- app_assoc.
  Qed.
End Order.
Print Assumptions preambles_in_order.
(** two preambles and a text; after the end of the interpreter the next text restarts it with both preambles in order *)
Example preambles_in_order_ex :
  let t := nice (s "Output written on texput.dvi (1 page, 200 bytes).") in
  let m1 := fst (multi_text t all_pages any plain false (s "a") [] (preamble_calls t any plain [(s "\def\a{A}", []); (s "\def\b{\a}", [])] new_multi)) in
  let m2 := mkmulti (fst (do_finish t all_pages any plain false (instance m1))) (preambles m1) in
  let (m3, r) := multi_text t all_pages any plain false (s "b") [] m2 in
  st (instance m2) = Done /\ r = Val 0 /\ map expr_of (input (instance m3)) = [s "\setup"; s "\def\a{A}"; s "\def\b{\a}"; s "b"].
Proof. vm_compute. repeat split. Qed.
