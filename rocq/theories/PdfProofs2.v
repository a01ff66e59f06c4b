(** Proofs about the PDF file, its strings and its annotations. *)
From Coq Require Import String Ascii ZArith Bool List Lia ZifyBool.
From Verif Require Import PyDict TickModel TickSpec TexterModel TexterProofs TexterProofs2 PdfModel PdfSpec PdfProofs.
Import ListNotations.
Open Scope Z_scope.
Ltac Zify.zify_post_hook ::= Z.div_mod_to_equations.

(** ** numbers of ten digits *)
Lemma str_fuel_length fuel : forall n z, 0 <= z < 10 ^ Z.of_nat n -> (1 <= n)%nat -> (length (str_fuel fuel z) <= n)%nat.
Proof.
  induction fuel as [|f IH]; intros n z Hz Hn; simpl; [lia|].
  destruct (Z.ltb_spec z 10); simpl; [lia|]. rewrite app_length. simpl.
  destruct n as [|[|n]]; [lia|simpl in Hz; lia|].
  assert (length (str_fuel f (z / 10)) <= S n)%nat; [|lia]. apply IH; [|lia].
  rewrite Nat2Z.inj_succ, Z.pow_succ_r in Hz by lia.
  split; [apply Z.div_pos; lia|]. apply Z.div_lt_upper_bound; lia.
Qed.
Lemma fmt010_length z : 0 <= z < 10 ^ 10 -> length (fmt010 z) = 10%nat.
Proof.
  intros Hz. unfold fmt010. rewrite app_length, repeat_length.
  assert (length (str z) <= 10)%nat; [|lia]. unfold str. apply str_fuel_length; [exact Hz|lia].
Qed.
Lemma fmt010_value z : 0 <= z -> digits_value (fmt010 z) z.
Proof.
  intros Hz. unfold fmt010.
  pose proof (digits_value_app _ _ _ _ (digits_zeros (10 - length (str z))) (str_value z Hz)) as H.
  rewrite Z.mul_0_l, Z.add_0_l in H. exact H.
Qed.

(** ** positions *)
Definition block (n : Z) (b : text) : text := str n ++ T " 0 obj" ++ nl ++ b ++ T "endobj" ++ nl.
Fixpoint blocks (n : Z) (bodies : list text) : list text :=
  match bodies with [] => [] | b :: l => block n b :: blocks (n + 1) l end.
Fixpoint positions (len : nat) (l : list text) : list Z :=
  match l with [] => [] | b :: l' => Z.of_nat len :: positions (len + length b) l' end.
Lemma write_objects_spec bodies : forall out n fp,
  write_objects out n fp bodies = (out ++ concat (blocks n bodies), fp ++ positions (length out) (blocks n bodies)).
Proof.
  induction bodies as [|b l IH]; intros; cbn [write_objects blocks concat positions]; [now rewrite !app_nil_r|].
  rewrite IH. fold (block n b). f_equal.
  - now rewrite <- !app_assoc.
  - rewrite <- app_assoc. cbn [app]. now rewrite app_length.
Qed.
Lemma blocks_nth bodies : forall n i b, nth_error bodies i = Some b ->
  exists l1 l2, blocks n bodies = l1 ++ block (n + Z.of_nat i) b :: l2 /\ length l1 = i.
Proof.
  induction bodies as [|x l IH]; intros n i b H; [destruct i; discriminate|]. destruct i as [|i]; simpl in H.
  - inversion H; subst. exists [], (blocks (n + 1) l). split; auto. simpl. now rewrite Z.add_0_r.
  - destruct (IH (n + 1) i b H) as [l1 [l2 [E L]]]. exists (block n x :: l1), l2. split; [|simpl; lia].
    cbn [blocks app]. rewrite E. replace (n + 1 + Z.of_nat i) with (n + Z.of_nat (S i)) by lia. reflexivity.
Qed.
Lemma blocks_length bodies : forall n, length (blocks n bodies) = length bodies.
Proof. induction bodies; simpl; auto. Qed.
Lemma positions_length l : forall n, length (positions n l) = length l.
Proof. induction l; simpl; auto. Qed.
Lemma positions_nth l1 : forall len b l2, 
  nth_error (positions len (l1 ++ b :: l2)) (length l1) = Some (Z.of_nat (len + length (concat l1))).
Proof.
  induction l1 as [|x l IH]; intros; simpl; [now rewrite Nat.add_0_r|].
  rewrite IH. f_equal. rewrite app_length. lia.
Qed.
Lemma positions_bound l : forall len p, In p (positions len l) -> 0 <= p <= Z.of_nat (len + length (concat l)).
Proof.
  induction l as [|x l IH]; simpl; [tauto|]. intros len p [<-|H].
  - lia.
  - apply IH in H. rewrite app_length. lia.
Qed.

(** ** slices *)
Lemma slice_app {A} (x y z : list A) n m : length x = n -> length y = m -> slice (x ++ y ++ z) n m = y.
Proof.
  intros <- <-. unfold slice. rewrite skipn_app, skipn_all, Nat.sub_diag. simpl.
  rewrite firstn_app, Nat.sub_diag. simpl. rewrite firstn_all, app_nil_r. reflexivity.
Qed.
Definition entry (p : Z) : text := fmt010 p ++ T " 00000 n " ++ nl.
Lemma entry_length p : 0 <= p < 10 ^ 10 -> length (entry p) = 20%nat.
Proof. intros H. unfold entry. rewrite app_length, fmt010_length by exact H. reflexivity. Qed.
Lemma entries_length l : (forall p, In p l -> 0 <= p < 10 ^ 10) -> length (concat (map entry l)) = (20 * length l)%nat.
Proof.
  induction l as [|p l IH]; intros H; [reflexivity|]. cbn [map concat length]. rewrite app_length, IH.
  - rewrite entry_length by (apply H; now left). lia.
  - intros q Hq. apply H. now right.
Qed.

(** ** strings *)
Lemma fmt03o_small c : 0 <= c <= 255 -> fmt03o c = [48 + c / 64; 48 + c / 8 mod 8; 48 + c mod 8].
Proof.
  intros Hc.
  assert (H : forallb (fun c => if list_eq_dec Z.eq_dec (fmt03o c) [48 + c / 64; 48 + c / 8 mod 8; 48 + c mod 8] then true else false)
                (map Z.of_nat (seq 0 256)) = true) by (vm_compute; reflexivity).
  rewrite forallb_forall in H. specialize (H c). destruct (list_eq_dec _ _ _) as [|N]; auto.
  exfalso. enough (false = true) by discriminate. apply H. apply in_map_iff. exists (Z.to_nat c).
  split; [lia|]. apply in_seq. lia.
Qed.
Lemma literal_pdfchar depth c r : 0 <= c <= 255 -> literal depth (pdfchar c ++ r) = cons_char c (literal depth r).
Proof.
  intros Hc. unfold pdfchar.
  destruct (existsb (Z.eqb c) [40; 41; 91; 93; 60; 62; 92]) eqn:X; simpl in X.
  2:destruct ((32 <=? c) && (c <=? 127)) eqn:Y; cbn [andb negb].
  2:{ cbn [app literal]. replace (c =? 41) with false by lia. replace (c =? 40) with false by lia.
      replace (c =? 92) with false by lia. replace (c =? 13) with false by lia. reflexivity. }
  all:rewrite ?andb_false_r; rewrite fmt03o_small by exact Hc; cbn [app literal]; cbn [Z.eqb Pos.eqb].
  all:assert (0 <= c / 64 <= 3) by (split; [apply Z.div_pos; lia|apply Z.lt_succ_r, Z.div_lt_upper_bound; lia]).
  all:assert (E : octal (48 + c / 64) = true /\ octal (48 + c / 8 mod 8) = true /\ octal (48 + c mod 8) = true)
       by (unfold octal; lia); destruct E as [E1 [E2 E3]].
  all:replace (48 + c / 64 =? 10) with false by lia; replace (48 + c / 64 =? 13) with false by lia.
  all:rewrite E1, E2, E3; f_equal.
  all:assert (D : c / 64 = c / 8 / 8) by (rewrite Z.div_div by lia; reflexivity).
  all:replace ((48 + c / 64 - 48) * 64 + (48 + c / 8 mod 8 - 48) * 8 + (48 + c mod 8 - 48)) with c by lia.
  all:apply Z.mod_small; lia.
Qed.
