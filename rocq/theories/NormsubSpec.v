(** Notions for subpaths. *)
From Coq Require Import Reals List.
From Verif Require Import CurveModel CurveSpec.
Import ListNotations.
Open Scope R_scope.

Local Notation pt := (R * R)%type.
(** the items lead from p to q, each beginning exactly where the one before ended *)
Fixpoint connected (p : pt) (l : list item) (q : pt) : Prop :=
  match l with
  | [] => p = q
  | i :: l' => at_pt i 0 = p /\ connected (at_pt i 1) l' q
  end.
(** the velocity of a curve with the given coordinates is at least e on the whole curve *)
Definition speed_at_least (e : R) (i : item) : Prop :=
  forall t, 0 <= t <= 1 -> exists vx vy,
    derivable_pt_lim (fun u => fst (at_pt i u)) t vx /\ derivable_pt_lim (fun u => snd (at_pt i u)) t vy /\
    e <= sqrt (vx ^ 2 + vy ^ 2).
(** the squared velocity as a function of the parameter, and the curves for which its
    derivative has a double zero below its simple zero *)
Definition squared_speed (i : item) (q : R -> R) : Prop :=
  forall t, exists vx vy,
    derivable_pt_lim (fun u => fst (at_pt i u)) t vx /\ derivable_pt_lim (fun u => snd (at_pt i u)) t vy /\
    q t = vx ^ 2 + vy ^ 2.
Definition degenerate (i : item) : Prop :=
  exists q c alpha beta, squared_speed i q /\ c <> 0 /\ alpha < beta /\
    forall t, derivable_pt_lim q t (c * ((t - alpha) ^ 2 * (t - beta))).
(** p is the point at the parameter t of a path of the given items: the k-th item has the
    parameters from k to k+1, and the first and the last item are continued beyond the ends *)
Definition on_path (l : list item) (t : R) (p : pt) : Prop :=
  exists k i, nth_error l k = Some i /\ p = at_pt i (t - INR k) /\
    (k = 0%nat \/ INR k <= t) /\ (S k = length l \/ t <= INR k + 1).
(** x is the arc length from the begin of a path of lines to its parameter t, where the
    first and the last line are continued beyond the ends *)
Definition total_length (ls : list (pt * pt)) : R := fold_right Rplus 0 (map (fun l => distance (fst l) (snd l)) ls).
Definition arc_length_at (ls : list (pt * pt)) (t x : R) : Prop :=
  exists k l, nth_error ls k = Some l /\ x = total_length (firstn k ls) + (t - INR k) * distance (fst l) (snd l) /\
    (k = 0%nat \/ INR k <= t) /\ (S k = length ls \/ t <= INR k + 1).
