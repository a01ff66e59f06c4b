(** What MetaPost's paths are: D. E. Knuth, The METAFONTbook, chapter 14, and J. D. Hobby, Smooth, easy to compute
    interpolating splines.

    A segment of length d leaves the first knot at the angle theta to its chord, and reaches the second one at the angle
    phi, in the opposite sense.  Tensions are 1 / alpha at the first knot and 1 / beta at the second one. *)
From Coq Require Import Reals List Bool PeanoNat Lra Lia.
From Verif Require Import CurveModel MpModel.
Import ListNotations.
Local Open Scope R_scope.

(** Hobby's velocity function *)
Definition hobby (theta phi : R) : R :=
  (2 + sqrt 2 * (sin theta - sin phi / 16) * (sin phi - sin theta / 16) * (cos theta - cos phi))
  / (3 * (1 + / 2 * (sqrt 5 - 1) * cos theta + / 2 * (3 - sqrt 5) * cos phi)).
(** velocities are at most 4 *)
Definition speed (t theta phi : R) : R := Rmin 4 (hobby theta phi / Rabs t).
(** with a negative tension t ("at least") the control point is within the triangle of the chord and the tangents, if these
    meet on one side; the slack is a safety factor *)
Definition slack : R := 1.00024414062.
Definition same_side (theta phi : R) : Prop := (0 <= sin theta /\ 0 <= sin phi) \/ (sin theta <= 0 /\ sin phi <= 0).
Definition meeting (theta phi : R) : R := Rabs (sin theta) * cos phi + Rabs (sin phi) * cos theta.
Definition has_speed (t theta phi v : R) : Prop :=
  (t < 0 /\ same_side theta phi /\ 0 < meeting theta phi /\ v = Rmin (speed t theta phi) (Rabs (sin phi) / (meeting theta phi * slack))) \/
  (~ (t < 0 /\ same_side theta phi /\ 0 < meeting theta phi) /\ v = speed t theta phi).

(** mock curvatures at the beginning and at the end of a segment *)
Definition mock_out (alpha beta d theta phi : R) : R := ((3 - beta) * theta - beta * phi) / (alpha ^ 2 * d).
Definition mock_in (alpha beta d theta phi : R) : R := ((3 - alpha) * phi - alpha * theta) / (beta ^ 2 * d).

(** A knot with curl gamma at the beginning of a segment: the mock curvature is gamma times the one at the other end, but the
    angle is at most 4 times the other one. *)
Definition curled (gamma t1 t2 d theta phi : R) : Prop :=
  let alpha := 1 / Rabs t1 in let beta := 1 / Rabs t2 in
  if Rle_dec ((3 - alpha) * alpha ^ 2 * gamma + beta ^ 3) (4 * (alpha ^ 3 * gamma + (3 - beta) * beta ^ 2))
  then mock_out alpha beta d theta phi = gamma * mock_in alpha beta d theta phi
  else theta = 4 * phi.

Section Spec.
  Variable N : nat. (* the number of knots *)
  Variable eps : R.
  Variable K : heap. (* the knots as given *)

  Definition after (i : nat) : nat := ((i + 1) mod N)%nat.
  Definition before (i : nat) : nat := ((i + (N - 1)) mod N)%nat.
  (** the chord from knot i to the next one *)
  Definition chord_x (i : nat) : R := kx (K (after i)) - kx (K i).
  Definition chord_y (i : nat) : R := ky (K (after i)) - ky (K i).
  Definition chord (i : nat) : R := sqrt (chord_x i ^ 2 + chord_y i ^ 2).
  Definition short (x y : R) : Prop := x ^ 2 + y ^ 2 < eps ^ 2.

  (** segments to be chosen; those between knots in the same place get their controls there *)
  Definition unset (t : ktype) : Prop := t = Given \/ t = Curl \/ t = Open.
  Definition free (i : nat) : Prop := unset (rtype (K i)) /\ ~ short (chord_x i) (chord_y i).
  Definition joined (i : nat) : Prop := unset (rtype (K i)) /\ short (chord_x i) (chord_y i).

  (** directions at the begin and at the end of a segment *)
  Definition leaves (i : nat) (theta : R) : R * R :=
    ((chord_x i * cos theta - chord_y i * sin theta) / chord i, (chord_y i * cos theta + chord_x i * sin theta) / chord i).
  Definition arrives (i : nat) (phi : R) : R * R :=
    ((chord_x i * cos phi + chord_y i * sin phi) / chord i, (chord_y i * cos phi - chord_x i * sin phi) / chord i).
  Definition toward (x y : R) : R * R := (x / sqrt (x ^ 2 + y ^ 2), y / sqrt (x ^ 2 + y ^ 2)).

  (** the tensions of segment i *)
  Definition tension_out (i : nat) : R := match ry (K i) with Some t => t | None => 0 end.
  Definition tension_in (i : nat) : R := match ly (K (after i)) with Some t => t | None => 0 end.
  (** explicit control points before and behind knot i; None if the knot is joined there *)
  Definition control_before (i : nat) : option (R * R) :=
    match ltype (K i), lx (K i), ly (K i) with Explicit, Some a, Some b => Some (a, b) | _, _, _ => None end.
  Definition control_behind (i : nat) : option (R * R) :=
    match rtype (K i), rx (K i), ry (K i) with Explicit, Some a, Some b => Some (a, b) | _, _, _ => None end.

  Section Angles.
    Variables theta phi : nat -> R. (* of the segments *)
    Definition mock_at_begin (i : nat) : R := mock_out (1 / Rabs (tension_out i)) (1 / Rabs (tension_in i)) (chord i) (theta i) (phi i).
    Definition mock_at_end (i : nat) : R := mock_in (1 / Rabs (tension_out i)) (1 / Rabs (tension_in i)) (chord i) (theta i) (phi i).
    Definition curl_begin (g : R) (i : nat) : Prop := curled g (tension_out i) (tension_in i) (chord i) (theta i) (phi i).
    Definition curl_end (g : R) (i : nat) : Prop := curled g (tension_in i) (tension_out i) (chord i) (phi i) (theta i).
    (** directions and mock curvatures are continuous *)
    Definition continuous (i j : nat) : Prop := arrives i (phi i) = leaves j (theta j) /\ mock_at_end i = mock_at_begin j.

    (** how the free segment i begins *)
    Definition begins (i : nat) : Prop :=
      match rtype (K i) with
      | Given => forall a, rx (K i) = Some a -> leaves i (theta i) = (cos a, sin a)
      | Curl => forall g, rx (K i) = Some g -> curl_begin g i
      | Open =>
          (free (before i) -> continuous (before i) i) /\
          (~ free (before i) ->
             match control_before i with
             | Some (a, b) => (short (kx (K i) - a) (ky (K i) - b) -> curl_begin 1 i) /\
                              (~ short (kx (K i) - a) (ky (K i) - b) -> leaves i (theta i) = toward (kx (K i) - a) (ky (K i) - b))
             | None => curl_begin 1 i
             end)
      | _ => True
      end.
    (** how it ends, at knot j *)
    Definition ends (i : nat) : Prop :=
      let j := after i in
      match ltype (K j) with
      | Given => forall a, lx (K j) = Some a -> arrives i (phi i) = (cos a, sin a)
      | Curl => forall g, lx (K j) = Some g -> curl_end g i
      | Open =>
          (free j -> continuous i j) /\
          (~ free j ->
             match control_behind j with
             | Some (a, b) => (short (a - kx (K j)) (b - ky (K j)) -> curl_end 1 i) /\
                              (~ short (a - kx (K j)) (b - ky (K j)) -> arrives i (phi i) = toward (a - kx (K j)) (b - ky (K j)))
             | None => curl_end 1 i
             end)
      | _ => True
      end.

    (** the control points of segment i *)
    Definition chosen (K' : heap) (i : nat) : Prop :=
      let j := after i in
      rtype (K' i) = Explicit /\ ltype (K' j) = Explicit /\
      exists v w, has_speed (tension_out i) (theta i) (phi i) v /\ has_speed (tension_in i) (phi i) (theta i) w /\
        rx (K' i) = Some (kx (K i) + v * (chord_x i * cos (theta i) - chord_y i * sin (theta i))) /\
        ry (K' i) = Some (ky (K i) + v * (chord_y i * cos (theta i) + chord_x i * sin (theta i))) /\
        lx (K' j) = Some (kx (K j) - w * (chord_x i * cos (phi i) + chord_y i * sin (phi i))) /\
        ly (K' j) = Some (ky (K j) - w * (chord_y i * cos (phi i) - chord_x i * sin (phi i))).
  End Angles.

  (** Knots as the classes of path.py make them, with tensions of at least 3/4 and curls not below 0.  A knot which is smooth
      on one side is smooth or explicit on the other. *)
  Definition tense (o : option R) : Prop := exists t, o = Some t /\ 3 / 4 <= Rabs t.
  Definition value (t : ktype) (o : option R) : Prop :=
    match t with Given => exists a, o = Some a | Curl => exists g, o = Some g /\ 0 <= g | Open => True | _ => False end.
  Definition proper (i : nat) : Prop :=
    let a := K i in let b := K (after i) in
    ((rtype a = Endpoint /\ ltype b = Endpoint) \/
     (rtype a = Explicit /\ ltype b = Explicit /\ rx a <> None /\ ry a <> None /\ lx b <> None /\ ly b <> None) \/
     (value (rtype a) (rx a) /\ value (ltype b) (lx b) /\ tense (ry a) /\ tense (ly b))) /\
    (ltype a = Open -> rtype a = Open \/ rtype a = Explicit) /\ (rtype a = Open -> ltype a = Open \/ ltype a = Explicit).
End Spec.

(** What becomes of segment i: K' are the knots with their control points. *)
Definition segment_result (N : nat) (eps : R) (K : heap) (theta phi : nat -> R) (K' : heap) (i : nat) : Prop :=
  let j := after N i in
  (free N eps K i -> chosen N K theta phi K' i) /\
  (joined N eps K i -> rtype (K' i) = Explicit /\ ltype (K' j) = Explicit /\
     rx (K' i) = Some (kx (K i)) /\ ry (K' i) = Some (ky (K i)) /\ lx (K' j) = Some (kx (K i)) /\ ly (K' j) = Some (ky (K i))) /\
  (rtype (K i) = Explicit -> rtype (K' i) = Explicit /\ ltype (K' j) = Explicit /\
     rx (K' i) = rx (K i) /\ ry (K' i) = ry (K i) /\ lx (K' j) = lx (K j) /\ ly (K' j) = ly (K j)) /\
  (rtype (K i) = Endpoint -> rtype (K' i) = Endpoint /\ ltype (K' j) = Endpoint).
