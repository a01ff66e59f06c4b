(** Model of pyx/graph/axis/timeaxis.py (l.32-85), with datetime values as numbers of microseconds and rational numbers for the floats of the result.
    Not modelled: the construction of the axis (l.37-40) and strftime, which is a parameter. *)
From Coq Require Import ZArith QArith List String.
Import ListNotations.
Open Scope Z_scope.

(** the difference of two datetimes: a timedelta, which Python keeps with 0 <= microseconds < 10^6 and 0 <= seconds < 86400 *)
Record timedelta := mktd { days : Z; seconds : Z; microseconds : Z }.
Definition difference (a b : Z) : timedelta :=
  let us := a - b in
  mktd (us / 1000000 / 86400) (us / 1000000 mod 86400) (us mod 1000000).
(** mstimedelta, l.44-46 *)
Definition mstimedelta (td : timedelta) : Z := microseconds td + 1000000 * (seconds td + 3600 * 24 * days td).
(** convert, l.42-47; None is the ZeroDivisionError *)
Definition convert (min max x : Z) : option Q :=
  let d := mstimedelta (difference max min) in
  if d =? 0 then None else Some (inject_Z (mstimedelta (difference x min)) / inject_Z d)%Q.

(** timetick, l.55-73: the levels, None is no tick or no label, and the label *)
Record tick := mktick { time : Z; ticklevel : option Z; labellevel : option Z; label : option string }.
(** one of the tests of merge, l.70-73 *)
Definition merge_level (own other : option Z) : option Z :=
  match own, other with
  | None, _ => other
  | Some a, Some b => if b <? a then other else own
  | Some _, None => own
  end.
(** merge, l.69-73 *)
Definition merge (t other : tick) : tick :=
  mktick (time t) (merge_level (ticklevel t) (ticklevel other)) (merge_level (labellevel t) (labellevel other)) (label t).
(** timetexter.labels, l.81-84; [strftime] is the text of a time in the format *)
Definition labels (strftime : Z -> string) (ticks : list tick) : list tick :=
  map (fun t => match labellevel t, label t with
                | Some _, None => mktick (time t) (ticklevel t) (labellevel t) (Some (strftime (time t)))
                | _, _ => t
                end) ticks.
