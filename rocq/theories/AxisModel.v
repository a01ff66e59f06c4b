(** Model of pyx/graph/axis/axis.py (regular axes, bar axes, selection of partitions) and
    pyx/graph/axis/rater.py with real numbers for floats. *)
From Coq Require Import Reals ZArith Bool List.
From Verif Require Import TickModel ParterModel.
Import ListNotations.
Open Scope R_scope.

(** ** regular axes *)
(** the members of _regularaxis used here, axis.py l.79-81 *)
Record axis := mkaxis { amin : option R; amax : option R; reverse : bool }.
(** _regularaxis.__init__, l.65-89; the other arguments are not modelled *)
Definition new_axis (min max : option R) (rev : bool) : axis :=
  match min, max with
  | Some a, Some b => if ltb b a then mkaxis (Some b) (Some a) (negb rev) else mkaxis min max rev
  | _, _ => mkaxis min max rev
  end.
(** axisdata: the current range, l.91-92 *)
Definition range := (option R * option R)%type.
Definition createdata (a : axis) : range := (amin a, amax a).
(** _regularaxis.adjustaxis, l.96-107; [None] is a value which is no number *)
Definition adjust_value (a : axis) (d : range) (value : option R) : range :=
  match value with
  | None => d
  | Some v =>
      (match amin a with
       | Some _ => fst d
       | None => match fst d with Some m => if ltb v m then Some v else fst d | None => Some v end
       end,
       match amax a with
       | Some _ => snd d
       | None => match snd d with Some m => if ltb m v then Some v else snd d | None => Some v end
       end)
  end.
Definition adjustaxis (a : axis) (d : range) (column : list (option R)) : range :=
  match amin a, amax a with
  | Some _, Some _ => d
  | _, _ => fold_left (adjust_value a) column d
  end.
(** the range check of _create, l.123-132; the fallback is a width or a range *)
Inductive fallback := NoFallback | Width (w : R) | Limits (a b : R).
Definition create_range (f : fallback) (d : range) : option (R * R) :=
  match d with
  | (Some a, Some b) =>
      if Req_EM_T b a then
        match f with
        | NoFallback => None
        | Width w => Some (a - 1 / 2 * w, a + 1 / 2 * w)
        | Limits l u => Some (l, u)
        end
      else Some (a, b)
  | _ => None
  end.
(** linear.convert, l.267-272; [None] is the division by zero *)
Definition linear_convert (rev : bool) (min max value : R) : option R :=
  if Req_EM_T (max - min) 0 then None
  else Some (if rev then (max - value) / (max - min) else (value - min) / (max - min)).
(** math.log *)
Definition log (x : R) : option R := if ltb 0 x then Some (ln x) else None.
Definition log_ratio (a b c d : option R) : option R :=
  match a, b, c, d with
  | Some a, Some b, Some c, Some d => if Req_EM_T (c - d) 0 then None else Some ((a - b) / (c - d))
  | _, _, _, _ => None
  end.
(** logarithmic.convert, l.308-320 *)
Definition log_convert (rev : bool) (min max value : R) : option R :=
  if ltb max 0 then
    if rev then log_ratio (log (- max)) (log (- value)) (log (- max)) (log (- min))
    else log_ratio (log (- value)) (log (- min)) (log (- max)) (log (- min))
  else
    if rev then log_ratio (log max) (log value) (log max) (log min)
    else log_ratio (log value) (log min) (log max) (log min).

(** the scaling of the ticks by the divisor in layout, l.144-146 *)
Definition scale_ticks (divisor : rational) (st : store) (ticks : list nat) : store :=
  fold_left (fun st r => upd st r (mktick (imul (pos (st r)) divisor) (ticklevel (st r)) (labellevel (st r)) (label (st r)))) ticks st.

(** ** selection of a partition *)
(** variants with their rate, l.157-173; [which] tells them apart, [stored] is whether
    there is a storedcanvas *)
Record variant := mkvariant { vrate : R; which : nat; stored : bool }.
(** list.sort, which is stable *)
Fixpoint insert (v : variant) (l : list variant) : list variant :=
  match l with
  | [] => [v]
  | w :: l' => if ltb (vrate w) (vrate v) then w :: insert v l' else v :: l
  end.
Definition sort (l : list variant) : list variant := fold_right insert [] l.
(** the loop l.226-239; [layout] gives the ratelayout and whether the canvas has any items:
    [not storedcanvas] calls canvas.__len__, canvas.py l.151-152.  A run which does not end
    within the fuel is [Unfinished], and [NoValid] is the NoValidPartitionError. *)
Inductive outcome := Chosen (v : variant) | NoValid | Unfinished.
Fixpoint choose (fuel : nat) (layout : nat -> option R * bool) (vs : list variant) : outcome :=
  match fuel with
  | O => Unfinished
  | S fuel' =>
      match vs with
      | [] => NoValid
      | v :: rest =>
          if stored v then Chosen v
          else match layout (which v) with
               | (None, _) => match rest with [] => NoValid | _ => choose fuel' layout (sort rest) end
               | (Some r, drawn) => choose fuel' layout (sort (mkvariant (vrate v + r) (which v) drawn :: rest))
               end
      end
  end.
(** l.223-239 for at least two variants, numbered in the order of their creation *)
Definition number (k : nat) (rates : list R) : list variant := map (fun '(i, r) => mkvariant r i false) (combine (seq k (length rates)) rates).
Definition choose_variant (fuel : nat) (layout : nat -> option R * bool) (rates : list R) : outcome :=
  choose fuel layout (sort (number 0 rates)).

(** the search for variants with one partition function, l.193-212: the results of the calls
    are [Some rate] (the rate may be None, l.200-202) or [None] for the end of the function.
    The state is the best rate so far and the rates of the variants. *)
Fixpoint search (maxworse worse : nat) (calls : list (option (option R))) (best : option R) (found : list R) : option R * list R :=
  if (maxworse <=? worse)%nat then (best, found)
  else match calls with
       | [] | None :: _ => (best, found)
       | Some None :: calls' => search maxworse (S worse) calls' best found
       | Some (Some r) :: calls' =>
           if match best with None => true | Some b => ltb r b end
           then search maxworse 0 calls' (Some r) (found ++ [r])
           else search maxworse (S worse) calls' best (found ++ [r])
       end.
(** l.191-212 *)
Definition search_all (maxworse : nat) (functions : list (list (option (option R)))) : option R * list R :=
  fold_left (fun acc calls => search maxworse 0 calls (fst acc) (snd acc)) functions (None, []).

(** ** bar axes *)
(** the subaxes of a bar axis: linear, sizedlinear and autosizedlinear axes, l.242-272, 523-577;
    nested bar axes are not modelled *)
Inductive kind := Plain | Sized (size : R) | AutoSized.
(** the size in the data of the subaxis, l.404-408, 533-536, 554-567: [None] if unsized *)
Definition auto_size (d : range) : R := match d with (Some a, Some b) => b - a | _ => 0 end.
Definition size_of (k : kind) (d : range) : option R :=
  match k with Plain => None | Sized s => Some s | AutoSized => Some (auto_size d) end.
Record subaxis := mksub { sname : nat; skind : kind; saxis : axis; sdata : range }.
(** the distances of bar, l.378-386 *)
Record bar := mkbar { dist : R; firstdist : R; lastdist : R; bar_reverse : bool; bar_epsilon : option R;
                      subaxes : option (nat -> option (option (kind * axis))); defaultsubaxis : kind * axis }.
Definition new_bar (d : R) (first last : option R) (rev : bool) (eps : option R) subs default : bar :=
  mkbar d (match first with Some x => x | None => 1 / 2 * d end) (match last with Some x => x | None => 1 / 2 * d end) rev eps subs default.
(** the data of a bar axis, l.397-399: size, and the subaxes in the order of names *)
Record bardata := mkbardata { bsize : R; bsubs : list subaxis }.
Definition bar_createdata (b : bar) : bardata := mkbardata (firstdist b + lastdist b - dist b) [].
(** l.401-414 *)
Definition addsubaxis (b : bar) (d : bardata) (name : nat) (ka : kind * axis) : bardata :=
  let s := mksub name (fst ka) (snd ka) (createdata (snd ka)) in
  mkbardata (bsize d + (match size_of (skind s) (sdata s) with Some x => x | None => 1 end) + dist b)
            (if bar_reverse b then s :: bsubs d else bsubs d ++ [s]).
Definition has_name (d : bardata) (name : nat) : bool := existsb (fun s => Nat.eqb (sname s) name) (bsubs d).
(** l.417-438; values are pairs of a name and a value (which may be no number); the type
    checks are not modelled.  [None] is the KeyError for a name missing in subaxes. *)
Definition add_name (b : bar) (d : option bardata) (value : option nat * option R) : option bardata :=
  match d, fst value with
  | None, _ => None
  | Some d', None => Some d'
  | Some d', Some name =>
      if has_name d' name then Some d'
      else match subaxes b with
           | Some f => match f name with
                       | None => None
                       | Some None => Some d'
                       | Some (Some ka) => Some (addsubaxis b d' name ka)
                       end
           | None => Some (addsubaxis b d' name (defaultsubaxis b))
           end
  end.
(** l.439-448 *)
Definition own_values (name : nat) (column : list (option nat * option R)) : list (option R) :=
  map snd (filter (fun v => match fst v with Some n => Nat.eqb n name | None => false end) column).
Definition adjust_subaxis (column : list (option nat * option R)) (acc : R * list subaxis) (s : subaxis) : R * list subaxis :=
  let d := adjustaxis (saxis s) (sdata s) (own_values (sname s) column) in
  (match size_of (skind s) (sdata s), size_of (skind s) d with
   | Some old, Some new => fst acc - old + new
   | _, _ => fst acc
   end,
   snd acc ++ [mksub (sname s) (skind s) (saxis s) d]).
Definition bar_adjustaxis (b : bar) (d : bardata) (column : list (option nat * option R)) : option bardata :=
  match fold_left (add_name b) column (Some d) with
  | None => None
  | Some d' => let '(size, subs) := fold_left (adjust_subaxis column) (bsubs d') (bsize d', []) in Some (mkbardata size subs)
  end.
(** the regions of the subaxes computed by create, l.461-485.  The comparison of names in
    l.473 is about the end of the list, as names are unique. *)
Record region := mkregion { vmin : R; vmax : R; vminover : R; vmaxover : R }.
Fixpoint regions (size dist position v : R) (sizes : list (option R)) : list region :=
  match sizes with
  | [] => []
  | s :: rest =>
      let width := match s with Some x => x | None => 1 end in
      let over := match rest with [] => 1 | _ => (position + width + 1 / 2 * dist) / size end in
      mkregion (position / size) ((position + width) / size) v over
      :: regions size dist (position + width + 1 / 2 * dist + 1 / 2 * dist) over rest
  end.
(** [None] is the division by zero *)
Definition bar_create (b : bar) (d : bardata) : option (list region) :=
  if Req_EM_T (bsize d) 0 then match bsubs d with [] => Some [] | _ => None end
  else Some (regions (bsize d) (dist b) (firstdist b) 0 (map (fun s => size_of (skind s) (sdata s)) (bsubs d))).
(** the place of a subaxis *)
Fixpoint place (name : nat) (subs : list subaxis) : option nat :=
  match subs with
  | [] => None
  | s :: rest => if Nat.eqb (sname s) name then Some O else option_map S (place name rest)
  end.
(** bar.convert, l.450-457 *)
Definition bar_convert (b : bar) (d : bardata) (rs : list region) (name : option nat) (value : R) : option R :=
  match name with
  | None => None
  | Some n =>
      match place n (bsubs d) with
      | None => None
      | Some i =>
          match nth_error (bsubs d) i, nth_error rs i with
          | Some s, Some r =>
              match sdata s with
              | (Some lo, Some hi) =>
                  match linear_convert (reverse (saxis s)) lo hi value with
                  | None => None
                  | Some x =>
                      match bar_epsilon b with
                      | Some eps => if ltb (- eps) x && ltb x (1 + eps) then Some (vmin r + x * (vmax r - vmin r)) else None
                      | None => Some (vmin r + x * (vmax r - vmin r))
                      end
                  end
              | _ => None
              end
          | _, _ => None
          end
      end
  end.

(** ** raters, rater.py *)
(** cube, l.39-76 *)
Record cube := mkcube { opt : R; left : R; right : R; cweight : R }.
Definition new_cube (opt : R) (left right : option R) (weight : R) : cube :=
  mkcube opt (match left with Some x => x | None => 0 end) (match right with Some x => x | None => 3 * opt end) weight.
(** [None] is the division by zero *)
Definition cube_rate (c : cube) (value density : R) : option R :=
  let o := opt c * density in
  let side other := if Req_EM_T (other - o) 0 then None else Some (cweight c * ((value - o) / (other - o)) ^ 3) in
  if ltb value o then side (left c * density)
  else if ltb o value then side (right c * density)
  else Some 0.
(** distance, l.79-114, with the optimum in points; the outer [None] is the division by zero
    and the inner one the result for an empty list *)
Fixpoint distance_sum (weight opt : R) (ds : list R) (rate : R) : option R :=
  match ds with
  | [] => Some rate
  | d :: ds' =>
      if ltb d opt then if Req_EM_T d 0 then None else distance_sum weight opt ds' (rate + weight * (opt / d - 1))
      else if Req_EM_T opt 0 then None else distance_sum weight opt ds' (rate + weight * (d / opt - 1))
  end.
Definition distance_rate (opt weight : R) (ds : list R) (density : R) : option (option R) :=
  match ds with
  | [] => Some None
  | _ => if Req_EM_T density 0 then None
         else option_map (fun r => Some (r / INR (length ds))) (distance_sum weight (opt / density) ds 0)
  end.
(** rater.rateticks, l.163-194.  The inner [None] means that there are no levels.  Levels
    are taken to be non-negative (a negative one would count from the end of the list). *)
Definition count_level (counts : list Z) (level : option Z) : list Z :=
  match level with
  | None => counts
  | Some l => map (fun '(k, n) => if (l <=? k)%Z then (n + 1)%Z else n) (combine (zrange 0 (Z.of_nat (length counts))) counts)
  end.
Definition level_counts (max : Z) (ls : list (option Z)) : list Z := fold_left count_level ls (repeat 0%Z (Z.to_nat max)).
Fixpoint sum_rates (counts : list Z) (raters : list cube) (density : R) (acc : R * R) : option (R * R) :=
  match counts, raters with
  | n :: counts', c :: raters' =>
      match cube_rate c (IZR n) density with
      | None => None
      | Some r => sum_rates counts' raters' density (fst acc + r, snd acc + cweight c)
      end
  | _, _ => Some acc
  end.
Definition rateticks (tickraters labelraters : list cube) (density : R) (ticks : list tick) : option (option R) :=
  let '(mt, ml) := maxlevels ticks in
  if (mt =? 0)%Z && (ml =? 0)%Z then Some None
  else
    match sum_rates (level_counts mt (map ticklevel ticks)) tickraters density (0, 0) with
    | None => None
    | Some acc =>
        match sum_rates (level_counts ml (map labellevel ticks)) labelraters density acc with
        | None => None
        | Some (rate, weight) => if Req_EM_T weight 0 then None else Some (Some (rate / weight))
        end
    end.
