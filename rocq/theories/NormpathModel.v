(** Model of the classes normpathparam and normpath of pyx/normpath.py, l.1455-1987, with
    real numbers for floats.  The arc lengths are modelled for paths of lines only.  Where
    the code shares subpaths between paths (l.1623, 1797, 1898, 1905, 1914) the model has
    equal subpaths. *)
From Coq Require Import Reals Bool List.
From Verif Require Import PyDict TrafoModel BboxModel CurveModel NormsubModel.
Import ListNotations.
Open Scope R_scope.

Local Notation pt := (R * R)%type.

(** a normpathparam of a given path, l.1460-1465: index of the subpath and its parameter *)
Definition param := (nat * R)%type.

(** __eq__ and __lt__ of two parameters, l.1503-1515: tuples are compared lexicographically *)
Definition param_eqb (p q : param) : bool := Nat.eqb (fst p) (fst q) && reqb (snd p) (snd q).
Definition param_ltb (p q : param) : bool := Nat.ltb (fst p) (fst q) || (Nat.eqb (fst p) (fst q) && ltb (snd p) (snd q)).
(** __le__, __gt__ and __ge__ as added by functools.total_ordering, l.1455; not in /repo but
    in the library of Python: __le__ is __lt__ or __eq__, __gt__ is neither of them, and
    __ge__ is not __lt__ *)
Definition param_leb (p q : param) : bool := param_ltb p q || param_eqb p q.
Definition param_gtb (p q : param) : bool := negb (param_ltb p q) && negb (param_eqb p q).
Definition param_geb (p q : param) : bool := negb (param_ltb p q).

(** A path of lines as a list of lists of lines. *)
Definition linepath := list (list (pt * pt)).

(** arclen_pt, l.1634-1639 *)
Definition path_arclen (np : linepath) : R := fold_right Rplus 0 (map lines_arclen np).

(** _arclentoparam_pt, l.1648-1668.  The state is as in [arclentoparam_loop]; the result of
    a subpath without items has None as its parameter. *)
Fixpoint path_arclentoparam_loop (k : nat) (np : linepath) (st : list (R * option (nat * option R))) : list (R * option (nat * option R)) :=
  match np with
  | [] => st
  | ls :: np' =>
      let '(params, arclen) := nsp_arclentoparam ls (map fst st) in
      let st' := map (fun '((len, result), prm) =>
                        match result with
                        | Some _ => (len, result)
                        | None =>
                            let len := len - arclen in
                            (len, if (ltb len 0 || match np' with [] => true | _ => false end)%bool then Some (k, prm) else None)
                        end) (combine st params) in
      if forallb (fun '(_, result) => match result with Some _ => true | None => false end) st then st'
      else path_arclentoparam_loop (S k) np' st'
  end.
Definition path_arclentoparam (np : linepath) (lengths : list R) : list (option (nat * option R)) :=
  map snd (path_arclentoparam_loop 0 np (map (fun l => (l, None)) lengths)).

(** _paramtoarclen_pt, l.1817-1831.  The result is None for the ValueError of an empty list
    (l.1822) and the IndexError of l.1825 and 1830. *)
Fixpoint path_paramtoarclen_loop (k : nat) (np : linepath) (n : nat) (d : list (nat * (list nat * list R))) (result : list (option R)) (total : R)
  : option (list (option R)) :=
  match n with
  | O => Some result
  | S n' =>
      match np with
      | [] => None
      | ls :: np' =>
          match dget Nat.eqb k d with
          | Some (indices, params) =>
              let '(arclens, arclen) := nsp_paramtoarclen ls params in
              let result := fold_left (fun result '(index, a) => set_nth index (option_map (Rplus total) a) result) (combine indices arclens) result in
              path_paramtoarclen_loop (S k) np' n' d result (total + arclen)
          | None => path_paramtoarclen_loop (S k) np' n' d result (total + lines_arclen ls)
          end
      end
  end.
Definition path_distribute (params : list param) : list (nat * (list nat * list R)) := distribute fst snd params.
Definition path_paramtoarclen (np : linepath) (params : list param) : option (list (option R)) :=
  match params with
  | [] => None
  | _ =>
      let d := path_distribute params in
      path_paramtoarclen_loop 0 np (S (fold_right Nat.max 0%nat (map fst d))) d (repeat None (length params)) 0
  end.

(** the single value versions made by _valueorlistmethod, l.1526-1540, 1669, 1833; [None]
    as result or as parameter is a failure *)
Definition to_param (np : linepath) (x : R) : option param :=
  match path_arclentoparam np [x] with
  | [Some (k, Some t)] => Some (k, t)
  | _ => None
  end.
Definition to_arclen (np : linepath) (p : param) : option R :=
  match path_paramtoarclen np [p] with
  | Some [Some x] => Some x
  | _ => None
  end.

(** the arithmetic of parameters, l.1470-1501; [other] is a parameter of the same path or a
    length in pts (l.1476, 1486 and 1490 convert a length by unit.topt).  l.1497, __div__,
    is not called by Python 3. *)
Definition obind {A B} (x : option A) (f : A -> option B) : option B := match x with Some a => f a | None => None end.
Definition other_arclen (np : linepath) (other : param + R) : option R :=
  match other with inl q => to_arclen np q | inr x => Some x end.
Definition param_add (np : linepath) (p : param) (other : param + R) : option param :=
  obind (to_arclen np p) (fun a => obind (other_arclen np other) (fun b => to_param np (a + b))).
Definition param_sub (np : linepath) (p : param) (other : param + R) : option param :=
  obind (to_arclen np p) (fun a => obind (other_arclen np other) (fun b => to_param np (a - b))).
Definition param_rsub (np : linepath) (x : R) (p : param) : option param :=
  obind (to_arclen np p) (fun a => to_param np (- a + x)).
Definition param_mul (np : linepath) (p : param) (factor : R) : option param :=
  obind (to_arclen np p) (fun a => to_param np (a * factor)).
Definition param_neg (np : linepath) (p : param) : option param :=
  obind (to_arclen np p) (fun a => to_param np (- a)).
(** comparisons with a length, l.1508 and 1515 *)
Definition param_eq_length (np : linepath) (p : param) (x : R) : option bool := option_map (fun a => reqb a x) (to_arclen np p).
Definition param_lt_length (np : linepath) (p : param) (x : R) : option bool := option_map (fun a => ltb a x) (to_arclen np p).

(** _convertparams, l.1582-1600: [inl] is a parameter, [inr] a length *)
Fixpoint to_convert {P L} (k : nat) (params : list (P + L)) : list L * list nat :=
  match params with
  | [] => ([], [])
  | inl _ :: params' => to_convert (S k) params'
  | inr x :: params' => let '(xs, ks) := to_convert (S k) params' in (x :: xs, k :: ks)
  end.
Definition convertparams {P L} (convert : list L -> list P) (params : list (P + L)) : list (P + L) :=
  match to_convert 0 params with
  | ([], _) => params
  | (xs, ks) => fold_left (fun params '(k, p) => set_nth k (inl p) params) (combine ks (convert xs)) params
  end.

Definition normpath := list nsp.
(** _at_pt, l.1676-1682, and likewise curvature_pt, _rotation and _trafo, l.1741-1748,
    1855-1861, 1967-1973, with [method] evaluating a subpath.  An index without subpath
    raises an IndexError; here its places are None. *)
Definition path_query {C} (method : nsp -> list R -> list (option C)) (np : normpath) (params : list param) : list (option (option C)) :=
  collect (fun k ts => match nth_error np k with Some s => method s ts | None => [] end) (length params) (path_distribute params).

(** atbegin_pt and atend_pt, l.1695-1714 *)
Definition path_atbegin (np : normpath) : option pt := match np with s :: _ => nsp_atbegin s | [] => None end.
Definition path_atend (np : normpath) : option pt := match rev np with s :: _ => nsp_atend s | [] => None end.

(** begin and end, l.1726-1731, 1750-1755 *)
Definition path_begin (np : normpath) : option param := match np with [] => None | _ => Some (0%nat, 0) end.
Definition path_end (np : normpath) : option param :=
  match rev np with [] => None | s :: _ => Some ((length np - 1)%nat, INR (length (items s))) end.

(** bbox, l.1719-1724 *)
Definition path_bbox (np : normpath) : bbox := fold_left (fun b s => biadd b (nsp_bbox s)) np empty.

(** a list of normsubpaths made by a method that may fail *)
Fixpoint all_ok {A B} (f : A -> res B) (l : list A) : res (list B) :=
  match l with
  | [] => Ok []
  | a :: l' => bind (f a) (fun b => bind (all_ok f l') (fun bs => Ok (b :: bs)))
  end.
(** reversed, l.1848-1853, and transformed, l.1985-1987 *)
Definition path_reversed (fuel : nat) (np : normpath) : res normpath := all_ok (nsp_reversed fuel) (rev np).
Definition path_transformed (fuel : nat) (t : trafo) (np : normpath) : res normpath := all_ok (nsp_transformed fuel t) np.

(** join and joined, l.1783-1807; the copy (l.1733-1738) has the same subpaths *)
Definition path_join (fuel : nat) (np other : normpath) : res normpath :=
  match rev np, other with
  | s :: _, o :: os => bind (join fuel s o) (fun s => Ok (removelast np ++ s :: os))
  | _, _ => Exn Normpath
  end.

(** _split_pt, l.1873-1915.  The state is as in [segments_loop]; a parameter with an index
    without subpath raises an IndexError, here before the other subpaths are considered. *)
Definition add_pieces (gs : list nsp) (done : list normpath) (last : normpath) : res (list normpath * normpath) :=
  match gs with
  | [] => Exn Index
  | g :: gs' => let all := (last ++ [g]) :: map (fun g => [g]) gs' in Ok (done ++ removelast all, List.last all [])
  end.
Fixpoint split_loop (fuel : nat) (np : normpath) (params : list param) (done : list normpath) (last : normpath) (collected : list R) (collectindex : option nat)
  : res (list normpath) :=
  match params with
  | [] =>
      match collectindex with
      | None => Exn Index
      | Some k =>
          match nth_error np k with
          | None => Exn Index
          | Some s =>
              bind (nsp_segments fuel s (collected ++ [INR (length (items s))])) (fun gs =>
              bind (add_pieces gs done last) (fun '(done, last) => Ok (done ++ [last ++ skipn (S k) np])))
          end
      end
  | (index, t) :: params' =>
      match collectindex with
      | None => split_loop fuel np params' done (firstn index np) [0; t] (Some index)
      | Some k =>
          if Nat.eqb index k then split_loop fuel np params' done last (collected ++ [t]) (Some k)
          else
            match nth_error np k, nth_error np index with
            | Some s, Some s' =>
                let up := Nat.ltb k index in
                bind (nsp_segments fuel s (collected ++ [if up then INR (length (items s)) else 0])) (fun gs =>
                bind (add_pieces gs done last) (fun '(done, last) =>
                if up then split_loop fuel np params' done (last ++ firstn (index - k - 1) (skipn (S k) np)) [0; t] (Some index)
                else bind (all_ok (nsp_reversed fuel) (rev (firstn (k - index - 1) (skipn (S index) np)))) (fun back =>
                     split_loop fuel np params' done (last ++ back) [INR (length (items s')); t] (Some index))))
            | _, _ => Exn Index
            end
      end
  end.
Definition path_split (fuel : nat) (np : normpath) (params : list param) : res (list normpath) :=
  match params with
  | [] => Ok [np]
  | _ => split_loop fuel np params [] [] [] None
  end.
