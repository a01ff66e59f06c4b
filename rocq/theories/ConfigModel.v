(** The search for files and the lists of the configuration, pyx/config.py. *)
From Coq Require Import Ascii String List Arith Bool.
Import ListNotations.
Open Scope string_scope.

(** formats with their extensions, l.44-61 *)
Record format := mkformat { fname : string; extensions : list string }.
Definition tfm := mkformat "tfm" [".tfm"].
Definition afm := mkformat "afm" [".afm"].
Definition fontmap := mkformat "map" [".map"].
Definition pict := mkformat "graphic/figure" [".eps"; ".epsi"].
Definition tex_ps_header := mkformat "PostScript header" [""; ".pro"].
Definition type1 := mkformat "type1 fonts" [".pfa"; ".pfb"].
Definition dvips_config := mkformat "dvips config" [].
Definition pyx := mkformat "PyX" [].

(** str.endswith *)
Definition ends_with (s e : string) : bool :=
  (String.length e <=? String.length s)%nat && String.eqb (substring (String.length s - String.length e) (String.length e) s) e.

(** full_filenames, l.65-82: the names given by the generator, in order *)
Definition full_filenames (filename : string) (formats : list format) : list string :=
  if existsb (fun f => existsb (ends_with filename) (extensions f)) formats then [filename]
  else flat_map (fun f => match extensions f with
                          | [] => [filename]
                          | es => map (fun e => filename ++ e) es
                          end) formats.

(** the files which can be opened: their contents by their paths *)
Definition files := string -> option string.
(** an opener, called when the given files exist; None for an EnvironmentError or for the
    value None *)
Definition opener := files -> option string.

(** local.openers, l.88-89.  Each of the lambdas refers to the variable of the comprehension,
    which has its last value when they are called. *)
Definition local_openers (filename : string) (formats : list format) : list opener :=
  let names := full_filenames filename formats in
  let full_filename := List.last names "" in
  map (fun _ => (fun fs => fs full_filename) : opener) names.

(** os.path.join for POSIX paths, of two parts *)
Definition is_prefix (p s : string) : bool := prefix p s.
Definition path_join (a b : string) : string :=
  if is_prefix "/" b then b
  else if (String.eqb a "" || ends_with a "/")%bool then a ++ b
  else a ++ "/" ++ b.

(** ** ls-R files, l.142-167 *)
(** str.rstrip *)
Definition is_space (c : ascii) : bool :=
  let n := nat_of_ascii c in ((9 <=? n) && (n <=? 13) || (28 <=? n) && (n <=? 32))%bool%nat.
Fixpoint rstrip (s : string) : string :=
  match s with
  | EmptyString => EmptyString
  | String c s' => match rstrip s' with
                   | EmptyString => if is_space c then EmptyString else String c EmptyString
                   | r => String c r
                   end
  end.
(** the caches are dictionaries *)
Definition dict := list (string * string).
Fixpoint lookup (d : dict) (k : string) : option string :=
  match d with
  | [] => None
  | (k', v) :: d' => if String.eqb k k' then Some v else lookup d' k
  end.
(** line[:-1] *)
Definition but_last (s : string) : string := substring 0 (String.length s - 1) s.

(** the loop over the lines, l.155-164, with the flag first and the variable dir, which is
    not bound before the first directory; None for the UnboundLocalError *)
Fixpoint read_lines (base_dir : string) (lines : list string) (first : bool) (dir : option string) (cache : dict)
  : option (option string * dict) :=
  match lines with
  | [] => Some (dir, cache)
  | line :: lines' =>
      let line := rstrip line in
      if (first && is_prefix "%" line)%bool then read_lines base_dir lines' first dir cache
      else if ends_with line ":" then read_lines base_dir lines' false (Some (path_join base_dir (but_last line))) cache
      else if (negb (String.eqb line "") && match lookup cache line with Some _ => false | None => true end)%bool then
        match dir with
        | None => None
        | Some d => read_lines base_dir lines' false dir (cache ++ [(line, path_join d line)])%list
        end
      else read_lines base_dir lines' false dir cache
  end.
(** the loop over the ls-R files, l.150-164; a file is its directory (os.path.dirname of its
    name) with its lines *)
Fixpoint read_lsr (lsrs : list (string * list string)) (dir : option string) (cache : dict) : option dict :=
  match lsrs with
  | [] => Some cache
  | (base_dir, lines) :: lsrs' =>
      match read_lines base_dir lines true dir cache with
      | None => None
      | Some (dir, cache) => read_lsr lsrs' dir cache
      end
  end.
(** ls_R.openers, l.148-168: the path of the returned opener, if there is one, and the cache.
    The name of the lambda is the one of the loop, which is left at once. *)
Fixpoint first_cached (cache : dict) (names : list string) : option string :=
  match names with
  | [] => None
  | n :: names' => match lookup cache n with Some p => Some p | None => first_cached cache names' end
  end.
Definition lsr_openers (lsrs : list (string * list string)) (cache : dict) (filename : string) (formats : list format)
  : option (option string * dict) :=
  match (match cache with [] => read_lsr lsrs None cache | _ => Some cache end) with
  | None => None
  | Some cache => Some (first_cached cache (full_filenames filename formats), cache)
  end.

(** ** recursivedir, l.112-140 *)
(** a directory with its path and what os.listdir gives: files, and directories.  Links and
    directories which cannot be read are not modelled. *)
Inductive directory := Directory (path : string) (entries : list (string * option directory)).
(** number of directories *)
Fixpoint dsize (d : directory) : nat :=
  match d with
  | Directory _ es => S ((fix sizes (es : list (string * option directory)) : nat :=
      match es with
      | [] => 0
      | (_, None) :: es' => sizes es'
      | (_, Some d') :: es' => dsize d' + sizes es'
      end) es)
  end.
Definition dsizes (ds : list directory) : nat := fold_right (fun d n => dsize d + n)%nat 0 ds.
(** dictionary assignment *)
Definition assign (d : dict) (k v : string) : dict := (k, v) :: d.
Definition mem (s : string) (l : list string) : bool := existsb (String.eqb s) l.
(** the loop over a directory, l.128-135 *)
Fixpoint scan (path : string) (entries : list (string * option directory)) (filenames : list string)
  (dirs : list directory) (cache : dict) (found : option string) : list directory * dict * option string :=
  match entries with
  | [] => (dirs, cache, found)
  | (item, Some d) :: es => scan path es filenames (d :: dirs) cache found
  | (item, None) :: es =>
      scan path es filenames dirs (assign cache item (path_join path item)) (if mem item filenames then Some item else found)
  end.
(** the loop over the directories, l.126-139; each round takes one directory away, so that
    [dsizes] rounds are enough *)
Fixpoint search (fuel : nat) (filenames : list string) (dirs : list directory) (cache : dict) : option string * list directory * dict :=
  match fuel, dirs with
  | S fuel', Directory path entries :: dirs' =>
      let '(dirs'', cache', found) := scan path entries filenames dirs' cache None in
      match found with
      | Some item => (Some item, dirs'', cache')
      | None => search fuel' filenames dirs'' cache'
      end
  | _, _ => (None, dirs, cache)
  end.
(** openers, l.119-140: the name by which the returned opener will look up the path, when it
    is called, and the directories and the cache afterwards *)
Definition cached_name (cache : dict) (names : list string) : option string :=
  find (fun n => match lookup cache n with Some _ => true | None => false end) names.
Definition rec_openers (dirs : list directory) (cache : dict) (filename : string) (formats : list format)
  : option string * list directory * dict :=
  let filenames := full_filenames filename formats in
  match cached_name cache filenames with
  | Some n => (Some n, dirs, cache)
  | None => search (dsizes dirs) filenames dirs cache
  end.

(** ** open, l.370-401 *)
(** methods without state; the cache of the openers by the name and the names of the formats *)
Definition method := string -> list format -> list opener.
Definition key := (string * list string)%type.
Definition key_eqb (a b : key) : bool :=
  String.eqb (fst a) (fst b) && (if list_eq_dec string_dec (snd a) (snd b) then true else false).
Definition ocache := list (key * opener).
Fixpoint cached (c : ocache) (k : key) : option opener :=
  match c with
  | [] => None
  | (k', o) :: c' => if key_eqb k k' then Some o else cached c' k
  end.
Fixpoint try_openers (fs : files) (os : list opener) : option (opener * string) :=
  match os with
  | [] => None
  | o :: os' => match o fs with Some file => Some (o, file) | None => try_openers fs os' end
  end.
Fixpoint try_methods (fs : files) (ms : list method) (filename : string) (formats : list format) : option (opener * string) :=
  match ms with
  | [] => None
  | m :: ms' => match try_openers fs (m filename formats) with
                | Some r => Some r
                | None => try_methods fs ms' filename formats
                end
  end.
(** the content of the file, None for an IOError, and the cache *)
Definition open (fs : files) (ms : list method) (c : ocache) (filename : string) (formats : list format) : option string * ocache :=
  let k := (filename, map fname formats) in
  match cached c k with
  | Some o => (o fs, c)
  | None => match try_methods fs ms filename formats with
            | Some (o, file) => (Some file, (k, o) :: c)
            | None => (None, c)
            end
  end.

(** ** getlist, l.351-361 *)
(** str.split without arguments *)
Fixpoint split_from (s : string) (word : string) : list string :=
  match s with
  | EmptyString => if String.eqb word "" then [] else [word]
  | String c s' =>
      if is_space c then (if String.eqb word "" then split_from s' "" else word :: split_from s' "")
      else split_from s' (word ++ String c EmptyString)
  end.
Definition split (s : string) : list string := split_from s "".
(** str.replace for a non-empty pattern: [skip] characters of a match are left out *)
Fixpoint replace_from (pat by_ : string) (skip : nat) (s : string) : string :=
  match s with
  | EmptyString => EmptyString
  | String c s' =>
      match skip with
      | S k => replace_from pat by_ k s'
      | O => if is_prefix pat s then by_ ++ replace_from pat by_ (String.length pat - 1) s'
             else String c (replace_from pat by_ 0 s')
      end
  end.
Definition getlist (space : string) (value : string) : list string :=
  let l := split value in
  if String.eqb space "" then l else map (replace_from space " " 0) l.
