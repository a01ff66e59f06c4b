(** Model of pyx/mesh.py l.43-104: meshes, their check, bounding box and the data of the shading.
    Floats are real numbers; bytes are numbers 0..255.  The dictionary written before the
    data (l.119-131, 158-170) is the list of the numbers of its entry Decode; zlib, hexadecimal
    digits, the output as a bitmap and the digits kept by %f are not modelled. *)
From Coq Require Import Reals ZArith Bool List.
From Verif Require Import ColorModel BboxModel ParterModel.
Import ListNotations.
Open Scope R_scope.

(** node_pt, l.43-47; the coordinates are a list *)
Record node := mknode { coords : list R; value : color }.
(** element, l.56-60; neighbors are not used *)
Definition element := list node.
Definition nodes (m : list element) : list node := concat m.

(** colorspacestring, color.py l.101-102, 158-159, 274-275, as the number of components; hsb has no such
    method *)
Definition colorspace (c : color) : option nat :=
  match c with Gray _ => Some 1%nat | RGB _ _ _ => Some 3%nat | CMYK _ _ _ _ => Some 4%nat | HSB _ _ _ => None end.
Definition components (c : color) : list R :=
  match c with Gray g => [g] | RGB r g b => [r; g; b] | HSB h s b => [h; s; b] | CMYK c m y k => [c; m; y; k] end.

(** the inner loop of the check, l.82-87, with the color space seen before; None is a
    ValueError *)
Fixpoint check_space (seen : option nat) (l : list node) : option (option nat) :=
  match l with
  | [] => Some seen
  | n :: l' =>
      match colorspace (value n) with
      | None => None
      | Some k =>
          match seen with
          | None => check_space (Some k) l'
          | Some k' => if Nat.eqb k k' then check_space seen l' else None
          end
      end
  end.
(** the check of the constructor, l.77-92 *)
Fixpoint check_elements (seen : option nat) (m : list element) : bool :=
  match m with
  | [] => true
  | e :: m' =>
      if Nat.eqb (length e) 3 then
        match check_space seen e with
        | None => false
        | Some seen' => forallb (fun n => Nat.eqb (length (coords n)) 2) e && check_elements seen' m'
        end
      else false
  end.
Definition new_mesh (m : list element) : option (list element) := if check_elements None m then Some m else None.

Definition nx (n : node) : R := nth 0 (coords n) 0.
Definition ny (n : node) : R := nth 1 (coords n) 0.
(** min and max of a list; None is the ValueError for an empty list *)
Definition minimum (l : list R) : option R := match l with [] => None | x :: l' => Some (fold_left Rmin l' x) end.
Definition maximum (l : list R) : option R := match l with [] => None | x :: l' => Some (fold_left Rmax l' x) end.
(** bbox, l.98-102: llx, lly, urx, ury *)
Definition mesh_bbox (m : list element) : option (R * R * R * R) :=
  match minimum (map nx (nodes m)), minimum (map ny (nodes m)), maximum (map nx (nodes m)), maximum (map ny (nodes m)) with
  | Some llx, Some lly, Some urx, Some ury => Some (llx, lly, urx, ury)
  | _, _, _, _ => None
  end.

(** the bytes of struct.pack(">I", n) without the first one; None is the struct.error *)
Definition pack24 (n : Z) : option (list Z) :=
  if (0 <=? n)%Z && (n <? 2 ^ 32)%Z then Some [(n / 65536) mod 256; (n / 256) mod 256; n mod 256]%Z else None.
(** coords24bit_pt, l.62-63; None also for the ZeroDivisionError *)
Definition coords24bit (c min max : R) : option (list Z) :=
  if Req_EM_T (max - min) 0 then None else pack24 (trunc ((c - min) * 16777215 / (max - min))).
(** to8bitbytes, color.py l.104-105, 161-162, 277-278 *)
Definition color_byte (x : R) : option Z :=
  let v := trunc (x * 255) in if (0 <=? v)%Z && (v <=? 255)%Z then Some v else None.
Definition to8bitbytes (c : color) : option (list Z) :=
  match c with HSB _ _ _ => None | _ => all_some (map color_byte (components c)) end.
(** data, l.100-104 *)
Definition node_data (b : R * R * R * R) (n : node) : option (list Z) :=
  let '(llx, lly, urx, ury) := b in
  match coords24bit (nx n) llx urx, coords24bit (ny n) lly ury, to8bitbytes (value n) with
  | Some x, Some y, Some c => Some (0%Z :: x ++ y ++ c)
  | _, _, _ => None
  end.
Definition mesh_data (b : R * R * R * R) (m : list element) : option (list Z) :=
  option_map (@concat Z) (all_some (map (node_data b) (nodes m))).

(** the entry Decode and the data, l.117-132, 154-174; None for an exception *)
Definition shading (m : list element) : option (list R * list Z) :=
  match nodes m, mesh_bbox m with
  | n :: _, Some (llx, lly, urx, ury) =>
      match to8bitbytes (value n), mesh_data (llx, lly, urx, ury) m with
      | Some c, Some d => Some ([llx; urx; lly; ury] ++ concat (map (fun _ => [0; 1]) c), d)
      | _, _ => None
      end
  | _, _ => None
  end.
