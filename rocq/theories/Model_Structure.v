(* Model of rayflare/structure.py: Structure, BulkLayer and Interface. *)
From Coq Require Import Reals List ZArith Bool String.
From Verif Require Import Base.
Import ListNotations.
Local Notation length := List.length.
Open Scope R_scope.

(* an element of the list of layers of an Interface, structure.py:97-104: a Solcore Layer, or a list
   [width in nm, data, ..] whose further items (of any type V) describe the material.  None: an empty list *)
Inductive larg (M V : Type) :=
| LLayer (material : M) (width : R)
| LList (items : option (R * list V)).
Arguments LLayer {M V}. Arguments LList {M V}.

(* an entry of Interface.materials: a material, or element[1:3]; structure.py:100, 105 *)
Inductive mat (M V : Type) := MMat (m : M) | MData (l : list V).
Arguments MMat {M V}. Arguments MData {M V}.

(* attributes of an Interface.  i_extra: the attributes that came from **kwargs and were not assigned
   afterwards; structure.py:87-105 *)
Record interface (M V T : Type) := mk_interface {
  i_method : string; i_layers : option (list (larg M V)); i_texture : T; i_prof : option (list Z);
  i_materials : list (mat M V); i_widths : list R; i_coherent : bool; i_extra : list (string * V) }.
Arguments mk_interface {M V T}. Arguments i_method {M V T}. Arguments i_layers {M V T}. Arguments i_texture {M V T}.
Arguments i_prof {M V T}. Arguments i_materials {M V T}. Arguments i_widths {M V T}. Arguments i_coherent {M V T}.
Arguments i_extra {M V T}.

(* structure.py:81 *)
Definition valid_methods : list string :=
  ["RT_Fresnel"; "RT_TMM"; "RCWA"; "TMM"; "Mirror"; "Lambertian"]%string.

(* structure.py:88-95: the attributes assigned after self.__dict__.update(kwargs).  (The names of the
   parameters cannot be in kwargs.) *)
Definition assigned : list string := ["materials"; "n_depths"; "widths"]%string.

(* structure.py:97-104, one element: (width, material) *)
Definition read_layer {M V} (e : larg M V) : res (R * mat M V) :=
  match e with
  | LLayer m w => Ok (w, MMat m)
  | LList None => Err IndexError
  | LList (Some (w, rest)) => Ok (w * / 10 ^ 9, MData (firstn 2 rest))
  end.

(* structure.py:70-104 *)
Definition new_interface {M V T} (method : string) (layers : option (list (larg M V))) (texture : T)
    (prof : option (list Z)) (coherent : bool) (kwargs : list (string * V)) : res (interface M V T) :=
  if existsb (String.eqb method) valid_methods then
    rbind (rmap read_layer (match layers with Some l => l | None => [] end)) (fun ls =>
    Ok (mk_interface method layers texture prof (map snd ls) (map fst ls) coherent
          (filter (fun kv => negb (existsb (String.eqb (fst kv)) assigned)) kwargs)))
  else Err ValueError.

(* structure.py:57-66.  width and material are parameters, so kwargs cannot contain them *)
Record bulk (M V : Type) := mk_bulk { b_width : R; b_material : M; b_extra : list (string * V) }.
Arguments mk_bulk {M V}. Arguments b_width {M V}. Arguments b_material {M V}. Arguments b_extra {M V}.

(* structure.py:11-16: a list with labels, one None per element at construction *)
Record structure (E : Type) := mk_structure { st_items : list E; st_labels : list (option string) }.
Arguments mk_structure {E}. Arguments st_items {E}. Arguments st_labels {E}.
Definition new_structure {E} (l : list E) : structure E := mk_structure l (repeat None (length l)).

(* list operations are inherited: Structure does not override append (structure.py:18-24 are commented out), insert or pop *)
Definition st_append {E} (s : structure E) (e : E) : structure E := mk_structure (st_items s ++ [e]) (st_labels s).
Definition st_pop {E} (s : structure E) : structure E := mk_structure (removelast (st_items s)) (st_labels s).

(* structure.py:44-52: the elements listed by str(structure), with their labels *)
Definition st_shown {E} (s : structure E) : list (E * option string) := combine (st_items s) (st_labels s).
