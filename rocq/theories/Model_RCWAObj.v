(* Model of rayflare/rigorous_coupled_wave_analysis/rcwa.py, part 2: the rcwa_structure object.
   The solver is a function of everything it was told (sdesc) and of the excitation.  Layer and material names
   "layer_k" and "shape_mat_k" are the numbers k.  Permittivities are pairs of reals.  Vertex lists and result
   dictionaries live in a heap because the code shares and overwrites them.  Calls run with
   options["parallel"] = False; the state after an exception is not modelled. *)
From Coq Require Import Reals List ZArith Bool String.
From Verif Require Import Base Model_TMM Model_Diff Model_RCWA.
Import ListNotations.
Local Notation length := List.length.
Open Scope R_scope.

(* rcwa.py:1030-1036, 1047 *)
Definition cx := (R * R)%type.

(* ---------------- shapes, materials, heap ---------------- *)

(* Shape materials are Solcore material objects, numbered; m_name is str(material), m_eps the square of the complex
   index (n + 1j k) ** 2 at a wavelength in m, rcwa.py:1036 *)
Record world := mk_world { m_name : nat -> string; m_eps : nat -> R -> cx }.

(* a material given as a list, the form update_oc accepts at rcwa.py:1028-1033 *)
Inductive smat := MObj (i : nat) | MList.

(* one entry of a geometry; the vertices of a polygon are an address.  "center" and "angle" may be absent.  rcwa.py:764-793, 839-854 *)
Inductive sgeo :=
| Circle (center : v2) (radius : R)
| Ellipse (center : v2) (angle : R) (halfwidths : v2)
| Rectangle (center : v2) (angle : R) (halfwidths : v2)
| Polygon (center : option v2) (angle : option R) (vertices : nat)
| OtherShape.
Record shape (A : Type) := mk_shape { sh_mat : A; sh_geo : sgeo }.
Arguments mk_shape {A}. Arguments sh_mat {A}. Arguments sh_geo {A}.

(* a Python sequence of points: tuple or list; rcwa.py:781-788 *)
Record vlist := mk_vlist { v_tuple : bool; v_pts : list v2 }.

(* a dictionary returned by calculate or calculate_profile, one entry per wavelength; rcwa.py:1147-1161 *)
Record rdict (S : Type) := mk_rdict {
  r_R : list R; r_T : list R; r_A : list (list R);
  r_orders : option (list (list (list R)) * S); r_profile : option (list (list R)) }.
Arguments mk_rdict {S}. Arguments r_R {S}. Arguments r_T {S}. Arguments r_A {S}.
Arguments r_orders {S}. Arguments r_profile {S}.

(* ---------------- what the solver is told ---------------- *)

(* SetRegion.. (S4, rcwa.py:841-854) and AddPattern.. (Inkstone, 766-793) calls *)
Inductive call :=
| S4Circle (center : v2) (radius : R)
| S4Ellipse (center : v2) (angle : R) (halfwidths : v2)
| S4Rectangle (center : v2) (angle : R) (halfwidths : v2)
| S4Polygon (center : v2) (angle : R) (vertices : list v2)
| InkDisk (radius : R) (center : v2)
| InkEllipse (halfwidths center : v2) (angle : R)
| InkRectangle (sides center : v2) (angle : R)
| InkPolygon (vertices : list v2).

Inductive meth := MS4 | MInk | MOther.
Definition optdict := string -> option string.

Record sdesc := mk_S {
  s_size : v2 * v2; s_orders : nat; s_opts : list string;
  s_shape_eps : list cx;                       (* shape_mat_1, shape_mat_2, .. *)
  s_layers : list (cx * R * list (nat * call)) (* layer_1, ..: material, thickness, (k of shape_mat_k, region) *) }.

(* what the solver returns: fluxes at the top of each layer and the total flux at a depth in a layer; rcwa.py:1586-1587, 1649-1657 *)
Record sol := mk_sol { so_flux : fluxes; so_at : nat -> R -> R }.
Definition solver := sdesc -> R -> R -> pol_out -> R -> sol.   (* theta, phi, polarisation, frequency *)

(* list.index; rcwa.py:764, 840 *)
Fixpoint index_of (x : string) (l : list string) : res nat :=
  match l with
  | [] => Err ValueError
  | y :: r => if String.eqb x y then Ok 0%nat else rbind (index_of x r) (fun i => Ok (S i))
  end.

(* rcwa.py:838-854: one shape for S4; an unknown type adds nothing, missing polygon keys raise KeyError *)
Definition region_S4 (hv : nat -> vlist) (g : sgeo) : res (list call) :=
  match g with
  | Circle c r => Ok [S4Circle c r]
  | Ellipse c a h => Ok [S4Ellipse c a h]
  | Rectangle c a h => Ok [S4Rectangle c a h]
  | Polygon (Some c) (Some a) v => Ok [S4Polygon c a (v_pts (hv v))]
  | Polygon _ _ _ => Err KeyError
  | OtherShape => Ok []
  end.

Definition add2 (a b : v2) : v2 := (fst a + fst b, snd a + snd b).
Definition hset (hv : nat -> vlist) (a : nat) (v : vlist) : nat -> vlist :=
  fun b => if Nat.eqb b a then v else hv b.

(* rcwa.py:764-793: one shape for Inkstone.  A list of vertices is overwritten in place with the shifted vertices
   (783-788), a tuple is copied first (780-781); the angle of a polygon is dropped (790-791). *)
Definition region_ink (hv : nat -> vlist) (g : sgeo) : (nat -> vlist) * list call :=
  match g with
  | Circle c r => (hv, [InkDisk r c])
  | Ellipse c a h => (hv, [InkEllipse h c a])
  | Rectangle c a h => (hv, [InkRectangle (fst h * 2, snd h * 2) c a])
  | Polygon None _ v => (hv, [InkPolygon (v_pts (hv v))])
  | Polygon (Some c) _ v =>
      let moved := map (fun p => add2 p c) (v_pts (hv v)) in
      ((if v_tuple (hv v) then hv else hset hv v (mk_vlist false moved)), [InkPolygon moved])
  | OtherShape => (hv, [])
  end.

(* the shapes of one layer; rcwa.py:838-854 *)
Fixpoint shapes_S4 (hv : nat -> vlist) (names : list string) (l : list (shape string)) : res (list (nat * call)) :=
  match l with
  | [] => Ok []
  | s :: r => rbind (index_of (sh_mat s) names) (fun i =>
              rbind (region_S4 hv (sh_geo s)) (fun cs =>
              rbind (shapes_S4 hv names r) (fun rest => Ok (map (fun c => (S i, c)) cs ++ rest))))
  end.
Fixpoint shapes_ink (hv : nat -> vlist) (names : list string) (l : list (shape string))
  : res ((nat -> vlist) * list (nat * call)) :=
  match l with
  | [] => Ok (hv, [])
  | s :: r => rbind (index_of (sh_mat s) names) (fun i =>
              let (hv1, cs) := region_ink hv (sh_geo s) in
              rbind (shapes_ink hv1 names r) (fun rest =>
              Ok (fst rest, map (fun c => (S i, c)) cs ++ snd rest)))
  end.

(* rcwa.py:859-873 *)
Definition geometry := option (list (shape string)).
Definition shapes_of (g : geometry) : list (shape string) := match g with Some l => l | None => [] end.

(* widths: None is infinity, which becomes thickness zero (rcwa.py:751-757, 826-832) *)
Definition thickness (w : option R) : R := match w with Some x => x | None => 0 end.

(* rcwa.py:741-764 / 816-837: the layers, numbered from i.  mats_oc[i] and geom_list[i] may be out of range. *)
Fixpoint layers_S4 (hv : nat -> vlist) (names : list string) (i : nat) (ws : list (option R)) (oc : list cx)
    (geom : list geometry) : res (list (cx * R * list (nat * call))) :=
  match ws with
  | [] => Ok []
  | w :: r => rbind (py_index oc (Z.of_nat i)) (fun e =>
              rbind (py_index geom (Z.of_nat i)) (fun g =>
              rbind (shapes_S4 hv names (shapes_of g)) (fun sh =>
              rbind (layers_S4 hv names (S i) r oc geom) (fun rest => Ok ((e, thickness w, sh) :: rest)))))
  end.
Fixpoint layers_ink (hv : nat -> vlist) (names : list string) (i : nat) (ws : list (option R)) (oc : list cx)
    (geom : list geometry) : res ((nat -> vlist) * list (cx * R * list (nat * call))) :=
  match ws with
  | [] => Ok (hv, [])
  | w :: r => rbind (py_index oc (Z.of_nat i)) (fun e =>
              rbind (py_index geom (Z.of_nat i)) (fun g =>
              rbind (shapes_ink hv names (shapes_of g)) (fun sh =>
              rbind (layers_ink (fst sh) names (S i) r oc geom) (fun rest =>
              Ok (fst rest, (e, thickness w, snd sh) :: snd rest)))))
  end.

(* rcwa.py:801-812: the ten options read; a missing one raises KeyError *)
Definition s4_keys : list string :=
  ["LatticeTruncation"; "DiscretizedEpsilon"; "DiscretizationResolution"; "PolarizationDecomposition";
   "PolarizationBasis"; "LanczosSmoothing"; "SubpixelSmoothing"; "ConserveMemory"; "WeismannFormulation";
   "Verbosity"]%string.
Definition read_options (d : option optdict) : res (list string) :=
  match d with
  | None => Err TypeError       (* subscripting None *)
  | Some d => rmap (fun k => match d k with Some v => Ok v | None => Err KeyError end) s4_keys
  end.

(* rcwa.py:798-856 *)
Definition initialise_S (hv : nat -> vlist) (size : v2 * v2) (orders : nat) (geom : list geometry)
    (layers_oc shapes_oc : list cx) (names : list string) (ws : list (option R)) (opts : option optdict) : res sdesc :=
  rbind (read_options opts) (fun o =>
  rbind (layers_S4 hv names 0 ws layers_oc geom) (fun ls => Ok (mk_S size orders o shapes_oc ls))).

(* rcwa.py:733-795 *)
Definition initialise_S_inkstone (hv : nat -> vlist) (size : v2 * v2) (orders : nat) (geom : list geometry)
    (layers_oc shapes_oc : list cx) (names : list string) (ws : list (option R)) : res ((nat -> vlist) * sdesc) :=
  rbind (layers_ink hv names 0 ws layers_oc geom) (fun ls =>
  Ok (fst ls, mk_S size orders [] shapes_oc (snd ls))).

(* ---------------- the object ---------------- *)

(* one element of the structure passed in: a Layer object, or a list of n entries (rcwa.py:963-983) *)
Inductive entry :=
| LayObj (width : R) (eps : R -> cx) (geom : list (shape smat))
| LayList (n : nat) (width : R) (eps : R -> cx) (geom : list (shape smat)).
Record olayer := mk_olayer { ol_width : R; ol_eps : R -> cx; ol_geom : list (shape smat) }.
(* rcwa.py:963-983: a list whose length is neither 4 nor 5 adds nothing.  The constant index of a list of four is turned
   into a table over the wavelengths, which OptiStack interpolates: the same constant at every wavelength. *)
Definition entry_layers (e : entry) : list olayer :=
  match e with
  | LayObj w ep g => [mk_olayer w ep g]
  | LayList n w ep g => if (Nat.eqb n 4 || Nat.eqb n 5)%bool then [mk_olayer w ep g] else []
  end.

(* rcwa.py:859-873: materials of all shapes (before the set), and the geometries with materials replaced by their names;
   an empty geometry becomes None *)
Definition mat_list (gl : list (list (shape smat))) : list smat := map sh_mat (List.concat gl).
Definition name_shape (W : world) (s : shape smat) : shape string :=
  mk_shape (match sh_mat s with MObj i => m_name W i | MList => EmptyString end) (sh_geo s).
Definition named (W : world) (g : list (shape smat)) : geometry :=
  match g with [] => None | _ => Some (map (name_shape W) g) end.
(* list(set(..)), rcwa.py:873: a list material is not hashable.  The order of the set is the argument. *)
Definition set_of (order : list nat -> list nat) (l : list smat) : res (list nat) :=
  rbind (rmap (fun m => match m with MObj i => Ok i | MList => Err TypeError end) l) (fun ids => Ok (order ids)).

Record obj := mk_obj {
  o_stack : list olayer; o_incid : R -> cx; o_trans : R -> cx;
  o_mats : list nat; o_geom : list geometry; o_names : list string; o_size : v2 * v2; o_user : option optdict;
  o_widths : list (option R); o_width : R; o_layers_oc : list (list cx); o_shapes_oc : list (list cx); o_wl : list R;
  o_ratA : option (list R); o_results : option nat }.

Record heap := mk_heap { h_v : nat -> vlist; h_res : list (rdict sdesc) }.

Definition inner (ws : list (option R)) : list R := map thickness (removelast (tl ws)).

(* rcwa.py:1023-1054.  get_widths() of OptiStack is [inf] + widths + [inf]. *)
Definition update_oc (W : world) (wl : list R) (ob : obj) : obj :=
  let ws := None :: map (fun l => Some (ol_width l)) (o_stack ob) ++ [None] in
  mk_obj (o_stack ob) (o_incid ob) (o_trans ob) (o_mats ob) (o_geom ob) (o_names ob) (o_size ob) (o_user ob)
    ws (rsum (inner ws) / 10 ^ 9)
    (map (fun x => o_incid ob x :: map (fun l => ol_eps l x) (o_stack ob) ++ [o_trans ob x]) wl)
    (map (fun x => map (fun m => m_eps W m x) (o_mats ob)) wl)
    wl (o_ratA ob) (o_results ob).

(* options; theta and phi in degrees as passed to the solver; rcwa.py:1100-1128 *)
Record ropts := mk_ropts {
  p_wl : list R; p_theta : R; p_phi : R; p_pol : pol_in; p_orders : nat; p_perorder : bool; p_meth : meth;
  p_s4 : option optdict; p_spacing : R; p_zpoints : option (list R); p_zlimit : option R }.

(* rcwa.py:1000-1011 *)
Definition s4_default : optdict := fun k =>
  match index_of k s4_keys with
  | Ok i => Some (nth i ["Circular"; "False"; "8"; "False"; "Default"; "False"; "False"; "False"; "False"; "0"]%string ""%string)
  | Err _ => None
  end.
Definition merge_options (user : option optdict) : optdict := fun k =>
  match user with
  | Some d => match d k with Some v => Some v | None => s4_default k end
  | None => s4_default k
  end.

(* rcwa.py:953-1021 *)
Definition new_obj (W : world) (order : list nat -> list nat) (structure : list entry) (size : v2 * v2) (o : ropts)
    (incidence transmission : R -> cx) : res obj :=
  let ls := List.concat (map entry_layers structure) in
  let gl := [] :: map ol_geom ls ++ [[]] in
  rbind (set_of order (mat_list gl)) (fun mats =>
  Ok (update_oc W (p_wl o)
        (mk_obj ls incidence transmission mats (map (named W) gl) (map (m_name W) mats) size
           (match p_meth o with MS4 => Some (merge_options (p_s4 o)) | _ => None end)
           [] 0 [] [] [] None None))).

(* "options["wavelength"] == self.current_wavelengths" under np.all (rcwa.py:1105, 1179).  Lengths that do not broadcast:
   NumPy raises ValueError from version 1.25 on (strict), before that the comparison is False. *)
Definition np_all_eq (strict : bool) (a b : list R) : res bool :=
  if Nat.eqb (length a) (length b) then Ok (forallb (fun p => Reqb (fst p) (snd p)) (combine a b))
  else if Nat.eqb (length a) 1 then Ok (forallb (fun x => Reqb (hd 0 a) x) b)
  else if Nat.eqb (length b) 1 then Ok (forallb (fun x => Reqb x (hd 0 b)) a)
  else if strict then Err ValueError else Ok false.

(* initialise_S or initialise_S_inkstone for wavelength number i; the options dictionary is an argument; rcwa.py:1594, 1618, 1644, 1680, 1056-1076 *)
Definition build_S (ob : obj) (hv : nat -> vlist) (m : meth) (orders : nat) (opts : option optdict) (i : nat)
  : res ((nat -> vlist) * sdesc) :=
  rbind (py_index (o_layers_oc ob) (Z.of_nat i)) (fun loc =>
  rbind (py_index (o_shapes_oc ob) (Z.of_nat i)) (fun soc =>
  match m with
  | MS4 => rbind (initialise_S hv (o_size ob) orders (o_geom ob) loc soc (o_names ob) (o_widths ob) opts) (fun S =>
           Ok (hv, S))
  | MInk => initialise_S_inkstone hv (o_size ob) orders (o_geom ob) loc soc (o_names ob) (o_widths ob)
  | MOther => Err ValueError
  end)).

(* rcwa.py:1056-1076: make_S reads options["S4_options"] *)
Definition make_S (ob : obj) (hv : nat -> vlist) (o : ropts) (i : nat) : res ((nat -> vlist) * sdesc) :=
  match p_meth o, p_s4 o with
  | MS4, None => Err KeyError
  | m, d => build_S ob hv m (p_orders o) d i
  end.

(* RCWA_structure_wl rcwa.py:1568-1597, RCWA_structure_wl_inkstone 1600-1622: R, T, A and, only with S4, A per order *)
Definition structure_wl (SV : solver) (ob : obj) (hv : nat -> vlist) (o : ropts) (pol : pol_out) (i : nat)
  : res ((nat -> vlist) * (R * R * list R * option (list (list R)))) :=
  rbind (build_S ob hv (p_meth o) (p_orders o) (o_user ob) i) (fun hS =>
  let S := snd hS in
  let f := so_flux (SV S (p_theta o) (p_phi o) pol (1 / (nth i (p_wl o) 0 * 10 ^ 9))) in
  let n := length (o_widths ob) in
  let '(Rt, T, incpf) := rcwa_rt f n in
  Ok (fst hS, (Rt, T, rcwa_absorption_per_layer f n incpf,
               match p_meth o, p_perorder o with
               | MS4, true => Some (rcwa_absorption_per_layer_order f n incpf)
               | _, _ => None
               end))).

(* rcwa.py:1118-1136, one after the other *)
Fixpoint run_wl {X} (f : (nat -> vlist) -> nat -> res ((nat -> vlist) * X)) (hv : nat -> vlist) (is_ : list nat)
  : res ((nat -> vlist) * list X) :=
  match is_ with
  | [] => Ok (hv, [])
  | i :: r => rbind (f hv i) (fun a => rbind (run_wl f (fst a) r) (fun b => Ok (fst b, snd a :: snd b)))
  end.

Definition with_results (ob : obj) (rat : list R) (a : nat) : obj :=
  mk_obj (o_stack ob) (o_incid ob) (o_trans ob) (o_mats ob) (o_geom ob) (o_names ob) (o_size ob) (o_user ob)
    (o_widths ob) (o_width ob) (o_layers_oc ob) (o_shapes_oc ob) (o_wl ob) (Some rat) (Some a).

Definition refresh (W : world) (strict : bool) (o : ropts) (ob : obj) : res (bool * obj) :=
  rbind (np_all_eq strict (p_wl o) (o_wl ob)) (fun same =>
  Ok (same, if same then ob else update_oc W (p_wl o) ob)).

Definition item3 (x : R * R * list R * option (list (list R))) : res (list (list R)) :=
  match snd x with Some a => Ok a | None => Err IndexError end.

(* rcwa.py:1078-1161; returns the new state and the address of the returned dictionary.  np.stack of nothing is ValueError. *)
Definition calculate (W : world) (SV : solver) (strict : bool) (o : ropts) (st : obj * heap)
  : res (obj * heap * nat) :=
  rbind (process_pol (p_pol o)) (fun pol =>
  rbind (refresh W strict o (fst st)) (fun rf =>
  let ob := snd rf in
  rbind (match p_meth o with MOther => Err KeyError | _ => Ok tt end) (fun _ =>
  rbind (run_wl (fun hv i => structure_wl SV ob hv o pol i) (h_v (snd st)) (seq 0 (length (p_wl o)))) (fun out =>
  let allres := snd out in
  rbind (match allres with [] => Err ValueError | _ => Ok tt end) (fun _ =>
  let Rs := map (fun x => fst (fst (fst x))) allres in
  let Ts := map (fun x => snd (fst (fst x))) allres in
  let As := map (fun x => snd (fst x)) allres in
  let a := length (h_res (snd st)) in
  if p_perorder o then
    rbind (rmap item3 allres) (fun ord =>
    rbind (make_S ob (fst out) o 0) (fun hS =>
    Ok (with_results ob (map rsum As) a,
        mk_heap (fst hS) (h_res (snd st) ++ [mk_rdict Rs Ts As (Some (ord, snd hS)) None]), a)))
  else
    Ok (with_results ob (map rsum As) a,
        mk_heap (fst out) (h_res (snd st) ++ [mk_rdict Rs Ts As None None]), a)))))).

(* tmm package, find_in_structure_with_inf: 0 is the incidence medium; called in rcwa.py:1652-1654 *)
Fixpoint find_in_structure (ws : list R) (d : R) : nat * R :=
  match ws with
  | [] => (0%nat, d)
  | w :: r => if Rleb w d then (S (fst (find_in_structure r (d - w))), snd (find_in_structure r (d - w))) else (0%nat, d)
  end.
Definition find_with_inf (ws : list (option R)) (d : R) : nat * R :=
  if Rltb d 0 then (0%nat, d) else (S (fst (find_in_structure (inner ws) d)), snd (find_in_structure (inner ws) d)).

(* rcwa.py:876-884 *)
Definition position_resolved (s : sol) (k : nat) (depth incpf : R) : R :=
  (so_at s k (depth - 1 / 10 ^ 9) - so_at s k (depth + 1 / 10 ^ 9)) / (2 * (1 / 10 ^ 9) * incpf).

(* rcwa.py:1625-1659, 1662-1695 *)
Definition wl_prof (SV : solver) (ob : obj) (ratA : list R) (dist : list R) (o : ropts) (pol : pol_out)
    (hv : nat -> vlist) (i : nat) : res ((nat -> vlist) * list R) :=
  rbind (py_index ratA (Z.of_nat i)) (fun A =>
  if Rltb 0 A then
    rbind (build_S ob hv (p_meth o) (p_orders o) (o_user ob) i) (fun hS =>
    let s := SV (snd hS) (p_theta o) (p_phi o) pol (1 / (nth i (p_wl o) 0 * 10 ^ 9)) in
    let incpf := fst (fx (so_flux s) 1) in
    Ok (fst hS, map (fun d => let (layer, dl) := find_with_inf (o_widths ob) d in
                              position_resolved s (layer + 1) dl incpf) dist))
  else Ok (hv, repeat 0 (length dist))).

(* rcwa.py:1188-1197; step_size is the spacing in nm *)
Definition prof_dist (ob : obj) (o : ropts) : list R :=
  match p_zpoints o with
  | Some z => z
  | None => arange0 (match p_zlimit o with Some z => z | None => rsum (inner (o_widths ob)) end) (p_spacing o * 10 ^ 9)
  end.

Definition clip0 (x : R) : R := if Rltb x 0 then 0 else x.

(* rcwa.py:1163-1233.  The dictionary of the last calculate receives the profile (1229-1230). *)
Definition calculate_profile (W : world) (SV : solver) (strict : bool) (o : ropts) (st : obj * heap)
  : res (obj * heap * nat) :=
  rbind (process_pol (p_pol o)) (fun pol =>
  rbind (refresh W strict o (fst st)) (fun rf =>
  rbind (if fst rf then Ok (fst st, snd st)
         else rbind (calculate W SV strict o (snd rf, snd st)) (fun x => Ok (fst x))) (fun st1 =>
  rbind (match o_ratA (fst st1) with
         | Some _ => Ok st1
         | None => rbind (calculate W SV strict o st1) (fun x => Ok (fst x))
         end) (fun st2 =>
  let ob := fst st2 in
  rbind (match o_ratA ob with Some r => Ok r | None => Err AttributeError end) (fun ratA =>
  rbind (match p_meth o with MOther => Err KeyError | _ => Ok tt end) (fun _ =>
  rbind (run_wl (wl_prof SV ob ratA (prof_dist ob o) o pol) (h_v (snd st2)) (seq 0 (length (p_wl o)))) (fun out =>
  rbind (match snd out with [] => Err ValueError | _ => Ok tt end) (fun _ =>
  rbind (match o_results ob with Some a => Ok a | None => Err AttributeError end) (fun a =>
  rbind (py_index (h_res (snd st2)) (Z.of_nat a)) (fun d =>
  Ok (ob, mk_heap (fst out) (set_nth a (mk_rdict (r_R d) (r_T d) (r_A d) (r_orders d)
                                          (Some (map (map clip0) (snd out)))) (h_res (snd st2))), a))))))))))).

(* rcwa.py:1539-1548; float32 rounding is not modelled *)
Definition obj_set_widths (ws : list R) (ob : obj) : obj :=
  mk_obj (o_stack ob) (o_incid ob) (o_trans ob) (o_mats ob) (o_geom ob) (o_names ob) (o_size ob) (o_user ob)
    (None :: map Some ws ++ [None]) (o_width ob) (o_layers_oc ob) (o_shapes_oc ob) (o_wl ob) (o_ratA ob) (o_results ob).

(* rcwa.py:1550-1555 *)
Definition obj_set_size (sz : v2 * v2) (ob : obj) : obj :=
  mk_obj (o_stack ob) (o_incid ob) (o_trans ob) (o_mats ob) (o_geom ob) (o_names ob) sz (o_user ob)
    (o_widths ob) (o_width ob) (o_layers_oc ob) (o_shapes_oc ob) (o_wl ob) (o_ratA ob) (o_results ob).

(* rcwa.py:1557-1565: the update of the dictionary is a function on shapes; indexing None raises TypeError *)
Definition edit_geom (layer gi : nat) (f : shape string -> shape string) (ob : obj) : res obj :=
  rbind (py_index (o_geom ob) (Z.of_nat layer)) (fun g =>
  match g with
  | None => Err TypeError
  | Some l => rbind (py_index l (Z.of_nat gi)) (fun s =>
      Ok (mk_obj (o_stack ob) (o_incid ob) (o_trans ob) (o_mats ob)
            (set_nth layer (Some (set_nth gi (f s) l)) (o_geom ob)) (o_names ob) (o_size ob) (o_user ob)
            (o_widths ob) (o_width ob) (o_layers_oc ob) (o_shapes_oc ob) (o_wl ob) (o_ratA ob) (o_results ob)))
  end).

(* a history of calls on one object; rcwa.py:1078-1234, 1539-1565 *)
Inductive event :=
| ECalc (o : ropts) | EProf (o : ropts) | ESetWidths (ws : list R) | ESetSize (sz : v2 * v2)
| EEdit (layer gi : nat) (f : shape string -> shape string).
Definition step (W : world) (SV : solver) (strict : bool) (e : event) (st : obj * heap) : res (obj * heap) :=
  match e with
  | ECalc o => rbind (calculate W SV strict o st) (fun x => Ok (fst x))
  | EProf o => rbind (calculate_profile W SV strict o st) (fun x => Ok (fst x))
  | ESetWidths ws => Ok (obj_set_widths ws (fst st), snd st)
  | ESetSize sz => Ok (obj_set_size sz (fst st), snd st)
  | EEdit l gi f => rbind (edit_geom l gi f (fst st)) (fun ob => Ok (ob, snd st))
  end.
Fixpoint history (W : world) (SV : solver) (strict : bool) (es : list event) (st : obj * heap) : res (obj * heap) :=
  match es with
  | [] => Ok st
  | e :: r => rbind (step W SV strict e st) (history W SV strict r)
  end.

(* ---------------- where the field methods look ---------------- *)

(* rcwa.py:1261, 1345, 1435, 1475: index of the stored wavelength nearest to the one asked for (both in nm) *)
Definition wl_index (ob : obj) (wavelength : R) : res nat :=
  argmin Rltb (map (fun x => Rabs (x * 10 ^ 9 - wavelength)) (o_wl ob)).

(* a place in the stack: a distance from the top of the first layer, or a layer name and a depth inside it; rcwa.py:1281-1288, 1357-1358, 1442-1445 *)
Inductive place := AtZ (z : R) | InLayer (k : nat) (d : R).

(* np.cumsum([0] + self.widths[1:-1] + [0])[layer_index - 1]; rcwa.py:1282, 1358, 1443 *)
Definition layer_top (ob : obj) (layer : nat) : res R :=
  py_index (cumsum (0 :: inner (o_widths ob) ++ [0])) (Z.of_nat layer - 1).

(* get_fourier_epsilon, rcwa.py:1281-1285 and 1301 *)
Definition epsilon_place (ob : obj) (m : meth) (layer : nat) : res place :=
  match m with
  | MS4 => if Nat.ltb 0 layer then rbind (layer_top ob layer) (fun z => Ok (AtZ (z + 1 / 10 ^ 10))) else Ok (AtZ (- 1))
  | _ => Ok (InLayer (layer + 1) 0)
  end.
(* get_fields, rcwa.py:1357-1358, 1385 and 1391: depth_S4 is bound only for layer_index > 0 *)
Definition fields_place (ob : obj) (m : meth) (layer : nat) (depth : R) : res place :=
  rbind (if Nat.ltb 0 layer then rbind (layer_top ob layer) (fun z => Ok (Some (z + depth))) else Ok None) (fun z =>
  match m with
  | MS4 => match z with Some z => Ok (AtZ z) | None => Err UnboundLocalError end
  | _ => Ok (InLayer (layer + 1) depth)
  end).
(* get_fields_unit_cell, rcwa.py:1434-1450 *)
Definition cell_place (ob : obj) (m : meth) (layer : nat) (depth : R) : res place :=
  match m with
  | MS4 => if Nat.ltb 0 layer then rbind (layer_top ob layer) (fun z => Ok (AtZ (z + depth))) else Ok (AtZ depth)
  | _ => Err ValueError
  end.
(* get_fields_z_integral, rcwa.py:1507-1508: the layer integrated over *)
Definition z_integral_layer (m : meth) (layer : nat) : res nat :=
  match m with MS4 => Ok layer | _ => Err ValueError end.
(* save_layer_postscript, rcwa.py:1235-1241 *)
Definition postscript_layer (layer : nat) : nat := (layer + 1)%nat.
