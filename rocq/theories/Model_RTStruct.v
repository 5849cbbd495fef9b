(* Model of the set-up code of ray tracing (ray_tracing/rt.py): which rays are started, where and in
   which direction; the constructor of rt_structure; the lookup tables it asks for; how calculate
   puts its results together; the directions, media and surfaces of RT for front and rear.

   The tracing of one ray is in Model_RayIface and Model_RayStack.  Random draws are arguments. *)
From Coq Require Import Reals List ZArith Bool String.
From Verif Require Import Base Model_Cache Model_Angles Model_Ideal Model_MatMul Model_Optics Model_RayIface Model_RayStack Model_RT Model_Surface.
Import ListNotations.
Local Notation length := List.length.
Open Scope list_scope.
Open Scope R_scope.

(* ---------- positions of the rays ---------- *)

(* rt.py:186-201, 888-903: options["x_limits"] or the cell less 1 % on either side *)
Definition limits (given : option (R * R)) (mn mx L : R) : R * R :=
  match given with Some l => l | None => (mn + 1 / 100 * L, mx - 1 / 100 * L) end.

(* rt.py:203-209, 908-914: np.random.uniform(a, b, n) (u: draws in [0, 1)) or np.linspace(a, b, n) *)
Definition coords (random : bool) (lim : R * R) (n : nat) (u : nat -> R) : list R :=
  if random then map (fun i => fst lim + u i * (snd lim - fst lim)) (seq 0 n)
  else linspace (fst lim) (snd lim) n.

(* itertools.product(xs, ys): the last coordinate changes fastest (rt.py:311, 1151) *)
Definition positions (xs ys : list R) : list (R * R) := list_prod xs ys.

(* rt.py:919: int(np.ceil(n_rays / (nx * ny))) *)
Definition n_reps_of (n_rays nx ny : nat) : nat := Z.to_nat (Zceil (INR n_rays / INR (nx * ny))).

(* rt.py:1145-1187: the arrays filled by parallel_inner.  trace k x y: what the k-th call of
   single_ray_stack, for position (x, y), returned.  zero: the initial content of the arrays *)
Definition fill_rays {A} (zero : A) (trace : nat -> R -> R -> A) (n_reps nx ny : nat) (xs ys : list R) : list A :=
  fold_left (fun arr j =>
    fold_left (fun arr cv => set_nth (fst cv + j * nx * ny) (trace (fst cv + j * nx * ny)%nat (fst (snd cv)) (snd (snd cv))) arr)
              (enumerate (positions xs ys)) arr)
    (seq 0 n_reps) (repeat zero (n_reps * nx * ny)).

(* ---------- where a ray starts ---------- *)

(* rt.py:305-310, 880-886; h: the highest point of the first surface *)
Definition start_vector (h theta phi : R) : vec :=
  let r := Rabs ((h + 1 / 10 ^ 8) / cos theta) in
  mkv (r * sin theta * cos phi) (r * sin theta * sin phi) (r * cos theta).

(* rt.py:1789-1793, 1621-1626: position and unit direction before any translation.  A start vector
   of length 0 (NaN in numpy) is not modelled *)
Definition first_ray (r_a_0 : vec) (x y : R) : vec * vec :=
  let r_a := vadd r_a_0 (mkv x y 0) in
  let r_b := mkv x y 0 in
  (r_a, vscale (/ norm (vsub r_b r_a)) (vsub r_b r_a)).

(* rt.py:1589-1640, single_ray_stack: position, direction and number of the first surface.  widths is
   the numpy array of calculate, with the zeros for both outer media, so that [0] + widths adds 0 to
   every element (rt.py:1600) *)
Definition stack_start (widths : list R) (r_a_0 : vec) (x y : R) (mat_i direction_i : Z) : res (vec * vec * Z) :=
  let cum_width := cumsum (map (fun w => 0 + w) widths) in
  rbind (if (Z.eqb direction_i 1 && (0 <? mat_i)%Z)%bool
         then rbind (py_index cum_width (mat_i - 1)) (fun c => Ok (mat_i, - c - 1 / 10 ^ 8))
         else if (Z.eqb direction_i 1 && Z.eqb mat_i 0)%bool then Ok (0%Z, vz r_a_0)
         else rbind (py_index cum_width mat_i) (fun c => Ok ((mat_i - 1)%Z, - c + 1 / 10 ^ 8)))
  (fun sz =>
  let '(r_a, d) := first_ray r_a_0 x y in
  let nd := - vz r_a / vz d in
  let r_a := vadd r_a (vscale nd d) in
  let r_a := set_z r_a (snd sz) in
  Ok (r_a, (if Z.eqb direction_i 1 then d else set_z d (- vz d)), fst sz)).

(* rt.py:1655-1671, option randomize_surface: a new position before a surface check.  u, v: draws in
   [0, 1); h = z_max - z_min + 0.1.  The new position and the (possibly changed) direction *)
Definition randomized (Lx Ly zmin zmax zcov u v : R) (direction : Z) (d : vec) : vec * vec :=
  let h := zmax - zmin + 1 / 10 in
  let r_b := mkv (u * Lx) (v * Ly) zcov in
  let d := if Reqb (vz d) 0 then set_z d (- IZR direction * (1 / 10 ^ 3)) else d in
  let n_z := IZR (Zceil (Rabs (h / vz d))) in
  (vsub r_b (vscale n_z d), d).

(* ---------- the constructor of rt_structure ---------- *)

(* Python objects: an RTSurface is an object whose attribute Points refers to an array; its other
   attributes are arrays of its own (fancy indexing copies), kept in so_rest; rt.py:1383-1391, 1438-1448 *)
Record sobj := { so_pts : nat; so_rest : rtsurf }.
Record store := { arrays : list (list vec); objects : list sobj }.

(* rt.py:1465 *)
Definition with_pts (p : list vec) (s : rtsurf) : rtsurf :=
  {| su_simp := su_simp s; su_pts := p; su_orig := su_orig s; su_hind := su_hind s;
     su_tris := su_tris s; su_cross := su_cross s; su_N := su_N s;
     su_Lx := su_Lx s; su_Ly := su_Ly s; su_xmin := su_xmin s; su_xmax := su_xmax s;
     su_ymin := su_ymin s; su_ymax := su_ymax s;
     su_zmin := su_zmin s; su_zmax := su_zmax s; su_zcov := su_zcov s; su_dist := su_dist s |}.

(* what the attributes of an object are; the object read in rt.py:1464-1473 *)
Definition surface_at (S : store) (o : nat) : option rtsurf :=
  match nth_error (objects S) o with
  | None => None
  | Some ob => match nth_error (arrays S) (so_pts ob) with
               | None => None
               | Some p => Some (with_pts p (so_rest ob))
               end
  end.

(* rt.py:1438-1448, __deepcopy__: the copy first shares Points with the original
   (type(self)(Points=self.Points, ...)), then setattr replaces it, like every attribute but interface_layers,
   by a deep copy *)
Definition deepcopy (S : store) (o : nat) : res (store * nat) :=
  match nth_error (objects S) o with
  | None => Err AttributeError
  | Some ob =>
      match nth_error (arrays S) (so_pts ob) with
      | None => Err AttributeError
      | Some p => Ok ({| arrays := arrays S ++ [p];
                         objects := objects S ++ [{| so_pts := length (arrays S); so_rest := so_rest ob |}] |},
                      length (objects S))
      end
  end.

Fixpoint copy_all (S : store) (l : list nat) : res (store * list nat) :=
  match l with
  | [] => Ok (S, [])
  | o :: r => rbind (deepcopy S o) (fun So => rbind (copy_all (fst So) r) (fun Sl => Ok (fst Sl, snd So :: snd Sl)))
  end.

(* rt.py:1464-1473 on an object: Points is changed in place, the others are replaced *)
Definition shift_at (S : store) (o : nat) (dz : R) : store :=
  match nth_error (objects S) o with
  | None => S
  | Some ob =>
      match nth_error (arrays S) (so_pts ob) with
      | None => S
      | Some p =>
          let s := shift dz (with_pts p (so_rest ob)) in
          {| arrays := set_nth (so_pts ob) (su_pts s) (arrays S);
             objects := set_nth o {| so_pts := so_pts ob; so_rest := s |} (objects S) |}
      end
  end.

(* rt.py:768-770 *)
Fixpoint shift_all (S : store) (cum_width : list R) (i : nat) (l : list nat) : res store :=
  match l with
  | [] => Ok S
  | o :: r => rbind (py_index cum_width (Z.of_nat i)) (fun c => shift_all (shift_at S o c) cum_width (Datatypes.S i) r)
  end.

(* rt.py:753-776; textures: the front surfaces x[0]; widths in m.  Returns the store, surfaces, mats, cum_width *)
Definition new_rt_structure {M} (S : store) (textures : list nat) (materials : list M) (widths : list R)
  (incidence transmission : M) : res (store * list nat * list M * list R) :=
  let mats := [incidence] ++ materials ++ [transmission] in
  rbind (copy_all S textures) (fun Sl =>
  let cum_width := map (fun c => c * 10 ^ 6) (cumsum ([0] ++ widths)) in
  rbind (shift_all (fst Sl) cum_width 0 (snd Sl)) (fun S' => Ok (S', snd Sl, mats, cum_width))).

(* ---------- lookup tables of rt_structure ---------- *)

(* what make_lookuptable_rt_structure reads of text[0]; rt.py:499-533 *)
Record texture (L : Type) := {
  x_name : string;
  x_layers : option (list L);            (* interface_layers, if the attribute exists *)
  x_coh : option (list bool);            (* coherency_list *)
  x_prof : option (list Z) }.            (* prof_layers *)
Arguments x_name {L}. Arguments x_layers {L}. Arguments x_coh {L}. Arguments x_prof {L}.

(* arguments of make_TMM_lookuptable; rt.py:543-565 *)
Record table_request (M L : Type) := {
  q_layers : list L; q_inc : M; q_trn : M; q_name : string;
  q_coherent : bool; q_coh : option (list bool); q_prof : option (list Z) }.
Arguments q_layers {M L}. Arguments q_inc {M L}. Arguments q_trn {M L}. Arguments q_name {M L}.
Arguments q_coherent {M L}. Arguments q_coh {M L}. Arguments q_prof {M L}.

(* per interface: tmm_or_fresnel, n_layers, prof_layers_list, widths (nm); rt.py:493-496, 530-539 *)
Record iface_info := { ii_tmm : nat; ii_n : nat; ii_prof : option (list Z); ii_widths : option (list R) }.

(* rt.py:499-539, one texture: its table, if it has layers.  lw: the attribute width of a layer (m) *)
Definition plan_texture {M L} (lw : L -> R) (n : nat) (materials : list M) (incidence transmission : M)
  (i1 : nat) (t : texture L) : res (option (table_request M L) * iface_info) :=
  match x_layers t with
  | Some layers =>
      rbind (if Nat.ltb 0 i1 then py_index materials (Z.of_nat i1 - 1) else Ok incidence) (fun inc =>
      rbind (if Nat.ltb i1 (n - 1) then py_index materials (Z.of_nat i1) else Ok transmission) (fun trn =>
      Ok (Some {| q_layers := layers; q_inc := inc; q_trn := trn; q_name := rt_lookup_name (x_name t) i1;
                  q_coherent := match x_coh t with Some _ => false | None => true end;
                  q_coh := x_coh t; q_prof := x_prof t |},
          {| ii_tmm := 1; ii_n := length layers; ii_prof := x_prof t;
             ii_widths := Some (map (fun l => lw l * 10 ^ 9) layers) |})))
  | None => Ok (None, {| ii_tmm := 0; ii_n := 0; ii_prof := None; ii_widths := None |})
  end.

(* rt.py:482-567 without the writing of the tables (Model_TMM, Model_Cache) *)
Definition make_lookuptable_rt_structure {M L} (lw : L -> R) (textures : list (texture L)) (materials : list M)
  (incidence transmission : M) : res (list (table_request M L) * list iface_info) :=
  rbind (rmap (fun it => plan_texture lw (length textures) materials incidence transmission (fst it) (snd it))
              (enumerate textures)) (fun l =>
  Ok (flat_map (fun p => match fst p with Some q => [q] | None => [] end) l, map snd l)).

(* ---------- results of calculate ---------- *)

(* rt.py:962-992: per wavelength, A_in_interfaces and profile_arrays of parallel_inner (one entry per
   interface); A_per_interface[j][i], interface_profiles[j].  The assignment of a row needs as many
   entries as the interface has layers *)
Definition assemble {P} (n_layers : list nat) (wls : list (list (list R) * list (list P)))
  : res (list (list (list R)) * list (list (list P))) :=
  rbind (rmap (fun jn =>
     rmap (fun w => rbind (py_index (fst w) (Z.of_nat (fst jn))) (fun a =>
                    if Nat.eqb (length a) (snd jn) then Ok a else Err ValueError)) wls)
     (enumerate n_layers)) (fun A =>
  rbind (rmap (fun jn =>
     rbind (rmap (fun w => py_index (snd w) (Z.of_nat (fst jn))) wls) (fun ps =>
     Ok (filter (fun p => Nat.ltb 0 (length p)) ps)))
     (enumerate n_layers)) (fun P => Ok (A, P))).

(* ---------- RT: directions, media and surfaces ---------- *)

(* rt.py:123-143, only_incidence_angle; ValueError-free part.  phi_in = "all" is tiled as a string
   and fails in cos (rt.py:308): TypeError *)
Definition incidence_directions (g : grid) (n_angles : nat) (theta_in : R) (phi_in : phi_opt) : res (list (R * R)) :=
  let th_in := if Reqb theta_in 0 then 1 / 10 ^ 4 else theta_in in
  let angles_in := firstn (length (g_av g) / 2) (g_av g) in
  let n_reps := Z.to_nat (Zceil (INR n_angles / INR (length angles_in))) in
  match phi_in with
  | PhiAll => match n_reps with O => Ok [] | _ => Err TypeError end
  | PhiNum phi => Ok (repeat (th_in, if Reqb phi 0 then 1 / 10 ^ 4 else phi) n_reps)
  end.

(* rt.py:159-178: media in the order the ray meets them, and the surfaces *)
Definition rt_media {M} (s : side) (incidence transmission : M) (group_materials : option (list M)) : list M :=
  [match s with Front => incidence | Rear => transmission end]
  ++ match group_materials with Some l => l | None => [] end
  ++ [match s with Front => transmission | Rear => incidence end].

Definition rt_surfaces {S} (s : side) (textures : list (S * S)) : list S :=
  map (match s with Front => fst | Rear => snd end) textures.

(* rt.py:109-113: the coordinate side of the table (stored as 1, -1) is flipped for the rear; the
   stored side that .sel(side=k) finds *)
Definition table_side (s : side) (k : Z) : res Z :=
  let stored := [1; -1]%Z in
  let labels := match s with Front => stored | Rear => rev stored end in
  match find (fun p => Z.eqb (fst p) k) (combine labels stored) with
  | Some p => Ok (snd p)
  | None => Err KeyError
  end.
