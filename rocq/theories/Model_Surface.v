(* Model of RTSurface (ray_tracing/rt.py:1356-1492) and of the functions that build textures
   (textures/define_textures.py, textures/standard_rt_textures.py).

   scipy's Delaunay triangulation is an argument: a function from the (x, y) coordinates to triples of
   point numbers.  Random numbers are arguments.  hyperhemisphere (standard_rt_textures.py:105-336) is in Model_Hyper.
   Names, interface layers and coherency lists carried by a surface are not modelled. *)
From Coq Require Import Reals List ZArith Bool.
From Verif Require Import Base Model_Optics Model_RayIface.
Import ListNotations.
Open Scope R_scope.

(* ---------- RTSurface ---------- *)

(* min, max of a list; Python's min([]) raises ValueError, a surface has points (Delaunay needs 3); rt.py:1393-1400 *)
Definition lmin (l : list R) : R := match l with [] => 0 | x :: r => fold_left Rmin r x end.
Definition lmax (l : list R) : R := match l with [] => 0 | x :: r => fold_left Rmax r x end.

(* no code: point for an index out of range in rt.py:1387-1389 *)
Definition v0 : vec := mkv 0 0 0.
Definition triples := list (nat * nat * nat).

(* P_0s, P_1s, P_2s = Points[simplices[:, i]] (rt.py:1387-1389) *)
Definition tri_of (pts : list vec) (s : nat * nat * nat) : tri :=
  {| t_P0 := nth (fst (fst s)) pts v0; t_P1 := nth (snd (fst s)) pts v0; t_P2 := nth (snd s) pts v0 |}.

Record rtsurf := {
  su_simp : triples; su_pts : list vec; su_orig : list vec; su_hind : nat;
  su_tris : list tri; su_cross : list vec; su_N : list vec;
  su_Lx : R; su_Ly : R; su_xmin : R; su_xmax : R; su_ymin : R; su_ymax : R;
  su_zmin : R; su_zmax : R; su_zcov : R;
  su_dist : option (list R) }.      (* heights that can be drawn *)

(* the columns of Points; rt.py:1393-1400 *)
Definition xs_of (p : list vec) := map vx p.
Definition ys_of (p : list vec) := map vy p.
Definition zs_of (p : list vec) := map vz p.

(* np.argmax; rt.py:1386 *)
Definition argmax (l : list R) : res nat := argmin (fun a b => Rltb b a) l.

(* rt.py:1409-1421: the z of the first point at minimal x and y; IndexError if there is none *)
Definition find_zcov (p : list vec) : res R :=
  match filter (fun v => Reqb (vx v) (lmin (xs_of p)) && Reqb (vy v) (lmin (ys_of p))) p with
  | [] => Err IndexError
  | v :: _ => Ok (vz v)
  end.

(* crossP / norm (rt.py:1391); a degenerate triangle gives NaN in numpy, the zero vector here *)
Definition normals (c : list vec) : list vec := map (fun v => vscale (/ norm v) v) c.

(* rt.py:1359-1421.  cov: keyword coverage_height, dist: keyword height_distribution *)
Definition mk_surface (del : list (R * R) -> triples) (p : list vec) (cov : option R) (dist : option (list R))
  : res rtsurf :=
  rbind (argmax (map Rabs (zs_of p))) (fun hind =>
  rbind (match cov with Some c => Ok c | None => find_zcov p end) (fun zcov =>
  let simp := del (map (fun v => (vx v, vy v)) p) in
  let tris := map (tri_of p) simp in
  let c := map t_cross tris in
  Ok {| su_simp := simp; su_pts := p; su_orig := p; su_hind := hind;
        su_tris := tris; su_cross := c; su_N := normals c;
        su_Lx := Rabs (lmin (xs_of p) - lmax (xs_of p)); su_Ly := Rabs (lmin (ys_of p) - lmax (ys_of p));
        su_xmin := lmin (xs_of p); su_xmax := lmax (xs_of p); su_ymin := lmin (ys_of p); su_ymax := lmax (ys_of p);
        su_zmin := lmin (zs_of p); su_zmax := lmax (zs_of p); su_zcov := zcov; su_dist := dist |})).

Definition set_z (v : vec) (z : R) : vec := mkv (vx v) (vy v) z.

(* rt.py:1464-1473; N and original_Points are left alone *)
Definition shift (dz : R) (s : rtsurf) : rtsurf :=
  let p := map (fun v => set_z v (vz v - dz)) (su_pts s) in
  let tris := map (tri_of p) (su_simp s) in
  {| su_simp := su_simp s; su_pts := p; su_orig := su_orig s; su_hind := su_hind s;
     su_tris := tris; su_cross := map t_cross tris; su_N := su_N s;
     su_Lx := su_Lx s; su_Ly := su_Ly s; su_xmin := su_xmin s; su_xmax := su_xmax s;
     su_ymin := su_ymin s; su_ymax := su_ymax s;
     su_zmin := lmin (zs_of p); su_zmax := lmax (zs_of p); su_zcov := su_zcov s - dz; su_dist := su_dist s |}.

(* rt.py:1475-1492; new_height is the value drawn.  Division by zero (a flat surface) is not modelled *)
Definition refresh (new_height : R) (s : rtsurf) : rtsurf :=
  match su_dist s with
  | None => s
  | Some _ =>
      let scaling := Rabs (new_height / (vz (nth (su_hind s) (su_orig s) v0) - su_zcov s)) in
      let p := map2 (fun v o => set_z v (scaling * (vz o - su_zcov s) + su_zcov s)) (su_pts s) (su_orig s) in
      let tris := map (tri_of p) (su_simp s) in
      let c := map t_cross tris in
      {| su_simp := su_simp s; su_pts := p; su_orig := su_orig s; su_hind := su_hind s;
         su_tris := tris; su_cross := c; su_N := normals c;
         su_Lx := su_Lx s; su_Ly := su_Ly s; su_xmin := su_xmin s; su_xmax := su_xmax s;
         su_ymin := su_ymin s; su_ymax := su_ymax s;
         su_zmin := lmin (zs_of p); su_zmax := lmax (zs_of p); su_zcov := su_zcov s; su_dist := su_dist s |}
  end.

(* the attributes used by single_interface_check, see Model_RayIface.surface; it reads N where the
   model recomputes it from the triangle: Prop_Surface shows that the two agree; what rt.py:2228-2250 and 1983-2009 read *)
Definition as_surface (s : rtsurf) : surface :=
  {| s_tris := su_tris s; s_zmin := su_zmin s; s_zmax := su_zmax s |}.

(* rt.py:1450-1462; None: NaN (arccos outside [-1, 1]) *)
Definition area_term (T : tri) : option R :=
  let a := vsub (t_P0 T) (t_P1 T) in
  let b := vsub (t_P2 T) (t_P1 T) in
  let cos_theta := dot a b in
  if Rleb (-1) cos_theta && Rleb cos_theta 1 then Some (5 / 10 * norm a * norm b * sin (acos cos_theta)) else None.

Fixpoint osum (l : list (option R)) : option R :=
  match l with
  | [] => Some 0
  | None :: _ => None
  | Some x :: r => match osum r with Some y => Some (x + y) | None => None end
  end.

Definition find_area (s : rtsurf) : option R :=
  match osum (map area_term (su_tris s)) with
  | Some a => Some (a / (su_Lx s * su_Ly s))
  | None => None
  end.

(* ---------- textures/define_textures.py ---------- *)

(* np.vstack([x, y, z]).T (define_textures.py:21); the lists have equal lengths, numpy raises ValueError otherwise *)

Definition zip3 (x y z : list R) : list vec := map2 (fun xy z => mkv (fst xy) (snd xy) z) (combine x y) z.

(* define_textures.py:12-27: [front, rear] *)
Definition xyz_texture (del : list (R * R) -> triples) (x y z : list R) (cov : option R) (dist : option (list R))
  : res (rtsurf * rtsurf) :=
  rbind (mk_surface del (zip3 x y z) cov dist) (fun f =>
  rbind (mk_surface del (zip3 x y (map Ropp z)) cov dist) (fun r => Ok (f, r))).

(* np.meshgrid(x, y)[0].flatten(), [1].flatten() (define_textures.py:43-46) *)
Definition mesh_x (x y : list R) : list R := flat_map (fun _ => x) y.
Definition mesh_y (x y : list R) : list R := flat_map (fun b => map (fun _ => b) x) y.

(* define_textures.py:30-50: the x, y, z lists handed to xyz_texture; z has nx rows of ny numbers *)
Definition heights_coords (z : list (list R)) (nx ny : nat) (x_width y_width : R) : list R * list R * list R :=
  let x := linspace 0 x_width nx in
  let y := linspace 0 y_width ny in
  (mesh_x x y, mesh_y x y, concat z).

(* the points of the front surface; define_textures.py:21, 40-48 *)
Definition heights_points (z : list (list R)) (nx ny : nat) (xw yw : R) : list vec :=
  let '(x, y, zz) := heights_coords z nx ny xw yw in zip3 x y zz.

(* ---------- textures/standard_rt_textures.py ---------- *)

(* math.radians *)

(* standard_rt_textures.py:27, 84 *)
Definition radians (deg : R) : R := deg * PI / 180.

(* standard_rt_textures.py:27-36; hd: height drawn when there is a height_distribution *)
Definition pyramid_height (angle size : R) (hd : option R) : R :=
  match hd with Some h => h | None => size * 1 * tan (radians angle) / 2 end.
Definition pyramid_points (angle size : R) (upright : bool) (hd : option R) : list vec :=
  let L := size * 1 in
  let h := pyramid_height angle size hd in
  zip3 [0; L / 2; L; 0; L] [0; L / 2; 0; L; L]
       (if upright then [0; h; 0; 0; 0] else [0; - h; 0; 0; 0]).

(* np.vstack([x, y, -z]).T (standard_rt_textures.py:50, 99) *)
Definition mirror_z (p : list vec) : list vec := map (fun v => set_z v (- vz v)) p.

(* standard_rt_textures.py:15-53: the rear surface is made without the keyword arguments *)
Definition regular_pyramids (del : list (R * R) -> triples) (angle size : R) (upright : bool)
  (cov : option R) (dist : option (list R)) (drawn : R) : res (rtsurf * rtsurf) :=
  let p := pyramid_points angle size upright (match dist with Some _ => Some drawn | None => None end) in
  rbind (mk_surface del p cov dist) (fun f =>
  rbind (mk_surface del (mirror_z p) None None) (fun r => Ok (f, r))).

(* standard_rt_textures.py:62-68; front and rear are made from these same points *)
Definition planar_points (size : R) : list vec :=
  let L := 1 * size in zip3 [0; L; L; 0] [0; L; 0; L] [0; 0; 0; 0].

(* standard_rt_textures.py:84-96; any other direction leaves x unassigned *)
Inductive dir := DirX | DirY | DirOther.
Definition groove_points (angle width : R) (d : dir) : res (list vec) :=
  let h := width * tan (radians angle) / 2 in
  let u := [0; width; 0; width; width / 2; width / 2] in
  let v := [0; 0; width; width; 0; 1] in
  let z := [0; 0; 0; 0; h; h] in
  match d with
  | DirY => Ok (zip3 u v z)
  | DirX => Ok (zip3 v u z)
  | DirOther => Err UnboundLocalError
  end.

(* ---------- rough textures, standard_rt_textures.py:339-487 ---------- *)

(* standard_rt_textures.py:371 *)
Definition n_per_side (n_points : nat) : nat := Z.to_nat (Zceil (sqrt (INR n_points))).

(* standard_rt_textures.py:372-375 *)
Definition grid_coords (size : R) (k : nat) : list (R * R) :=
  let x := linspace 0 size k in combine (mesh_x x x) (mesh_y x x).

(* standard_rt_textures.py:383 *)
Definition corners (size : R) : list vec := [mkv 0 0 0; mkv 0 size 0; mkv size size 0; mkv size 0 0].

(* np.diff(x)[0] (standard_rt_textures.py:376); IndexError when there is a single point *)
Definition first_step (size : R) (k : nat) : res R :=
  match linspace 0 size k with a :: b :: _ => Ok (b - a) | _ => Err IndexError end.

(* standard_rt_textures.py:425-429 *)
Definition on_edge (size : R) (v : vec) : bool :=
  Reqb (vx v) 0 || Reqb (vy v) 0 || Reqb (vx v) size || Reqb (vy v) size.
Definition flatten_edges (size : R) (p : list vec) : list vec := map (fun v => if on_edge size v then set_z v 0 else v) p.

(* standard_rt_textures.py:396-414: the points of coords in one quadrant with their height and noise *)
Definition quadrant (f : R * R -> R) (sign noise_height : R) (rnd : nat -> R) (c : list (R * R)) : list vec :=
  map (fun ip => mkv (fst (snd ip)) (snd (snd ip)) (sign * (f (snd ip) + noise_height * rnd (fst ip)))) (enumerate c).

(* standard_rt_textures.py:387-429.  coords: the regular grid or the random points; rnd k: the draws for the k-th quadrant *)
Definition rough_pyramid_points (angle size noise_height : R) (upright : bool) (coords : list (R * R)) (regular : bool)
  (rnd : nat -> nat -> R) : list vec :=
  let a := radians angle in
  let le_diag (c : R * R) := Rleb (fst c) (snd c) in
  let le_anti (c : R * R) := Rleb (snd c) (- fst c + size) in
  let top := filter le_diag coords in
  let bottom := filter (fun c => negb (le_diag c)) coords in
  let left := filter le_anti top in
  let top := filter (fun c => negb (le_anti c)) top in
  let right := filter (fun c => negb (le_anti c)) bottom in
  let bottom := filter le_anti bottom in
  let sign := if upright then 1 else -1 in
  let all := quadrant (fun c => snd c * tan a) sign noise_height (rnd 0%nat) bottom ++
             quadrant (fun c => tan a * (size - snd c)) sign noise_height (rnd 1%nat) top ++
             quadrant (fun c => tan a * (size - fst c)) sign noise_height (rnd 2%nat) right ++
             quadrant (fun c => fst c * tan a) sign noise_height (rnd 3%nat) left in
  flatten_edges size (if regular then all else all ++ corners size).

(* standard_rt_textures.py:368-431: coordinates and noise height, and the points handed to xyz_texture *)
Definition rough_pyramids (angle size noise_angle : R) (n_points : nat) (upright regular : bool)
  (random_coords : list (R * R)) (rnd : nat -> nat -> R) : res (list vec) :=
  if regular then
    rbind (first_step size (n_per_side n_points)) (fun ds =>
    Ok (rough_pyramid_points angle size (ds * tan noise_angle) upright (grid_coords size (n_per_side n_points)) true rnd))
  else
    Ok (rough_pyramid_points angle size (size / sqrt (INR n_points) * tan noise_angle) upright random_coords false rnd).

(* standard_rt_textures.py:455-483: rough_planar_surface *)
Definition rough_planar_points (size noise_height : R) (coords : list (R * R)) (regular : bool) (rnd : nat -> R) : list vec :=
  let all := map (fun ip => mkv (fst (snd ip)) (snd (snd ip)) (noise_height * rnd (fst ip))) (enumerate coords) in
  flatten_edges size (if regular then all else all ++ corners size).
Definition rough_planar_surface (size noise_angle : R) (n_points : nat) (regular : bool)
  (random_coords : list (R * R)) (rnd : nat -> R) : res (list vec) :=
  if regular then
    rbind (first_step size (n_per_side n_points)) (fun ds =>
    Ok (rough_planar_points size (ds * tan noise_angle) (grid_coords size (n_per_side n_points)) true rnd))
  else
    Ok (rough_planar_points size (size / sqrt (INR n_points) * tan noise_angle) random_coords false rnd).

(* ---------- hemisphere_surface, standard_rt_textures.py:490-580 ---------- *)

Definition sq (x : R) : R := x * x.

(* one grid point, standard_rt_textures.py:527-549; None: not included *)
Definition cap_point (size radius offset stretch noise_height : R) (rnd : R) (c : R * R) : option vec :=
  let r2 := sq (fst c) + sq (snd c) in
  if Rltb r2 (sq radius - sq offset) then
    Some (mkv (fst c) (snd c) (stretch * (radius * cos (asin (sqrt r2 / radius)) - offset)))
  else if Reqb (fst c) (- size / 2) || Reqb (fst c) (size / 2) || Reqb (snd c) (- size / 2) || Reqb (snd c) (size / 2) then
    Some (mkv (fst c) (snd c) 0)
  else if Rltb 0 noise_height then Some (mkv (fst c) (snd c) (0 + noise_height * rnd)) else None.

(* all_points[include, :] (standard_rt_textures.py:549) *)
Fixpoint somes {A} (l : list (option A)) : list A :=
  match l with [] => [] | Some x :: r => x :: somes r | None :: r => somes r end.

(* standard_rt_textures.py:509-576: the points handed to xyz_texture with coverage_height=0; radius > 0 *)
Definition hemisphere_points (size radius offset stretch noise_angle : R) (n : nat) (upright : bool) (rnd : nat -> R)
  : res (list vec) :=
  if Rltb offset 0 then Err ValueError else
  let x := linspace (- size / 2) (size / 2) n in
  match x with
  | a :: b :: _ =>
      let noise_height := (b - a) * tan noise_angle in
      let pts := somes (map (fun ip => cap_point size radius offset stretch noise_height (rnd (fst ip)) (snd ip))
                        (enumerate (combine (mesh_x x x) (mesh_y x x)))) in
      let pts := filter (fun v => Rleb 0 (vz v)) pts in
      let pts := if Reqb noise_height 0 then
                   pts ++ map (fun phi => mkv (sqrt (sq radius - sq offset) * cos phi) (sqrt (sq radius - sq offset) * sin phi) 0)
                              (linspace 0 (2 * PI) (5 * n))
                 else pts in
      let pts := map (fun v => mkv (vx v + size / 2) (vy v + size / 2) (vz v)) pts in
      Ok (if upright then pts else mirror_z pts)
  | _ => Err IndexError
  end.
