(* Model of hyperhemisphere (textures/standard_rt_textures.py:105-336).

   scipy's ConvexHull is an argument: a function from points to triples of point numbers, or an error (QhullError and
   ValueError are both Err).  A degenerate triangle has NaN as normal in numpy and the zero vector here; neither is steeper or
   flatter than anything.  Keyword arguments other than height_distribution are not modelled. *)
From Coq Require Import Reals List ZArith Bool.
From Verif Require Import Base Model_Optics Model_RayIface Model_Surface.
Import ListNotations.
Open Scope R_scope.

(* standard_rt_textures.py:144-145 *)
Definition golden : R := (1 + sqrt 5) / 2.
Definition long_incr : R := 2 * PI / golden.

(* standard_rt_textures.py:147-157: the point of band k *)
Definition spiral (N : nat) (radius h : R) (k : nat) : vec :=
  let dz := 2 / INR N in
  let z := INR k * dz - 1 + dz / 2 in
  let r := sqrt (1 - z * z) in
  let az := INR k * long_incr in
  mkv (radius * (r * cos az)) (radius * (r * sin az)) (radius * z + h).

(* standard_rt_textures.py:159-161 *)
Definition sphere_points (N : nat) (radius h : R) : list vec :=
  filter (fun v => Rleb 0 (vz v)) (map (spiral N radius h) (seq 0 N)).

(* standard_rt_textures.py:165; None: NaN *)
Definition r_cross (radius h : R) : option R :=
  let q := radius * radius - h * h in if Rltb q 0 then None else Some (sqrt q).

(* standard_rt_textures.py:167-177; every comparison with NaN is False.  int(count / 2) *)
Definition near_rim (rc : R) (v : vec) : bool :=
  let rho := sqrt (vx v * vx v + vy v * vy v) in Rltb rho (rc + 1 / 100) && Rltb (rc - 1 / 100) rho.
Definition rim_count (radius h : R) (p : list vec) : nat :=
  match r_cross radius h with None => 0 | Some rc => Nat.div (length (filter (near_rim rc) p)) 2 end.

(* standard_rt_textures.py:180-183 *)
Definition rim_points (radius h : R) (n : nat) : list vec :=
  match r_cross radius h with
  | None => []
  | Some rc => map (fun f => mkv (rc * cos f) (rc * sin f) 0) (linspace 0 (2 * PI) n)
  end.

(* standard_rt_textures.py:185-189 *)
Definition hyper_points (N : nat) (radius h : R) : list vec :=
  let a := sphere_points N radius h in rim_points radius h (rim_count radius h a) ++ a.

(* a row of simplices with the same row of P_0s, P_1s, P_2s; standard_rt_textures.py:200-203, 208-211 *)
Definition item := ((nat * nat * nat) * tri)%type.

(* standard_rt_textures.py:202-207 *)
Definition items (p : list vec) (l : triples) : list item := map (fun t => (t, tri_of p t)) l.

(* standard_rt_textures.py:218-244 *)
Definition is_flat (T : tri) : bool := Rltb (9 / 10) (Rabs (vz (t_N T))).
Definition all_z (f : R -> bool) (T : tri) : bool := f (vz (t_P0 T)) && f (vz (t_P1 T)) && f (vz (t_P2 T)).
Definition bottom_planar (radius : R) (T : tri) : bool := is_flat T && all_z (fun z => Rltb z (1 / 10 * radius)) T.
Definition top_planar (radius : R) (T : tri) : bool := is_flat T && all_z (fun z => Rltb (- (1 / 10) * radius) z) T.

(* standard_rt_textures.py:246-258 *)
Definition without (f : tri -> bool) (l : list item) : list item := filter (fun x => negb (f (snd x))) l.

(* standard_rt_textures.py:262-268: np.mean of the corners *)
Definition middle (T : tri) : vec :=
  let m c := (c (t_P0 T) + c (t_P1 T) + c (t_P2 T)) / 3 in mkv (m vx) (m vy) (m vz).

(* standard_rt_textures.py:122-131 *)
Definition switch_points (x : item) : item :=
  let '((i, j, k), T) := x in ((i, k, j), {| t_P0 := t_P0 T; t_P1 := t_P2 T; t_P2 := t_P1 T |}).

(* standard_rt_textures.py:133-142; n = len(X_norm_back), c picks the coordinate.  Switching leaves the middle of a triangle alone *)
Definition switch_one (c : vec -> R) (direction : Z) (x : item) : item :=
  if negb (Z.eqb (sgn (c (t_cross (snd x)))) (direction * sgn (c (middle (snd x))))) then switch_points x else x.
Definition switch_xy (n : nat) (c : vec -> R) (direction : Z) (l : list item) : res (list item) :=
  if Nat.ltb (length l) n then Err IndexError
  else Ok (map (switch_one c direction) (firstn n l) ++ skipn n l).

(* standard_rt_textures.py:300-316: the two loops use the same crossP *)
Definition switch_if (b : bool) (x : item) : item := if b then switch_points x else x.
Definition front_z (h : R) (x : item) : item :=
  let z := vz (middle (snd x)) in
  let n := vz (t_cross (snd x)) in
  switch_if (Rltb z (97 / 100 * h) && Rltb 0 n) (switch_if (Rltb (103 / 100 * h) z && Rltb n 0) x).

(* standard_rt_textures.py:320-334 *)
Definition back_z (h : R) (x : item) : item :=
  let z := vz (middle (snd x)) in
  let n := vz (t_cross (snd x)) in
  switch_if (Rltb z (- (103 / 100) * h) && Rltb n 0) (switch_if (Rltb (- (97 / 100) * h) z && Rltb 0 n) x).

(* s with other triangles; standard_rt_textures.py:243-255 *)
Definition with_items (s : rtsurf) (l : list item) : rtsurf :=
  let tris := map snd l in
  let c := map t_cross tris in
  {| su_simp := map fst l; su_pts := su_pts s; su_orig := su_orig s; su_hind := su_hind s;
     su_tris := tris; su_cross := c; su_N := normals c;
     su_Lx := su_Lx s; su_Ly := su_Ly s; su_xmin := su_xmin s; su_xmax := su_xmax s;
     su_ymin := su_ymin s; su_ymax := su_ymax s; su_zmin := su_zmin s; su_zmax := su_zmax s;
     su_zcov := su_zcov s; su_dist := su_dist s |}.

(* standard_rt_textures.py:105-336 *)
Definition hyperhemisphere (del : list (R * R) -> triples) (hull : list vec -> res triples) (N : nat) (radius h : R)
  (dist : option (list R)) : res (rtsurf * rtsurf) :=
  if Nat.eqb N 0 then Err ZeroDivision else
  let p := hyper_points N radius h in
  rbind (hull p) (fun triangles =>
  rbind (hull (mirror_z p)) (fun triangles_back =>
  rbind (xyz_texture del (xs_of p) (ys_of p) (zs_of p) (Some 0) dist) (fun fb =>
  let '(front, back) := fb in
  let lf := without (bottom_planar radius) (items (su_pts front) triangles) in
  let lb := without (top_planar radius) (items (su_pts back) triangles_back) in
  let n := length lb in
  rbind (switch_xy n vx (-1) lb) (fun lb =>
  rbind (switch_xy n vx 1 lf) (fun lf =>
  rbind (switch_xy n vy (-1) lb) (fun lb =>
  rbind (switch_xy n vy 1 lf) (fun lf =>
  Ok (with_items front (map (front_z h) lf), with_items back (map (back_z h) lb))))))))).
