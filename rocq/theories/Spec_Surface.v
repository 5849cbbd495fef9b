(* What a user expects of a texture, stated without the helpers of Model_Surface. *)
From Coq Require Import Reals List ZArith Bool.
From Verif Require Import Base Model_Optics Model_Surface.
Import ListNotations.
Open Scope R_scope.

Definition is_min (l : list R) (m : R) : Prop := In m l /\ forall x, In x l -> m <= x.
Definition is_max (l : list R) (m : R) : Prop := In m l /\ forall x, In x l -> x <= m.

(* The three point numbers exist and, seen from above, go round counter-clockwise (scipy's Delaunay in 2-D). *)
Definition ccw (p : list vec) (s : nat * nat * nat) : Prop :=
  let '(i, j, k) := s in
  (i < length p)%nat /\ (j < length p)%nat /\ (k < length p)%nat /\
  0 < (vx (nth j p v0) - vx (nth i p v0)) * (vy (nth k p v0) - vy (nth i p v0)) -
      (vy (nth j p v0) - vy (nth i p v0)) * (vx (nth k p v0) - vx (nth i p v0)).

(* N is the upward unit normal of the triangle T *)
Definition up_normal (T : tri) (N : vec) : Prop :=
  dot N N = 1 /\ 0 < vz N /\ dot N (vsub (t_P1 T) (t_P0 T)) = 0 /\ dot N (vsub (t_P2 T) (t_P0 T)) = 0.

(* the triangle has the vertices with these numbers *)
Definition has_vertices (p : list vec) (s : nat * nat * nat) (T : tri) : Prop :=
  let '(i, j, k) := s in t_P0 T = nth i p v0 /\ t_P1 T = nth j p v0 /\ t_P2 T = nth k p v0.

(* The stored triangles, normals and z range are those of the stored points. *)
Definition consistent (s : rtsurf) : Prop :=
  Forall2 (has_vertices (su_pts s)) (su_simp s) (su_tris s) /\
  Forall2 up_normal (su_tris s) (su_N s) /\
  is_min (map vz (su_pts s)) (su_zmin s) /\ is_max (map vz (su_pts s)) (su_zmax s) /\
  is_min (map vx (su_pts s)) (su_xmin s) /\ is_max (map vx (su_pts s)) (su_xmax s) /\
  is_min (map vy (su_pts s)) (su_ymin s) /\ is_max (map vy (su_pts s)) (su_ymax s) /\
  su_Lx s = su_xmax s - su_xmin s /\ su_Ly s = su_ymax s - su_ymin s.

(* histories *)
Inductive op := OShift (dz : R) | ORefresh (h : R).
Definition do_op (s : rtsurf) (o : op) : rtsurf := match o with OShift d => shift d s | ORefresh h => refresh h s end.
Definition do_ops (s : rtsurf) (l : list op) : rtsurf := fold_left do_op l s.

(* area of a triangle in space *)
Definition tri_area (T : tri) : R :=
  norm (cross (vsub (t_P1 T) (t_P0 T)) (vsub (t_P2 T) (t_P0 T))) / 2.

(* The plane of T is inclined by the angle a to the horizontal. *)
Definition inclined (T : tri) (a : R) : Prop :=
  let c := cross (vsub (t_P1 T) (t_P0 T)) (vsub (t_P2 T) (t_P0 T)) in
  0 < norm c /\ Rabs (vz c) / norm c = cos a.

(* area of T seen from above, up to sign and a factor 2 *)
Definition plan_area (T : tri) : R :=
  (vx (t_P1 T) - vx (t_P0 T)) * (vy (t_P2 T) - vy (t_P0 T)) - (vy (t_P1 T) - vy (t_P0 T)) * (vx (t_P2 T) - vx (t_P0 T)).

Definition vertex_of (T : tri) (v : vec) : Prop := t_P0 T = v \/ t_P1 T = v \/ t_P2 T = v.
Definition spanned_by (p : list vec) (T : tri) : Prop := In (t_P0 T) p /\ In (t_P1 T) p /\ In (t_P2 T) p.

(* b is a reflected in the plane z = 0 *)
Definition mirrored (a b : vec) : Prop := vx b = vx a /\ vy b = vy a /\ vz b = - vz a.

(* all points lie in, and reach the sides of, the cell [0, a] x [0, b] *)
Definition fills_cell (p : list vec) (a b : R) : Prop :=
  is_min (map vx p) 0 /\ is_max (map vx p) a /\ is_min (map vy p) 0 /\ is_max (map vy p) b.

(* across, along: coordinates across and along a groove lying in direction d *)
Definition across (d : dir) (v : vec) : R := match d with DirX => vy v | _ => vx v end.
Definition along (d : dir) (v : vec) : R := match d with DirX => vx v | _ => vy v end.

(* the points at one end of the groove reappear at the other end of the cell *)
Definition extruded (d : dir) (p : list vec) : Prop :=
  forall e, is_max (map (along d) p) e -> forall v, In v p -> along d v = 0 ->
    exists v', In v' p /\ along d v' = e /\ across d v' = across d v /\ vz v' = vz v.

(* on the border of the cell; distance to the nearest side *)
Definition edge (size : R) (v : vec) : Prop := vx v = 0 \/ vy v = 0 \/ vx v = size \/ vy v = size.
Definition min4 (size : R) (v : vec) : R := Rmin (Rmin (vx v) (vy v)) (Rmin (size - vx v) (size - vy v)).
