(* Surfaces that are close to the graph of a gently sloping function (C190). *)
From Coq Require Import Reals List ZArith.
From Verif Require Import Base Model_Optics Spec_Optics Model_RayIface Spec_RayIface.
Import ListNotations.
Open Scope R_scope.

(* length of the horizontal part of a vector *)
Definition level (v : vec) : R := sqrt (vx v * vx v + vy v * vy v).

(* no slope of f is steeper than L *)
Definition gentle (f : R -> R -> R) (L : R) : Prop :=
  forall x y x' y', Rabs (f x y - f x' y') <= L * sqrt ((x - x') * (x - x') + (y - y') * (y - y')).

Definition periodic (f : R -> R -> R) (Lx Ly : R) : Prop :=
  (forall x y, f (x + Lx) y = f x y) /\ (forall x y, f x (y + Ly) = f x y).

(* the triangles lie within eta of the graph; on_tri includes the tolerance of the intersection test at the edges *)
Definition near_graph (f : R -> R -> R) (eta : R) (l : list tri) : Prop :=
  forall T p, In T l -> on_tri T p -> Rabs (vz p - f (vx p) (vy p)) <= eta.

(* facets face upwards and are tilted by at most s *)
Definition tilted_by (s : R) (l : list tri) : Prop :=
  forall T N, In T l -> unit N -> dot N (vsub (t_P1 T) (t_P0 T)) = 0 -> dot N (vsub (t_P2 T) (t_P0 T)) = 0 ->
    0 < dot N (cross (vsub (t_P1 T) (t_P0 T)) (vsub (t_P2 T) (t_P0 T))) -> cos s <= vz N.

(* the surface and its copies after any number of refreshes; slopes up to s *)
Definition shallow (E : env) (s eta : R) : Prop :=
  exists f, gentle f (tan s) /\ periodic f (e_Lx E) (e_Ly E) /\
    forall k, near_graph f eta (s_tris (e_surf E k)) /\ tilted_by s (s_tris (e_surf E k)).

(* direction d heads for a surface from the given side, theta away from the vertical *)
Definition heads (side : Z) (theta : R) (d : vec) : Prop := unit d /\ IZR side * vz d = - cos theta.
(* direction d leaves the surface to the given side, at most theta away from the vertical *)
Definition leaves_within (side : Z) (theta : R) (d : vec) : Prop := unit d /\ cos theta <= IZR side * vz d.

(* the first of the positions tried from which the ray meets the surface is the k-th; h is the hit *)
Definition first_met (E : env) (r : option vec) (d : vec) (k : nat) (h : hit) : Prop :=
  (k <= 100)%nat /\ check_pos (start_pos E r d k) d (e_surf E 0) = Some h /\
  forall j, (j < k)%nat -> check_pos (start_pos E r d j) d (e_surf E 0) = None.

(* the ray is sent back by one mirror reflection at a facet with normal N, and is reported as reflected *)
Definition bounced (side : Z) (phi : R) (d N : vec) (res : iresult) : Prop :=
  r_out res = OReflected (acos (vz (r_dir res))) /\ mirror_law d (r_dir res) N /\
  leaves_within side phi (r_dir res) /\ r_side res = side.

(* the ray is refracted once at a facet with normal N, and is reported as transmitted *)
Definition passed (side : Z) (phi n0 n1 : R) (d N : vec) (res : iresult) : Prop :=
  r_out res = OTransmitted (acos (vz (r_dir res))) /\ snell_law n0 n1 d (r_dir res) N /\
  leaves_within (- side) phi (r_dir res) /\ r_side res = (- side)%Z.

(* the sides of a pyramid whose points are numbered as in standard_rt_textures.py: 0, 2, 4, 3 are the corners in
   counterclockwise order, 1 is the top *)
Definition pyramid_sides : list (nat * nat) := [(0, 2); (2, 4); (4, 3); (3, 0)]%nat.
(* the face of a side, counterclockwise from any of its corners *)
Definition face_of (ij : nat * nat) : list (nat * nat * nat) :=
  [(fst ij, snd ij, 1%nat); (snd ij, 1%nat, fst ij); (1%nat, fst ij, snd ij)].
(* a triangulation of the five points: the four faces and nothing else *)
Definition pyramid_triangulation (l : list (nat * nat * nat)) : Prop :=
  (forall t, In t l -> exists ij, In ij pyramid_sides /\ In t (face_of ij)) /\
  (forall ij, In ij pyramid_sides -> exists t, In t l /\ In t (face_of ij)).


(* a ray going straight up or down to the surface from the given side, over the unit cell, outside all points of srf *)
Definition straight_at (side : Z) (pts : list vec) (size : R) (p d : vec) : Prop :=
  0 <= vx p <= size /\ 0 <= vy p <= size /\ (forall v, In v pts -> 0 < IZR side * (vz p - vz v)) /\ d = mkv 0 0 (- IZR side).

(* the ray leaves: no copy of the surface, shifted by whole cells, lies ahead of it *)
Definition free_path (E : env) (res : iresult) : Prop :=
  forall p i j k T t, r_pos res = Some p -> In T (s_tris (e_surf E k)) ->
    ~ meets (vadd p (mkv (IZR i * e_Lx E) (IZR j * e_Ly E) 0)) (r_dir res) T t.

(* over a pyramid of the given size, not on its edges: 2e-9 from the border of the cell, 1e-10 of the size from the diagonals *)
Definition clear_of_edges (size : R) (p : vec) : Prop :=
  2 / 10 ^ 9 < vx p < size - 2 / 10 ^ 9 /\ 2 / 10 ^ 9 < vy p < size - 2 / 10 ^ 9 /\
  1 / 10 ^ 10 * size < Rabs (vx p - vy p) /\ 1 / 10 ^ 10 * size < Rabs (vx p + vy p - size).

(* over an inverted pyramid, not on the diagonals, where its facets meet *)
Definition clear_of_creases (size : R) (p : vec) : Prop :=
  1 / 10 ^ 10 * size < Rabs (vx p - vy p) /\ 2 / 10 ^ 9 < Rabs (vx p - vy p) /\
  1 / 10 ^ 10 * size < Rabs (vx p + vy p - size) /\ 2 / 10 ^ 9 < Rabs (vx p + vy p - size).
