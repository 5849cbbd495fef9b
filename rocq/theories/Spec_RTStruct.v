(* Vocabulary for the set-up of ray tracing (C128-C140). *)
From Coq Require Import Reals List ZArith Bool.
From Verif Require Import Base Model_Angles Spec_Angles Model_Optics Model_Surface.
Import ListNotations.
Open Scope R_scope.

(* light coming from polar angle theta and azimuth phi, on its way down, or up *)
Definition heads_down (theta phi : R) (d : vec) : Prop :=
  d = mkv (- (sin theta * cos phi)) (- (sin theta * sin phi)) (- cos theta).
Definition heads_up (theta phi : R) (d : vec) : Prop :=
  d = mkv (- (sin theta * cos phi)) (- (sin theta * sin phi)) (cos theta).

(* depth of the k-th surface of a stack of layers ws (the surface under the first k layers) *)
Definition depth (ws : list R) (k : nat) : R := rsum (firstn k ws).

(* surface s' is surface s moved down by dz: points, coverage height, triangles; the height range is
   that of its points; the shape (simplices, normals, lateral size) and the heights that may be drawn are the same *)
Definition lowered (dz : R) (s s' : rtsurf) : Prop :=
  su_pts s' = map (fun v => mkv (vx v) (vy v) (vz v - dz)) (su_pts s) /\
  su_simp s' = su_simp s /\ su_zcov s' = su_zcov s - dz /\ su_N s' = su_N s /\
  su_tris s' = map (tri_of (su_pts s')) (su_simp s) /\
  (forall p, In p (su_pts s') -> su_zmin s' <= vz p <= su_zmax s') /\
  (su_pts s' <> [] -> exists p q, In p (su_pts s') /\ In q (su_pts s') /\ vz p = su_zmin s' /\ vz q = su_zmax s') /\
  su_Lx s' = su_Lx s /\ su_Ly s' = su_Ly s /\
  su_xmin s' = su_xmin s /\ su_xmax s' = su_xmax s /\ su_ymin s' = su_ymin s /\ su_ymax s' = su_ymax s /\
  su_dist s' = su_dist s.

(* the ray r + t d, at the height z, is over the cell [x0, x0 + Lx) x [y0, y0 + Ly) *)
Definition crosses_cell (x0 y0 Lx Ly z : R) (r d : vec) : Prop :=
  exists t, vz r + t * vz d = z /\ x0 <= vx r + t * vx d < x0 + Lx /\ y0 <= vy r + t * vy d < y0 + Ly.

(* x is none of the edges *)
Definition off_edges (e : list R) (x : R) : Prop := forall j, (j < length e)%nat -> nth j e 0 <> x.

(* the azimuth is not on an edge of any ring *)
Definition off_azimuths (g : grid) (phi : R) : Prop :=
  forall i, (i < length (g_phi_intv g))%nat -> off_edges (phi_edges_of g i) phi.
