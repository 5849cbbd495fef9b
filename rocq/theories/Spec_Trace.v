(* A flat surface and where light goes when it meets one. *)
From Coq Require Import Reals List ZArith Bool.
From Verif Require Import Base Model_Angles Model_Ideal Model_Optics Model_RayIface Model_RT Model_Surface Model_Trace
  Spec_Surface.
Import ListNotations.
Open Scope R_scope.

(* unit vector with polar angle theta and azimuth phi *)
Definition pointing (theta phi : R) : vec := mkv (sin theta * cos phi) (sin theta * sin phi) (cos theta).

(* every point of the cell [0, a] x [0, b] lies in one of the triangles, seen from above *)
Definition over_cell (p : list vec) (l : triples) (a b : R) : Prop :=
  forall x y, 0 <= x <= a -> 0 <= y <= b -> exists i j k u v, In (i, j, k) l /\ 0 <= u /\ 0 <= v /\ u + v <= 1 /\
    x = vx (nth i p v0) + u * (vx (nth j p v0) - vx (nth i p v0)) + v * (vx (nth k p v0) - vx (nth i p v0)) /\
    y = vy (nth i p v0) + u * (vy (nth j p v0) - vy (nth i p v0)) + v * (vy (nth k p v0) - vy (nth i p v0)).

(* s is made of points of height z0 filling the cell, triangulated as Delaunay does *)
Definition flat_surface (z0 a b : R) (s : rtsurf) : Prop :=
  exists del p, mk_surface del p None None = Ok s /\ fills_cell p a b /\ (forall v, In v p -> vz v = z0) /\
    Forall (ccw p) (su_simp s) /\ over_cell p (su_simp s) a b.

(* the ray left in the direction with polar angle t and azimuth f *)
Definition goes (y : ray) (t f : R) : Prop :=
  ro_A (y_out y) = None /\ ro_theta (y_out y) = t /\ ro_dir (y_out y) = pointing t f /\
  (0 < sin t -> exists z : Z, y_phi y = f + IZR z * (2 * PI)).

(* the ray was absorbed in the layers of the surface, A in each, having met it at the angle t *)
Definition is_absorbed (y : ray) (A : list R) (t : R) : Prop :=
  ro_A (y_out y) = Some A /\ ro_theta (y_out y) = 10 /\ ro_loc (y_out y) = t.

(* rays to be traced: directions with the shots fired in them *)
Definition plan := list (R * R * list shot).

Definition fired (outer fuel : nat) (s : rtsurf) (dec : decision) (q : R * R * list shot) (b : beam) : Prop :=
  b_theta b = fst (fst q) /\ b_phi b = snd (fst q) /\
  Forall2 (fun sh y => trace_shot outer fuel s dec (fst (fst q)) (snd (fst q)) sh = Some (Ok y)) (snd q) (b_rays b).

(* the first random number of every shot in direction (theta, phi) *)
Definition draws_at (l : plan) (theta phi : R) : list R :=
  flat_map (fun q => if Reqb (fst (fst q)) theta && Reqb (snd (fst q)) phi then map (fun sh => sh_rnd sh 0%nat) (snd q) else []) l.

Definition share (f : R -> bool) (l : list R) : R := INR (List.length (filter f l)) / INR (List.length l).
