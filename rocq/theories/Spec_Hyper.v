(* Points on a sphere, faces of a convex hull, and the way a normal points. *)
From Coq Require Import Reals List ZArith Bool Permutation.
From Verif Require Import Base Model_Optics Model_RayIface Model_Surface.
Import ListNotations.
Open Scope R_scope.

(* v lies on the sphere of this radius whose centre is raised by h *)
Definition on_sphere (radius h : R) (v : vec) : Prop := vx v * vx v + vy v * vy v + (vz v - h) * (vz v - h) = radius * radius.

(* v is point k of N on the golden spiral: equal steps in height, and turns of 2 pi over the golden ratio *)
Definition on_spiral (N : nat) (radius h : R) (k : nat) (v : vec) : Prop := exists phi rho,
  0 < phi /\ phi * phi = phi + 1 /\ 0 <= rho /\ vz v = h + radius * ((2 * INR k + 1) / INR N - 1) /\
  vx v = rho * cos (2 * PI * INR k / phi) /\ vy v = rho * sin (2 * PI * INR k / phi) /\ on_sphere radius h v.

(* point i of m that go once round the circle of radius rc at height 0 *)
Definition on_rim (rc : R) (m i : nat) (v : vec) : Prop :=
  vx v = rc * cos (2 * PI * INR i / INR (m - 1)) /\ vy v = rc * sin (2 * PI * INR i / INR (m - 1)) /\ vz v = 0.
(* less than 0.01 from the vertical cylinder of radius rc *)
Definition near_cylinder (rc : R) (v : vec) : bool := Rltb (Rabs (sqrt (vx v * vx v + vy v * vy v) - rc)) (1 / 100).

(* the corners of T are a, b, c in some order *)
Definition corners (T : tri) (a b c : vec) : Prop := Permutation [t_P0 T; t_P1 T; t_P2 T] [a; b; c].

(* n is perpendicular to the plane through a, b and c *)
Definition perpendicular (n a b c : vec) : Prop := dot n (vsub b a) = 0 /\ dot n (vsub c a) = 0.

(* a, b, c is a face of the convex hull of p with outer normal n; proper: no other point of p lies in its plane *)
Definition face (p : list vec) (n a b c : vec) : Prop :=
  In a p /\ In b p /\ In c p /\ 0 < dot n n /\ perpendicular n a b c /\ forall q, In q p -> dot n (vsub q a) <= 0.
Definition proper_face (p : list vec) (n a b c : vec) : Prop :=
  face p n a b c /\ forall q, In q p -> dot n (vsub q a) = 0 -> q = a \/ q = b \/ q = c.

(* What is used of ConvexHull: it gives faces only, and all proper faces. *)
Definition is_hull (p : list vec) (l : triples) : Prop :=
  (forall i j k, In (i, j, k) l -> (i < length p)%nat /\ (j < length p)%nat /\ (k < length p)%nat /\
     exists n, face p n (nth i p v0) (nth j p v0) (nth k p v0)) /\
  (forall n a b c, proper_face p n a b c -> 0 < norm (cross (vsub b a) (vsub c a)) -> exists t, In t l /\ corners (tri_of p t) a b c).

(* N is the unit normal of T on the side from which its corners go round counter-clockwise *)
Definition right_normal (T : tri) (N : vec) : Prop :=
  let c := cross (vsub (t_P1 T) (t_P0 T)) (vsub (t_P2 T) (t_P0 T)) in
  0 < norm c -> dot N N = 1 /\ 0 < dot N c /\ dot N (vsub (t_P1 T) (t_P0 T)) = 0 /\ dot N (vsub (t_P2 T) (t_P0 T)) = 0.

(* inclined by less than arccos 0.9, about 26 degrees, to the horizontal *)
Definition nearly_level (a b c : vec) : Prop :=
  let n := cross (vsub b a) (vsub c a) in 9 / 10 * norm n < Rabs (vz n).

Definition below (z : R) (a b c : vec) : Prop := vz a < z /\ vz b < z /\ vz c < z.

(* some triangle of s has these corners *)
Definition has_face (s : rtsurf) (a b c : vec) : Prop := exists T, In T (su_tris s) /\ corners T a b c.

Definition scaled (l : R) (v : vec) : vec := mkv (l * vx v) (l * vy v) (l * vz v).
Definition flipped (v : vec) : vec := mkv (vx v) (vy v) (- vz v).
