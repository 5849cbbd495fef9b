(* Geometrical optics and geometry, stated without reference to the ray tracer (C33-C38). *)
From Coq Require Import Reals List ZArith.
From Verif Require Import Base Model_Optics.
Import ListNotations.
Open Scope R_scope.

Definition unit (v : vec) : Prop := dot v v = 1.

(* component of d in the plane with normal N *)
Definition tang (d N : vec) : vec := vsub d (vscale (dot d N) N).

(* d' is the mirror image of d in the plane with unit normal N *)
Definition mirror_law (d d' N : vec) : Prop := dot d' N = - dot d N /\ tang d' N = tang d N.

(* d' obeys Snell's law going from index n0 to index n1 and continues to the other side *)
Definition snell_law (n0 n1 : R) (d d' N : vec) : Prop :=
  tang d' N = vscale (n0 / n1) (tang d N) /\ dot d N * dot d' N > 0.

(* A point of the plane of T with barycentric coordinates not below -tol.  With tol = 0 these are
   the points of the triangle. *)
Definition on_tri (T : tri) (p : vec) : Prop :=
  exists u v, - tol <= u /\ - tol <= v /\ u + v <= 1 /\
    p = vadd (t_P0 T) (vadd (vscale u (vsub (t_P1 T) (t_P0 T)))
                            (vscale v (vsub (t_P2 T) (t_P0 T)))).

(* The ray from r in direction d, not parallel to T, meets T at parameter t > 0. *)
Definition meets (r d : vec) (T : tri) (t : R) : Prop :=
  0 < t /\ on_tri T (vadd r (vscale t d)) /\
  dot d (cross (vsub (t_P1 T) (t_P0 T)) (vsub (t_P2 T) (t_P0 T))) <> 0.

(* Unit cell [0, Lx] x [0, Ly] and its walls, in the order top, right, bottom, left. *)
Definition in_cell (Lx Ly : R) (r : vec) : Prop := 0 < vx r < Lx /\ 0 < vy r < Ly.
Definition in_closed_cell (Lx Ly : R) (r : vec) : Prop := 0 <= vx r <= Lx /\ 0 <= vy r <= Ly.
Definition on_wall (Lx Ly : R) (which : nat) (r : vec) : Prop :=
  match which with
  | 0%nat => vy r = Ly
  | 1%nat => vx r = Lx
  | 2%nat => vy r = 0
  | _ => vx r = 0
  end.
Definition opposite (which : nat) : nat :=
  match which with 0%nat => 2%nat | 1%nat => 3%nat | 2%nat => 0%nat | _ => 1%nat end.
