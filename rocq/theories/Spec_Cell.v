(* Cells without periodic boundaries (C197). *)
From Coq Require Import Reals List ZArith.
From Verif Require Import Base Model_Optics Model_RayIface Model_RayStack Model_StackRay.
Import ListNotations.
Open Scope R_scope.

(* all corners of the facets are over the rectangle [0, a] x [0, b], at heights between lo and hi *)
Definition in_box (a b lo hi : R) (v : vec) : Prop := 0 <= vx v <= a /\ 0 <= vy v <= b /\ lo <= vz v <= hi.
Definition fits (a b lo hi : R) (S : surface) : Prop :=
  forall T, In T (s_tris S) -> in_box a b lo hi (t_P0 T) /\ in_box a b lo hi (t_P1 T) /\ in_box a b lo hi (t_P2 T).

(* beyond the walls of the cell, by 1e-9 of its size *)
Definition off_cell (a x : R) : Prop := (1 + 1 / 10 ^ 9) * a < x \/ x < - (1 / 10 ^ 9) * a.

(* wherever the ray is between the heights of a surface, it is not over the cell *)
Definition beside (a b lo hi : R) (p d : vec) : Prop :=
  forall t, 0 < t -> lo - 1 / 10 ^ 9 * (hi - lo) <= vz p + t * vz d <= hi + 1 / 10 ^ 9 * (hi - lo) ->
    off_cell a (vx p + t * vx d) \/ off_cell b (vy p + t * vy d).

(* no surface is in the way of the ray *)
Definition clear_of (U : setup) (p d : vec) : Prop :=
  forall f k, In f (u_faces U) -> exists a b lo hi, fits a b lo hi (f_surf f k 0) /\ beside a b lo hi p d.

(* n surfaces between n + 1 media *)
Definition layered (U : setup) (n : nat) : Prop :=
  length (u_faces U) = n /\ length (u_nks U) = S n /\ k_surfaces (u_K U) = n /\ length (k_widths (u_K U)) = S n /\ length (k_alphas (u_K U)) = S n.

(* the ray heads for a surface, the first of m on its way out *)
Definition heads_for (n m : nat) (s : sstate) : Prop :=
  (0 < m <= n)%nat /\
  ((s_dir s = 1 /\ s_surf s = s_mat s /\ s_mat s + Z.of_nat m = Z.of_nat n)%Z \/
   (s_dir s = -1 /\ s_surf s = s_mat s - 1 /\ s_mat s = Z.of_nat m)%Z).
