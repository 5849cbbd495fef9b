(* Vocabulary for the positions rays are traced from (C200). *)
From Coq Require Import Reals List Bool.
From Verif Require Import Base Model_Optics Model_Angles Model_MatMul Model_RTCalc Spec_RTCalc.
Open Scope R_scope.

(* the interval asked for, or the cell [mn, mx] without a hundredth of its width at either end *)
Definition interval (given : option (R * R)) (mn mx a b : R) : Prop :=
  (given = Some (a, b)) \/ (given = None /\ a = mn + (mx - mn) / 100 /\ b = mx - (mx - mn) / 100).

(* n positions from a to b at equal distances; a single one is at a *)
Definition spread (a b : R) (n : nat) (x : nat -> R) : Prop :=
  x 0%nat = a /\ ((2 <= n)%nat -> x (n - 1)%nat = b /\ forall i, (S i < n)%nat -> x (S i) - x i = (b - a) / INR (n - 1)).

(* positions at the fractions u of the interval *)
Definition scattered (a b : R) (n : nat) (u x : nat -> R) : Prop := forall i, (i < n)%nat -> x i = (1 - u i) * a + u i * b.

Definition placed (random : bool) (given : option (R * R)) (mn mx : R) (n : nat) (u x : nat -> R) : Prop :=
  exists a b, interval given mn mx a b /\ (random = true -> scattered a b n u x) /\ (random = false -> spread a b n x).

(* each position has the same share of the cell, which is repeated with the period mx - mn: neighbours are equally far apart, the last
   one of a cell and the first one of the next too *)
Definition equal_shares (mn mx : R) (n : nat) (x : nat -> R) : Prop :=
  forall i, (S i < n)%nat -> x (S i) - x i = x 0%nat + (mx - mn) - x (n - 1)%nat.

(* the surface covers [x0, x1] times [y0, y1], and no less *)
Definition covers (p : list vec) (x0 x1 y0 y1 : R) : Prop :=
  (forall v, In v p -> x0 <= vx v <= x1 /\ y0 <= vy v <= y1) /\
  (exists v, In v p /\ vx v = x0) /\ (exists v, In v p /\ vx v = x1) /\ (exists v, In v p /\ vy v = y0) /\ (exists v, In v p /\ vy v = y1).

(* the direction of incidence number i: the one of the options (0 replaced by 1e-4), a random one, or those of the h rows of the upper
   half of the angular grid in turn *)
Definition sent (only : bool) (o : rm_options) (z : rm_draws) (g : grid) (h i : nat) (theta phi : R) : Prop :=
  if only then exists p, m_phi o = PhiNum p /\ theta = nudged (m_theta o) /\ phi = nudged p
  else if m_random_angles o then theta = PI / 2 * z_theta z i /\ phi = 2 * PI * z_phi z i
  else exists r, nth_error (g_av g) (i mod h) = Some r /\ theta = a_theta r /\ phi = a_phi r.
