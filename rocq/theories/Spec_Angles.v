(* Vocabulary for stating properties of the angular grid.  Only mentions the data returned by
   make_angle_vector (edges, azimuth edges, rows), none of the functions that compute it. *)
From Coq Require Import Reals List ZArith.
From Verif Require Import Base Model_Angles.
Import ListNotations.
Open Scope R_scope.

(* the edges are strictly increasing *)
Definition strictly_increasing (l : list R) : Prop :=
  forall i j, (i < j < length l)%nat -> nth i l 0 < nth j l 0.

(* x lies in the j-th bin (e_j, e_{j+1}] of a list of edges *)
Definition in_bin (e : list R) (j : nat) (x : R) : Prop :=
  (S j < length e)%nat /\ nth j e 0 < x <= nth (S j) e 0.

Definition strictly_in_bin (e : list R) (j : nat) (x : R) : Prop :=
  (S j < length e)%nat /\ nth j e 0 < x < nth (S j) e 0.

(* x lies in the j-th bin [e_j, e_{j+1}) *)
Definition in_bin_left (e : list R) (j : nat) (x : R) : Prop :=
  (S j < length e)%nat /\ nth j e 0 <= x < nth (S j) e 0.

Definition phi_edges_of (g : grid) (i : nat) : list R := nth i (g_phi_intv g) [].

(* row k of the angle vector stands for polar bin i and azimuth bin j *)
Definition row_is (g : grid) (k i j : nat) : Prop :=
  exists r, nth_error (g_av g) k = Some r /\ a_ring r = i /\
            strictly_in_bin (g_theta_intv g) i (a_theta r) /\
            strictly_in_bin (phi_edges_of g i) j (a_phi r).

(* the bin of row k contains the direction (theta, phi) *)
Definition bin_contains (g : grid) (k : nat) (theta phi : R) : Prop :=
  exists i j, row_is g k i j /\ in_bin (g_theta_intv g) i theta /\ in_bin (phi_edges_of g i) j phi.

(* the bin of row k is in the polar ring that contains theta *)
Definition ring_contains (g : grid) (k : nat) (theta : R) : Prop :=
  exists r, nth_error (g_av g) k = Some r /\ in_bin (g_theta_intv g) (a_ring r) theta.

(* a valid request: at least one polar bin, positive density and symmetry angle *)
Definition valid_request (n : nat) (phi_sym c : R) : Prop :=
  (1 <= n)%nat /\ 0 < c /\ 0 < phi_sym.

(* phi_sym is a rotation symmetry: m-fold *)
Definition m_fold (m : nat) (phi_sym : R) : Prop :=
  (1 <= m)%nat /\ phi_sym = 2 * PI / INR m.

(* conditions under which turning a bin centre by half a turn lands strictly inside a bin: even
   symmetry; full circle with fewer than about 10000 azimuth bins per ring; or even azimuth counts *)
Definition relabel_ok (n m : nat) (g : grid) : Prop :=
  Nat.even m = true \/
  (m = 1%nat /\ forall i, (i < 2 * n)%nat -> INR (length (phi_edges_of g i) - 1) * (3 / 10000) < PI) \/
  ((3 <= m)%nat /\ forall i, (i < 2 * n)%nat -> Nat.even (length (phi_edges_of g i) - 1) = true).
