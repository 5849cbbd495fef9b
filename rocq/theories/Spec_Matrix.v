(* Vocabulary for stating properties of redistribution matrices (lists of rows). *)
From Coq Require Import Reals List ZArith.
From Verif Require Import Base Model_Angles Model_Ideal.
Import ListNotations.
Open Scope R_scope.

Definition entry (m : matrix) (r c : nat) : R := nth c (nth r m []) 0.

Definition has_shape (m : matrix) (nr nc : nat) : Prop :=
  length m = nr /\ forall row, In row m -> length row = nc.

(* total power a unit input in channel c sends into the rows of m *)
Definition col_total (m : matrix) (c : nat) : R := rsum (map (fun row => nth c row 0) m).

(* every entry non-negative *)
Definition nonneg_matrix (m : matrix) : Prop := forall row x, In row m -> In x row -> 0 <= x.

(* exactly one 1 in column c, in row r, zeros elsewhere *)
Definition column_is_unit (m : matrix) (nr c r : nat) : Prop :=
  (r < nr)%nat /\ forall r', (r' < nr)%nat -> entry m r' c = if Nat.eqb r' r then 1 else 0.

(* each column and each row has exactly one 1 *)
Definition permutation_matrix (m : matrix) (n : nat) : Prop :=
  has_shape m n n /\
  (forall c, (c < n)%nat -> exists r, column_is_unit m n c r) /\
  (forall r, (r < n)%nat -> exists c, (c < n)%nat /\ entry m r c = 1 /\
     forall c', (c' < n)%nat -> entry m r c' = 1 -> c' = c).

(* power sent from channel c into the rows of polar ring i *)
Definition ring_total (g : grid) (m : matrix) (i c : nat) : R :=
  rsum (map (fun k => match nth_error (g_av g) k with
                      | Some r => if Nat.eqb (a_ring r) i then entry m k c else 0
                      | None => 0
                      end) (seq 0 (length (g_av g)))).

(* row r of a matrix with 2h rows returns light into the medium it came from *)
Definition reflection_row (s : side) (h r : nat) : Prop :=
  match s with Front => (r < h)%nat | Rear => (h <= r < 2 * h)%nat end.

(* the incidence direction of channel c *)
Definition incidence_row (g : grid) (s : side) (h c : nat) : option arow :=
  match s with Front => nth_error (g_av g) c | Rear => nth_error (g_av g) (h + c) end.

(* positions, in a list of rows, of those in polar ring i *)
Definition channels_of_ring (av : list arow) (i : nat) : list nat :=
  filter (fun k => match nth_error av k with Some r => Nat.eqb (a_ring r) i | None => false end)
         (seq 0 (length av)).

Definition average (l : list R) : R := rsum l / INR (length l).

(* the directions a matrix with ncols columns takes as incident (front: upper half) *)
Definition in_part (front : bool) (ncols : nat) (g : grid) : list arow :=
  if front then firstn ncols (g_av g) else skipn ncols (g_av g).
