(* Vocabulary for diffraction orders. *)
From Coq Require Import Reals List ZArith Bool.
From Verif Require Import Base.
Import ListNotations.
Open Scope R_scope.

Definition inner2 (a b : R * R) : R := fst a * fst b + snd a * snd b.
Definition length2 (a : R * R) : R := sqrt (fst a ^ 2 + snd a ^ 2).
(* two lattice vectors that span the plane *)
Definition lattice (a1 a2 : R * R) : Prop := fst a1 * snd a2 - snd a1 * fst a2 <> 0.
(* b_i . a_j = c delta_ij *)
Definition dual (c : R) (a1 a2 b1 b2 : R * R) : Prop :=
  inner2 b1 a1 = c /\ inner2 b1 a2 = 0 /\ inner2 b2 a1 = 0 /\ inner2 b2 a2 = c.
(* length of m1 b1 + m2 b2 *)
Definition wave_length (b1 b2 : R * R) (m : Z * Z) : R :=
  length2 (IZR (fst m) * fst b1 + IZR (snd m) * fst b2, IZR (fst m) * snd b1 + IZR (snd m) * snd b2).

(* sum of the entries of l whose group is q *)
Definition group_sum (assign : list nat) (l : list R) (q : nat) : R :=
  rsum (map (fun j => if Nat.eqb (nth j assign 0%nat) q then nth j l 0 else 0) (seq 0 (length l))).
Definition group_size (assign : list nat) (q : nat) : nat := length (filter (Nat.eqb q) assign).

(* f points at azimuth alpha (convention of the code: x = sin, y = cos) *)
Definition points_at (f : R * R) (alpha : R) : Prop :=
  f <> (0, 0) /\ fst f = length2 f * sin alpha /\ snd f = length2 f * cos alpha.
