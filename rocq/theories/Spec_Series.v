(* What a structure of two interfaces around one bulk layer should report: the light is followed pass by
   pass with plain matrix products of the stored data.  Independent of the loop in multiply_matrices.py. *)
From Coq Require Import Reals List.
From Verif Require Import Base Model_Angles Model_Ideal Model_MatMul Spec_Matrix Spec_MatMul.
Import ListNotations.
Open Scope R_scope.

Definition times (m : list (list R)) (v : list R) : list R :=
  map (fun row => rsum (map (fun k => nth k row 0 * nth k v 0) (seq 0 (length v)))) m.

(* power sent into all rows of m by the channel powers v *)
Definition into (m : list (list R)) (v : list R) : R := rsum (times m v).

Section Passes.
  Variables (g : grid) (h : nat) (u d : list (list R)) (alphas : list R) (thick : R) (f0 b0 f1 : stored)
            (row : list R) (w : nat).

  (* rows 0..h-1 of a stored matrix are upward directions, rows h..2h-1 downward *)
  Definition upward (f : stored) := firstn h (at_wl (f_RT f) w).
  Definition downward (f : stored) := skipn h (at_wl (f_RT f) w).
  Definition absorbing (f : stored) := at_wl (f_A f) w.

  Definition ray_theta (k : nat) : R := nth k (map a_theta (g_av g)) 0.
  Definition across (v : list R) : list R :=
    map (fun k => nth k v 0 * exp (- (nth w alphas 0 * thick / Rabs (cos (ray_theta k))))) (seq 0 h).

  (* below the front interface, heading down, before pass number k (from 0) *)
  Fixpoint inside (k : nat) : list R :=
    match k with
    | O => times (downward f0) row
    | S j => times (downward b0) (times u (across (times (upward f1) (across (times d (inside j))))))
    end.
  Definition at_back (k : nat) := across (times d (inside k)).
  Definition off_back (k : nat) := times (upward f1) (at_back k).
  Definition at_front (k : nat) := times u (across (off_back k)).

  Definition over (n : nat) (f : nat -> R) : R := rsum (map f (seq 0 n)).

  Definition series_R (n : nat) := into (upward f0) row + over n (fun k => into (upward b0) (at_front k)).
  Definition series_T (n : nat) := over n (fun k => into (downward f1) (at_back k)).
  Definition series_A_front (n : nat) := into (absorbing f0) row + over n (fun k => into (absorbing b0) (at_front k)).
  Definition series_A_back (n : nat) := over n (fun k => into (absorbing f1) (at_back k)).
  Definition series_A_bulk (n : nat) :=
    over n (fun k => (rsum (times d (inside k)) - rsum (at_back k)) +
                     (rsum (off_back k) - rsum (across (off_back k)))).
End Passes.
