(* What is reported for a structure with several bulk layers.  Independent of the loops. *)
From Coq Require Import Reals List.
From Verif Require Import Base Model_MatMul Model_Bulks Spec_MatMul.
Import ListNotations.
Open Scope R_scope.

(* entry for bulk layer i and wavelength w; 0 if the variable is missing *)
Definition cell (rows : list (list R)) (i w : nat) : R := nth w (nth i rows []) 0.
Definition R_row (o : rat_rows) (i w : nat) : R := cell (ro_R o) i w.
Definition T_row (o : rat_rows) (i w : nat) : R := match ro_T o with Some l => cell l i w | None => 0 end.
Definition A_row (o : rat_rows) (i w : nat) : R := match ro_A_bulk o with Some l => cell l i w | None => 0 end.

(* absorbed in all bulk layers *)
Definition absorbed_in_bulks (o : rat_rows) (nb w : nat) : R := rsum (map (fun i => A_row o i w) (seq 0 nb)).

(* everything reported for bulk layer i, with what was still travelling in it *)
Definition reported_for (o : rat_rows) (sts : list mm_state) (i w : nat) : R :=
  R_row o i w + T_row o i w + A_row o i w +
  match nth_error sts i with
  | Some st => A_front_at st w + A_back_at st w + still_travelling st w
  | None => 0
  end.

(* light lost in interface i: by the passes through the bulk layer above it and by those through the one below *)
Definition lost_in_interface (sts : list mm_state) (i w : nat) : R :=
  match i with
  | O => 0
  | Datatypes.S k => match nth_error sts k with Some st => A_back_at st w | None => 0 end
  end + match nth_error sts i with Some st => A_front_at st w | None => 0 end.
