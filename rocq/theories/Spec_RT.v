(* Vocabulary for ray-traced redistribution matrices: which rays went where. *)
From Coq Require Import Reals List ZArith Bool.
From Verif Require Import Base Model_Angles Spec_Angles Model_Ideal Model_Optics Model_RayIface Model_RT Spec_Matrix.
Import ListNotations.
Open Scope R_scope.

(* rays from the rear are traced upside down *)
Definition as_seen (s : side) (theta : R) : R := match s with Front => theta | Rear => PI - theta end.

Definition leaves (y : ray) : bool := match ro_A (y_out y) with None => true | Some _ => false end.
Definition absorption (y : ray) : list R := match ro_A (y_out y) with None => [] | Some A => A end.

(* direction strictly inside the upper hemisphere and not exactly on the azimuth edge 0 (see C70) *)
Definition good_beam (phi_sym : R) (b : beam) : Prop :=
  0 < b_theta b < PI / 2 /\ fold_phi (b_phi b) phi_sym <> 0.

(* a ray that left in a direction not exactly vertical nor at azimuth 0, or was absorbed (then a lookup
   table was used) in n_abs layers *)
Definition good_ray (tmm : bool) (phi_sym : R) (n_abs : nat) (y : ray) : Prop :=
  match ro_A (y_out y) with
  | None => 0 < ro_theta (y_out y) < PI /\ fold_phi (y_phi y) phi_sym <> 0
  | Some A => tmm = true /\ ro_theta (y_out y) = 10 /\ length A = n_abs /\ 0 < rsum A /\
              Rabs (ro_loc (y_out y)) <= PI / 2
  end.

Definition pairs (beams : list beam) : list (beam * ray) :=
  flat_map (fun b => map (pair b) (b_rays b)) beams.

(* sum of w over the rays of incidence column c *)
Definition in_column (col : beam -> nat) (c : nat) (w : ray -> R) (l : list (beam * ray)) : R :=
  rsum (map (fun p => if Nat.eqb (col (fst p)) c then w (snd p) else 0) l).

(* col and row are the bins of the incident and outgoing directions (unique by C03) *)
Definition bins_of_rays (s : side) (phi_sym : R) (g : grid) (h : nat) (beams : list beam)
  (col : beam -> nat) (row : ray -> nat) : Prop :=
  (forall b, In b beams -> (col b < h)%nat /\
     bin_contains g (match s with Front => col b | Rear => (h + col b)%nat end)
       (as_seen s (b_theta b)) (fold_phi (b_phi b) phi_sym)) /\
  (forall b y, In b beams -> In y (b_rays b) -> leaves y = true -> (row y < 2 * h)%nat /\
     bin_contains g (row y) (as_seen s (ro_theta (y_out y))) (fold_phi (y_phi y) phi_sym)).

(* number of rays of column c, and of those absorbed *)
Definition n_rays_in (col : beam -> nat) (c : nat) (beams : list beam) : R := in_column col c (fun _ => 1) (pairs beams).
Definition n_absorbed_in (col : beam -> nat) (c : nat) (beams : list beam) : R :=
  in_column col c (fun y => if leaves y then 0 else 1) (pairs beams).

(* ring of the local angle at which a ray was absorbed *)
Definition local_rings (g : grid) (beams : list beam) (lrow : ray -> nat) : Prop :=
  forall b y, In b beams -> In y (b_rays b) -> leaves y = false ->
    in_bin (g_theta_intv g) (lrow y) (Rabs (ro_loc (y_out y))).

(* rows of a redistribution matrix that return light to the side it came from, and the others *)
Definition reflection_rows (s : side) (h : nat) : list nat := match s with Front => seq 0 h | Rear => seq h h end.
Definition transmission_rows (s : side) (h : nat) : list nat := match s with Front => seq h h | Rear => seq 0 h end.
Definition upwards (y : ray) : bool := leaves y && Rltb (ro_theta (y_out y)) (PI / 2).
Definition downwards (y : ray) : bool := leaves y && Rltb (PI / 2) (ro_theta (y_out y)).
