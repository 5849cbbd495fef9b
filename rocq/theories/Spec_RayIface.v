(* Vocabulary for C39 and C69. *)
From Coq Require Import Reals List Bool ZArith.
From Verif Require Import Base Model_Optics Model_OpticsC Spec_Optics Spec_OpticsC Model_RayIface.
Import ListNotations.
Open Scope R_scope.

Definition pm1 (s : Z) : Prop := (s = 1 \/ s = -1)%Z.

(* The two ways single_interface_check decides what happens at a hit, for media without and with absorption. *)
Inductive real_decision : decision -> Prop :=
| rd_fresnel ni nj p : real_decision (fresnel_decision ni nj p)
| rd_table ni nj entry : real_decision (table_decision ni nj entry)
| rd_fresnel_c ni nj p : real_decision (fresnel_decision_c ni nj p)
| rd_table_c ni nj entry : optical_medium ni -> optical_medium nj -> real_decision (table_decision_c ni nj entry).

(* the decision goes by a lookup table *)
Inductive uses_table (entry : Z -> R -> table_entry) : decision -> Prop :=
| ut_real ni nj : uses_table entry (table_decision ni nj entry)
| ut_complex ni nj : optical_medium ni -> optical_medium nj -> uses_table entry (table_decision_c ni nj entry).

(* A surface met at the angle th, with random number rnd, keeps the light and hands over A (per layer) *)
Definition absorbs (dec : decision) (th rnd : R) (A : list R) : Prop :=
  exists side d N, pm1 side /\ unit d /\ unit N /\ snd (dec side th d N rnd) = Some A.

(* k iterations of the loop *)
Fixpoint isteps (k : nat) (E : env) (d0z : R) (st : istate) : istate + res iresult :=
  match k with
  | O => inl st
  | S n => match istep E d0z st with inl st' => isteps n E d0z st' | inr o => inr o end
  end.

(* A ray that went in with dz <> 0 and comes out with direction d' *)
Definition turned_back (dz : R) (d' : vec) : Prop := dz * vz d' <= 0.
Definition went_on (dz : R) (d' : vec) : Prop := 0 < dz * vz d'.

(* k-th position tried at the start: the given one, then random ones next to the surface *)
Definition start_pos (E : env) (r : option vec) (d : vec) (k : nat) : option vec :=
  match k with
  | O => r
  | S j => Some (mkv (fst (e_xy E j) * e_Lx E) (snd (e_xy E j) * e_Ly E)
                     (if Rltb (vz d) 0 then s_zmax (e_surf E 0) + 1 / 100
                      else s_zmin (e_surf E 0) - 1 / 100))
  end.

Definition nonvertical (d : vec) : Prop := vx d <> 0 \/ vy d <> 0.

(* Wall crossings per unit of path *)
Definition rate (Lx Ly : R) (d : vec) : R := Rabs (vx d) / Lx + Rabs (vy d) / Ly.

(* For a ray at height z0: more laps through the cell than it can make between heights zlo and zhi *)
Definition lap_bound (Lx Ly zlo zhi z0 : R) (d : vec) : nat :=
  Z.to_nat (up (3 + (Rabs (z0 - zlo) + Rabs (zhi - z0)) / Rabs (vz d) * rate Lx Ly d)).

(* Within n iterations the ray hits the surface again or the function returns. *)
Definition finishes (E : env) (d0z : R) (n : nat) (st : istate) : Prop :=
  exists k, (k <= n)%nat /\
    match isteps k E d0z st with
    | inl st' => i_nint st' = S (i_nint st)
    | inr _ => True
    end.
