(* Averages over random numbers, and the power balance of planar structures. *)
From Coq Require Import Reals List Bool ZArith.
From Verif Require Import Base Model_Optics Model_OpticsC Model_RayIface Model_RayStack Model_Surface Model_RTStruct Model_Trace Model_StackRay Model_StackCalc
  Spec_OpticsC Spec_RayStack Spec_StackRay Spec_StackCalc.
Import ListNotations.
Open Scope R_scope.

(* ---------- averages ---------- *)

(* values of random() *)
Definition fractions (u : nat -> R) : Prop := forall i, 0 <= u i < 1.

(* average of g over one number, uniformly distributed *)
Definition mean1 (g : R -> R) (m : R) : Prop := exists pr : Riemann_integrable g 0 1, RiemannInt pr = m.

Definition before (v : R) (u : nat -> R) : nat -> R := fun i => match i with O => v | S j => u j end.

(* average of f over the first n of a sequence of independent numbers; f does not depend on the others *)
Fixpoint mean (n : nat) (f : (nat -> R) -> R) (m : R) : Prop :=
  match n with
  | O => forall u, fractions u -> f u = m
  | S k => exists g, (forall v, 0 <= v < 1 -> mean k (fun u => f (before v u)) (g v)) /\ mean1 g m
  end.

(* the random numbers that decide between reflection and transmission are those of u, n for each ray; the others are kept *)
Definition with_numbers (w : rt_draws) (n : nat) (u : nat -> R) : rt_draws :=
  {| w_x := w_x w; w_y := w_y w;
     w_ray := fun k => {| dr_rnd := fun j => u (k * n + j)%nat; dr_xy := dr_xy (w_ray w k); dr_uv := dr_uv (w_ray w k) |};
     w_seen := w_seen w; w_hs := w_hs w |}.

(* ---------- power balance ---------- *)

(* absorbed in layer i of the structure, or at surface i by the layers on it *)
Inductive quantity := Reflected | Transmitted | AbsorbedIn (i : nat) | AbsorbedAt (i : nat).
Definition reported_value (q : quantity) (t : totals) : R :=
  match q with Reflected => t_R t | Transmitted => t_T t | AbsorbedIn i => nth i (t_A t) 0 | AbsorbedAt i => nth i (t_Aint t) 0 end.
Definition within (widths : list R) (q : quantity) : Prop :=
  match q with AbsorbedIn i => (i < length widths)%nat | AbsorbedAt i => (i <= length widths)%nat | _ => True end.

Section Balance.
Variables (mats : list material) (widths : list R) (tables : list (option (Z -> R -> table_entry))) (o : rt_options).

(* light reaches the inside of medium m *)
Definition lit (m : Z) : Prop := index_of (media mats o) (start_mat o) * sin (c_theta o) < index_of (media mats o) m.
(* light in medium m heading d has a surface ahead *)
Definition heads (m d : Z) : Prop := (d = 1 /\ 0 <= m <= Z.of_nat (length widths) \/ d = -1 /\ 1 <= m <= Z.of_nat (length widths))%Z.

(* what the surface that light in medium m heading d arrives at sends back and lets through; Fresnel's equations or the table *)
Definition reflectance (m d : Z) : R :=
  let psi := snell (media mats o) (start_mat o) (c_theta o) m in
  match film_ahead (films_on (c_pol o) tables) m d with
  | Bare p => fresnel_Rc (nk_of (media mats o) m) (nk_of (media mats o) (m + d)) psi p
  | Coated ent => te_R (ent d psi)
  end.
Definition passed (m d : Z) : R :=
  match film_ahead (films_on (c_pol o) tables) m d with
  | Bare p => 1 - reflectance m d
  | Coated ent => te_T (ent d (snell (media mats o) (start_mat o) (c_theta o) m))
  end.
(* what is left after crossing layer m *)
Definition transmittance (m : Z) : R := exp (- si_loss mats widths o m).

(* X m d: the part of light of power 1, in medium m and arriving at the surface ahead, that contributes to q in the end;
   after (m, d): the same for light that has just entered medium m *)
Definition after (q : quantity) (X : Z -> Z -> R) (m d : Z) : R :=
  if Z.eqb m 0 then match q with Reflected => 1 | _ => 0 end
  else if Z.eqb m (Z.of_nat (length widths) + 1) then match q with Transmitted => 1 | _ => 0 end
  else match q with AbsorbedIn i => if Z.eqb m (Z.of_nat i + 1) then 1 - transmittance m else 0 | _ => 0 end + transmittance m * X m d.
Definition counts_at (q : quantity) (m d : Z) : R :=
  match q with AbsorbedAt i => if Z.eqb (surface_ahead m d) (Z.of_nat i) then 1 else 0 | _ => 0 end.

Definition balance (q : quantity) (X : Z -> Z -> R) : Prop :=
  forall m d, heads m d -> lit m -> 0 <= X m d <= 1 /\
    X m d = reflectance m d * after q X m (- d) + passed m d * after q X (m + d) d + (1 - reflectance m d - passed m d) * counts_at q m d.
End Balance.

(* what calculate reports, 0 if it does not *)
Definition given (q : quantity) (out : option (res (totals * list fstate))) : R :=
  match out with Some (Ok (t, _)) => reported_value q t | _ => 0 end.
Definition given_R0 (out : option (res (totals * list fstate))) : R := match out with Some (Ok (t, _)) => t_R0 t | _ => 0 end.
