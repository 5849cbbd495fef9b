(* Vocabulary for the claims about depth profiles of ray-traced interfaces. *)
From Coq Require Import Reals List ZArith Bool.
From Verif Require Import Base Model_Ideal Model_TMM Model_RTProfile Spec_Absorb.
Import ListNotations.
Open Scope R_scope.

(* generation at distance z from the side of the layer where the light comes in *)
Definition depth_law (c : coefs) (z : R) : R :=
  c_A1 c * exp (c_a1 c * z) + c_A2 c * exp (- (c_a1 c * z)) + 2 * c_A3r c * cos (c_a3 c * z) - 2 * c_A3i c * sin (c_a3 c * z).

(* the requested layers, in increasing order *)
Inductive ascending : list nat -> Prop :=
| asc_nil : ascending []
| asc_cons k l : (forall j, In j l -> (k < j)%nat) -> ascending l -> ascending (k :: l).

Definition width (w : list R) (k : nat) : R := nth (k - 1) w 0.
(* pts k multiples of d lie in [0, width of layer k) *)
Definition layer_points (w : list R) (d : R) (pts : nat -> nat) : Prop :=
  forall k, (1 <= k <= length w)%nat -> n_points (width w k) d 0 (pts k).

(* samples of the requested layers, one after another: g k i is sample i of layer k *)
Definition by_layer (layers : list nat) (pts : nat -> nat) (g : nat -> nat -> R) : list R :=
  flat_map (fun k => map (g k) (seq 0 (pts k))) layers.

(* generation at z in layer k from the angles, each weighted with its share *)
Definition from_angles (angles : list angle_share) (k : nat) (z : R) : R :=
  rsum (map (fun a => as_pr a * depth_law (as_cf a k) z) angles).

(* the angle has no absorbed rays, or a layer is not requested, or A1 of the layers does not add up to 0 *)
Definition counted (w : list R) (layers : list nat) (a : angle_share) : Prop :=
  as_pr a = 0 \/ (exists k, (1 <= k <= length w)%nat /\ ~ In k layers) \/
  (as_pr a <> 0 /\ rsum (map (fun k => c_A1 (as_cf a k)) (seq 1 (length w))) <> 0).

(* the ray's absorption compared with the table: mean of the ratios over the requested layers *)
Definition mean_ratio (layers : list nat) (y : absorbed) : R :=
  rsum (map (fun k => ab_A y k / ab_look y k) layers) / INR (length layers).
Definition resolved (layers : list nat) (y : absorbed) : Prop := forall k, In k layers -> / 10 ^ 10 < ab_look y k.
Definition from_rays (s : side) (layers : list nat) (rays : list absorbed) (k : nat) (z : R) : R :=
  rsum (map (fun y => match s, ab_side y with
                      | Front, Front | Rear, Rear => mean_ratio layers y * depth_law (ab_cf y k) z
                      | _, _ => 0 end) rays).

(* generation of both sides at sample i of layer k.  The rays from the rear are seen from the last sample *)
Definition ray_sample (pl : list nat) (rays : list absorbed) (d : R) (pts : nat -> nat) (k i : nat) : R :=
  from_rays Front pl rays k (INR i * d) + from_rays Rear pl rays k (INR (pts k - 1 - i) * d).

(* trapezoidal rule *)
Fixpoint trapezoid (dx : R) (y : list R) : R :=
  match y with
  | a :: r => match r with b :: _ => dx * (a + b) / 2 + trapezoid dx r | [] => 0 end
  | [] => 0
  end.
