(* Comparing two structures: which of them has the more strongly absorbing bulk, which surface sends more
   light back and which lets more through. *)
From Coq Require Import Reals List.
From Verif Require Import Base Model_Angles Model_Ideal Model_MatMul Spec_Matrix Spec_MatMul.
Import ListNotations.
Open Scope R_scope.

(* at every wavelength the first bulk is optically at most as thick as the second *)
Definition absorbs_less (alphas : list R) (thick : R) (alphas' : list R) (thick' : R) : Prop :=
  length alphas = length alphas' /\
  forall w, (w < length alphas)%nat -> 0 <= nth w alphas 0 * thick <= nth w alphas' 0 * thick'.

(* Outgoing channels 0 .. h-1 of a stored matrix point up and h .. 2h-1 point down.  Light from above that goes
   up again, and light from below that goes down again, is reflected. *)
Definition reflected_row (s : side) (h r : nat) : nat := match s with Front => r | Rear => (h + r)%nat end.
Definition transmitted_row (s : side) (h r : nat) : nat := match s with Front => (h + r)%nat | Rear => r end.

(* for every wavelength, incoming channel k and outgoing channel r: f' reflects (transmits) at most what f does *)
Definition reflects_less (s : side) (nwl h : nat) (f' f : stored) : Prop :=
  forall w r k, (w < nwl)%nat -> (r < h)%nat -> (k < h)%nat ->
    entry (at_wl (f_RT f') w) (reflected_row s h r) k <= entry (at_wl (f_RT f) w) (reflected_row s h r) k.
Definition transmits_less (s : side) (nwl h : nat) (f' f : stored) : Prop :=
  forall w r k, (w < nwl)%nat -> (r < h)%nat -> (k < h)%nat ->
    entry (at_wl (f_RT f') w) (transmitted_row s h r) k <= entry (at_wl (f_RT f) w) (transmitted_row s h r) k.
