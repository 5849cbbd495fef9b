(* Vocabulary for the transfer-matrix claims. *)
From Coq Require Import Reals List ZArith Bool String.
From Verif Require Import Base Model_Angles Spec_Angles Model_Ideal Model_TMM.
Import ListNotations.
Local Notation length := List.length.
Open Scope R_scope.

(* Snell's law *)
Definition refracts (n1 n2 theta psi : R) : Prop := 0 <= psi <= PI / 2 /\ n1 * sin theta = n2 * sin psi.

(* polar angle, in the frame of the grid, of light incident at theta from the normal, and of light that
   continues at psi from the normal on the other side *)
Definition incoming (s : side) (theta : R) : R := match s with Front => theta | Rear => PI - theta end.
Definition onward (s : side) (psi : R) : R := match s with Front => PI - psi | Rear => psi end.

(* row of the angle vector for incidence channel i *)
Definition channel_row (s : side) (h i : nat) : nat := match s with Front => i | Rear => (h + i)%nat end.
Definition same_half (s : side) (h k : nat) : Prop := match s with Front => (k < h)%nat | Rear => (h <= k < 2 * h)%nat end.
Definition other_half (s : side) (h k : nat) : Prop := match s with Front => (h <= k < 2 * h)%nat | Rear => (k < h)%nat end.

(* azimuth after half a turn, folded; 0 is moved into the first bin *)
Definition turned (phi phi_sym f : R) : Prop :=
  (fold_phi (phi + PI) phi_sym <> 0 /\ f = fold_phi (phi + PI) phi_sym) \/
  (fold_phi (phi + PI) phi_sym = 0 /\ f = 1 / 10 ^ 10).

(* the only non-zero entries of a column *)
Definition holds_two (col : list R) (k1 : nat) (x1 : R) (k2 : nat) (x2 : R) : Prop :=
  k1 <> k2 /\ forall k, nth k col 0 = if Nat.eqb k k1 then x1 else if Nat.eqb k k2 then x2 else 0.
Definition holds_one (col : list R) (k1 : nat) (x1 : R) : Prop :=
  forall k, nth k col 0 = if Nat.eqb k k1 then x1 else 0.

(* the same arguments for the stack turned upside down *)
Definition upside_down {M} (a : tmm_args M) : tmm_args M :=
  mk_args (ar_trn a) (rev (ar_layers a)) (ar_inc a) (ar_coherent a) (option_map (@rev bool) (ar_coh a)) (ar_pol a).

(* light that reaches layer l (1 is the first) according to the solver: not reflected, not absorbed before *)
Definition reaching_layer (r : R) (absorbed : list R) (l : nat) : R := 1 - r - rsum (firstn (l - 1) absorbed).

(* the solver accounts for all light: R, then one non-negative absorption per layer, then T *)
Definition balanced (n : nat) (s : sol) : Prop :=
  length (s_abs s) = (n + 2)%nat /\ (forall x, In x (s_abs s) -> 0 <= x) /\
  rsum (inner (s_abs s)) = 1 - s_R s - s_T s.

(* s is what the solver answers for this polarisation *)
Definition answers {M} (SV : solver M) (st : ostack M) (coherent : bool) (cl : list bool) (theta : R) (pol : string)
    (s : sol) : Prop :=
  (if coherent then sv_coh SV pol st theta else sv_inc SV pol st cl theta) = Ok s.

Definition mean_of (x a b : R) : Prop := 2 * x = a + b.
Definition means_of (x a b : list R) : Prop :=
  length x = length a /\ length x = length b /\ forall i, mean_of (nth i x 0) (nth i a 0) (nth i b 0).
Definition coef_means (x a b : coefs) : Prop :=
  mean_of (c_A1 x) (c_A1 a) (c_A1 b) /\ mean_of (c_A2 x) (c_A2 a) (c_A2 b) /\
  mean_of (c_A3r x) (c_A3r a) (c_A3r b) /\ mean_of (c_A3i x) (c_A3i a) (c_A3i b) /\
  mean_of (c_a1 x) (c_a1 a) (c_a1 b) /\ mean_of (c_a3 x) (c_a3 a) (c_a3 b).

Definition with_pol (o : topts) (pol : string) : topts := mk_topts pol (p_theta o) (p_coherent o) (p_coh o).

(* the solver answers with one absorption per medium *)
Definition well_sized {M} (SV : solver M) : Prop :=
  (forall pol st th s, sv_coh SV pol st th = Ok s -> length (s_abs s) = (length (o_layers st) + 2)%nat) /\
  (forall pol st cl th s, sv_inc SV pol st cl th = Ok s -> length (s_abs s) = (length (o_layers st) + 2)%nat).

(* the stack as light from below meets it *)
Definition turn {M} (st : ostack M) : ostack M := mk_stack (o_sub st) (rev (o_layers st)) (o_inc st).

Definition entry_nonneg (e : tentry) : Prop := 0 <= e_R e /\ 0 <= e_T e /\ forall x, In x (e_Al e) -> 0 <= x.
Definition entry_means (e a b : tentry) : Prop :=
  mean_of (e_R e) (e_R a) (e_R b) /\ mean_of (e_T e) (e_T a) (e_T b) /\ means_of (e_Al e) (e_Al a) (e_Al b) /\
  length (e_coef e) = length (e_coef a) /\ length (e_coef e) = length (e_coef b) /\
  forall i d, (i < length (e_coef e))%nat -> coef_means (nth i (e_coef e) d) (nth i (e_coef a) d) (nth i (e_coef b) d).

(* history of set_widths calls *)
Definition after_sets {M} (ob : tobj M) (hist : list (list R)) : tobj M := fold_left set_widths hist ob.

(* the medium that light comes from, and the one behind the interface *)
Definition from_medium {M} (a : tmm_args M) (s : side) : M := match s with Front => ar_inc a | Rear => ar_trn a end.
Definition into_medium {M} (a : tmm_args M) (s : side) : M := match s with Front => ar_trn a | Rear => ar_inc a end.

(* the stack as light from this side meets it, and a list of its layers brought back into the user's order *)
Definition seen_from {M} (a : tmm_args M) (s : side) : ostack M :=
  mk_stack (from_medium a s) (match s with Front => ar_layers a | Rear => rev (ar_layers a) end) (into_medium a s).
Definition as_given {A} (s : side) (l : list A) : list A := match s with Front => l | Rear => rev l end.
