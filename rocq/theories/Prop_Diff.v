(* Properties of the diffraction orders: C52-C54, C97-C99. *)
From Coq Require Import Reals List ZArith Bool Lia Lra.
From Verif Require Import Base Lib Model_Angles Proof_Angles Model_Ideal Model_Diff Spec_Diff Proof_Diff.
Import ListNotations.
Open Scope R_scope.

(* ---------- C52 ---------- *)

Theorem C52_reciprocal : forall a1 a2, lattice a1 a2 -> dual (2 * PI) a1 a2 (recip1 a1 a2) (recip2 a1 a2).
Proof. exact recip_dual. Qed.
Print Assumptions C52_reciprocal.

Example C52_reciprocal_ex : inner2 (recip1 (500, 0) (250, 433)) (500, 0) = 2 * PI /\ inner2 (recip1 (500, 0) (250, 433)) (250, 433) = 0.
Proof. destruct (C52_reciprocal _ _ lattice_ex) as (A & B & _). auto. Qed.

(* The wave-vector lengths reported by get_order_directions, computed from the electromagnetic solver's own
   reciprocal lattice (any pair with b_i . a_j = delta_ij), are those group_diffraction_orders computes. *)
Theorem C52_two_ways_agree : forall a1 a2 g1 g2 m_max, lattice a1 a2 -> dual 1 a1 a2 g1 g2 ->
  directions_kxy g1 g2 m_max = group_kxy a1 a2 (all_orders m_max).
Proof. exact kxy_agree. Qed.
Print Assumptions C52_two_ways_agree.

Example C52_two_ways_agree_ex : directions_kxy (1 / 500, 0) (0, 1 / 400) 3 = group_kxy (500, 0) (0, 400) (all_orders 3).
Proof. apply C52_two_ways_agree; unfold lattice, dual, inner2; cbn [fst snd]; lra. Qed.

(* ---------- C53 ---------- *)

Theorem C53_grouping : forall a1 a2 b1 b2 basis per_order, lattice a1 a2 -> dual (2 * PI) a1 a2 b1 b2 -> basis <> [] ->
  per_order <> [] -> Forall (fun row => length row = length basis) per_order ->
  let k j := wave_length b1 b2 (nth j basis (0, 0)%Z) in
  exists G assign, group_orders a1 a2 basis per_order = Ok G /\ length assign = length basis /\
    (forall p q, (p < q < length (gr_kxy G))%nat -> nth p (gr_kxy G) 0 < nth q (gr_kxy G) 0) /\
    (forall j, (j < length basis)%nat -> (nth j assign 0%nat < length (gr_kxy G))%nat /\
       Rabs (nth (nth j assign 0%nat) (gr_kxy G) 0 - k j) <= 1 / 2 * (1 / 10 ^ 10)) /\
    (forall i j, (i < length basis)%nat -> (j < length basis)%nat -> k i = k j -> nth i assign 0%nat = nth j assign 0%nat) /\
    (forall i j, (i < length basis)%nat -> (j < length basis)%nat -> nth i assign 0%nat = nth j assign 0%nat ->
       Rabs (k i - k j) <= 1 / 10 ^ 10) /\
    length (gr_reps G) = length (gr_kxy G) /\ list_sum (gr_reps G) = length basis /\
    (forall q, (q < length (gr_kxy G))%nat -> nth q (gr_reps G) 0%nat = group_size assign q /\ (0 < nth q (gr_reps G) 0)%nat) /\
    length (gr_power G) = length per_order /\
    (forall w, (w < length per_order)%nat -> length (nth w (gr_power G) []) = length (gr_kxy G) /\
       rsum (nth w (gr_power G) []) = rsum (nth w per_order []) /\
       forall q, (q < length (gr_kxy G))%nat -> nth q (nth w (gr_power G) []) 0 = group_sum assign (nth w per_order []) q).
Proof. exact grouping. Qed.
Print Assumptions C53_grouping.

Example C53_grouping_ex : exists G, group_orders (500, 0) (250, 433) [(0, 0); (1, 0); (-1, 0)]%Z [[1; 2; 3]; [4; 5; 7]] = Ok G /\
  list_sum (gr_reps G) = 3%nat /\ rsum (nth 1 (gr_power G) []) = 16.
Proof.
  destruct (C53_grouping (500, 0) (250, 433) _ _ [(0, 0); (1, 0); (-1, 0)]%Z [[1; 2; 3]; [4; 5; 7]] lattice_ex (recip_dual _ _ lattice_ex))
    as (G & assign & E & _ & _ & _ & _ & _ & _ & S & _ & _ & P); try discriminate.
  { repeat constructor. }
  exists G. split; auto. split; auto. destruct (P 1%nat ltac:(simpl; lia)) as (_ & -> & _). cbn. lra.
Qed.

(* ---------- C54 ---------- *)

(* For a symmetry range that divides pi the azimuth stored for an order is its true azimuth, reduced to the range. *)
Theorem C54_azimuth_partial : forall wl n_in n_out theta phi phi_sym g1 g2 m alpha (k : Z), 0 < phi_sym -> IZR k * phi_sym = PI ->
  let d := order_direction wl n_in n_out theta phi phi_sym g1 g2 m in
  points_at (d_f d) alpha -> 0 <= d_phi d < phi_sym /\ exists j : Z, d_phi d = alpha + IZR j * phi_sym.
Proof. exact order_azimuth. Qed.
Print Assumptions C54_azimuth_partial.

Example C54_azimuth_partial_ex : exists j : Z, d_phi (order_direction 1 1 1 0 0 (PI / 2) (1, 0) (0, 1) (0, -1)%Z) = PI + IZR j * (PI / 2).
Proof.
  pose proof PI_RGT_0. apply (C54_azimuth_partial 1 1 1 0 0 (PI / 2) (1, 0) (0, 1) (0, -1)%Z PI 2); try lra.
  exact back_points.
Qed.

(* With phi_symmetry = 2 pi the order (0, -1), which leaves along -y (azimuth pi), is given azimuth 0, the
   azimuth of the order (0, 1). *)
Theorem C54_azimuth_refuted :
  let d m := order_direction 1 1 1 0 0 (2 * PI) (1, 0) (0, 1) m in
  points_at (d_f (d (0, 1)%Z)) 0 /\ points_at (d_f (d (0, -1)%Z)) PI /\ d_phi (d (0, -1)%Z) = d_phi (d (0, 1)%Z) /\
  ~ exists j : Z, d_phi (d (0, -1)%Z) = PI + IZR j * (2 * PI).
Proof. exact azimuth_wrong. Qed.
Print Assumptions C54_azimuth_refuted.

(* At normal incidence this happens to every pair of opposite orders not along x, for every symmetry range. *)
Theorem C54_opposite_orders_merge : forall wl n_in n_out phi phi_sym g1 g2 m1 m2,
  let d m := order_direction wl n_in n_out 0 phi phi_sym g1 g2 m in
  snd (d_f (d (m1, m2))) <> 0 ->
  d_f (d (- m1, - m2)%Z) = (- fst (d_f (d (m1, m2))), - snd (d_f (d (m1, m2)))) /\
  d_phi (d (- m1, - m2)%Z) = d_phi (d (m1, m2)) /\ d_r (d (- m1, - m2)%Z) = d_r (d (m1, m2)).
Proof. exact opposite_merge. Qed.
Print Assumptions C54_opposite_orders_merge.

Example C54_opposite_orders_merge_ex :
  d_phi (order_direction 1 1 1 0 0 (2 * PI) (1, 0) (0, 1) (-1, -2)%Z) = d_phi (order_direction 1 1 1 0 0 (2 * PI) (1, 0) (0, 1) (1, 2)%Z).
Proof. apply (C54_opposite_orders_merge 1 1 1 0 (2 * PI) (1, 0) (0, 1) 1 2). unfold order_direction, f_order, f_inc. cbn [d_f fst snd]. rewrite sin_0. lra. Qed.

(* ---------- C97 ---------- *)

Theorem C97_all_orders : forall m_max, NoDup (all_orders m_max) /\
  length (all_orders m_max) = ((2 * m_max + 1) * (2 * m_max + 1))%nat /\
  forall m, In m (all_orders m_max) <-> (Z.abs (fst m) <= Z.of_nat m_max)%Z /\ (Z.abs (snd m) <= Z.of_nat m_max)%Z.
Proof. exact all_orders_spec. Qed.
Print Assumptions C97_all_orders.

Example C97_all_orders_ex : all_orders 1 = [(-1, -1); (0, -1); (1, -1); (-1, 0); (0, 0); (1, 0); (-1, 1); (0, 1); (1, 1)]%Z.
Proof. reflexivity. Qed.

(* ---------- C98 ---------- *)

(* Every order: its in-plane frequency is that of the incident wave plus the grating vector; in each medium it
   propagates at the angle with n sin = wl |f|, or is stored at exactly pi/2 when |f| >= n / wl. *)
Theorem C98_grating_equation : forall wl n_in n_out theta phi phi_sym g1 g2 m, 0 < wl -> 0 < n_in -> 0 < n_out ->
  let d := order_direction wl n_in n_out theta phi phi_sym g1 g2 m in
  d_f d = (n_in / wl * sin theta * sin phi + (IZR (fst m) * fst g1 + IZR (snd m) * fst g2),
           n_in / wl * sin theta * cos phi + (IZR (fst m) * snd g1 + IZR (snd m) * snd g2)) /\
  (length2 (d_f d) < n_in / wl -> 0 <= d_r d < PI / 2 /\ n_in * sin (d_r d) = wl * length2 (d_f d)) /\
  (n_in / wl <= length2 (d_f d) -> d_r d = PI / 2) /\
  (length2 (d_f d) < n_out / wl -> PI / 2 < d_t d <= PI /\ n_out * sin (d_t d) = wl * length2 (d_f d)) /\
  (n_out / wl <= length2 (d_f d) -> d_t d = PI / 2).
Proof. exact grating_equation. Qed.
Print Assumptions C98_grating_equation.

Example C98_grating_equation_ex : d_r (order_direction 1 1 2 0 0 PI (3 / 2, 0) (0, 1) (1, 0)%Z) = PI / 2 /\
  2 * sin (d_t (order_direction 1 1 2 0 0 PI (3 / 2, 0) (0, 1) (1, 0)%Z)) = 3 / 2.
Proof. exact grating_ex. Qed.

Theorem C98_zero_order : forall wl n_in n_out theta phi phi_sym g1 g2, 0 < n_in -> 0 < n_out -> 0 < wl -> 0 <= theta < PI / 2 ->
  let d := order_direction wl n_in n_out theta phi phi_sym g1 g2 (0, 0)%Z in
  d_r d = theta /\ (n_in * sin theta < n_out -> n_out * sin (d_t d) = n_in * sin theta).
Proof. exact zero_order. Qed.
Print Assumptions C98_zero_order.

Example C98_zero_order_ex : d_r (order_direction 600 1 2 (PI / 4) 1 PI (3 / 2, 0) (0, 1) (0, 0)%Z) = PI / 4.
Proof. pose proof PI_RGT_0. apply C98_zero_order; lra. Qed.

(* ---------- C99 ---------- *)

(* For a single wavelength, 'degeneracy' counts the distinct powers (to 10 decimals) in each group. *)
Theorem C99_degeneracy_partial : forall a1 a2 b1 b2 basis per_order, lattice a1 a2 -> dual (2 * PI) a1 a2 b1 b2 -> basis <> [] ->
  per_order <> [] -> Forall (fun row => length row = length basis) per_order ->
  exists G, group_orders a1 a2 basis per_order = Ok G /\ length (gr_degen G) = length (gr_kxy G) /\
    forall q, (q < length (gr_kxy G))%nat -> exists l, NoDup l /\ length l = nth q (gr_degen G) 0%nat /\
      forall x, In x l <-> exists j, (j < length basis)%nat /\
        nth q (gr_kxy G) 0 = round10 (wave_length b1 b2 (nth j basis (0, 0)%Z)) /\ round10 (nth j (nth 0 per_order []) 0) = x.
Proof. exact degeneracy. Qed.
Print Assumptions C99_degeneracy_partial.

Example C99_degeneracy_partial_ex : exists G, group_orders (500, 0) (250, 433) [(0, 0); (1, 0)]%Z [[1; 2]] = Ok G /\
  length (gr_degen G) = length (gr_kxy G).
Proof.
  destruct (C99_degeneracy_partial (500, 0) (250, 433) _ _ [(0, 0); (1, 0)]%Z [[1; 2]] lattice_ex (recip_dual _ _ lattice_ex))
    as (G & E & L & _); try discriminate; [repeat constructor|]. exists G. auto.
Qed.

(* Only the first wavelength is looked at: orders (1,0) and (-1,0) carry equal power at the first wavelength and
   different power at the second, and the reported degeneracy is 1. *)
Theorem C99_degeneracy_refuted : exists G, group_orders (1, 0) (0, 1) [(1, 0); (-1, 0)]%Z [[1; 1]; [1; 0]] = Ok G /\
  length (gr_kxy G) = 1%nat /\ gr_degen G = [1%nat].
Proof. exact degeneracy_wrong. Qed.
Print Assumptions C99_degeneracy_refuted.
