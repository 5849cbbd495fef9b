(* C33-C38: what happens to a ray at a surface, intersections, periodic boundaries. *)
From Coq Require Import Reals List Bool ZArith Lra Lia.
From Verif Require Import Base Lib Model_Optics Spec_Optics Proof_Optics Proof_Geom Proof_OpticsProps
  Proof_OpticsEx.
Import ListNotations.
Open Scope R_scope.

(* C33: at a facet hit from its front a ray is mirrored or refracted, never anything else *)
Theorem C33_reflect_refract :
  forall r d surf h side n0 n1 p rnd,
    unit d -> 0 < n0 -> 0 < n1 -> rnd < 1 ->
    check_intersect r d surf = Some h -> (side = 1 \/ side = -1)%Z ->
    dot d (vscale (IZR side) (h_N h)) < 0 ->
    let '(d', s', A) :=
      decide_RT_Fresnel n0 n1 (h_theta h) d (vscale (IZR side) (h_N h)) side p rnd in
    A = None /\ unit d' /\
    ((s' = side /\ mirror_law d d' (h_N h)) \/
     (s' = (- side)%Z /\ snell_law n0 n1 d d' (h_N h))).
Proof. exact interaction. Qed.
Print Assumptions C33_reflect_refract.
Example C33_reflect_refract_ex :
  unit ex_d /\ (exists h, check_intersect ex_r ex_d [ex_T] = Some h /\ h_N h = mkv 0 0 1 /\
                          dot ex_d (vscale (IZR 1) (h_N h)) < 0).
Proof. exact C33_ex. Qed.

(* C33 for lookup tables *)
Theorem C33_lookup :
  forall e n0 n1 x d N side rnd,
    0 < n0 -> 0 < n1 -> 0 <= x < PI / 2 -> unit d -> unit N -> dot d N = - cos x -> n0 * sin x < n1 ->
    let '(d', s', A) := decide_RT_TMM e n0 n1 d N side rnd in
    unit d' /\
    ((A = None /\ s' = side /\ mirror_law d d' N) \/
     (A = None /\ s' = (- side)%Z /\ snell_law n0 n1 d d' N) \/
     (A = Some (te_A e) /\ s' = side /\ d' = d)).
Proof. exact interaction_TMM. Qed.
Print Assumptions C33_lookup.
Example C33_lookup_ex :
  0 <= ce_x < PI / 2 /\ unit (mkv (5 / 13) 0 (- (12 / 13))) /\
  dot (mkv (5 / 13) 0 (- (12 / 13))) (mkv 0 0 1) = - cos ce_x /\ 1 * sin ce_x < 2.
Proof. exact C33_lookup_case. Qed.

(* C34: total internal reflection *)
Theorem C34_total_reflection :
  forall n0 n1 th d N side p rnd,
    0 < n0 -> 0 < n1 -> - (PI / 2) < th < PI / 2 -> n1 < n0 * sin (Rabs th) -> rnd < 1 ->
    unit d -> unit N ->
    let '(d', s', A) := decide_RT_Fresnel n0 n1 th d N side p rnd in
    A = None /\ s' = side /\ unit d' /\ mirror_law d d' N.
Proof. exact tir. Qed.
Print Assumptions C34_total_reflection.
Example C34_total_reflection_ex :
  - (PI / 2) < ce_x < PI / 2 /\ 1 < 3 * sin (Rabs ce_x).
Proof. exact C34_case. Qed.

(* C34: whenever transmission is possible, the arcsine and the square root are defined *)
Theorem C34_refraction_defined :
  forall n0 n1 th d N p,
    0 < n0 -> 0 < n1 -> - (PI / 2) < th < PI / 2 -> unit d -> unit N -> Rabs (dot d N) = cos th ->
    fresnel_R n0 n1 th p < 1 ->
    0 <= n0 / n1 * sin (Rabs th) <= 1 /\ 0 < 1 - norm (vscale (n0 / n1) (tang d N)) ^ 2.
Proof. exact refraction_defined. Qed.
Print Assumptions C34_refraction_defined.
Example C34_refraction_defined_ex : fresnel_R 1 3 0 PolU = 1 / 4.
Proof. exact C34_defined_case. Qed.

(* C76 fails with a lookup table, which uses the entry of the nearest tabulated angle: a ray
   beyond the critical angle is "transmitted" along the surface. *)
Theorem C76_lookup_refuted :
  exists angles entries n0 n1 theta d N rnd,
    0 < n1 /\ 0 <= theta < PI / 2 /\ unit d /\ unit N /\ dot d N = - cos theta /\
    n1 < n0 * sin theta /\ 0 <= rnd < 1 /\
    length entries = length angles /\
    nth 0 angles 1 = 0 /\ nth 0 entries {| te_R := 0; te_T := 0; te_A := [] |} =
      {| te_R := calc_R n0 n1 0 PolS; te_T := 1 - calc_R n0 n1 0 PolS; te_A := [] |} /\
    exists d', decide_RT_lookup angles entries n0 n1 theta d N 1 rnd = Ok (d', (-1)%Z, None) /\ dot d' N = 0.
Proof. exact lookup_beyond_critical. Qed.
Print Assumptions C76_lookup_refuted.

(* C76, the part that holds: if the entry of the nearest angle reflects everything, so does the ray *)
Theorem C76_reflecting_entry_partial :
  forall angles entries n0 n1 th d N side rnd i e,
    nearest angles (Rabs th) = Ok i -> nth_error entries i = Some e -> 1 <= te_R e -> rnd < 1 ->
    unit d -> unit N ->
    exists d', decide_RT_lookup angles entries n0 n1 th d N side rnd = Ok (d', side, None) /\
      unit d' /\ mirror_law d d' N /\
      (forall a, In a angles -> Rabs (nth i angles 0 - Rabs th) <= Rabs (a - Rabs th)).
Proof. exact lookup_reflecting. Qed.
Print Assumptions C76_reflecting_entry_partial.
Example C76_reflecting_entry_partial_ex :
  nearest [0; 1] (Rabs (3 / 4)) = Ok 1%nat.
Proof. exact C76_case. Qed.

(* C35 *)
Theorem C35_range :
  forall n1 n2 x, 0 < n1 -> 0 < n2 -> 0 <= x < PI / 2 -> n1 * sin x <= n2 ->
    forall p, 0 <= calc_R n1 n2 x p <= 1.
Proof. exact calc_R_range. Qed.
Print Assumptions C35_range.
Example C35_range_ex : 0 <= ce_x < PI / 2 /\ 2 * sin ce_x <= 1.
Proof. exact C35_case. Qed.

Theorem C35_index_matched :
  forall n x p, 0 < n -> 0 <= x < PI / 2 -> calc_R n n x p = 0.
Proof. exact calc_R_matched. Qed.
Print Assumptions C35_index_matched.
Example C35_index_matched_ex : calc_R 2 2 ce_x PolS = 0.
Proof. exact C35_matched_case. Qed.

Theorem C35_reciprocal :
  forall n1 n2 x, 0 < n1 -> 0 < n2 -> 0 <= x < PI / 2 -> n1 * sin x <= n2 ->
    forall p, n1 * sin x < n2 ->
    calc_R n2 n1 (asin (n1 / n2 * sin x)) p = calc_R n1 n2 x p.
Proof. exact calc_R_symmetric. Qed.
Print Assumptions C35_reciprocal.
Example C35_reciprocal_ex : 0 <= ce_x < PI / 2 /\ 2 * sin ce_x < 1.
Proof. exact C35_reciprocal_case. Qed.

(* Fresnel's equations in their textbook sine / tangent form *)
Theorem C35_sine_law :
  forall n1 n2 x, 0 < n1 -> 0 < n2 -> 0 <= x < PI / 2 -> n1 * sin x <= n2 -> 0 < x ->
    let t := asin (n1 / n2 * sin x) in
    calc_R n1 n2 x PolS = (sin (x - t) / sin (x + t)) ^ 2.
Proof. exact calc_R_sine. Qed.
Print Assumptions C35_sine_law.
Example C35_sine_law_ex : 0 < ce_x < PI / 2 /\ 1 * sin ce_x <= 2.
Proof. exact C35_sine_case. Qed.

Theorem C35_tangent_law :
  forall n1 n2 x, 0 < n1 -> 0 < n2 -> 0 <= x < PI / 2 -> n1 * sin x <= n2 -> 0 < x ->
    let t := asin (n1 / n2 * sin x) in
    cos (x + t) <> 0 ->
    calc_R n1 n2 x PolP = (tan (x - t) / tan (x + t)) ^ 2.
Proof. exact calc_R_tangent. Qed.
Print Assumptions C35_tangent_law.
Example C35_tangent_law_ex :
  0 < ce_x < PI / 2 /\ 1 * sin ce_x <= 1 /\ cos (ce_x + asin (1 / 1 * sin ce_x)) <> 0.
Proof. exact C35_tangent_case. Qed.

(* unpolarised light is the mean of both laws *)
Theorem C35_unpolarised :
  forall n1 n2 x, 0 < n1 -> 0 < n2 -> 0 <= x < PI / 2 -> n1 * sin x <= n2 -> 0 < x ->
    let t := asin (n1 / n2 * sin x) in
    cos (x + t) <> 0 ->
    calc_R n1 n2 x PolU =
      ((sin (x - t) / sin (x + t)) ^ 2 + (tan (x - t) / tan (x + t)) ^ 2) / 2.
Proof. exact calc_R_unpolarised. Qed.
Print Assumptions C35_unpolarised.
Example C35_unpolarised_ex :
  0 < ce_x < PI / 2 /\ 1 * sin ce_x <= 1 /\ cos (ce_x + asin (1 / 1 * sin ce_x)) <> 0.
Proof. exact C35_tangent_case. Qed.

(* normal incidence, Brewster's angle, critical angle *)
Theorem C35_normal_incidence :
  forall n1 n2 p, 0 < n1 -> 0 < n2 -> calc_R n1 n2 0 p = ((n1 - n2) / (n1 + n2)) ^ 2.
Proof. exact calc_R_normal. Qed.
Print Assumptions C35_normal_incidence.
Example C35_normal_incidence_ex : ((1 - 3) / (1 + 3)) ^ 2 = 1 / 4.
Proof. exact C35_normal_case. Qed.

Theorem C35_brewster :
  forall n1 n2, 0 < n1 -> 0 < n2 -> calc_R n1 n2 (atan (n2 / n1)) PolP = 0.
Proof. exact calc_R_brewster. Qed.
Print Assumptions C35_brewster.
Example C35_brewster_ex : calc_R 12 5 ce_x PolP = 0.
Proof. exact C35_brewster_case. Qed.

Theorem C35_critical :
  forall n1 n2 x, 0 < n1 -> 0 < n2 -> 0 <= x < PI / 2 ->
    forall p, n1 * sin x = n2 -> calc_R n1 n2 x p = 1.
Proof. exact calc_R_critical. Qed.
Print Assumptions C35_critical.
Example C35_critical_ex : 13 * sin ce_x = 5.
Proof. exact C35_critical_case. Qed.

(* C36: draws in [0, R] reflect, in (R, R+T] transmit, above R+T absorb *)
Theorem C36_draw_partition :
  forall e n0 n1 d N side rnd, 0 <= te_R e -> 0 <= te_T e -> side <> 0%Z -> 0 <= rnd < 1 ->
    let '(_, s', A) := decide_RT_TMM e n0 n1 d N side rnd in
    (rnd <= te_R e <-> s' = side /\ A = None) /\
    (te_R e < rnd <= te_R e + te_T e <-> s' = (- side)%Z /\ A = None) /\
    (te_R e + te_T e < rnd <-> A = Some (te_A e)) /\
    (1 <= te_R e + te_T e -> A = None) /\
    (1 <= te_R e -> s' = side /\ A = None).
Proof. exact draw_partition. Qed.
Print Assumptions C36_draw_partition.
Example C36_draw_partition_ex :
  let e := {| te_R := 1 / 4; te_T := 1 / 4; te_A := [1 / 2] |} in
  snd (decide_RT_TMM e 1 2 ex_d (mkv 0 0 1) 1 (3 / 4)) = Some [1 / 2] /\
  snd (fst (decide_RT_TMM e 1 2 ex_d (mkv 0 0 1) 1 (1 / 3))) = (-1)%Z.
Proof. exact C36_case. Qed.

(* C37 *)
Theorem C37_complete :
  forall r d surf, check_intersect r d surf = None <-> (forall T t, In T surf -> ~ meets r d T t).
Proof. exact check_intersect_none. Qed.
Print Assumptions C37_complete.
Example C37_complete_ex : check_intersect ex_r (vneg ex_d) [ex_T] = None.
Proof. exact C37_none_case. Qed.

Theorem C37_sound_nearest :
  forall r d surf h, unit d -> check_intersect r d surf = Some h ->
    exists T t, In T surf /\ meets r d T t /\
      (forall T' t', In T' surf -> meets r d T' t' -> t <= t') /\
      h_point h = vadd r (vscale t d) /\
      unit (h_N h) /\
      dot (h_N h) (vsub (t_P1 T) (t_P0 T)) = 0 /\ dot (h_N h) (vsub (t_P2 T) (t_P0 T)) = 0 /\
      0 < dot (h_N h) (cross (vsub (t_P1 T) (t_P0 T)) (vsub (t_P2 T) (t_P0 T))) /\
      - (PI / 2) < h_theta h < PI / 2 /\ cos (h_theta h) = Rabs (dot d (h_N h)) /\
      (dot d (h_N h) < 0 -> 0 <= h_theta h) /\ (0 < dot d (h_N h) -> h_theta h <= 0).
Proof. exact sound_nearest. Qed.
Print Assumptions C37_sound_nearest.
Example C37_sound_nearest_ex :
  exists h, check_intersect ex_r ex_d [ex_T2; ex_T] = Some h /\ h_point h = mkv (1 / 4) (1 / 4) 0.
Proof. exact C37_nearest_case. Qed.

(* C38 *)
Theorem C38_exit :
  forall Lx Ly r d, in_cell Lx Ly r -> (vx d <> 0 \/ vy d <> 0) ->
    let '(w, ot) := exit_side r d Lx Ly in
    (w < 4)%nat /\ exists t, ot = Some t /\ 0 < t /\
      on_wall Lx Ly w (vadd r (vscale t d)) /\
      (forall s, 0 <= s <= t -> in_closed_cell Lx Ly (vadd r (vscale s d))) /\
      (forall s, 0 <= s < t -> in_cell Lx Ly (vadd r (vscale s d))).
Proof. exact exit_side_spec. Qed.
Print Assumptions C38_exit.
Example C38_exit_ex : in_cell 1 1 (mkv (1 / 2) (1 / 4) 5) /\ vx (mkv 1 (-1) 0) <> 0.
Proof. exact C38_case. Qed.

Theorem C38_translate :
  forall Lx Ly r d, in_cell Lx Ly r -> (vx d <> 0 \/ vy d <> 0) ->
    exists w t, exit_side r d Lx Ly = (w, Some t) /\
      let q := vadd (vadd r (vscale t d)) (translation Lx Ly w) in
      on_wall Lx Ly (opposite w) q /\ in_closed_cell Lx Ly q /\ vz q = vz r + t * vz d.
Proof. exact exit_translate. Qed.
Print Assumptions C38_translate.
Example C38_translate_ex :
  exit_side (mkv (1 / 2) (1 / 4) 5) (mkv 1 (-1) 0) 1 1 = (2%nat, Some (1 / 4)).
Proof. exact C38_translate_case. Qed.
