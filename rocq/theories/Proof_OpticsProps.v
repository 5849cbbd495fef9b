(* Composite lemmas used by Prop_Optics.v. *)
From Coq Require Import Reals List Bool ZArith Lra Lia Psatz.
From Verif Require Import Base Lib Model_Optics Spec_Optics Proof_Optics Proof_Geom.
Import ListNotations.
Open Scope R_scope.

Lemma fresnel_abs n0 n1 th p : fresnel_R n0 n1 th p = fresnel_R n0 n1 (Rabs th) p.
Proof. unfold fresnel_R. rewrite Rabs_Rabsolu. reflexivity. Qed.

Lemma decide_abs n0 n1 th d N side p rnd :
  decide_RT_Fresnel n0 n1 th d N side p rnd = decide_RT_Fresnel n0 n1 (Rabs th) d N side p rnd.
Proof. unfold decide_RT_Fresnel. rewrite fresnel_abs. reflexivity. Qed.

Lemma cos_Rabs x : cos (Rabs x) = cos x.
Proof. unfold Rabs. destruct (Rcase_abs x); [apply cos_neg|reflexivity]. Qed.

Lemma hit_facts r d surf h side : unit d -> check_intersect r d surf = Some h ->
  (side = 1 \/ side = -1)%Z ->
  let N := vscale (IZR side) (h_N h) in
  unit N /\ 0 <= Rabs (h_theta h) < PI / 2 /\ cos (Rabs (h_theta h)) = Rabs (dot d N) /\ dot d N <> 0.
Proof.
  intros Hd Hc Hs N. destruct (check_intersect_some _ _ _ _ Hc) as (T & t & Hin & Hm & Hp & HN & Hth & Hmin).
  pose proof (t_N_unit T (meets_cross _ _ _ _ Hm)) as HU.
  pose proof (meets_N _ _ _ _ Hm) as Hne.
  assert (Hq : dot (t_N T) (vneg d) <> 0).
  { replace (dot (t_N T) (vneg d)) with (- dot d (t_N T)) by (vexp; ring). lra. }
  destruct (angle_formula (t_N T) d HU Hd Hq) as (Hr & Hcos & _ & _).
  rewrite <- Hth in Hr, Hcos.
  assert (HsR : IZR side = 1 \/ IZR side = -1) by (destruct Hs as [-> | ->]; [left|right]; reflexivity).
  assert (EN : dot d N = IZR side * dot d (t_N T)) by (unfold N; rewrite HN; vexp; ring).
  assert (EA : Rabs (dot d N) = Rabs (dot d (t_N T))).
  { rewrite EN, Rabs_mult. destruct HsR as [-> | ->]; [rewrite Rabs_R1|rewrite (Rabs_left (-1)) by lra]; ring. }
  split.
  - unfold unit, N. rewrite dot_scale_scale, HN. replace (dot (t_N T) (t_N T)) with 1 by (symmetry; exact HU).
    destruct HsR as [-> | ->]; ring.
  - split; [split; [apply Rabs_pos|apply Rabs_def1; lra]|]. split.
    + rewrite cos_Rabs, EA. exact Hcos.
    + rewrite EN. destruct HsR as [-> | ->]; lra.
Qed.

Lemma interaction r d surf h side n0 n1 p rnd :
  unit d -> 0 < n0 -> 0 < n1 -> rnd < 1 ->
  check_intersect r d surf = Some h -> (side = 1 \/ side = -1)%Z ->
  dot d (vscale (IZR side) (h_N h)) < 0 ->
  let '(d', s', A) :=
    decide_RT_Fresnel n0 n1 (h_theta h) d (vscale (IZR side) (h_N h)) side p rnd in
  A = None /\ unit d' /\
  ((s' = side /\ mirror_law d d' (h_N h)) \/
   (s' = (- side)%Z /\ snell_law n0 n1 d d' (h_N h))).
Proof.
  intros Hd H0 H1 Hr Hc Hs Hf.
  destruct (hit_facts r d surf h side Hd Hc Hs) as (HU & Hth & Hcos & _).
  rewrite (Rabs_left (dot d _)) in Hcos by exact Hf.
  pose proof (decide_cases n0 n1 (Rabs (h_theta h)) d (vscale (IZR side) (h_N h)) side p rnd
                H0 H1 Hth Hd HU ltac:(lra) Hr) as H.
  rewrite <- decide_abs in H.
  destruct (decide_RT_Fresnel n0 n1 (h_theta h) d (vscale (IZR side) (h_N h)) side p rnd) as [[d' s'] A].
  destruct H as (HA & Hu & Hcase). split; [exact HA|]. split; [exact Hu|].
  assert (Hs2 : IZR side * IZR side = 1) by (destruct Hs as [-> | ->]; ring).
  assert (Hdot : forall v, dot v (vscale (IZR side) (h_N h)) = IZR side * dot v (h_N h)) by (intros; vexp; ring).
  assert (Htan : forall v, tang v (vscale (IZR side) (h_N h)) = tang v (h_N h)).
  { intros v. unfold tang. rewrite Hdot. apply vec_ext; unfold vsub, vscale; cbn [vx vy vz];
      match goal with |- ?a - IZR side * ?x * (IZR side * ?y) = _ =>
        replace (IZR side * x * (IZR side * y)) with (IZR side * IZR side * (x * y)) by ring end;
      rewrite Hs2; ring. }
  destruct Hcase as [(_ & Es & E1 & E2)|(_ & Es & _ & E1 & E2)]; [left|right]; (split; [exact Es|]).
  - rewrite !Htan in E2. rewrite !Hdot in E1. split; [|exact E2].
    destruct Hs as [-> | ->]; lra.
  - rewrite !Htan in E1. split; [exact E1|]. rewrite !Hdot in E2.
    replace (dot d (h_N h) * dot d' (h_N h))
      with (IZR side * dot d (h_N h) * (IZR side * dot d' (h_N h))); [exact E2|].
    transitivity (IZR side * IZR side * (dot d (h_N h) * dot d' (h_N h))); [ring|rewrite Hs2; ring].
Qed.

(* the lookup-table version, for a real index and below the critical angle *)
Lemma interaction_TMM e n0 n1 x d N side rnd :
  0 < n0 -> 0 < n1 -> 0 <= x < PI / 2 -> unit d -> unit N -> dot d N = - cos x -> n0 * sin x < n1 ->
  let '(d', s', A) := decide_RT_TMM e n0 n1 d N side rnd in
  unit d' /\
  ((A = None /\ s' = side /\ mirror_law d d' N) \/
   (A = None /\ s' = (- side)%Z /\ snell_law n0 n1 d d' N) \/
   (A = Some (te_A e) /\ s' = side /\ d' = d)).
Proof.
  intros H0 H1 Hx Hd HN Hdot Hlt. unfold decide_RT_TMM.
  pose proof (cos_pos x Hx) as Cx.
  destruct (Rleb rnd (te_R e)) eqn:E.
  - rewrite normalise_unit by (apply reflect_unit; assumption).
    split; [apply reflect_unit; assumption|]. left.
    split; [reflexivity|]. split; [reflexivity|]. apply reflect_law, HN.
  - destruct (_ && _) eqn:E2.
    + pose proof (snell_arg n0 n1 x H0 H1 Hx ltac:(lra)) as Ha.
      assert (Ha1 : n0 / n1 * sin x < 1).
      { replace (n0 / n1 * sin x) with ((n0 * sin x) / n1) by (field; lra).
        apply Rmult_lt_reg_r with n1; [lra|]. unfold Rdiv. rewrite Rmult_assoc, Rinv_l by lra. lra. }
      assert (Es : (n0 / n1) * (n0 / n1) * (1 - dot d N * dot d N) = (n0 / n1 * sin x) * (n0 / n1 * sin x)).
      { rewrite Hdot. pose proof (cos_sin_sq x).
        replace (1 - - cos x * - cos x) with (sin x * sin x) by lra. ring. }
      assert (Hlt1 : (n0 / n1) * (n0 / n1) * (1 - dot d N * dot d N) < 1) by (rewrite Es; nra).
      assert (Hle1 : (n0 / n1) * (n0 / n1) * (1 - dot d N * dot d N) <= 1) by lra.
      pose proof (refract_unit n0 n1 d N HN Hd Hle1) as Hu.
      rewrite normalise_unit by exact Hu. split; [exact Hu|]. right. left.
      split; [reflexivity|]. split; [reflexivity|].
      split; [exact (refract_tang n0 n1 d N HN Hd Hle1)|].
      rewrite (refract_normal n0 n1 d N HN Hd Hle1), Hdot.
      assert (0 < sqrt (1 - n0 / n1 * (n0 / n1) * (1 - dot d N * dot d N))) by (apply sqrt_lt_R0; lra).
      rewrite Hdot in H. nra.
    + split; [exact Hd|]. right. right. repeat split.
Qed.

Lemma tir n0 n1 th d N side p rnd :
  0 < n0 -> 0 < n1 -> - (PI / 2) < th < PI / 2 -> n1 < n0 * sin (Rabs th) -> rnd < 1 ->
  unit d -> unit N ->
  let '(d', s', A) := decide_RT_Fresnel n0 n1 th d N side p rnd in
  A = None /\ s' = side /\ unit d' /\ mirror_law d d' N.
Proof.
  intros H0 H1 Hth Hc Hr Hd HN. unfold decide_RT_Fresnel.
  assert (Hx : 0 <= Rabs th < PI / 2) by (split; [apply Rabs_pos|apply Rabs_def1; lra]).
  destruct (fresnel_R_cases n0 n1 (Rabs th) p H0 H1 Hx) as [Ht _].
  rewrite fresnel_abs, Ht by exact Hc.
  rewrite (proj2 (Rleb_true rnd 1)) by lra.
  rewrite normalise_unit by (apply reflect_unit; assumption).
  split; [reflexivity|]. split; [reflexivity|]. split; [apply reflect_unit; assumption|].
  apply reflect_law, HN.
Qed.

Lemma refraction_defined n0 n1 th d N p :
  0 < n0 -> 0 < n1 -> - (PI / 2) < th < PI / 2 -> unit d -> unit N -> Rabs (dot d N) = cos th ->
  fresnel_R n0 n1 th p < 1 ->
  0 <= n0 / n1 * sin (Rabs th) <= 1 /\ 0 < 1 - norm (vscale (n0 / n1) (tang d N)) ^ 2.
Proof.
  intros H0 H1 Hth Hd HN Hcos HR.
  assert (Hx : 0 <= Rabs th < PI / 2) by (split; [apply Rabs_pos|apply Rabs_def1; lra]).
  rewrite fresnel_abs in HR.
  destruct (fresnel_R_cases n0 n1 (Rabs th) p H0 H1 Hx) as [Ht Hb].
  assert (Hlt : n0 * sin (Rabs th) < n1).
  { destruct (Rtotal_order (n0 * sin (Rabs th)) n1) as [Hl|[He|Hg]]; [exact Hl| |].
    - rewrite Hb, (calc_R_critical n0 n1 (Rabs th)) in HR by lra. lra.
    - rewrite Ht in HR by lra. lra. }
  pose proof (snell_arg n0 n1 (Rabs th) H0 H1 Hx ltac:(lra)) as Ha.
  split; [exact Ha|].
  assert (Ha1 : n0 / n1 * sin (Rabs th) < 1).
  { replace (n0 / n1 * sin (Rabs th)) with ((n0 * sin (Rabs th)) / n1) by (field; lra).
    apply Rmult_lt_reg_r with n1; [lra|]. unfold Rdiv. rewrite Rmult_assoc, Rinv_l by lra. lra. }
  unfold tang. rewrite par_sq by assumption.
  assert (E : dot d N * dot d N = cos (Rabs th) * cos (Rabs th)).
  { rewrite cos_Rabs, <- Hcos, <- Rabs_mult. symmetry. apply Rabs_pos_eq. nra. }
  rewrite E. pose proof (cos_sin_sq (Rabs th)).
  replace (1 - cos (Rabs th) * cos (Rabs th)) with (sin (Rabs th) * sin (Rabs th)) by lra.
  nra.
Qed.

(* ---------- a lookup table transmits beyond the critical angle ---------- *)

Definition ce_x : R := atan (5 / 12).
Lemma ce_facts : cos ce_x = 12 / 13 /\ sin ce_x = 5 / 13 /\ 0 < ce_x < PI / 6.
Proof.
  assert (Hq : sqrt (1 + (5 / 12)²) = 13 / 12).
  { replace (1 + (5 / 12)²) with ((13 / 12) * (13 / 12)) by (unfold Rsqr; field). apply sqrt_square. lra. }
  assert (Hc : cos ce_x = 12 / 13) by (unfold ce_x; rewrite cos_atan, Hq; field).
  assert (Hs : sin ce_x = 5 / 13) by (unfold ce_x; rewrite sin_atan, Hq; field).
  split; [exact Hc|]. split; [exact Hs|].
  assert (H0 : 0 < ce_x) by (unfold ce_x; rewrite <- atan_0; apply atan_increasing; lra).
  split; [exact H0|].
  destruct (Rlt_or_le ce_x (PI / 6)) as [|Hge]; [assumption|]. exfalso.
  pose proof (atan_bound (5 / 12)) as Hb. fold ce_x in Hb. pose proof PI_RGT_0.
  assert (sin (PI / 6) <= sin ce_x) by (apply sin_incr_1; lra).
  rewrite sin_PI6, Hs in H1. lra.
Qed.

Lemma lookup_beyond_critical :
  exists angles entries n0 n1 theta d N rnd,
    0 < n1 /\ 0 <= theta < PI / 2 /\ unit d /\ unit N /\ dot d N = - cos theta /\
    n1 < n0 * sin theta /\ 0 <= rnd < 1 /\
    length entries = length angles /\
    nth 0 angles 1 = 0 /\ nth 0 entries {| te_R := 0; te_T := 0; te_A := [] |} =
      {| te_R := calc_R n0 n1 0 PolS; te_T := 1 - calc_R n0 n1 0 PolS; te_A := [] |} /\
    exists d', decide_RT_lookup angles entries n0 n1 theta d N 1 rnd = Ok (d', (-1)%Z, None) /\ dot d' N = 0.
Proof.
  destruct ce_facts as (Hc & Hs & Hx0 & Hx1). pose proof PI_RGT_0 as HPI. pose proof PI2_3_2 as HP2.
  exists [0; PI / 2 - 1 / 1000],
    [{| te_R := calc_R 3 1 0 PolS; te_T := 1 - calc_R 3 1 0 PolS; te_A := [] |};
     {| te_R := 1; te_T := 0; te_A := [] |}], 3, 1, ce_x,
    (mkv (5 / 13) 0 (- (12 / 13))), (mkv 0 0 1), (1 / 2).
  rewrite calc_R_normal by lra.
  repeat match goal with |- _ /\ _ => split end; try lra; try reflexivity;
    try (unfold unit, dot; cbn [vx vy vz]; lra).
  unfold decide_RT_lookup, nearest. rewrite (Rabs_pos_eq ce_x) by lra.
  cbn [map argmin argmin_go].
  rewrite (Rabs_left (0 - ce_x)) by lra. rewrite (Rabs_pos_eq (PI / 2 - 1 / 1000 - ce_x)) by lra.
  destruct (Rltb (PI / 2 - 1 / 1000 - ce_x) (- (0 - ce_x))) eqn:E; [apply Rltb_true in E; lra|].
  cbn [rbind nth_error]. unfold decide_RT_TMM. cbn [te_R te_T te_A].
  assert (ER : ((3 - 1) / (3 + 1)) ^ 2 = 1 / 4) by field. rewrite ER.
  destruct (Rleb (1 / 2) (1 / 4)) eqn:E1; [apply Rleb_true in E1; lra|].
  destruct (Rltb (1 / 4) (1 / 2)) eqn:E2; [|apply Rltb_false in E2; lra].
  destruct (Rleb (1 / 2) (1 / 4 + (1 - 1 / 4))) eqn:E3; [|apply Rleb_false in E3; lra].
  cbn [andb Z.opp]. eexists. split; [reflexivity|].
  unfold refract. rewrite par_sq; try lra; try (unfold unit, dot; cbn [vx vy vz]; lra).
  unfold real_sqrt.
  match goal with |- context [Rltb ?a 0] => destruct (Rltb a 0) eqn:E4 end.
  - unfold normalise.
    match goal with |- dot (vscale ?c ?v) ?N = 0 => generalize c; intros c0 end.
    unfold dot, vscale, vadd, vsub; cbn [vx vy vz]. ring.
  - apply Rltb_false in E4. revert E4. unfold dot; cbn [vx vy vz]. lra.
Qed.
