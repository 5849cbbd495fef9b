(* Witnesses for surfaces of absorbing media. *)
From Coq Require Import Reals List Bool ZArith Lia Lra Psatz.
From Verif Require Import Base Lib Model_Optics Model_OpticsC Model_RayIface Spec_Optics Spec_OpticsC
  Proof_Angles Proof_Optics Proof_Geom Proof_OpticsProps Proof_OpticsC Proof_OpticsC2.
Import ListNotations.
Open Scope R_scope.

Lemma wave_unique n a k x : 0 < a -> 0 < k -> exists u v, normal_wave n a k x u v /\ 0 < u /\ 0 < v /\
  forall u' v', normal_wave n a k x u' v' -> u' = u /\ v' = v.
Proof.
  intros Ha Hk. set (D := a ^ 2 - k ^ 2 - (n * sin x) ^ 2). set (F := a * k). assert (HF : 0 < F) by (apply Rmult_lt_0_compat; auto).
  assert (P : 0 <= D ^ 2 + 4 * F ^ 2) by nra. set (M := sqrt (D ^ 2 + 4 * F ^ 2)).
  assert (MM : M * M = D ^ 2 + 4 * F ^ 2) by (apply sqrt_sqrt, P). assert (M0 : 0 <= M) by apply sqrt_pos.
  assert (B1 : D < M) by nra. assert (B2 : - D < M) by nra.
  set (u := sqrt ((M + D) / 2)). set (v := sqrt ((M - D) / 2)).
  assert (U : u * u = (M + D) / 2) by (apply sqrt_sqrt; lra). assert (V : v * v = (M - D) / 2) by (apply sqrt_sqrt; lra).
  assert (U0 : 0 < u) by (apply sqrt_lt_R0; lra). assert (V0 : 0 < v) by (apply sqrt_lt_R0; lra).
  assert (UV : u * v = F).
  { unfold u, v. rewrite <- sqrt_mult by lra. replace ((M + D) / 2 * ((M - D) / 2)) with (F * F) by (field_simplify; nra). apply sqrt_square. lra. }
  assert (E : u ^ 2 - v ^ 2 = D) by nra.
  exists u, v. split; [unfold normal_wave; fold D F; lra|]. split; [exact U0|]. split; [exact V0|].
  intros u' v' (H1 & H2 & H3 & H4). fold D F in H3, H4. apply root_unique; auto; lra.
Qed.

Lemma metal_total_reflection : exists n a k x u v d N rnd, 0 < n /\ 0 < a /\ 0 < k /\ 0 <= x < PI / 2 /\ normal_wave n a k x u v /\
  unit d /\ unit N /\ dot d N = - cos x /\ metal_R n a k x u v PolS < rnd < 1 /\
  snd (fst (fresnel_decision_c (creal n) (mkc a k) PolS 1%Z x d N rnd)) = 1%Z.
Proof.
  set (x := asin (3 / 5)). assert (Sx : sin x = 3 / 5) by (apply sin_asin; lra).
  assert (Hx : 0 <= x < PI / 2). { split; [rewrite <- asin_0; left; apply Proof_Angles.asin_lt; lra|]. apply asin_bound_lt. lra. }
  assert (Cx : cos x = 4 / 5). { unfold x. rewrite cos_asin by lra. replace (1 - (3 / 5)²) with ((4 / 5)²) by (unfold Rsqr; field). apply sqrt_Rsqr. lra. }
  destruct (wave_unique 1 (1 / 2) 3 x ltac:(lra) ltac:(lra)) as (u & v & W & U & V & _).
  assert (R1 : metal_R 1 (1 / 2) 3 x u v PolS < 1).
  { cbn [metal_R]. unfold metal_Rs. rewrite Cx. apply Rmult_lt_reg_r with ((1 * (4 / 5) + u) ^ 2 + v ^ 2); [nra|].
    unfold Rdiv at 1. rewrite Rmult_assoc, Rinv_l by nra. nra. }
  exists 1, (1 / 2), 3, x, u, v, (mkv (3 / 5) 0 (- (4 / 5))), (mkv 0 0 1), ((metal_R 1 (1 / 2) 3 x u v PolS + 1) / 2).
  split; [lra|]. split; [lra|]. split; [lra|]. split; [exact Hx|]. split; [exact W|].
  split; [unfold unit, dot; cbn; lra|]. split; [unfold unit, dot; cbn; lra|]. split; [unfold dot; cbn [vx vy vz]; lra|]. split; [lra|].
  unfold fresnel_decision_c. cbn [Z.eqb Pos.eqb]. unfold decide_RT_Fresnel_c.
  destruct (fresnel_Rc_cases (creal 1) (mkc (1 / 2) 3) x PolS ltac:(cbn; lra) ltac:(cbn; lra) Hx) as [Q _].
  rewrite Q by (cbn [re creal]; lra). destruct (Rleb _ 1) eqn:L; [reflexivity|]. apply Rleb_false in L. lra.
Qed.

Lemma directions_differ : exists ni nj x d N ent rnd d1 d2, optical_medium ni /\ optical_medium nj /\ 0 <= x < PI / 2 /\
  unit d /\ unit N /\ dot d N = - cos x /\ re ni * sin x < re nj /\
  fresnel_decision_c ni nj PolS 1%Z x d N rnd = (d1, (-1)%Z, None) /\
  table_decision_c ni nj ent 1%Z x d N rnd = (d2, (-1)%Z, None) /\ vx d1 = 3 / 5 /\ vx d2 = 3 / 10 / sqrt (91 / 100) /\ d1 <> d2.
Proof.
  set (x := asin (3 / 5)). assert (Sx : sin x = 3 / 5) by (apply sin_asin; lra).
  assert (Hx : 0 <= x < PI / 2). { split; [rewrite <- asin_0; left; apply Proof_Angles.asin_lt; lra|]. apply asin_bound_lt. lra. }
  assert (Cx : cos x = 4 / 5). { unfold x. rewrite cos_asin by lra. replace (1 - (3 / 5)²) with ((4 / 5)²) by (unfold Rsqr; field). apply sqrt_Rsqr. lra. }
  set (d := mkv (3 / 5) 0 (- (4 / 5))). set (N := mkv 0 0 1).
  assert (Hd : unit d) by (unfold unit, dot, d; cbn; lra). assert (HN : unit N) by (unfold unit, dot, N; cbn; lra).
  assert (Dd : dot d N = - (4 / 5)) by (unfold dot, d, N; cbn; lra).
  destruct (wave_unique 1 1 1 x ltac:(lra) ltac:(lra)) as (u & v & W & U & V & _).
  assert (M0 : optical_medium (creal 1)) by (split; cbn; lra). assert (M1 : optical_medium (mkc 1 1)) by (split; cbn; lra).
  assert (R1 : fresnel_Rc (creal 1) (mkc 1 1) x PolS < 9 / 10).
  { destruct (fresnel_Rc_cases (creal 1) (mkc 1 1) x PolS ltac:(cbn; lra) ltac:(cbn; lra) Hx) as [_ Q]. rewrite Q by (cbn [re creal]; lra).
    rewrite (calc_Rc_metal 1 1 1 x u v PolS) by (auto; lra). destruct W as (_ & _ & W1 & W2). rewrite Sx in W1.
    cbn [metal_R]. unfold metal_Rs. rewrite Cx.
    assert (Hu : 1 / 2 < u). { apply Rnot_le_lt. intros C. assert (v ^ 2 <= 61 / 100) by nra. assert ((u * v) ^ 2 <= 1 / 4 * (61 / 100)) by nra. nra. }
    assert (Hu2 : u < 2). { apply Rnot_le_lt. intros C. assert (v < u -> False). 2: nra. intros. nra. }
    assert (Hv : v < 3) by nra.
    apply Rmult_lt_reg_r with ((1 * (4 / 5) + u) ^ 2 + v ^ 2); [nra|].
    unfold Rdiv at 1. rewrite Rmult_assoc, Rinv_l by nra. nra. }
  set (rnd := 9 / 10) in *. set (ent := fun (_ : Z) (_ : R) => {| te_R := 0; te_T := 1; te_A := [] |}).
  pose proof (decide_cases_c (creal 1) (mkc 1 1) x d N 1%Z PolS rnd ltac:(cbn; lra) ltac:(cbn; lra) Hx Hd HN ltac:(lra) ltac:(unfold rnd; lra)) as Q.
  destruct (decide_RT_Fresnel_c (creal 1) (mkc 1 1) x d N 1%Z PolS rnd) as [[d1 s1] A1] eqn:E1.
  destruct Q as (-> & Un & [(Q1 & _)|(_ & -> & Q3)]); [lra|]. cbn [re creal] in Q3. destruct Q3 as [(_ & Q3)|(Q3 & _)]; [|lra].
  assert (X1 : vx d1 = 3 / 5).
  { destruct Q3 as [Q3 _]. pose proof (f_equal vx Q3) as Q4. unfold tang in Q4. cbn [vx vsub vscale N d] in Q4. fold N d in Q4. rewrite Dd in Q4. lra. }
  assert (T : refract_c (creal 1) (mkc 1 1) d N = mkv (3 / 10) 0 (- sqrt (82 / 100))).
  { rewrite refract_c_eq by (auto; cbn; lra). rewrite Dd. unfold ratio_abs2, cdiv, tang. cbn [re im creal]. rewrite Dd.
    replace (1 - (1 ^ 2 + 0 ^ 2) / (1 ^ 2 + 1 ^ 2) * (1 - - (4 / 5) * - (4 / 5))) with (82 / 100) by field.
    unfold real_sqrt. rewrite (proj2 (Rltb_false _ _)) by lra. unfold d, N, vadd, vsub, vscale. cbn [vx vy vz]. f_equal; field. }
  assert (X2 : vx (normalise (mkv (3 / 10) 0 (- sqrt (82 / 100)))) = 3 / 10 / sqrt (91 / 100)).
  { unfold normalise, norm. assert (E : dot (mkv (3 / 10) 0 (- sqrt (82 / 100))) (mkv (3 / 10) 0 (- sqrt (82 / 100))) = 91 / 100).
    { unfold dot. cbn [vx vy vz]. pose proof (sqrt_sqrt (82 / 100) ltac:(lra)). nra. }
    rewrite E. cbn [vx vscale]. unfold Rdiv. ring. }
  exists (creal 1), (mkc 1 1), x, d, N, ent, rnd, d1, (normalise (mkv (3 / 10) 0 (- sqrt (82 / 100)))).
  split; [exact M0|]. split; [exact M1|]. split; [exact Hx|]. split; [exact Hd|]. split; [exact HN|]. split; [lra|]. split; [cbn [re creal]; lra|].
  split; [exact E1|]. split.
  { unfold table_decision_c. cbn [Z.eqb Pos.eqb]. unfold decide_RT_TMM_c, ent, rnd. cbn [te_R te_T].
    rewrite (proj2 (Rleb_false _ _)) by lra. rewrite (proj2 (Rltb_true _ _)) by lra. rewrite (proj2 (Rleb_true _ _)) by lra. cbn [andb]. now rewrite T. }
  split; [exact X1|]. split; [exact X2|]. intros C. rewrite C, X2 in X1.
  assert (S : sqrt (91 / 100) * sqrt (91 / 100) = 91 / 100) by (apply sqrt_sqrt; lra). assert (S0 : 0 < sqrt (91 / 100)) by (apply sqrt_lt_R0; lra).
  assert (S1 : sqrt (91 / 100) = 1 / 2). { apply Rmult_eq_reg_l with (3 / 5); [|lra]. rewrite <- X1 at 1. field. lra. }
  rewrite S1 in S. lra.
Qed.

Lemma refract_c_straight n0 n1 d N : optical_medium n0 -> optical_medium n1 -> unit d -> unit N -> dot d N = - (1) ->
  refract_c n0 n1 d N = refract (re n0) (re n1) d N.
Proof.
  intros H0 H1 Hd HN D. assert (M : 0 < re n1 ^ 2 + im n1 ^ 2) by (destruct H1; nra).
  assert (T : tang d N = mkv 0 0 0).
  { pose proof (tang_sq d N HN) as S. rewrite D in S. replace (dot d d) with 1 in S by (symmetry; exact Hd).
    unfold dot in S. destruct (tang d N) as [a b c]. cbn [vx vy vz] in *. f_equal; nra. }
  rewrite <- (refract_c_real (re n0) (re n1)) by (destruct H1; lra).
  rewrite !refract_c_eq by (auto; destruct H1; cbn; nra). rewrite T, D. unfold vscale. cbn [vx vy vz]. rewrite !Rmult_0_r.
  replace (1 - - (1) * - (1)) with 0 by ring. rewrite !Rmult_0_r. reflexivity.
Qed.
