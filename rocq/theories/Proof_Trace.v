(* One ray on a flat surface. *)
From Coq Require Import Reals List ZArith Bool Lia Lra.
From Verif Require Import Base Lib Model_Angles Model_Ideal Model_Optics Model_RayIface Model_RT Model_Surface Model_RTStruct Model_Trace
  Spec_Optics Spec_Surface Spec_RTStruct Spec_Trace Proof_Optics Proof_Geom Proof_OpticsProps Proof_Surface Proof_RTStruct2.
From Verif Require Spec_TMM.
Import ListNotations.
Open Scope R_scope.

(* ---------- azimuth ---------- *)

Lemma cos_2kpi x (k : Z) : cos (x + IZR k * (2 * PI)) = cos x.
Proof.
  destruct (Z_le_gt_dec 0 k).
  - rewrite <- (Z2Nat.id k) by auto. rewrite <- INR_IZR_INZ. rewrite <- (cos_period x (Z.to_nat k)). f_equal. ring.
  - rewrite <- (cos_period (x + IZR k * (2 * PI)) (Z.to_nat (- k))). f_equal.
    rewrite INR_IZR_INZ, Z2Nat.id by lia. rewrite opp_IZR. ring.
Qed.
Lemma sin_2kpi x (k : Z) : sin (x + IZR k * (2 * PI)) = sin x.
Proof.
  destruct (Z_le_gt_dec 0 k).
  - rewrite <- (Z2Nat.id k) by auto. rewrite <- INR_IZR_INZ. rewrite <- (sin_period x (Z.to_nat k)). f_equal. ring.
  - rewrite <- (sin_period (x + IZR k * (2 * PI)) (Z.to_nat (- k))). f_equal.
    rewrite INR_IZR_INZ, Z2Nat.id by lia. rewrite opp_IZR. ring.
Qed.

(* atan2 recovers the azimuth, up to whole turns *)
Lemma atan2_azimuth k f : 0 < k -> exists z : Z, atan2 (k * sin f) (k * cos f) = f + IZR z * (2 * PI).
Proof.
  intros Hk. pose proof PI_RGT_0 as HP.
  destruct (pymod_congr (f + PI / 2) (2 * PI)) as [z Hz].
  pose proof (pymod_range (f + PI / 2) (2 * PI) ltac:(lra)) as Hr. rewrite Hz in Hr.
  set (f' := f + IZR z * (2 * PI)).
  assert (Hf : - (PI / 2) <= f' < 3 * (PI / 2)) by (unfold f'; lra).
  replace (sin f) with (sin f') by apply sin_2kpi. replace (cos f) with (cos f') by apply cos_2kpi.
  unfold atan2.
  destruct (Rlt_le_dec f' (PI / 2)) as [H1|H1].
  - destruct (Req_dec f' (- (PI / 2))) as [E|NE].
    + exists z. fold f'. rewrite E, cos_neg, sin_neg, cos_PI2, sin_PI2.
      destruct (Rltb 0 (k * 0)) eqn:A; [apply Rltb_true in A; lra|].
      destruct (Rltb (k * 0) 0) eqn:B; [apply Rltb_true in B; lra|].
      destruct (Rltb 0 (k * -(1))) eqn:D; [apply Rltb_true in D; lra|].
      destruct (Rltb (k * -(1)) 0) eqn:F; [lra|apply Rltb_false in F; lra].
    + exists z. fold f'. assert (C : 0 < cos f') by (apply cos_gt_0; lra).
      destruct (Rltb 0 (k * cos f')) eqn:A; [|apply Rltb_false in A; nra].
      replace (k * sin f' / (k * cos f')) with (tan f') by (unfold tan; field; lra). apply atan_tan. lra.
  - destruct (Req_dec f' (PI / 2)) as [E|NE].
    + exists z. fold f'. rewrite E, cos_PI2, sin_PI2.
      destruct (Rltb 0 (k * 0)) eqn:A; [apply Rltb_true in A; lra|].
      destruct (Rltb (k * 0) 0) eqn:B; [apply Rltb_true in B; lra|].
      destruct (Rltb 0 (k * 1)) eqn:D; [auto|apply Rltb_false in D; lra].
    + assert (C : cos f' < 0) by (apply cos_lt_0; lra).
      destruct (Rltb 0 (k * cos f')) eqn:A; [apply Rltb_true in A; nra|].
      destruct (Rltb (k * cos f') 0) eqn:B; [|apply Rltb_false in B; nra].
      assert (T : atan (k * sin f' / (k * cos f')) = f' - PI).
      { replace (k * sin f' / (k * cos f')) with (tan (f' - PI)); [apply atan_tan; lra|].
        unfold tan. rewrite sin_minus, cos_minus, sin_PI, cos_PI. field. split; lra. }
      rewrite T. destruct (Rltb (k * sin f') 0).
      * exists (z - 1)%Z. unfold f'. rewrite minus_IZR. ring.
      * exists z. unfold f'. ring.
Qed.

Lemma pointing_phi t f : 0 < sin t -> exists z : Z, atan2 (vy (pointing t f)) (vx (pointing t f)) = f + IZR z * (2 * PI).
Proof. intros H. unfold pointing. cbn [vx vy]. now apply atan2_azimuth. Qed.

Lemma pointing_unit t f : unit (pointing t f).
Proof.
  unfold unit, dot, pointing. cbn [vx vy vz].
  replace (sin t * cos f * (sin t * cos f) + sin t * sin f * (sin t * sin f) + cos t * cos t)
    with (sin t * sin t * (cos f * cos f + sin f * sin f) + cos t * cos t) by ring.
  rewrite cos_sin_sq. pose proof (cos_sin_sq t). lra.
Qed.

Lemma polar_pointing t f : 0 <= t <= PI -> polar (pointing t f) = t.
Proof.
  intros H. unfold polar. rewrite (norm_unit _ (pointing_unit t f)). unfold pointing. cbn [vz].
  unfold Rdiv. rewrite Rinv_1, Rmult_1_r. now apply acos_cos.
Qed.

(* ---------- a flat surface ---------- *)

Definition at_z (z0 : R) (T : tri) : Prop := vz (t_P0 T) = z0 /\ vz (t_P1 T) = z0 /\ vz (t_P2 T) = z0 /\ 0 < plan_area T.

Lemma at_z_cross z0 T : at_z z0 T -> t_cross T = mkv 0 0 (plan_area T).
Proof.
  intros (A & B & C & _). apply vec_ext; [| |apply t_cross_z]; unfold t_cross, cross, vsub; cbn [vx vy vz]; rewrite A, B, C; ring.
Qed.

Lemma at_z_N z0 T : at_z z0 T -> t_N T = mkv 0 0 1.
Proof.
  intros H. unfold t_N. rewrite (at_z_cross z0 T H). destruct H as (_ & _ & _ & P).
  assert (E : norm (mkv 0 0 (plan_area T)) = plan_area T).
  { unfold norm, dot. cbn [vx vy vz]. replace (0 * 0 + 0 * 0 + plan_area T * plan_area T) with (plan_area T * plan_area T) by ring.
    apply sqrt_square. lra. }
  rewrite E. unfold vscale. cbn [vx vy vz]. apply vec_ext; cbn [vx vy vz]; field; lra.
Qed.

Lemma at_z_meets z0 T r d t : at_z z0 T -> meets r d T t -> vz r + t * vz d = z0 /\ vz d <> 0 /\ 0 < t.
Proof.
  intros (A & B & C & P) (Ht & (u & v & _ & _ & _ & E) & Hd). split; [|split; auto].
  - apply (f_equal vz) in E. unfold vadd, vscale, vsub in E. cbn [vz] in E. rewrite A, B, C in E. lra.
  - intros Z. apply Hd. change (cross _ _) with (t_cross T). rewrite (at_z_cross z0 T (conj A (conj B (conj C P)))).
    unfold dot. cbn [vx vy vz]. rewrite Z. ring.
Qed.

(* a ray that has just left the plane does not meet it again *)
Lemma no_return z0 tris r d : (forall T, In T tris -> at_z z0 T) -> vz r = z0 + 1 / 10 ^ 9 * vz d -> check_intersect r d tris = None.
Proof.
  intros Hf Hr. apply check_intersect_none. intros T t HT Hm. destruct (at_z_meets z0 T r d t (Hf T HT) Hm) as (E & Hd & Ht).
  rewrite Hr in E. assert ((1 / 10 ^ 9 + t) * vz d = 0) by lra. apply Rmult_integral in H. destruct H; lra.
Qed.

Lemma translation_z Lx Ly w : vz (translation Lx Ly w) = 0.
Proof. unfold translation. destruct w as [|[|[|[|[|w]]]]]; reflexivity. Qed.

Section Ray.
  Variables (z0 a b : R) (E : env) (theta phi : R).
  Hypothesis Hflat : forall k, (forall T, In T (s_tris (e_surf E k)) -> at_z z0 T) /\ s_zmin (e_surf E k) = z0 /\ s_zmax (e_surf E k) = z0.
  Hypothesis Hcov : forall x y, 0 <= x < a -> 0 <= y < b -> exists T u v, In T (s_tris (e_surf E 0)) /\
    0 <= u /\ 0 <= v /\ u + v <= 1 /\ x = vx (t_P0 T) + u * (vx (t_P1 T) - vx (t_P0 T)) + v * (vx (t_P2 T) - vx (t_P0 T)) /\
    y = vy (t_P0 T) + u * (vy (t_P1 T) - vy (t_P0 T)) + v * (vy (t_P2 T) - vy (t_P0 T)).
  Hypothesis Ha : 0 < a.
  Hypothesis Hb : 0 < b.
  Hypothesis HLx : e_Lx E = a.
  Hypothesis HLy : e_Ly E = b.
  Hypothesis Ht : 0 <= theta < PI / 2.

  Let C : 0 < cos theta.
  Proof. apply cos_gt_0; lra. Qed.

  Definition down : vec := mkv (- (sin theta * cos phi)) (- (sin theta * sin phi)) (- cos theta).

  Lemma down_unit : unit down.
  Proof. apply (dir_unit theta phi). reflexivity. Qed.

  Lemma first_hit r : z0 < vz r -> crosses_cell 0 0 a b z0 r down -> exists h,
    check_pos (Some r) down (e_surf E 0) = Some h /\ vz (h_point h) = z0 /\ h_theta h = theta /\ h_N h = mkv 0 0 1.
  Proof.
    intros Hr (t & E1 & E2 & E3). cbn [check_pos].
    assert (T0 : 0 < t). { unfold down in E1. cbn [vz] in E1. apply Rnot_le_lt. intros L. nra. }
    destruct (check_intersect r down (s_tris (e_surf E 0))) as [hh|] eqn:K.
    - exists hh. split; auto. destruct (check_intersect_some _ _ _ _ K) as (T & t1 & HT & Hm & Hp & HN & Hth & _).
      pose proof (proj1 (Hflat 0) T HT) as Hz. destruct (at_z_meets z0 T r down t1 Hz Hm) as (Q1 & Q2 & Q3).
      rewrite Hp, HN, Hth. rewrite (at_z_N z0 T Hz). split; [|split; auto].
      + unfold vadd, vscale. cbn [vz]. exact Q1.
      + assert (N1 : norm (cross (mkv 0 0 1) (vneg down)) = sin theta).
        { unfold norm, dot, cross, vneg, down. cbn [vx vy vz].
          match goal with |- sqrt ?x = _ => replace x with (sin theta * sin theta * (cos phi * cos phi + sin phi * sin phi)) by ring end.
          rewrite cos_sin_sq, Rmult_1_r. apply sqrt_square. apply sin_nonneg. lra. }
        rewrite N1. replace (dot (mkv 0 0 1) (vneg down)) with (cos theta) by (unfold dot, vneg, down; cbn [vx vy vz]; ring).
        change (sin theta / cos theta) with (tan theta). apply atan_tan. lra.
    - exfalso. rewrite check_intersect_none in K.
      destruct (Hcov (vx r + t * vx down) (vy r + t * vy down)) as (T & u & v & HT & U & V & UV & X & Y); [lra|lra|].
      apply (K T t HT). pose proof (proj1 (Hflat 0) T HT) as Hz. split; [exact T0|]. split.
      + exists u, v. unfold tol. split; [lra|]. split; [lra|]. split; [lra|].
        destruct Hz as (Z1 & Z2 & Z3 & _). apply vec_ext; unfold vadd, vscale, vsub; cbn [vx vy vz].
        * rewrite X. ring.
        * rewrite Y. ring.
        * rewrite E1, Z1, Z2, Z3. ring.
      + change (cross _ _) with (t_cross T). rewrite (at_z_cross z0 T Hz). unfold dot, down. cbn [vx vy vz].
        destruct Hz as (_ & _ & _ & P). nra.
  Qed.

  (* one meeting with the surface, whatever decides its outcome *)
  Lemma flat_check r fuel : z0 < vz r -> crosses_cell 0 0 a b z0 r down ->
    let '(d', s', A) := e_dec E 1%Z theta down (mkv 0 0 1) (e_rnd E 0) in
    match A with
    | Some A => exists p, single_interface_check (S fuel) E (Some r) down 1 0 =
        Some (Ok {| r_out := OAbsorbed A; Model_RayIface.r_pos := p; r_dir := d'; r_loc := theta; r_nint := 1; r_side := s' |})
    | None => (s' = 1%Z /\ 0 < vz d') \/ (s' = (-1)%Z /\ vz d' < 0) ->
        exists p, single_interface_check (3 + fuel) E (Some r) down 1 0 =
          Some (Ok {| r_out := if Rltb 0 (vz d') then OReflected (polar d') else OTransmitted (polar d'); Model_RayIface.r_pos := p; r_dir := d';
                      r_loc := theta; r_nint := 1; r_side := s' |})
    end.
  Proof.
    intros Hr Hc. destruct (first_hit r Hr Hc) as (hh & K1 & K2 & K3 & K4).
    destruct (e_dec E 1%Z theta down (mkv 0 0 1) (e_rnd E 0)) as [[d' s'] A] eqn:D.
    assert (N1 : vscale (IZR 1) (h_N hh) = mkv 0 0 1) by (rewrite K4; unfold vscale; cbn [vx vy vz]; apply vec_ext; cbn [vx vy vz]; ring).
    destruct A as [A|].
    - eexists. unfold single_interface_check. cbn [irun]. unfold istep. cbn [istart i_r i_d i_side i_checked i_misses i_i1 i_theta i_nint i_ref].
      rewrite K1, K3, N1, D. reflexivity.
    - intros Hs. unfold single_interface_check. change (3 + fuel)%nat with (S (S (S fuel))). cbn [irun].
      unfold istep at 1. cbn [istart i_r i_d i_side i_checked i_misses i_i1 i_theta i_nint i_ref].
      rewrite K1, K3, N1, D.
      set (r1 := vadd (h_point hh) (vscale (1 / 10 ^ 9) d')).
      assert (Z1 : vz r1 = z0 + 1 / 10 ^ 9 * vz d') by (unfold r1, vadd, vscale; cbn [vz]; rewrite K2; ring).
      unfold istep at 1. cbn [i_r i_d i_side i_checked i_misses i_i1 i_theta i_nint i_ref]. cbn [check_pos].
      rewrite (no_return z0) by (auto; apply Hflat). cbn [negb Nat.ltb Nat.leb].
      set (r2 := vadd r1 _).
      assert (Z2 : vz r2 = z0 + 1 / 10 ^ 9 * vz d').
      { unfold r2, vadd. cbn [vz]. rewrite translation_z, Z1. ring. }
      unfold istep at 1. cbn [i_r i_d i_side i_checked i_misses i_i1 i_theta i_nint i_ref]. cbn [check_pos].
      rewrite (no_return z0) by (auto; apply Hflat). cbn [negb].
      assert (SI : still_inside s' d' (Some r2) (e_surf E 1) = false).
      { unfold still_inside. destruct Hs as [[-> P]|[-> P]]; cbn [Z.eqb Pos.eqb andb].
        - destruct (Rltb (vz d') 0) eqn:L; [apply Rltb_true in L; lra|]. reflexivity.
        - destruct (Rltb 0 (vz d')) eqn:L; [apply Rltb_true in L; lra|]. reflexivity. }
      rewrite SI. eexists. f_equal. f_equal.
      replace (Z.eqb (sgn (vz down)) (sgn (vz d'))) with (negb (Rltb 0 (vz d'))).
      + destruct (Rltb 0 (vz d')); reflexivity.
      + unfold sgn, down at 1. cbn [vz].
        destruct (Rltb (- cos theta) 0) eqn:L; [|apply Rltb_false in L; lra].
        destruct Hs as [[_ P]|[_ P]].
        * destruct (Rltb 0 (vz d')) eqn:L2; [|apply Rltb_false in L2; lra].
          destruct (Rltb (vz d') 0) eqn:L3; [apply Rltb_true in L3; lra|]. reflexivity.
        * destruct (Rltb 0 (vz d')) eqn:L2; [apply Rltb_true in L2; lra|].
          destruct (Rltb (vz d') 0) eqn:L3; [|apply Rltb_false in L3; lra]. reflexivity.
  Qed.

  Lemma flat_ray x y outer fuel : z0 + 1 / 10 ^ 8 <> 0 ->
    let '(d', s', A) := e_dec E 1%Z theta down (mkv 0 0 1) (e_rnd E 0) in
    match A with
    | Some A => single_ray_interface (S outer) (S fuel) [(E, z0)] (start_vector z0 theta phi) x y =
        Some (Ok {| ro_theta := 10; ro_A := Some A; ro_loc := theta; ro_dir := d'; ro_checks := 1 |})
    | None => (s' = 1%Z /\ 0 < vz d') \/ (s' = (-1)%Z /\ vz d' < 0) ->
        single_ray_interface (S outer) (3 + fuel) [(E, z0)] (start_vector z0 theta phi) x y =
        Some (Ok {| ro_theta := polar d'; ro_A := None; ro_loc := 10; ro_dir := d'; ro_checks := 1 |})
    end.
  Proof.
    intros Hz. assert (Hz' : z0 <> - (1 / 10 ^ 8)) by lra.
    pose proof (first_ok z0 theta phi x y Ht Hz') as F.
    assert (EQ : forall fu, single_ray_interface (S outer) fu [(E, z0)] (start_vector z0 theta phi) x y =
      ray_iface (S outer) fu [(E, z0)] (Some (fst (first_ray (start_vector z0 theta phi) x y)))
        (snd (first_ray (start_vector z0 theta phi) x y)) 1 0 0 0) by reflexivity.
    destruct (first_ray (start_vector z0 theta phi) x y) as [p d]. cbn [fst snd] in EQ.
    destruct F as (F1 & F2 & F3 & _). assert (Dd : d = down) by exact F1. subst d.
    assert (Vd : vz down <> 0) by (unfold down; cbn [vz]; lra).
    destruct (place_zero a b z0 p down Ha Hb Vd) as (r & P1 & P2 & P3 & _).
    assert (Hr : z0 < vz r) by lra.
    pose proof (fun fu => flat_check r fu Hr P3) as K.
    destruct (e_dec E 1%Z theta down (mkv 0 0 1) (e_rnd E 0)) as [[d' s'] A].
    assert (ST : forall fu, ray_iface (S outer) fu [(E, z0)] (Some p) down 1 0 0 0 =
       match single_interface_check fu E (Some r) down 1 0 with
          | None => None
          | Some (Err e) => Some (Err e)
          | Some (Ok res) =>
              match r_out res with
              | OReflected th | OTransmitted th =>
                Some (Ok {| ro_theta := th; ro_A := None; ro_loc := 10; ro_dir := r_dir res; ro_checks := 1 |})
              | OAbsorbed A =>
                Some (Ok {| ro_theta := 10; ro_A := Some A; ro_loc := r_loc res; ro_dir := r_dir res; ro_checks := 1 |})
              end
          end).
    { intros fu. cbn [ray_iface]. change (py_index [(E, z0)] 0) with (Ok (E, z0)). cbv iota beta. rewrite HLx, HLy, P1.
      destruct (single_interface_check fu E (Some r) down 1 0) as [[res|e]|]; auto. }
    destruct A as [A|].
    - rewrite EQ, ST. destruct (K fuel) as [q ->]. reflexivity.
    - intros Hs. destruct (K fuel Hs) as [q Q]. rewrite EQ, ST, Q. cbn [r_out r_dir]. destruct (Rltb 0 (vz d')); reflexivity.
  Qed.
End Ray.
