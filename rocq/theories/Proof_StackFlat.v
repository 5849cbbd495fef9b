(* Rays through planar stacks. *)
From Coq Require Import Reals List Bool ZArith Lia Lra.
From Verif Require Import Base Lib Model_Angles Model_Optics Model_OpticsC Model_RayIface Model_RayStack Model_Surface Model_RTStruct Model_Trace Model_StackRay
  Spec_Optics Spec_OpticsC Spec_RayIface Spec_RayStack Spec_Surface Spec_RTStruct Spec_Trace Spec_StackRay
  Proof_Optics Proof_Geom Proof_OpticsProps Proof_OpticsC2 Proof_OpticsC3 Proof_Surface Proof_RayStack Proof_RTStruct2 Proof_Trace Proof_StackRay.
Import ListNotations.
Open Scope R_scope.

(* light with azimuth f going down (1) or up (-1) at the angle psi with the normal *)
Definition travel (dir : Z) (psi f : R) : vec := mkv (sin psi * cos f) (sin psi * sin f) (- IZR dir * cos psi).
Definition facing_normal (dir : Z) : vec := vscale (IZR dir) (mkv 0 0 1).

Lemma travel_pointing dir psi f : pm1 dir -> travel dir psi f = pointing (polar_of dir psi) f.
Proof.
  intros [-> | ->]; unfold travel, pointing, polar_of; cbn [Z.eqb Pos.eqb]; apply vec_ext; cbn [vx vy vz];
    rewrite ?sin_PI_x, ?Rtrigo_facts.cos_pi_minus; lra.
Qed.

Lemma travel_unit dir psi f : pm1 dir -> unit (travel dir psi f).
Proof. intros H. rewrite travel_pointing by auto. apply pointing_unit. Qed.

Lemma normal_unit dir : pm1 dir -> unit (facing_normal dir).
Proof. intros [-> | ->]; unfold unit, facing_normal, dot, vscale; cbn [vx vy vz]; ring. Qed.

Lemma travel_dot dir psi f : pm1 dir -> dot (travel dir psi f) (facing_normal dir) = - cos psi.
Proof. intros [-> | ->]; unfold dot, facing_normal, travel, vscale; cbn [vx vy vz]; ring. Qed.

Section Check.
  Variables (z0 a b : R) (E : env) (dir : Z) (psi f : R) (n : nat).
  Hypothesis Hflat : forall k, (forall T, In T (s_tris (e_surf E k)) -> at_z z0 T) /\ s_zmin (e_surf E k) = z0 /\ s_zmax (e_surf E k) = z0.
  Hypothesis Hcov : forall x y, 0 <= x < a -> 0 <= y < b -> exists T u v, In T (s_tris (e_surf E 0)) /\
    0 <= u /\ 0 <= v /\ u + v <= 1 /\ x = vx (t_P0 T) + u * (vx (t_P1 T) - vx (t_P0 T)) + v * (vx (t_P2 T) - vx (t_P0 T)) /\
    y = vy (t_P0 T) + u * (vy (t_P1 T) - vy (t_P0 T)) + v * (vy (t_P2 T) - vy (t_P0 T)).
  Hypothesis Hdir : pm1 dir.
  Hypothesis Ht : 0 <= psi < PI / 2.

  Let C : 0 < cos psi.
  Proof. apply cos_gt_0; lra. Qed.

  Let d := travel dir psi f.

  Lemma dir_hit r : 0 < (vz r - z0) * IZR dir -> crosses_cell 0 0 a b z0 r d -> exists h,
    check_pos (Some r) d (e_surf E 0) = Some h /\ vz (h_point h) = z0 /\ h_theta h = IZR dir * psi /\ h_N h = mkv 0 0 1.
  Proof.
    intros Hr (t & E1 & E2 & E3). cbn [check_pos].
    assert (T0 : 0 < t). { unfold d, travel in E1. cbn [vz] in E1. apply Rnot_le_lt. intros L. destruct Hdir as [-> | ->]; nra. }
    destruct (check_intersect r d (s_tris (e_surf E 0))) as [hh|] eqn:K.
    - exists hh. split; auto. destruct (check_intersect_some _ _ _ _ K) as (T & t1 & HT & Hm & Hp & HN & Hth & _).
      pose proof (proj1 (Hflat 0) T HT) as Hz. destruct (at_z_meets z0 T r d t1 Hz Hm) as (Q1 & Q2 & Q3).
      rewrite Hp, HN, Hth. rewrite (at_z_N z0 T Hz). split; [|split; auto].
      + unfold vadd, vscale. cbn [vz]. exact Q1.
      + assert (N1 : norm (cross (mkv 0 0 1) (vneg d)) = sin psi).
        { unfold norm, dot, cross, vneg, d, travel. cbn [vx vy vz].
          match goal with |- sqrt ?x = _ => replace x with (sin psi * sin psi * (cos f * cos f + sin f * sin f)) by ring end.
          rewrite cos_sin_sq, Rmult_1_r. apply sqrt_square. apply sin_nonneg. lra. }
        rewrite N1. replace (dot (mkv 0 0 1) (vneg d)) with (IZR dir * cos psi) by (unfold dot, vneg, d, travel; cbn [vx vy vz]; ring).
        destruct Hdir as [-> | ->].
        * rewrite !Rmult_1_l. change (sin psi / cos psi) with (tan psi). apply atan_tan. lra.
        * replace (sin psi / (-1 * cos psi)) with (- tan psi) by (unfold tan; field; lra). rewrite atan_opp, atan_tan by lra. ring.
    - exfalso. rewrite check_intersect_none in K.
      destruct (Hcov (vx r + t * vx d) (vy r + t * vy d)) as (T & u & v & HT & U & V & UV & X & Y); [lra|lra|].
      apply (K T t HT). pose proof (proj1 (Hflat 0) T HT) as Hz. split; [exact T0|]. split.
      + exists u, v. unfold tol. split; [lra|]. split; [lra|]. split; [lra|].
        destruct Hz as (Z1 & Z2 & Z3 & _). apply vec_ext; unfold vadd, vscale, vsub; cbn [vx vy vz].
        * rewrite X. ring.
        * rewrite Y. ring.
        * rewrite E1, Z1, Z2, Z3. ring.
      + change (cross _ _) with (t_cross T). rewrite (at_z_cross z0 T Hz). unfold dot, d, travel. cbn [vx vy vz].
        destruct Hz as (_ & _ & _ & P). assert (0 < plan_area T * cos psi) by nra. destruct Hdir as [-> | ->]; nra.
  Qed.

  (* one meeting with the surface, whatever decides its outcome *)
  Lemma dir_check r fuel : 0 < (vz r - z0) * IZR dir -> crosses_cell 0 0 a b z0 r d ->
    let '(d', s', A) := e_dec E dir (IZR dir * psi) d (facing_normal dir) (e_rnd E n) in
    match A with
    | Some A => exists p, single_interface_check (3 + fuel) E (Some r) d dir n =
        Some (Ok {| r_out := OAbsorbed A; Model_RayIface.r_pos := p; r_dir := d'; r_loc := IZR dir * psi; r_nint := S n; r_side := s' |})
    | None => (s' = 1%Z /\ 0 < vz d') \/ (s' = (-1)%Z /\ vz d' < 0) ->
        exists p, vz p = z0 + 1 / 10 ^ 9 * vz d' /\ single_interface_check (3 + fuel) E (Some r) d dir n =
          Some (Ok {| r_out := if Z.eqb s' dir then OReflected (polar d') else OTransmitted (polar d');
                      Model_RayIface.r_pos := Some p; r_dir := d';
                      r_loc := IZR dir * psi; r_nint := S n; r_side := s' |})
    end.
  Proof.
    intros Hr Hc. destruct (dir_hit r Hr Hc) as (hh & K1 & K2 & K3 & K4).
    destruct (e_dec E dir (IZR dir * psi) d (facing_normal dir) (e_rnd E n)) as [[d' s'] A] eqn:D.
    unfold facing_normal in D. rewrite <- K4 in D.
    unfold single_interface_check. change (3 + fuel)%nat with (S (S (S fuel))).
    destruct A as [A|].
    - eexists. cbn [irun]. unfold istep. cbn [istart i_r i_d i_side i_checked i_misses i_i1 i_theta i_nint i_ref].
      rewrite K1, K3, D. reflexivity.
    - intros Hs. cbn [irun].
      unfold istep at 1. cbn [istart i_r i_d i_side i_checked i_misses i_i1 i_theta i_nint i_ref].
      rewrite K1, K3, D.
      set (r1 := vadd (h_point hh) (vscale (1 / 10 ^ 9) d')).
      assert (Z1 : vz r1 = z0 + 1 / 10 ^ 9 * vz d') by (unfold r1, vadd, vscale; cbn [vz]; rewrite K2; ring).
      unfold istep at 1. cbn [i_r i_d i_side i_checked i_misses i_i1 i_theta i_nint i_ref]. cbn [check_pos].
      rewrite (no_return z0) by (auto; apply Hflat). cbn [negb Nat.ltb Nat.leb].
      set (r2 := vadd r1 _).
      assert (Z2 : vz r2 = z0 + 1 / 10 ^ 9 * vz d').
      { unfold r2, vadd. cbn [vz]. rewrite translation_z, Z1. ring. }
      unfold istep at 1. cbn [i_r i_d i_side i_checked i_misses i_i1 i_theta i_nint i_ref]. cbn [check_pos].
      rewrite (no_return z0) by (auto; apply Hflat). cbn [negb].
      assert (SI : still_inside s' d' (Some r2) (e_surf E 1) = false).
      { unfold still_inside. destruct Hs as [[-> P]|[-> P]]; cbn [Z.eqb Pos.eqb andb].
        - destruct (Rltb (vz d') 0) eqn:L; [apply Rltb_true in L; lra|]. reflexivity.
        - destruct (Rltb 0 (vz d')) eqn:L; [apply Rltb_true in L; lra|]. reflexivity. }
      rewrite SI. cbn [option_map]. exists (wrap_cell (e_Lx E) (e_Ly E) r2). split.
      { rewrite <- Z2. unfold wrap_cell. destruct (_ || _); destruct (_ || _); reflexivity. }
      f_equal. f_equal.
      replace (Z.eqb (sgn (vz d)) (sgn (vz d'))) with (negb (Z.eqb s' dir)).
      + destruct (Z.eqb s' dir); reflexivity.
      + unfold sgn, d, travel. cbn [vz].
        destruct Hdir as [-> | ->]; destruct Hs as [[-> P]|[-> P]]; cbn [Z.eqb Pos.eqb negb];
        repeat match goal with |- context [Rltb ?u ?v] => let L := fresh "L" in destruct (Rltb u v) eqn:L; [apply Rltb_true in L|apply Rltb_false in L]; try lra end;
        reflexivity.
  Qed.
End Check.

(* ---------- mirror and Snell directions ---------- *)

Lemma mirrored_travel dir psi f d' : pm1 dir -> mirror_law (travel dir psi f) d' (facing_normal dir) -> d' = travel (- dir) psi f.
Proof.
  intros Hd [M1 M2]. unfold tang, vsub, vscale, dot, travel, facing_normal in M1, M2. cbn [vx vy vz] in M1, M2.
  unfold vscale in M1, M2. cbn [vx vy vz] in M1, M2.
  destruct Hd as [-> | ->]; cbn [Z.opp] in *; injection M2 as X Y _; unfold travel; apply vec_ext; cbn [vx vy vz]; lra.
Qed.

Lemma refracted_travel dir psi f n0 n1 psi' d' : pm1 dir -> 0 <= psi < PI / 2 -> 0 <= psi' < PI / 2 -> 0 < n0 -> 0 < n1 ->
  n0 * sin psi = n1 * sin psi' -> unit d' -> snell_law n0 n1 (travel dir psi f) d' (facing_normal dir) -> d' = travel dir psi' f.
Proof.
  intros Hd Hp Hp' H0 H1 HS Hu [M1 M2].
  assert (C : 0 < cos psi) by (apply cos_gt_0; lra). assert (C' : 0 < cos psi') by (apply cos_gt_0; lra).
  unfold tang, vsub, vscale, dot, travel, facing_normal in M1, M2. cbn [vx vy vz] in M1, M2.
  unfold vscale in M1, M2. cbn [vx vy vz] in M1, M2.
  assert (SS : sin psi' = n0 / n1 * sin psi). { apply Rmult_eq_reg_l with n1; [|lra]. rewrite <- HS. field. lra. }
  assert (XY : vx d' = sin psi' * cos f /\ vy d' = sin psi' * sin f).
  { rewrite SS. destruct Hd as [-> | ->]; injection M1 as X Y _; split; lra. }
  destruct XY as [X Y].
  assert (V : 0 < - IZR dir * vz d'). { destruct Hd as [-> | ->]; nra. }
  unfold unit, dot in Hu. rewrite X, Y in Hu. pose proof (cos_sin_sq f) as CF. pose proof (cos_sin_sq psi') as CP.
  replace (sin psi' * cos f * (sin psi' * cos f) + sin psi' * sin f * (sin psi' * sin f) + vz d' * vz d')
    with (sin psi' * sin psi' * (cos f * cos f + sin f * sin f) + vz d' * vz d') in Hu by ring. rewrite CF in Hu.
  assert (Z2 : (vz d' + cos psi') * (vz d' - cos psi') = 0) by lra.
  unfold travel. apply vec_ext; cbn [vx vy vz]; auto. apply Rmult_integral in Z2. destruct Hd as [-> | ->]; destruct Z2; lra.
Qed.

Lemma asin_snell s n : 0 <= s < n -> 0 <= asin (s / n) < PI / 2 /\ n * sin (asin (s / n)) = s.
Proof.
  intros H. assert (Q0 : 0 <= s / n). { apply Rmult_le_pos; [lra|]. left. apply Rinv_0_lt_compat. lra. }
  assert (Q1 : s / n < 1). { apply Rmult_lt_reg_r with n; [lra|]. unfold Rdiv. rewrite Rmult_assoc, Rinv_l by lra. lra. }
  assert (SA : sin (asin (s / n)) = s / n) by (apply sin_asin; lra).
  split; [|rewrite SA; field; lra]. split; [|apply (asin_bound_lt (s / n)); lra].
  rewrite <- asin_0. destruct (Rle_lt_dec (asin 0) (asin (s / n))); auto.
  assert (L : sin (asin (s / n)) < sin (asin 0)). { pose proof (asin_bound (s / n)). pose proof (asin_bound 0). apply sin_increasing_1; try lra. }
  rewrite SA, asin_0, sin_0 in L. lra.
Qed.

Lemma film_decides c dir ni nj here there psi f u s :
  pm1 dir -> (dir = 1%Z -> ni = here /\ nj = there) -> (dir = (-1)%Z -> ni = there /\ nj = here) ->
  optical_medium here -> optical_medium there -> 0 <= psi < PI / 2 -> re here * sin psi = s -> u < 1 ->
  (forall ent, c = Coated ent -> re there <= s -> te_T (ent dir psi) <= 0) ->
  (forall ent, c = Coated ent -> in_phase here there \/ psi = 0) ->
  (forall p, c = Bare p -> re there = s -> 1 <= fresnel_Rc here there psi p) ->
  match meets_film c dir here there psi u with
  | Back => film_dec c ni nj dir (IZR dir * psi) (travel dir psi f) (facing_normal dir) u = (travel (- dir) psi f, dir, None)
  | Onward => s < re there /\ film_dec c ni nj dir (IZR dir * psi) (travel dir psi f) (facing_normal dir) u = (travel dir (asin (s / re there)) f, (- dir)%Z, None)
  | Stays A => film_dec c ni nj dir (IZR dir * psi) (travel dir psi f) (facing_normal dir) u = (travel dir psi f, dir, Some A)
  end.
Proof.
  intros Hd H1 H2 Mh Mt Hp Hs Hu HT HF HC. pose proof (proj1 Mh) as Ph. pose proof (proj1 Mt) as Pt. pose proof (travel_unit dir psi f Hd) as DU. pose proof (normal_unit dir Hd) as NU.
  pose proof (travel_dot dir psi f Hd) as DD. assert (S0 : 0 <= sin psi) by (apply sin_nonneg; lra).
  assert (s0 : 0 <= s) by (rewrite <- Hs; apply Rmult_le_pos; lra).
  assert (AB : Rabs (IZR dir * psi) = psi).
  { destruct Hd as [-> | ->]; [rewrite Rmult_1_l; apply Rabs_pos_eq; lra|]. replace (-1 * psi) with (- psi) by ring. rewrite Rabs_Ropp. apply Rabs_pos_eq; lra. }
  destruct c as [p|ent]; cbn [meets_film film_dec].
  - assert (EQ : fresnel_decision_c ni nj p dir (IZR dir * psi) (travel dir psi f) (facing_normal dir) u =
                 decide_RT_Fresnel_c here there psi (travel dir psi f) (facing_normal dir) dir p u).
    { unfold fresnel_decision_c, decide_RT_Fresnel_c, fresnel_Rc. rewrite AB, (Rabs_pos_eq psi) by lra.
      destruct Hd as [E|E]; [destruct (H1 E) as [-> ->]|destruct (H2 E) as [-> ->]]; rewrite E; reflexivity. }
    rewrite EQ. pose proof (decide_cases_c here there psi _ _ dir p u Ph Pt Hp DU NU DD Hu) as D.
    destruct (decide_RT_Fresnel_c here there psi (travel dir psi f) (facing_normal dir) dir p u) as [[d' s'] A].
    specialize (HC p eq_refl).
    destruct D as (-> & Un & [(D1 & -> & D3)|(D1 & -> & [(D3 & D4)|(D3 & _)])]).
    + destruct (Rleb u (fresnel_Rc here there psi p)) eqn:L; [|apply Rleb_false in L; lra]. rewrite (mirrored_travel dir psi f d' Hd D3). reflexivity.
    + destruct (Rleb u (fresnel_Rc here there psi p)) eqn:L; [apply Rleb_true in L; lra|]. split; [lra|].
      destruct (asin_snell s (re there) ltac:(lra)) as [A1 A2].
      rewrite (refracted_travel dir psi f (re here) (re there) (asin (s / re there)) d' Hd Hp A1 Ph Pt ltac:(lra) Un D4). reflexivity.
    + exfalso. specialize (HC ltac:(lra)). lra.
  - assert (EQ : table_decision_c ni nj ent dir (IZR dir * psi) (travel dir psi f) (facing_normal dir) u =
                 decide_RT_TMM (ent dir psi) (re here) (re there) (travel dir psi f) (facing_normal dir) dir u).
    { assert (RQ : refract_c here there (travel dir psi f) (facing_normal dir) = refract (re here) (re there) (travel dir psi f) (facing_normal dir)).
      { destruct (HF ent eq_refl) as [Q|Q]; [now apply refract_in_phase|]. apply refract_c_straight; auto. rewrite DD, Q, cos_0. reflexivity. }
      assert (TQ : decide_RT_TMM_c (ent dir psi) here there (travel dir psi f) (facing_normal dir) dir u =
                   decide_RT_TMM (ent dir psi) (re here) (re there) (travel dir psi f) (facing_normal dir) dir u)
        by (unfold decide_RT_TMM_c, decide_RT_TMM; now rewrite RQ).
      rewrite <- TQ.
      unfold table_decision_c. rewrite AB. destruct Hd as [E|E]; [destruct (H1 E) as [-> ->]|destruct (H2 E) as [-> ->]]; rewrite E; reflexivity. }
    rewrite EQ. unfold decide_RT_TMM. specialize (HT ent eq_refl). set (e := ent dir psi) in *.
    destruct (Rleb u (te_R e)) eqn:L1.
    + rewrite normalise_unit by (apply reflect_unit; auto). rewrite (mirrored_travel dir psi f (reflect (travel dir psi f) (facing_normal dir)) Hd); [reflexivity|].
      now apply reflect_law.
    + apply Rleb_false in L1. destruct (Rltb (te_R e) u) eqn:L2; [|apply Rltb_false in L2; lra]. cbn [andb].
      destruct (Rleb u (te_R e + te_T e)) eqn:L3; [|reflexivity]. apply Rleb_true in L3.
      assert (Hc : s < re there). { apply Rnot_le_lt. intros Q. specialize (HT Q). lra. }
      split; auto.
      pose proof (interaction_TMM {| te_R := 0; te_T := 1; te_A := [] |} (re here) (re there) psi (travel dir psi f) (facing_normal dir) dir (1 / 2) Ph Pt Hp
          DU NU DD ltac:(lra)) as I.
      unfold decide_RT_TMM in I. cbn [te_R te_T te_A] in I.
      destruct (Rleb (1 / 2) 0) eqn:B1; [apply Rleb_true in B1; lra|]. destruct (Rltb 0 (1 / 2)) eqn:B2; [|apply Rltb_false in B2; lra].
      destruct (Rleb (1 / 2) (0 + 1)) eqn:B3; [|apply Rleb_false in B3; lra]. cbn [andb] in I.
      destruct I as [Un [I|[I|I]]].
      { destruct I as (_ & I & _). destruct Hd as [E|E]; rewrite E in I; discriminate. }
      2:{ destruct I as (I & _). discriminate. }
      destruct I as (_ & _ & I). destruct (asin_snell s (re there) ltac:(lra)) as [A1 A2].
      rewrite (refracted_travel dir psi f (re here) (re there) (asin (s / re there)) _ Hd Hp A1 Ph Pt ltac:(lra) Un I). reflexivity.
Qed.

(* ---------- the whole ray ---------- *)

Lemma depth_next ws i : (i < length ws)%nat -> depth ws (S i) = depth ws i + nth i ws 0.
Proof. intros H. apply depth_S. exact H. Qed.

Section Planar.
  Variables (fuel : nat) (U : setup) (ws : list R) (films : list film) (m0 d0 : Z) (theta f : R).
  Hypothesis HP : planar_structure U ws films m0 theta.
  Hypothesis Hm0 : (0 <= m0 <= Z.of_nat (length ws) + 1)%Z.
  Hypothesis Ht : 0 <= theta < PI / 2.

  Let ns := u_nks U.
  Let n := Z.of_nat (length ws).
  Let psi := snell ns m0 theta.
  Let s := index_of ns m0 * sin theta.
  Let u := dr_rnd (u_draws U).
  Let at_ := planar_at ns films m0 d0 theta u.
  Let out := planar_out ns films m0 d0 theta u.

  Lemma index_pos m : (0 <= m <= n + 1)%Z -> 0 < index_of ns m.
  Proof.
    intros H. unfold index_of. apply (st_index _ _ (pl_struct _ _ _ _ _ HP)). apply nth_In. pose proof (st_media _ _ (pl_struct _ _ _ _ _ HP)) as L.
    unfold ns. rewrite L. unfold n in H. lia.
  Qed.

  Lemma index_medium m : (0 <= m <= n + 1)%Z -> optical_medium (nk_of ns m).
  Proof.
    intros H. apply (st_index _ _ (pl_struct _ _ _ _ _ HP)). apply nth_In. pose proof (st_media _ _ (pl_struct _ _ _ _ _ HP)) as L.
    unfold ns. rewrite L. unfold n in H. lia.
  Qed.
  Lemma straight m : theta = 0 -> psi m = 0.
  Proof. intros E. unfold psi, snell. rewrite E, sin_0, Rmult_0_r. unfold Rdiv. rewrite Rmult_0_l. apply asin_0. Qed.

  Lemma s_nonneg : 0 <= s.
  Proof. unfold s. apply Rmult_le_pos; [left; apply index_pos; unfold n; lia|]. apply sin_nonneg. lra. Qed.

  (* state of the ray after k surfaces *)
  Record rel (k : nat) (st : fstate) : Prop := {
    rl_at : at_ k = (s_mat (x_st st), s_dir (x_st st));
    rl_placed : placed (length ws) (x_st st);
    rl_dir : x_dir st = travel (s_dir (x_st st)) (psi (s_mat (x_st st))) f;
    rl_low : s < index_of ns (s_mat (x_st st));
    rl_pos : exists r, x_pos st = Some r /\
      0 < (vz r + depth ws (Z.to_nat (s_surf (x_st st)))) * IZR (s_dir (x_st st));
    rl_nint : x_nint st = k;
    rl_checks : x_checks st = k }.

  (* where a check leaves the ray *)
  Definition left_by (k : nat) (m d : Z) (pos : option vec) (dv : vec) : Prop :=
    let z := - depth ws (Z.to_nat (if Z.eqb d 1 then m else m - 1)) in
    match next_fate ns films m0 theta u m d k with
    | Back => dv = travel (- d) (psi m) f /\ exists p, pos = Some p /\ vz p = z + 1 / 10 ^ 9 * vz dv
    | Onward => s < index_of ns (m + d) /\ dv = travel d (psi (m + d)) f /\ exists p, pos = Some p /\ vz p = z + 1 / 10 ^ 9 * vz dv
    | Stays _ => dv = travel d (psi m) f
    end.

  Definition after_check (k : nat) (pos : option vec) (dv : vec) (phi loc : R) (s' : sstate) : fstate :=
    {| x_st := s'; x_pos := pos; x_dir := dv; x_nint := S k; x_checks := S k; x_phi := phi; x_loc := loc |}.

  Lemma travel_z d p g : vz (travel d p g) = - IZR d * cos p.
  Proof. reflexivity. Qed.

  Lemma planar_check k st : rel k st -> exists pos dv loc,
    left_by k (s_mat (x_st st)) (s_dir (x_st st)) pos dv /\
    let phi := match out k with OAbsorbed _ => 0 | _ => atan2 (vy dv) (vx dv) end in
    fstep (3 + fuel) U st =
      match sstep (u_K U) (x_st st) (out k) with
      | Err e => Some (Err e)
      | Ok (inl s') => Some (Ok (inl (after_check k pos dv phi loc s')))
      | Ok (inr s') => Some (Ok (inr (after_check k pos dv phi loc s')))
      end.
  Proof.
    intros [Ra Rp Rd Rl (r & Rr & Rz) Rn Rc]. pose proof Rp as (P1 & P2 & P3).
    set (m := s_mat (x_st st)) in *. set (d := s_dir (x_st st)) in *.
    assert (Mr : (0 <= m <= n + 1)%Z). { unfold n. destruct P1 as [E|E]; rewrite E in P2; cbn [Z.eqb Pos.eqb] in P2; lia. }
    assert (Mr' : (0 <= m + d <= n + 1)%Z). { unfold n. destruct P1 as [E|E]; rewrite E in *; cbn [Z.eqb Pos.eqb] in P2; lia. }
    pose proof s_nonneg as S0.
    destruct (asin_snell s (index_of ns m) ltac:(lra)) as [A1 A2]. change (asin (s / index_of ns m)) with (psi m) in A1, A2.
    assert (Cm : 0 < cos (psi m)) by (apply cos_gt_0; lra).
    unfold fstep. cbv zeta. fold d. fold m.
    destruct (pl_faces _ _ _ _ _ HP (Z.to_nat (s_surf (x_st st)))) as (fc & Nf & (Lx & Ly & Zc & Lv) & Fd); [lia|].
    destruct (py_index_in (u_faces U) (s_surf (x_st st))) as (fc' & Ef & Nf'); [rewrite (st_faces _ _ (pl_struct _ _ _ _ _ HP)); lia|].
    rewrite Nf in Nf'. injection Nf' as <-. rewrite Ef. rewrite Rc.
    set (z0 := - depth ws (Z.to_nat (s_surf (x_st st)))) in *.
    assert (Vz : vz (x_dir st) <> 0). { rewrite Rd, travel_z. destruct P1 as [E|E]; rewrite E; lra. }
    (* the position handed to the check *)
    assert (FR : exists r', face_ray U fc k (s_passes (x_st st)) d (x_pos st) (x_dir st) = (Some r', x_dir st) /\
      0 < (vz r' - z0) * IZR d /\ crosses_cell 0 0 (f_Lx fc) (f_Ly fc) z0 r' (x_dir st)).
    { unfold face_ray. rewrite (pl_periodic _ _ _ _ _ HP). destruct (u_randomize U && Nat.ltb 0 (s_passes (x_st st))).
      - destruct (pl_uv _ _ _ _ _ HP k) as [U1 U2]. destruct (Lv k 0%nat) as (Zn & Zx & _).
        pose proof (randomized_ok (f_Lx fc) (f_Ly fc) (s_zmin (f_surf fc k 0)) (s_zmax (f_surf fc k 0)) (f_zcov fc) (fst (dr_uv (u_draws U) k))
          (snd (dr_uv (u_draws U) k)) d (x_dir st) Lx Ly ltac:(lra) U1 U2 P1) as RO.
        destruct (randomized _ _ _ _ _ _ _ _ _) as [p d']. destruct RO as (R1 & R2 & _ & _ & _ & R6 & R7 & _ & _).
        rewrite (R1 Vz) in *. destruct (place_zero (f_Lx fc) (f_Ly fc) (f_zcov fc) p (x_dir st) Lx Ly Vz) as (r' & Pl & Pz & Pc & _).
        exists r'. rewrite Pl. split; [reflexivity|]. rewrite Zc in Pc. split; auto. rewrite Pz. rewrite Rd, travel_z in R6, R7.
        destruct P1 as [E|E]; rewrite E in *; [specialize (R6 ltac:(lra))|specialize (R7 ltac:(lra))]; lra.
      - rewrite Rr. destruct (place_zero (f_Lx fc) (f_Ly fc) (f_zcov fc) r (x_dir st) Lx Ly Vz) as (r' & Pl & Pz & Pc & _).
        exists r'. rewrite Pl. split; [reflexivity|]. rewrite Zc in Pc. split; auto. rewrite Pz. unfold z0. lra. }
    destruct FR as (r' & -> & Hz & Hc).
    (* media *)
    pose proof (st_media _ _ (pl_struct _ _ _ _ _ HP)) as ML.
    rewrite (py_index_ok (u_nks U) _ (creal 0)) by (rewrite ML; unfold n in *; destruct P1 as [E|E]; rewrite E in *; cbn [Z.eqb Pos.eqb] in *; lia).
    rewrite (py_index_ok (u_nks U) _ (creal 0)) by (rewrite ML; unfold n in *; destruct P1 as [E|E]; rewrite E in *; cbn [Z.eqb Pos.eqb] in *; lia).
    cbn [rbind]. set (ni := nth _ (u_nks U) (creal 0)). set (nj := nth _ (u_nks U) (creal 0)). rewrite (pl_periodic _ _ _ _ _ HP).
    assert (N1 : d = 1%Z -> ni = nk_of ns m /\ nj = nk_of ns (m + d)) by (intros E; unfold ni, nj; rewrite E; split; reflexivity).
    assert (N2 : d = (-1)%Z -> ni = nk_of ns (m + d) /\ nj = nk_of ns m) by (intros E; unfold ni, nj; rewrite E; split; reflexivity).
    assert (FA : nth (Z.to_nat (s_surf (x_st st))) films (Bare PolU) = film_ahead films m d) by (rewrite P2; reflexivity).
    set (c := film_ahead films m d) in *.
    pose proof (film_decides c d ni nj (nk_of ns m) (nk_of ns (m + d)) (psi m) f (u k) s P1 N1 N2 (index_medium m Mr) (index_medium (m + d) Mr')
      A1 A2 (st_rnd _ _ (pl_struct _ _ _ _ _ HP) k) (fun ent Ec Hle => pl_tables _ _ _ _ _ HP m d ent P1 Mr Mr' Ec Hle)
      (fun ent Ec => match pl_phase _ _ _ _ _ HP m d ent P1 Mr Mr' Ec with or_introl q => or_introl q | or_intror q => or_intror (straight m q) end) (fun p Ec He => pl_critical _ _ _ _ _ HP m d p P1 Mr Mr' Ec He)) as FD.
    change (meets_film c d (nk_of ns m) (nk_of ns (m + d)) (psi m) (u k)) with (next_fate ns films m0 theta u m d k) in FD.
    set (E := face_env U fc k ni nj).
    assert (Hfl : forall j, (forall T, In T (s_tris (e_surf E j)) -> at_z z0 T) /\ s_zmin (e_surf E j) = z0 /\ s_zmax (e_surf E j) = z0).
    { intros j. destruct (Lv k j) as (L1 & L2 & L3 & _). split; [exact L3|]. split; auto. }
    assert (Hcv : forall x y, 0 <= x < f_Lx fc -> 0 <= y < f_Ly fc -> exists T u v, In T (s_tris (e_surf E 0)) /\
      0 <= u /\ 0 <= v /\ u + v <= 1 /\ x = vx (t_P0 T) + u * (vx (t_P1 T) - vx (t_P0 T)) + v * (vx (t_P2 T) - vx (t_P0 T)) /\
      y = vy (t_P0 T) + u * (vy (t_P1 T) - vy (t_P0 T)) + v * (vy (t_P2 T) - vy (t_P0 T))).
    { intros x y Hx Hy. destruct (Lv k 0%nat) as (_ & _ & _ & L4). apply L4; lra. }
    rewrite Rd in Hc |- *. rewrite Rn.
    pose proof (dir_check z0 (f_Lx fc) (f_Ly fc) E d (psi m) f k Hfl Hcv P1 A1 r' fuel Hz Hc) as DC.
    replace (e_dec E) with (film_dec c ni nj) in DC by (unfold E; cbn [face_env e_dec]; rewrite Fd, FA; reflexivity).
    change (e_rnd E k) with (u k) in DC.
    unfold left_by. rewrite <- P2. fold z0.
    assert (O : out k = match next_fate ns films m0 theta u m d k with
      | Back => OReflected (polar_of (- d) (psi m)) | Onward => OTransmitted (polar_of d (psi (m + d))) | Stays A => OAbsorbed A end).
    { unfold out, planar_out. fold at_. rewrite Ra. reflexivity. }
    destruct (next_fate ns films m0 theta u m d k) as [| |A] eqn:NF.
    - rewrite FD in DC. cbv beta iota zeta in DC.
      destruct DC as (p & Pz & DC). { rewrite travel_z. destruct P1 as [-> | ->]; cbn [Z.opp]; [left|right]; split; auto; lra. }
      exists (Some p), (travel (- d) (psi m) f), (IZR d * psi m). split; [split; eauto|]. rewrite DC, Z.eqb_refl. rewrite O. cbn [r_out].
      assert (PO : polar (travel (- d) (psi m) f) = polar_of (- d) (psi m)).
      { rewrite travel_pointing by (destruct P1 as [-> | ->]; [right|left]; reflexivity). apply polar_pointing. unfold polar_of. pose proof PI_RGT_0.
        destruct (Z.eqb (- d) 1); lra. }
      rewrite PO. destruct (sstep _ _ _) as [[s'|s']|e]; reflexivity.
    - destruct FD as [Lt FD]. change (re (nk_of ns (m + d))) with (index_of ns (m + d)) in *. rewrite FD in DC. cbv beta iota zeta in DC.
      destruct (asin_snell s (index_of ns (m + d)) ltac:(lra)) as [B1 B2]. change (asin (s / index_of ns (m + d))) with (psi (m + d)%Z) in *.
      assert (Cm' : 0 < cos (psi (m + d)%Z)) by (apply cos_gt_0; lra).
      destruct DC as (p & Pz & DC). { rewrite travel_z. destruct P1 as [-> | ->]; cbn [Z.opp]; [right|left]; split; auto; lra. }
      exists (Some p), (travel d (psi (m + d)%Z) f), (IZR d * psi m). split; [split; [exact Lt|]; split; eauto|]. rewrite DC.
      replace (Z.eqb (- d) d) with false by (destruct P1 as [-> | ->]; reflexivity). rewrite O. cbn [r_out].
      assert (PO : polar (travel d (psi (m + d)%Z) f) = polar_of d (psi (m + d)%Z)).
      { rewrite travel_pointing by auto. apply polar_pointing. unfold polar_of. pose proof PI_RGT_0. destruct (Z.eqb d 1); lra. }
      rewrite PO. destruct (sstep _ _ _) as [[s'|s']|e]; reflexivity.
    - rewrite FD in DC. cbv beta iota zeta in DC. destruct DC as (p & DC).
      exists p, (travel d (psi m) f), (IZR d * psi m). split; [reflexivity|]. rewrite DC, O. cbn [r_out].
      destruct (sstep _ _ _) as [[s'|s']|e]; reflexivity.
  Qed.

  Lemma out_eq k st : rel k st -> out k = match next_fate ns films m0 theta u (s_mat (x_st st)) (s_dir (x_st st)) k with
      | Back => OReflected (polar_of (- s_dir (x_st st)) (psi (s_mat (x_st st))))
      | Onward => OTransmitted (polar_of (s_dir (x_st st)) (psi (s_mat (x_st st) + s_dir (x_st st))))
      | Stays A => OAbsorbed A end.
  Proof. intros R. unfold out, planar_out. fold at_. rewrite (rl_at _ _ R). reflexivity. Qed.

  Lemma layer_thick m : (1 <= m <= n)%Z -> 1 / 10 ^ 8 < depth ws (Z.to_nat m) - depth ws (Z.to_nat (m - 1)).
  Proof.
    intros H. unfold n in H. replace (Z.to_nat m) with (S (Z.to_nat (m - 1))) by lia. rewrite depth_next by lia.
    assert (1 / 10 ^ 8 < nth (Z.to_nat (m - 1)) ws 0) by (apply (pl_thick _ _ _ _ _ HP), nth_In; lia). lra.
  Qed.

  Lemma stays_inside d m ps : pm1 d -> 0 <= ps < PI / 2 -> (1 <= m <= n)%Z ->
    let z := - depth ws (Z.to_nat (if Z.eqb d 1 then m - 1 else m)) in
    0 < (z + 1 / 10 ^ 9 * vz (travel d ps f) + depth ws (Z.to_nat (if Z.eqb d 1 then m else m - 1))) * IZR d.
  Proof.
    intros Hd Hps Hm z. pose proof (layer_thick m Hm) as L. pose proof (COS_bound ps) as [_ CB].
    assert (C0 : 0 < cos ps) by (apply cos_gt_0; lra). rewrite travel_z. unfold z.
    destruct Hd as [-> | ->]; cbn [Z.eqb Pos.eqb]; lra.
  Qed.

  Lemma rel_next k st s' pos dv phi loc : rel k st -> left_by k (s_mat (x_st st)) (s_dir (x_st st)) pos dv ->
    sstep (u_K U) (x_st st) (out k) = Ok (inl s') -> rel (S k) (after_check k pos dv phi loc s').
  Proof.
    intros R L Es. pose proof (out_eq k st R) as O. pose proof (rl_placed _ _ R) as Pl.
    destruct (sstep_placed (u_K U) ws (x_st st) (out k) (st_stack _ _ (pl_struct _ _ _ _ _ HP)) Pl) as (q & Eq & Hq).
    rewrite Es in Eq. injection Eq as <-. destruct Hq as ((M1 & M2 & _) & Pl' & _).
    destruct Pl as (P1 & P2 & P3). pose proof Pl' as (P1' & P2' & P3').
    assert (AT : at_ (S k) = let '(m, d) := at_ k in match next_fate ns films m0 theta u m d k with
       Back => (m, (- d)%Z) | Onward => ((m + d)%Z, d) | Stays _ => (m, d) end) by reflexivity.
    rewrite (rl_at _ _ R) in AT. unfold left_by in L. pose proof (rl_low _ _ R) as Rl. pose proof s_nonneg as S0.
    set (m := s_mat (x_st st)) in *. set (d := s_dir (x_st st)) in *.
    assert (NB : (1 <= s_mat s' <= n)%Z).
    { (* sstep goes on only inside a layer *)
      clear AT L. unfold sstep in Es. fold m d in Es.
      assert (WL : length (k_widths (u_K U)) = S (S (length ws))) by (rewrite (so_widths _ _ (st_stack _ _ (pl_struct _ _ _ _ _ HP))); apply padded_length).
      unfold n. rewrite P2' in P3'.
      repeat (match type of Es with rbind ?x _ = _ => destruct x; cbn [rbind] in Es; [|discriminate] end).
      rewrite WL in Es.
      assert (Q : forall dd mm (X Y : res (sstate + sstate)), (if (dd =? 1)%Z && (mm =? Z.of_nat (S (S (length ws))) - 1)%Z || (dd =? -1)%Z && (mm =? 0)%Z then X else Y) = Ok (inl s') ->
        (forall z, X <> Ok (inl z)) -> (dd = 1 -> mm <> Z.of_nat (length ws) + 1)%Z /\ (dd = -1 -> mm <> 0)%Z).
      { intros dd mm X Y HQ HX. destruct (_ || _) eqn:B in HQ; [exfalso; eapply HX; eauto|]. apply orb_false_iff in B. destruct B as [B1 B2].
        split; intros ->; cbn [Z.eqb Pos.eqb andb] in B1, B2; [apply Z.eqb_neq in B1|apply Z.eqb_neq in B2]; lia. }
      destruct (out k) as [th|th|A]; [| |discriminate]; apply Q in Es; try (intros; discriminate); destruct Es as [E1 E2]; cbn [turn] in M1; rewrite M1, M2 in *.
      - clearbody m d. destruct P1 as [E|E]; rewrite E in *; cbn [Z.opp Z.eqb Pos.eqb] in *. lia. lia.
      - destruct P1 as [E|E]; rewrite E in *; cbn [Z.opp Z.eqb Pos.eqb] in *; lia. }
    destruct (next_fate ns films m0 theta u m d k) as [| |A] eqn:NF.
    - destruct L as (-> & p & -> & Pz). rewrite O in M1, M2. cbn [turn] in M1.
      assert (Pm : pm1 (- d)) by (destruct P1 as [-> | ->]; [right|left]; reflexivity).
      constructor; cbn [after_check x_st x_dir x_pos x_nint x_checks]; auto.
      + rewrite AT, M1, M2. reflexivity.
      + rewrite M1, M2. reflexivity.
      + rewrite M2. exact Rl.
      + exists p. split; [reflexivity|]. rewrite Pz, P2', M1, M2.
        destruct (asin_snell s (index_of ns m) ltac:(lra)) as [A1 _]. rewrite M2 in NB.
        pose proof (stays_inside (- d) m (psi m) Pm A1 NB) as Q. cbv zeta in Q.
        destruct P1 as [E|E]; rewrite E in *; cbn [Z.opp Z.eqb Pos.eqb] in *; exact Q.
    - destruct L as (Lt & -> & p & -> & Pz). rewrite O in M1, M2. cbn [turn] in M1.
      constructor; cbn [after_check x_st x_dir x_pos x_nint x_checks]; auto.
      + rewrite AT, M1, M2. reflexivity.
      + rewrite M1, M2. reflexivity.
      + rewrite M2. exact Lt.
      + exists p. split; [reflexivity|]. rewrite Pz, P2', M1, M2.
        destruct (asin_snell s (index_of ns (m + d)) ltac:(lra)) as [A1 _]. rewrite M2 in NB.
        pose proof (stays_inside d (m + d) (psi (m + d)%Z) P1 A1 NB) as Q. cbv zeta in Q.
        destruct P1 as [E|E]; rewrite E in *; cbn [Z.opp Z.eqb Pos.eqb] in *.
        * replace (m + 1 - 1)%Z with m in Q by lia. exact Q.
        * replace (m - 1)%Z with (m + -1)%Z by lia. exact Q.
    - exfalso. rewrite O in Es. unfold sstep in Es.
      repeat (match type of Es with rbind ?x _ = _ => destruct x; cbn [rbind] in Es; [|discriminate] end). discriminate.
  Qed.

  (* no check leaves the ray level *)
  Lemma planar_tilted k st pos dv : rel k st -> left_by k (s_mat (x_st st)) (s_dir (x_st st)) pos dv -> vz dv <> 0.
  Proof.
    intros R L. destruct (rl_placed _ _ R) as (P1 & _ & _). pose proof (rl_low _ _ R) as Rl. pose proof s_nonneg as S0. unfold left_by in L.
    assert (Q : forall d m, pm1 d -> s < index_of ns m -> vz (travel d (psi m) f) <> 0).
    { intros d m Hd Hl. destruct (asin_snell s (index_of ns m) ltac:(lra)) as [A1 _].
      assert (0 < cos (psi m)) by (apply cos_gt_0; unfold psi, snell; fold s; lra). rewrite travel_z. destruct Hd as [-> | ->]; lra. }
    destruct (next_fate _ _ _ _ _ _ _ _).
    - destruct L as [-> _]. apply Q; auto. destruct P1 as [-> | ->]; [right|left]; reflexivity.
    - destruct L as (Lt & -> & _). now apply Q.
    - rewrite L. now apply Q.
  Qed.

  Lemma planar_never_level st st' : visits (3 + fuel) U st st' -> forall k, rel k st -> vz (x_dir st') <> 0.
  Proof.
    induction 1 as [st r F|st st1 st' F V IH]; intros k R; destruct (planar_check k st R) as (pos & dv & loc & L & F'); cbv zeta in F'; rewrite F' in F.
    - destruct (sstep (u_K U) (x_st st) (out k)) as [[s'|s']|e]; try discriminate; injection F as <-; cbn [after_check x_dir]; now apply (planar_tilted k st pos).
    - destruct (sstep (u_K U) (x_st st) (out k)) as [[s'|s']|e] eqn:Es; try discriminate. injection F as <-.
      apply (IH (S k)). now apply (rel_next k st).
  Qed.

  (* how the ray ends: one interaction per surface; direction and azimuth if it left *)
  Definition well_ended (fin : fstate) : Prop :=
    x_nint fin = x_checks fin /\
    forall th, s_theta (x_st fin) = Some th -> x_dir fin = pointing th f /\ (0 < sin th -> exists z : Z, x_phi fin = f + IZR z * (2 * PI)).

  Lemma planar_run outer : forall k st, rel k st ->
    match srun outer (u_K U) (x_st st) out k with
    | None => frun outer (3 + fuel) U st = None
    | Some (Err _) => False
    | Some (Ok s') => exists fin, frun outer (3 + fuel) U st = Some (Ok fin) /\ x_st fin = s' /\ well_ended fin
    end.
  Proof.
    induction outer as [|outer IH]; intros k st R; [reflexivity|]. cbn [srun frun].
    destruct (planar_check k st R) as (pos & dv & loc & L & F). cbv zeta in F. rewrite F.
    destruct (sstep_placed (u_K U) ws (x_st st) (out k) (st_stack _ _ (pl_struct _ _ _ _ _ HP)) (rl_placed _ _ R)) as (q & Eq & Hq).
    rewrite Eq. destruct q as [s'|s'].
    - exact (IH (S k) _ (rel_next k st s' pos dv _ loc R L Eq)).
    - eexists. split; [reflexivity|]. split; [reflexivity|]. split; [reflexivity|]. destruct Hq as (M1 & M2 & M3).
      cbn [after_check x_st x_dir x_phi]. intros th T. pose proof (out_eq k st R) as O. destruct (rl_placed _ _ R) as (P1 & _ & _).
      assert (Q : dv = pointing th f).
      { unfold left_by in L. destruct (M3 th T) as [EQ|EQ]; rewrite O in EQ.
        - destruct (next_fate ns films m0 theta u (s_mat (x_st st)) (s_dir (x_st st)) k); try discriminate. injection EQ as <-. destruct L as [-> _].
          apply travel_pointing. destruct P1 as [-> | ->]; [right|left]; reflexivity.
        - destruct (next_fate ns films m0 theta u (s_mat (x_st st)) (s_dir (x_st st)) k); try discriminate. injection EQ as <-. destruct L as [_ [-> _]].
          now apply travel_pointing. }
      split; [exact Q|]. intros S. destruct (M3 th T) as [EQ|EQ]; rewrite EQ, Q; now apply pointing_phi.
  Qed.
End Planar.

Lemma neg_phi theta phi dir : travel dir theta (phi + PI) = mkv (- (sin theta * cos phi)) (- (sin theta * sin phi)) (- IZR dir * cos theta).
Proof. unfold travel. rewrite neg_cos, neg_sin. apply vec_ext; cbn [vx vy vz]; ring. Qed.

Lemma planar_start U ws films m0 d0 theta phi h x y : planar_structure U ws films m0 theta -> 0 <= theta < PI / 2 -> 0 <= h ->
  (d0 = 1 /\ 0 <= m0 <= Z.of_nat (length ws))%Z \/ (d0 = -1 /\ 1 <= m0 <= Z.of_nat (length ws))%Z ->
  exists st, fstart U (start_vector h theta phi) x y m0 d0 = Ok st /\ x_st st = sstart (u_K U) m0 d0 /\
    rel U ws films m0 d0 theta (phi + PI) 0 st.
Proof.
  intros HP Ht Hh HG. set (n := Z.of_nat (length ws)) in *.
  assert (Hm0 : (0 <= m0 <= Z.of_nat (length ws) + 1)%Z) by (destruct HG as [[_ G]|[_ G]]; unfold n in *; lia).
  pose proof (index_pos U ws films m0 theta HP m0 Hm0) as NP.
  assert (S1 : sin theta < 1). { destruct (Req_dec (sin theta) 1) as [E|E]; [|pose proof (SIN_bound theta); lra].
    assert (C : 0 < cos theta) by (apply cos_gt_0; lra). pose proof (cos_sin_sq theta). nra. }
  assert (SN : snell (u_nks U) m0 theta m0 = theta).
  { unfold snell. replace (index_of (u_nks U) m0 * sin theta / index_of (u_nks U) m0) with (sin theta) by (field; lra). apply asin_sin. lra. }
  assert (Low : index_of (u_nks U) m0 * sin theta < index_of (u_nks U) m0) by nra.
  pose proof (so_widths _ _ (st_stack _ _ (pl_struct _ _ _ _ _ HP))) as W.
  assert (Hh' : h <> - (1 / 10 ^ 8)) by lra.
  assert (ST : exists r d, stack_start (k_widths (u_K U)) (start_vector h theta phi) x y m0 d0 = Ok (r, d, (if Z.eqb d0 1 then m0 else m0 - 1)%Z) /\
    d = travel d0 theta (phi + PI) /\ 0 < (vz r + depth ws (Z.to_nat (if Z.eqb d0 1 then m0 else m0 - 1))) * IZR d0).
  { rewrite W. destruct HG as [[-> G]|[-> G]]; cbn [Z.eqb Pos.eqb].
    - destruct (Z.eq_dec m0 0) as [->|NZ].
      + destruct (stack_first h theta phi x y Ht Hh' (padded ws)) as (z & d & E & Z & D). exists (mkv x y z), d. split; [exact E|].
        split; [rewrite neg_phi; unfold heads_down in D; rewrite D; f_equal; ring|]. cbn [vz Z.to_nat]. unfold depth. cbn [firstn rsum]. lra.
      + assert (Em : m0 = Z.of_nat (S (Z.to_nat (m0 - 1)))) by lia. set (j := Z.to_nat (m0 - 1)) in *.
        destruct (stack_down h theta phi x y Ht Hh' ws j) as (z & d & E & Z & D); [unfold n in *; lia|apply (pl_thick _ _ _ _ _ HP), nth_In; unfold n in *; lia|].
        rewrite Em. exists (mkv x y z), d. split; [exact E|]. split; [rewrite neg_phi; unfold heads_down in D; rewrite D; f_equal; ring|].
        cbn [vz]. rewrite Nat2Z.id. lra.
    - assert (Em : m0 = Z.of_nat (S (Z.to_nat (m0 - 1)))) by lia. set (j := Z.to_nat (m0 - 1)) in *.
      destruct (stack_up h theta phi x y Ht Hh' ws j) as (z & d & E & Z & D); [unfold n in *; lia|apply (pl_thick _ _ _ _ _ HP), nth_In; unfold n in *; lia|].
      exists (mkv x y z), d. replace (m0 - 1)%Z with (Z.of_nat j) by lia. rewrite Em. split; [exact E|].
      split; [rewrite neg_phi; unfold heads_up in D; rewrite D; f_equal; ring|]. cbn [vz]. rewrite ?Nat2Z.id. lra. }
  destruct ST as (r & d & ST & -> & Rz). unfold fstart. rewrite ST. cbn [rbind]. eexists. split; [reflexivity|]. split; [reflexivity|].
  constructor; cbn [x_st x_dir x_pos x_nint x_checks sstart s_mat s_dir s_surf fst snd]; auto.
  - split; [destruct HG as [[-> _]|[-> _]]; [now left|now right]|]. split; [reflexivity|]. cbn [sstart s_surf].
    destruct HG as [[-> G]|[-> G]]; cbn [Z.eqb Pos.eqb]; unfold n in *; lia.
  - rewrite SN. reflexivity.
  - exists r. split; [reflexivity|exact Rz].
Qed.

(* all that the tracing of positions and directions does in a planar stack *)
Lemma planar_trace U ws films m0 d0 theta phi h x y outer fuel : planar_structure U ws films m0 theta -> 0 <= theta < PI / 2 -> 0 <= h ->
  (d0 = 1 /\ 0 <= m0 <= Z.of_nat (length ws))%Z \/ (d0 = -1 /\ 1 <= m0 <= Z.of_nat (length ws))%Z ->
  match single_ray_stack outer (u_K U) m0 d0 (planar_out (u_nks U) films m0 d0 theta (dr_rnd (u_draws U))) with
  | None => trace_stack outer (3 + fuel) U (start_vector h theta phi) x y m0 d0 = None
  | Some (Err _) => False
  | Some (Ok s') => exists fin, trace_stack outer (3 + fuel) U (start_vector h theta phi) x y m0 d0 = Some (Ok fin) /\
      x_st fin = s' /\ well_ended (phi + PI) fin
  end.
Proof.
  intros HP Ht Hh HG. destruct (planar_start U ws films m0 d0 theta phi h x y HP Ht Hh HG) as (st & E & Ex & R).
  unfold trace_stack. rewrite E. unfold single_ray_stack. rewrite <- Ex.
  assert (Hm0 : (0 <= m0 <= Z.of_nat (length ws) + 1)%Z) by (destruct HG as [[_ G]|[_ G]]; lia).
  exact (planar_run fuel U ws films m0 d0 theta (phi + PI) HP Hm0 Ht outer 0 st R).
Qed.
