(* Rays on a flat surface: Fresnel equations and lookup tables. *)
From Coq Require Import Reals List ZArith Bool Lia Lra.
From Verif Require Import Base Lib Model_Angles Model_Ideal Model_Optics Model_RayIface Model_RT Model_Surface Model_RTStruct Model_Trace
  Spec_Optics Spec_Surface Spec_RTStruct Spec_Trace Proof_Optics Proof_Geom Proof_OpticsProps Proof_Surface Proof_Trace.
From Verif Require Spec_TMM.
Import ListNotations.
Open Scope R_scope.

Section Surf.
  Variables (z0 a b : R) (s : rtsurf).
  Hypothesis Hs : flat_surface z0 a b s.
  Hypothesis Ha : 0 < a.
  Hypothesis Hb : 0 < b.

  Lemma flat_facts : (forall T, In T (su_tris s) -> at_z z0 T) /\ su_zmin s = z0 /\ su_zmax s = z0 /\ su_zcov s = z0 /\
    lmax (zs_of (su_pts s)) = z0 /\ su_Lx s = a /\ su_Ly s = b /\ su_dist s = None /\
    (forall x y, 0 <= x <= a -> 0 <= y <= b -> exists T u v, In T (su_tris s) /\
      0 <= u /\ 0 <= v /\ u + v <= 1 /\ x = vx (t_P0 T) + u * (vx (t_P1 T) - vx (t_P0 T)) + v * (vx (t_P2 T) - vx (t_P0 T)) /\
      y = vy (t_P0 T) + u * (vy (t_P1 T) - vy (t_P0 T)) + v * (vy (t_P2 T) - vy (t_P0 T))).
  Proof.
    destruct Hs as (del & p & E & (F1 & F2 & F3 & F4) & Z & W & O).
    assert (NE : p <> []). { intros ->. destruct F1 as [[] _]. }
    assert (Zm : lmin (zs_of p) = z0 /\ lmax (zs_of p) = z0).
    { assert (NM : zs_of p <> []) by (destruct p; [contradiction|discriminate]).
      destruct (lmin_spec _ NM) as [A _]. destruct (lmax_spec _ NM) as [B _].
      unfold zs_of in A at 2. unfold zs_of in B at 2. apply in_map_iff in A. apply in_map_iff in B.
      destruct A as [v [<- A]], B as [w [<- B]]. split; auto. }
    destruct Zm as [Zm1 Zm2].
    unfold mk_surface in E. destruct (argmax (map Rabs (zs_of p))) as [hi|e]; [|discriminate]. cbn [rbind] in E.
    destruct (find_zcov p) as [zc|e] eqn:FZ; [|discriminate]. cbn [rbind] in E. injection E as <-. cbn [su_simp] in *.
    cbn [su_tris su_zmin su_zmax su_zcov su_pts su_Lx su_Ly su_dist].
    split; [|split; [|split; [|split; [|split; [|split; [|split; [|split]]]]]]]; auto.
    - intros T HT. apply in_map_iff in HT. destruct HT as [t [<- HT]].
      rewrite Forall_forall in W. pose proof (W t HT) as Wt. pose proof (ccw_plan p t Wt) as P. destruct t as [[i j] k].
      destruct Wt as (I & J & K & _). unfold at_z, tri_of. cbn [t_P0 t_P1 t_P2 fst snd].
      split; [apply Z, nth_In; auto|]. split; [apply Z, nth_In; auto|]. split; [apply Z, nth_In; auto|]. exact P.
    - unfold find_zcov in FZ. destruct (filter _ p) as [|v l] eqn:FF; [discriminate|]. injection FZ as <-.
      apply Z. assert (In v (filter (fun v => Reqb (vx v) (lmin (xs_of p)) && Reqb (vy v) (lmin (ys_of p))) p)) by (rewrite FF; now left).
      apply filter_In in H. tauto.
    - rewrite (is_min_eq (xs_of p) 0 F1), (is_max_eq (xs_of p) a F2). rewrite Rabs_left; lra.
    - rewrite (is_min_eq (ys_of p) 0 F3), (is_max_eq (ys_of p) b F4). rewrite Rabs_left; lra.
    - intros x y Hx Hy. destruct (O x y Hx Hy) as (i & j & k & u & v & I & U & V & UV & X & Y).
      exists (tri_of p (i, j, k)), u, v. split; [apply in_map_iff; eexists; split; [reflexivity|auto]|]. cbn [tri_of t_P0 t_P1 t_P2 fst snd]. auto.
  Qed.

  Lemma refreshed_same hs k : refreshed s hs k = s.
  Proof.
    destruct flat_facts as (_ & _ & _ & _ & _ & _ & _ & D & _). unfold refreshed. induction k as [|k IH]; [reflexivity|].
    rewrite seq_S, fold_left_app. rewrite IH. cbn [fold_left]. unfold refresh. now rewrite D.
  Qed.

  Section Shot.
    Variables (dec : decision) (theta phi : R) (sh : shot) (outer fuel : nat).
    Hypothesis Ht : 0 <= theta < PI / 2.
    Hypothesis Hz : z0 + 1 / 10 ^ 8 <> 0.

    Let E := env_of s dec sh.

    Lemma shot_ray : let '(d', s', A) := dec 1%Z theta (down theta phi) (mkv 0 0 1) (sh_rnd sh 0%nat) in
      match A with
      | Some A => trace_shot (S outer) (S fuel) s dec theta phi sh =
          Some (Ok {| y_out := {| ro_theta := 10; ro_A := Some A; ro_loc := theta; ro_dir := d'; ro_checks := 1 |}; y_phi := 0 |})
      | None => (s' = 1%Z /\ 0 < vz d') \/ (s' = (-1)%Z /\ vz d' < 0) ->
          trace_shot (S outer) (3 + fuel) s dec theta phi sh =
          Some (Ok {| y_out := {| ro_theta := polar d'; ro_A := None; ro_loc := 10; ro_dir := d'; ro_checks := 1 |};
                      y_phi := atan2 (vy d') (vx d') |})
      end.
    Proof.
      destruct flat_facts as (F1 & F2 & F3 & F4 & F5 & F6 & F7 & F8 & F9).
      assert (H1 : forall k, (forall T, In T (s_tris (e_surf E k)) -> at_z z0 T) /\ s_zmin (e_surf E k) = z0 /\ s_zmax (e_surf E k) = z0).
      { intros k. unfold E, env_of. cbn [e_surf]. rewrite refreshed_same. cbn [as_surface s_tris s_zmin s_zmax]. auto. }
      assert (H2 : forall x y, 0 <= x < a -> 0 <= y < b -> exists T u v, In T (s_tris (e_surf E 0)) /\
        0 <= u /\ 0 <= v /\ u + v <= 1 /\ x = vx (t_P0 T) + u * (vx (t_P1 T) - vx (t_P0 T)) + v * (vx (t_P2 T) - vx (t_P0 T)) /\
        y = vy (t_P0 T) + u * (vy (t_P1 T) - vy (t_P0 T)) + v * (vy (t_P2 T) - vy (t_P0 T))).
      { intros x y Hx Hy. unfold E, env_of. cbn [e_surf]. rewrite refreshed_same. apply F9; lra. }
      pose proof (fun fu => flat_ray z0 a b E theta phi H1 H2 Ha Hb F6 F7 Ht (sh_x sh) (sh_y sh) outer fu Hz) as K.
      change (e_dec E) with dec in K. change (e_rnd E) with (sh_rnd sh) in K.
      destruct (dec 1%Z theta (down theta phi) (mkv 0 0 1) (sh_rnd sh 0%nat)) as [[d' s'] A].
      unfold trace_shot. fold E. rewrite F4, F5. destruct A as [A|].
      - rewrite (K fuel). reflexivity.
      - intros Q. rewrite (K fuel Q). reflexivity.
    Qed.

    Lemma goes_dir d' t : d' = pointing t (phi + PI) -> 0 <= t <= PI ->
      goes {| y_out := {| ro_theta := polar d'; ro_A := None; ro_loc := 10; ro_dir := d'; ro_checks := 1 |};
              y_phi := atan2 (vy d') (vx d') |} t (phi + PI).
    Proof.
      intros -> Hr. split; [reflexivity|]. split; [cbn [y_out ro_theta]; now apply polar_pointing|]. split; [reflexivity|].
      intros S. cbn [y_phi]. now apply pointing_phi.
    Qed.

    Lemma up_unit : unit (mkv 0 0 1).
    Proof. unfold unit, dot. cbn [vx vy vz]. ring. Qed.

    Lemma down_dot : dot (down theta phi) (mkv 0 0 1) = - cos theta.
    Proof. unfold dot, down. cbn [vx vy vz]. ring. Qed.

    Lemma mirrored_dir d' : mirror_law (down theta phi) d' (mkv 0 0 1) -> d' = pointing theta (phi + PI).
    Proof.
      intros [M1 M2]. unfold tang, vsub, vscale, dot, down in M1, M2. cbn [vx vy vz] in M1, M2.
      injection M2 as X Y _. unfold pointing. rewrite neg_cos, neg_sin. apply vec_ext; cbn [vx vy vz]; lra.
    Qed.

    Lemma refracted_dir n0 n1 d' : 0 < n0 -> 0 < n1 -> n0 * sin theta < n1 -> unit d' -> snell_law n0 n1 (down theta phi) d' (mkv 0 0 1) ->
      exists psi, Spec_TMM.refracts n0 n1 theta psi /\ psi < PI / 2 /\ d' = pointing (PI - psi) (phi + PI).
    Proof.
      intros H0 H1 Hc Hu [M1 M2]. unfold tang, vsub, vscale, dot, down in M1, M2. cbn [vx vy vz] in M1, M2.
      injection M1 as X Y _. assert (C : 0 < cos theta) by (apply cos_gt_0; lra).
      assert (V : vz d' < 0) by nra.
      assert (S0 : 0 <= sin theta) by (apply sin_nonneg; lra).
      set (q := n0 / n1 * sin theta).
      assert (Q0 : 0 <= q). { unfold q. apply Rmult_le_pos; auto. apply Rlt_le, Rdiv_lt_0_compat; auto. }
      assert (Q1 : q < 1). { unfold q. replace (n0 / n1 * sin theta) with (n0 * sin theta / n1) by (field; lra).
        apply Rmult_lt_reg_r with n1; auto. unfold Rdiv. rewrite Rmult_assoc, Rinv_l by lra. lra. }
      exists (asin q). assert (SA : sin (asin q) = q) by (apply sin_asin; lra).
      assert (B0 : 0 <= asin q). { rewrite <- asin_0. destruct (Rle_lt_dec (asin 0) (asin q)); auto.
        assert (sin (asin q) < sin (asin 0)). { pose proof (asin_bound q). pose proof (asin_bound 0). apply sin_increasing_1; try lra. }
        rewrite SA, asin_0, sin_0 in H. lra. }
      assert (B1 : asin q < PI / 2). { destruct (asin_bound_lt q ltac:(lra)). auto. }
      split; [split; [lra|]|].
      - rewrite SA. unfold q. field. lra.
      - split; auto. unfold pointing. rewrite neg_cos, neg_sin, sin_PI_x, SA.
        assert (CP : cos (PI - asin q) = - cos (asin q)) by (rewrite Rtrigo_facts.cos_pi_minus; reflexivity). rewrite CP.
        assert (CA : 0 < cos (asin q)) by (apply cos_gt_0; lra).
        assert (XX : vx d' = q * - cos phi) by (unfold q; lra).
        assert (YY : vy d' = q * - sin phi) by (unfold q; lra).
        apply vec_ext; cbn [vx vy vz]; auto.
        unfold unit, dot in Hu. rewrite XX, YY in Hu.
        pose proof (cos_sin_sq phi). pose proof (cos_sin_sq (asin q)) as CS. rewrite SA in CS.
        assert (Z2 : vz d' * vz d' = cos (asin q) * cos (asin q)).
        { replace (q * - cos phi * (q * - cos phi) + q * - sin phi * (q * - sin phi) + vz d' * vz d')
            with (q * q * (cos phi * cos phi + sin phi * sin phi) + vz d' * vz d') in Hu by ring. rewrite H in Hu. lra. }
        assert ((vz d' + cos (asin q)) * (vz d' - cos (asin q)) = 0) by lra. apply Rmult_integral in H2. destruct H2; lra.
    Qed.

    Lemma pointing_z t f : vz (pointing t f) = cos t.
    Proof. reflexivity. Qed.
  End Shot.

  Lemma flat_fresnel ni nj p theta phi sh outer fuel : 0 < ni -> 0 < nj -> 0 <= theta < PI / 2 -> z0 + 1 / 10 ^ 8 <> 0 ->
    sh_rnd sh 0%nat < 1 -> exists y, trace_shot (S outer) (3 + fuel) s (fresnel_decision ni nj p) theta phi sh = Some (Ok y) /\
    (sh_rnd sh 0%nat <= fresnel_R ni nj theta p -> goes y theta (phi + PI)) /\
    (fresnel_R ni nj theta p < sh_rnd sh 0%nat -> exists psi, Spec_TMM.refracts ni nj theta psi /\ psi < PI / 2 /\ goes y (PI - psi) (phi + PI)).
  Proof.
    intros H0 H1 Ht Hz Hr. assert (C : 0 < cos theta) by (apply cos_gt_0; lra).
    pose proof (shot_ray (fresnel_decision ni nj p) theta phi sh outer fuel Ht Hz) as K.
    change (fresnel_decision ni nj p 1%Z theta (down theta phi) (mkv 0 0 1) (sh_rnd sh 0%nat)) with
      (decide_RT_Fresnel ni nj theta (down theta phi) (mkv 0 0 1) 1%Z p (sh_rnd sh 0%nat)) in K.
    pose proof (decide_cases ni nj theta (down theta phi) (mkv 0 0 1) 1%Z p (sh_rnd sh 0%nat) H0 H1 Ht (down_unit theta phi)
      up_unit (down_dot theta phi) Hr) as D.
    destruct (decide_RT_Fresnel ni nj theta (down theta phi) (mkv 0 0 1) 1%Z p (sh_rnd sh 0%nat)) as [[d' s'] A].
    destruct D as (-> & Hu & [(D1 & D2 & D3)|(D1 & D2 & D3 & D4)]).
    - pose proof (mirrored_dir theta phi d' D3) as Ed. rewrite K; [|left; rewrite Ed; cbn [pointing vz]; auto].
      eexists. split; [reflexivity|]. split; [|intros; lra]. intros _. apply goes_dir; auto. lra.
    - destruct (refracted_dir theta phi Ht ni nj d' H0 H1 D3 Hu D4) as (psi & S1 & S2 & Ed).
      rewrite K.
      + eexists. split; [reflexivity|]. split; [intros; lra|]. intros _. exists psi. split; auto. split; auto. destruct S1 as [S1 _].
        apply goes_dir; auto. lra.
      + right. split; auto. rewrite Ed. cbn [pointing vz]. destruct S1 as [S1 _].
        rewrite Rtrigo_facts.cos_pi_minus. assert (0 < cos psi) by (apply cos_gt_0; lra). lra.
  Qed.

  Lemma flat_table ni nj ent theta phi sh outer fuel : 0 < ni -> 0 < nj -> 0 <= theta < PI / 2 -> z0 + 1 / 10 ^ 8 <> 0 ->
    let e := ent 1%Z theta in let u := sh_rnd sh 0%nat in
    (u <= te_R e \/ te_R e + te_T e < u \/ ni * sin theta < nj) -> 0 <= te_T e ->
    exists y, trace_shot (S outer) (3 + fuel) s (table_decision ni nj ent) theta phi sh = Some (Ok y) /\
    (u <= te_R e -> goes y theta (phi + PI)) /\
    (te_R e < u <= te_R e + te_T e -> exists psi, Spec_TMM.refracts ni nj theta psi /\ psi < PI / 2 /\ goes y (PI - psi) (phi + PI)) /\
    (te_R e + te_T e < u -> is_absorbed y (te_A e) theta).
  Proof.
    intros H0 H1 Ht Hz e u Hcase HT. assert (C : 0 < cos theta) by (apply cos_gt_0; lra).
    pose proof (shot_ray (table_decision ni nj ent) theta phi sh outer (S (S fuel)) Ht Hz) as K1.
    pose proof (shot_ray (table_decision ni nj ent) theta phi sh outer fuel Ht Hz) as K.
    change (table_decision ni nj ent 1%Z theta (down theta phi) (mkv 0 0 1) (sh_rnd sh 0%nat)) with
      (decide_RT_TMM (ent 1%Z (Rabs theta)) ni nj (down theta phi) (mkv 0 0 1) 1%Z u) in K, K1.
    rewrite (Rabs_pos_eq theta) in K, K1 by lra. fold e in K, K1. unfold decide_RT_TMM in K, K1.
    destruct (Rleb u (te_R e)) eqn:L1.
    - apply Rleb_true in L1.
      assert (Ed : normalise (reflect (down theta phi) (mkv 0 0 1)) = pointing theta (phi + PI)).
      { rewrite normalise_unit by (apply reflect_unit; [apply up_unit|apply down_unit]). apply mirrored_dir, reflect_law, up_unit. }
      rewrite Ed in K. rewrite K; [|left; cbn [pointing vz]; auto].
      eexists. split; [reflexivity|]. split; [intros _; apply goes_dir; auto; lra|]. split; intros; lra.
    - apply Rleb_false in L1. destruct (Rltb (te_R e) u) eqn:L2; [|apply Rltb_false in L2; lra]. cbn [andb] in K, K1.
      destruct (Rleb u (te_R e + te_T e)) eqn:L3.
      + apply Rleb_true in L3. assert (Hc : ni * sin theta < nj) by (destruct Hcase as [?|[?|?]]; lra).
        pose proof (interaction_TMM {| te_R := 0; te_T := 1; te_A := [] |} ni nj theta (down theta phi) (mkv 0 0 1) 1%Z (1 / 2) H0 H1 Ht
          (down_unit theta phi) up_unit (down_dot theta phi) Hc) as I.
        unfold decide_RT_TMM in I. cbn [te_R te_T te_A] in I.
        destruct (Rleb (1 / 2) 0) eqn:B1; [apply Rleb_true in B1; lra|]. destruct (Rltb 0 (1 / 2)) eqn:B2; [|apply Rltb_false in B2; lra].
        destruct (Rleb (1 / 2) (0 + 1)) eqn:B3; [|apply Rleb_false in B3; lra]. cbn [andb] in I.
        destruct I as [Hu [I|[I|I]]].
        { destruct I as (_ & I & _). discriminate. }
        2:{ destruct I as (I & _). discriminate. }
        destruct I as (_ & _ & I).
        destruct (refracted_dir theta phi Ht ni nj _ H0 H1 Hc Hu I) as (psi & S1 & S2 & Ed). rewrite Ed in K.
        rewrite K.
        * eexists. split; [reflexivity|]. split; [intros; lra|]. split; [|intros; lra]. intros _. exists psi. split; auto. split; auto.
          destruct S1 as [S1 _]. apply goes_dir; auto. lra.
        * right. split; auto. cbn [pointing vz]. destruct S1 as [S1 _].
          rewrite Rtrigo_facts.cos_pi_minus. assert (0 < cos psi) by (apply cos_gt_0; lra). lra.
      + apply Rleb_false in L3. change (3 + fuel)%nat with (S (S (S fuel))). rewrite K1.
        eexists. split; [reflexivity|]. split; [intros; lra|]. split; [intros; lra|]. intros _. split; [reflexivity|]. split; reflexivity.
  Qed.
End Surf.
