(* Light falling straight onto a pyramid that is not repeated (C199). *)
From Coq Require Import Reals List ZArith Bool Lia Lra Psatz.
From Verif Require Import Base Lib Model_Optics Spec_Optics Proof_Optics Proof_Geom Proof_OpticsProps Proof_OpticsEx
  Model_RayIface Spec_RayIface Spec_Shallow Model_Surface Proof_Surface Proof_Surface2 Proof_Shallow Proof_Pyramid Proof_Steep.
Import ListNotations.
Open Scope R_scope.

Section Lone.
  Variables (L t a : R) (simp : list (nat * nat * nat)).
  Hypothesis HL : 0 < L.
  Hypothesis Ha : 0 < cos a.
  Hypothesis Ht : t = tan a.
  Hypothesis Ht0 : 0 < t.
  Hypothesis Htri : pyramid_triangulation simp.
  Let tris := map (tri_of (pyr L (t * L / 2))) simp.
  Let S2 := 2 * t * (cos a * cos a).
  Let C2 := 2 * (cos a * cos a) - 1.

  Lemma turn_facts : 0 < S2 /\ t * S2 = 1 - C2.
  Proof using Ha Ht Ht0.
    pose proof (unit_slope t a Ha Ht) as U. unfold S2, C2. set (k := cos a * cos a) in *.
    assert (K : 0 < k) by (unfold k; apply Rmult_lt_0_compat; auto). clearbody k. split; nra.
  Qed.

  Variables (x y : R).
  Hypothesis Hx : 2 / 10 ^ 9 < x < L - 2 / 10 ^ 9.
  Hypothesis Hy : 2 / 10 ^ 9 < y < L - 2 / 10 ^ 9.
  Hypothesis Hd1 : tol * L < Rabs (x - y).
  Hypothesis Hd2 : tol * L < Rabs (x + y - L).
  Variables (i j : nat) (al be c : R) (p : vec).
  Hypothesis Hij : In (i, j) pyramid_sides.
  Hypothesis Hal : 0 < al.
  Hypothesis Hbe : 0 < be.
  Hypothesis Hsum : al + be + c = 1.
  Hypothesis HF : on_face L t i j al be c x y (vz p).
  Hypothesis Hpx : vx p = x.
  Hypothesis Hpy : vy p = y.

  (* after the reflection no facet of the pyramid is in the way *)
  Lemma leaves_lone : check_intersect (vadd p (vscale (1 / 10 ^ 9) (going t a i))) (going t a i) tris = None.
  Proof using All.
    rewrite check_intersect_none. intros T tau HT (Htau & Ho & _).
    destruct (tri_weights L t a simp HL Ha Ht Ht0 Htri T _ HT Ho) as (i' & j' & al' & be' & c' & Hij' & A & B & C & S & F & _).
    set (s := 1 / 10 ^ 9 + tau). assert (Hs : 0 < s) by (unfold s; lra).
    destruct turn_facts as (B1 & B3).
    assert (XY : exists X Y, Y < X /\ 0 < X /\ X = s * S2 /\ - Y * t = s * C2).
    { exists (s * S2), (s * (- C2 / t)).
      assert (D : - C2 / t < S2). { apply (Rmult_lt_reg_r t); [lra|]. replace (- C2 / t * t) with (- C2) by (field; lra). lra. }
      split; [apply Rmult_lt_compat_l; auto|]. split; [apply Rmult_lt_0_compat; auto|]. split; [reflexivity|]. field. lra. }
    destruct XY as (X & Y & HXY & HX & EX & EY).
    assert (Pa : 0 < al * L) by (apply Rmult_lt_0_compat; auto). assert (Pb : 0 < be * L) by (apply Rmult_lt_0_compat; auto).
    assert (S0 : al * L + be * L + c * L = L) by (rewrite <- !Rmult_plus_distr_r, Hsum; ring).
    assert (S1 : al' * L + be' * L + c' * L = L) by (rewrite <- !Rmult_plus_distr_r, S; ring).
    apply (Rmult_le_compat_r L) in A; [|lra]. apply (Rmult_le_compat_r L) in B; [|lra]. apply (Rmult_le_compat_r L) in C; [|lra].
    destruct F as (G1 & G2 & G3). destruct HF as (F1 & F2 & F3).
    unfold going, vadd, vscale in G1, G2, G3. cbn [vx vy vz] in G1, G2, G3. rewrite Hpx in G1. rewrite Hpy in G2.
    assert (H3 : c' * (L / 2) = c * (L / 2) - Y).
    { apply (Rmult_eq_reg_r t); [|lra]. rewrite F3 in G3. unfold s in EY. fold C2 in G3. lra. }
    assert (H1 : x + fst (outw i) * X = al' * fst (corner L i') + be' * fst (corner L j') + c' * (L / 2)) by (rewrite EX, <- G1; unfold s, S2; ring).
    assert (H2 : y + snd (outw i) * X = al' * snd (corner L i') + be' * snd (corner L j') + c' * (L / 2)) by (rewrite EX, <- G2; unfold s, S2; ring).
    clear G1 G2 G3 Ho EX EY F3.
    assert (Tol : 0 < tol * L) by (unfold tol; apply Rmult_lt_0_compat; lra).
    revert Hd1 Hd2; unfold Rabs; destruct (Rcase_abs (x - y)), (Rcase_abs (x + y - L)); intros E1 E2;
    destruct Hij as [Q|[Q|[Q|[Q|[]]]]]; injection Q as <- <-; cbn [outw corner fst snd] in *;
      destruct Hij' as [Q|[Q|[Q|[Q|[]]]]]; injection Q as <- <-; cbn [corner fst snd] in *; lra.
  Qed.
End Lone.

Section LoneRun.
  Variables (del : list (R * R) -> triples) (angle size : R) (cov : option R) (fr re : rtsurf) (E : env) (q : vec) (n : nat).
  Hypothesis HA : 0 < angle < 90.
  Hypothesis HS : 0 < size.
  Hypothesis Hmade : regular_pyramids del angle size true cov None 0 = Ok (fr, re).
  Hypothesis Htri : pyramid_triangulation (su_simp fr).
  Hypothesis HEs : e_surf E 0 = as_surface fr.
  Hypothesis Hray : straight_at 1 (su_pts fr) size q (mkv 0 0 (-1)).
  Hypothesis Hoff : clear_of_edges size q.
  Let a := angle * PI / 180.
  Let down := mkv 0 0 (-1).

  Lemma lone_once : exists N1 d' th1, unit N1 /\ unit d' /\ vz N1 = cos a /\ Rabs th1 = a /\
    normalise (reflect down N1) = d' /\ vz d' = cos (2 * a) /\ polar d' = 2 * a /\ mirror_law down d' N1 /\
    forall fuel, e_dec E 1%Z th1 down (vscale (IZR 1) N1) (e_rnd E n) = (d', 1%Z, None) ->
      exists p, single_cell_check (S (S fuel)) E (Some q) down 1 n =
        Some {| r_out := if Rltb (cos (2 * a)) 0 then OTransmitted (2 * a) else OReflected (2 * a);
          r_pos := p; r_dir := d'; r_loc := th1; r_nint := S n; r_side := 1%Z |}.
  Proof using All.
    pose proof PI_RGT_0. assert (B0 : 0 < angle * PI) by (apply Rmult_lt_0_compat; lra).
    assert (B1 : 0 < (90 - angle) * PI) by (apply Rmult_lt_0_compat; lra).
    assert (A : 0 < a < PI / 2) by (unfold a; lra). assert (Ca : 0 < cos a) by (apply cos_gt_0; lra).
    assert (T0 : 0 < tan a) by (apply tan_gt_0; lra). set (t := tan a) in *.
    pose proof (made_upright _ _ _ _ _ _ Hmade) as Htr. fold a t in Htr. replace (size * t / 2) with (t * size / 2) in Htr by field.
    assert (Hpts : su_pts fr = pyr size (t * size / 2)).
    { destruct (regular_split _ _ _ _ _ _ _ _ _ Hmade) as [Ef _]. cbn zeta in Ef. rewrite pyramid_points_eq, Rmult_1_r in Ef.
      unfold pyramid_height, radians in Ef. rewrite Rmult_1_r in Ef. destruct (mk_tris _ _ _ _ _ Ef) as [K _]. rewrite K. f_equal. unfold t, a. field. }
    destruct Hray as (Rx & Ry & Rz & _). destruct q as [x y z] eqn:Eq. cbn [vx vy vz] in *.
    destruct Hoff as (Ox & Oy & O1 & O2). cbn [vx vy] in *.
    assert (PM : pm1 1) by (left; reflexivity). rewrite Hpts in Rz.
    destruct (straight_hits size (t * size / 2) (su_simp fr) x y z 1 HS Rx Ry PM Htri Rz) as [h Hh].
    replace (- IZR 1) with (-1) in Hh by (cbn; lra). change (mkv 0 0 (-1)) with down in Hh.
    destruct (under size t a (su_simp fr) HS Ca eq_refl T0 Htri x y Ox Oy O1 O2 z h Hh) as (i & j & al & be & c & Hij & Pa & Pb & Ps & F & Ex & Ey & EN).
    pose proof (leaves_lone size t a (su_simp fr) HS Ca eq_refl T0 Htri x y Ox Oy O1 O2 i j al be c (h_point h) Hij Pa Pb Ps F Ex Ey) as LO.
    set (d' := going t a i) in *.
    assert (Ud : unit down) by (unfold unit, dot, down; cbn; ring).
    assert (Ud' : unit d') by apply (going_unit t a Ca eq_refl).
    destruct (sound_nearest _ _ _ _ Ud Hh) as (_ & _ & _ & _ & _ & _ & UN & _ & _ & _ & TH & CT & _).
    assert (D1 : dot down (h_N h) = - cos a) by (rewrite EN; unfold dot, down; cbn [vx vy vz]; ring).
    assert (Th1 : Rabs (h_theta h) = a).
    { apply cos_inj; [split; [apply Rabs_pos|]|lra|]. { apply Rabs_le. lra. }
      rewrite cos_Rabs, CT, D1, Rabs_Ropp, Rabs_right; lra. }
    assert (Vz : vz d' = cos (2 * a)) by (rewrite cos_2a_cos; unfold d', going; cbn [vz]; ring).
    assert (Pol : polar d' = 2 * a) by (rewrite polar_unit by exact Ud'; rewrite Vz; apply acos_cos; lra).
    assert (Rf : normalise (reflect down (h_N h)) = d').
    { rewrite normalise_unit by (apply reflect_unit; assumption). unfold reflect. rewrite D1, EN. unfold d', going.
      apply vec_ext; unfold vsub, vscale, down; cbn [vx vy vz]; ring. }
    exists (h_N h), d', (h_theta h).
    split; [exact UN|]. split; [exact Ud'|]. split; [rewrite EN; reflexivity|]. split; [exact Th1|]. split; [exact Rf|]. split; [exact Vz|]. split; [exact Pol|].
    split.
    { rewrite normalise_unit in Rf by (apply reflect_unit; assumption). rewrite <- Rf. apply reflect_law. exact UN. }
    intros fuel E1. eexists. unfold single_cell_check. cbn [cell_run]. rewrite HEs. cbn [check_pos as_surface s_tris]. rewrite Htr, Hh, E1.
    cbn [check_pos]. rewrite LO. rewrite Pol. f_equal. f_equal. rewrite Vz. unfold sgn, down. cbn [vz].
    destruct (Rltb 0 (-1)) eqn:L1; [apply Rltb_true in L1; lra|]. destruct (Rltb (-1) 0) eqn:L2; [|apply Rltb_false in L2; lra].
    destruct (Rltb (cos (2 * a)) 0) eqn:L3; destruct (Rltb 0 (cos (2 * a))) eqn:L4; try reflexivity.
  Qed.
End LoneRun.
