(* Light falling straight onto upright pyramids steeper than 45 degrees is sent to the neighbouring pyramid (C194). *)
From Coq Require Import Reals List ZArith Bool Lia Lra Psatz.
From Verif Require Import Base Lib Model_Optics Spec_Optics Proof_Optics Proof_Geom Proof_OpticsProps Proof_OpticsEx
  Model_RayIface Spec_RayIface Spec_Shallow Model_Surface Proof_Surface Proof_Surface2 Proof_Shallow Proof_Pyramid.
Import ListNotations.
Open Scope R_scope.

(* outward direction of a side *)
Definition outw (i : nat) : R * R :=
  match i with O => (0, -1) | 2%nat => (1, 0) | 4%nat => (0, 1) | _ => (-1, 0) end.
(* the facing side of the next cell, and the number of that cell in exit_side *)
Definition facing (i : nat) : nat * nat := match i with O => (4, 3) | 2%nat => (3, 0) | 4%nat => (0, 2) | _ => (2, 4) end%nat.
Definition next_cell (i : nat) : nat := match i with O => 2 | 2%nat => 1 | 4%nat => 0 | _ => 3 end%nat.

Section Steep.
  Variables (L t a : R) (simp : list (nat * nat * nat)).
  Hypothesis HL : 0 < L.
  Hypothesis Ha : 0 < cos a.
  Hypothesis Ht : t = tan a.
  Hypothesis Ht0 : 0 < t.
  Hypothesis Ht1 : 1 < t.
  Hypothesis Htri : pyramid_triangulation simp.
  Let tris := map (tri_of (pyr L (t * L / 2))) simp.
  Let S2 := 2 * t * (cos a * cos a).
  Let C2 := 2 * (cos a * cos a) - 1.

  Lemma unit_slope : cos a * cos a * (1 + t * t) = 1.
  Proof using Ha Ht.
    rewrite Ht. unfold tan. pose proof (sin2_cos2 a) as E. unfold Rsqr in E.
    replace (cos a * cos a * (1 + sin a / cos a * (sin a / cos a))) with (cos a * cos a + sin a * sin a) by (field; lra). lra.
  Qed.

  Lemma bounce_facts : 0 < S2 < 1 /\ -1 < C2 < 0 /\ t * S2 = 1 - C2.
  Proof using Ha Ht Ht1.
    pose proof unit_slope as U. unfold S2, C2. set (k := cos a * cos a) in *.
    assert (K : 0 < k) by (unfold k; apply Rmult_lt_0_compat; auto). clearbody k.
    assert (K2 : k < 1 / 2) by nra. repeat split; try nra.
  Qed.

  (* a point of a triangle, and the direction of its normal *)
  Lemma tri_weights T p : In T tris -> on_tri T p -> exists i j al be c, In (i, j) pyramid_sides /\
    - tol <= al /\ - tol <= be /\ - tol <= c /\ al + be + c = 1 /\ on_face L t i j al be c (vx p) (vy p) (vz p) /\
    forall N, unit N -> dot N (vsub (t_P1 T) (t_P0 T)) = 0 -> dot N (vsub (t_P2 T) (t_P0 T)) = 0 ->
      0 < dot N (cross (vsub (t_P1 T) (t_P0 T)) (vsub (t_P2 T) (t_P0 T))) ->
      N = mkv (fst (outw i) * (t * cos a)) (snd (outw i) * (t * cos a)) (cos a).
  Proof using HL Ha Ht Ht0 Htri.
    intros HT (u & v & Hu & Hv & Huv & ->).
    assert (Tol : 0 <= tol) by (unfold tol; lra).
    assert (Hab : Rabs t = tan a) by (rewrite <- Ht; apply Rabs_right; lra).
    destruct (pyr_face _ _ _ _ HT Htri) as (i & j & Hij & K).
    assert (G : forall N, unit N -> dot N (vsub (t_P1 T) (t_P0 T)) = 0 -> dot N (vsub (t_P2 T) (t_P0 T)) = 0 ->
      0 < dot N (cross (vsub (t_P1 T) (t_P0 T)) (vsub (t_P2 T) (t_P0 T))) ->
      N = mkv (fst (outw i) * (t * cos a)) (snd (outw i) * (t * cos a)) (cos a)).
    { intros N U O1 O2 O3.
      assert (P : dot N (vsub (cv L j) (cv L i)) = 0 /\ dot N (vsub (apex L (t * L / 2)) (cv L i)) = 0 /\
        0 < dot N (cross (vsub (cv L j) (cv L i)) (vsub (apex L (t * L / 2)) (cv L i)))).
      { destruct K as [-> | [-> | ->]]; cbn [t_P0 t_P1 t_P2] in *; unfold dot, cross, vsub in *; cbn [vx vy vz] in *; lra. }
      destruct P as (P1 & P2 & P3). pose proof (face_normal L t a i j N HL Ha Hab Hij U P1 P2 P3) as Z.
      destruct N as [x y z]. cbn [vz] in Z. subst z. clear P3 U O1 O2 O3.
      unfold dot, vsub, cv, apex in P1, P2.
      destruct Hij as [Q|[Q|[Q|[Q|[]]]]]; injection Q as <- <-; cbn [corner fst snd vx vy vz outw] in *;
        apply vec_ext; cbn [vx vy vz]; try reflexivity.
      - apply (Rmult_eq_reg_r L); lra.
      - apply (Rmult_eq_reg_r (L / 2)); [|lra]. assert (X : x * L = 0) by lra. lra.
      - apply (Rmult_eq_reg_r (L / 2)); [|lra]. assert (X : y * L = 0) by lra. lra.
      - apply (Rmult_eq_reg_r L); lra.
      - apply (Rmult_eq_reg_r L); lra.
      - apply (Rmult_eq_reg_r (L / 2)); [|lra]. assert (X : x * L = 0) by lra. lra.
      - apply (Rmult_eq_reg_r (L / 2)); [|lra]. assert (X : y * L = 0) by lra. lra.
      - apply (Rmult_eq_reg_r L); lra. }
    exists i, j. destruct K as [-> | [-> | ->]]; cbn [t_P0 t_P1 t_P2] in *.
    - exists (1 - u - v), u, v. repeat (split; [assumption || lra|]). split; [|exact G].
      unfold on_face, cv, apex, vadd, vscale, vsub. cbn [vx vy vz]. repeat split; ring.
    - exists v, (1 - u - v), u. repeat (split; [assumption || lra|]). split; [|exact G].
      unfold on_face, cv, apex, vadd, vscale, vsub. cbn [vx vy vz]. repeat split; ring.
    - exists u, v, (1 - u - v). repeat (split; [assumption || lra|]). split; [|exact G].
      unfold on_face, cv, apex, vadd, vscale, vsub. cbn [vx vy vz]. repeat split; ring.
  Qed.

  Lemma weights_tri i j : In (i, j) pyramid_sides -> exists T, In T tris /\
    (forall al be c p, 0 <= al -> 0 <= be -> 0 <= c -> al + be + c = 1 -> on_face L t i j al be c (vx p) (vy p) (vz p) -> on_tri T p) /\
    forall d, dot d (cross (vsub (t_P1 T) (t_P0 T)) (vsub (t_P2 T) (t_P0 T))) =
      L * L / 2 * (t * (fst (outw i) * vx d + snd (outw i) * vy d) + vz d).
  Proof using HL Ha Ht Ht0 Htri.
    intros Hij. destruct Htri as [_ H2]. destruct (H2 (i, j) Hij) as (sm & Hsm & Hf).
    pose proof (face_tri L (t * L / 2) (i, j) sm Hij Hf) as K. cbn beta iota zeta in K.
    exists (tri_of (pyr L (t * L / 2)) sm). split; [apply in_map; exact Hsm|].
    assert (Tol : 0 <= tol) by (unfold tol; lra). split.
    - intros al be c [x y z] A B C S (Ex & Ey & Ez). cbn [vx vy vz] in *. unfold on_tri.
      destruct K as [-> | [-> | ->]]; cbn [t_P0 t_P1 t_P2];
        [exists be, c|exists c, al|exists al, be]; (split; [lra|]); (split; [lra|]); (split; [lra|]);
        apply vec_ext; unfold cv, apex, vadd, vscale, vsub; cbn [vx vy vz]; rewrite ?Ex, ?Ey, ?Ez;
        replace al with (1 - be - c) by lra; ring.
    - intros [x y z]. destruct Hij as [Q|[Q|[Q|[Q|[]]]]]; injection Q as <- <-;
        destruct K as [-> | [-> | ->]]; unfold dot, cross, vsub, cv, apex; cbn [t_P0 t_P1 t_P2 vx vy vz corner fst snd outw]; field.
  Qed.

  Variables (x y : R).
  Hypothesis Hx : 2 / 10 ^ 9 < x < L - 2 / 10 ^ 9.
  Hypothesis Hy : 2 / 10 ^ 9 < y < L - 2 / 10 ^ 9.
  Hypothesis Hd1 : tol * L < Rabs (x - y).
  Hypothesis Hd2 : tol * L < Rabs (x + y - L).

  Definition going (i : nat) : vec := mkv (fst (outw i) * S2) (snd (outw i) * S2) C2.

  Lemma going_unit i : unit (going i).
  Proof using Ha Ht.
    pose proof unit_slope as U. unfold going, unit, dot, S2, C2. cbn [vx vy vz].
    assert (O : fst (outw i) * fst (outw i) + snd (outw i) * snd (outw i) = 1) by (destruct i as [|[|[|[|[|i]]]]]; cbn; ring).
    set (k := cos a * cos a) in *. set (e1 := fst (outw i)) in *. set (e2 := snd (outw i)) in *. clearbody e1 e2.
    replace (e1 * (2 * t * k) * (e1 * (2 * t * k)) + e2 * (2 * t * k) * (e2 * (2 * t * k)) + (2 * k - 1) * (2 * k - 1))
      with (4 * k * (k * (t * t) * (e1 * e1 + e2 * e2)) + (2 * k - 1) * (2 * k - 1)) by ring.
    rewrite O. replace (k * (t * t) * 1) with (1 - k) by lra. ring.
  Qed.

  (* the facet under (x, y) *)
  Lemma under z h : check_intersect (mkv x y z) (mkv 0 0 (-1)) tris = Some h ->
    exists i j al be c, In (i, j) pyramid_sides /\ 0 < al /\ 0 < be /\ al + be + c = 1 /\
      on_face L t i j al be c x y (vz (h_point h)) /\ vx (h_point h) = x /\ vy (h_point h) = y /\
      h_N h = mkv (fst (outw i) * (t * cos a)) (snd (outw i) * (t * cos a)) (cos a).
  Proof using HL Ha Ht Ht0 Htri Hx Hy Hd1 Hd2.
    intros Hh. assert (Ud : unit (mkv 0 0 (-1))) by (unfold unit, dot; cbn; ring).
    destruct (sound_nearest _ _ _ _ Ud Hh) as (T & tt & HT & (_ & Ho & _) & _ & Hp & UN & O1 & O2 & O3 & _).
    rewrite <- Hp in Ho. destruct (tri_weights T _ HT Ho) as (i & j & al & be & c & Hij & A & B & C & S & F & G).
    assert (Ex : vx (h_point h) = x) by (rewrite Hp; cbn; ring). assert (Ey : vy (h_point h) = y) by (rewrite Hp; cbn; ring).
    rewrite Ex, Ey in F. exists i, j, al, be, c. split; [exact Hij|].
    apply (Rmult_le_compat_r L) in A; [|lra]. apply (Rmult_le_compat_r L) in B; [|lra]. apply (Rmult_le_compat_r L) in C; [|lra].
    assert (S' : al * L + be * L + c * L = L) by (rewrite <- !Rmult_plus_distr_r, S; ring).
    assert (P : 0 < al * L /\ 0 < be * L).
    { destruct F as (F1 & F2 & _). destruct Hij as [Q|[Q|[Q|[Q|[]]]]]; injection Q as <- <-; cbn [corner fst snd] in *;
        revert Hd1 Hd2; unfold Rabs; destruct (Rcase_abs (x - y)), (Rcase_abs (x + y - L)); intros; lra. }
    destruct P as [P1 P2].
    split; [apply (Rmult_lt_reg_r L); lra|]. split; [apply (Rmult_lt_reg_r L); lra|].
    split; [exact S|]. split; [exact F|]. split; [exact Ex|]. split; [exact Ey|]. exact (G (h_N h) UN O1 O2 O3).
  Qed.

  Section Second.
    Variables (i j : nat) (al be c : R) (p : vec).
    Hypothesis Hij : In (i, j) pyramid_sides.
    Hypothesis Hal : 0 < al.
    Hypothesis Hbe : 0 < be.
    Hypothesis Hsum : al + be + c = 1.
    Hypothesis HF : on_face L t i j al be c x y (vz p).
    Hypothesis Hpx : vx p = x.
    Hypothesis Hpy : vy p = y.
    Let q := vadd p (vscale (1 / 10 ^ 9) (going i)).

    Lemma away : 4 / 10 ^ 9 < c * L < L.
    Proof using All.
      assert (0 < al * L) by (apply Rmult_lt_0_compat; auto). assert (0 < be * L) by (apply Rmult_lt_0_compat; auto).
      assert (S' : al * L + be * L + c * L = L) by (rewrite <- !Rmult_plus_distr_r, Hsum; ring).
      destruct HF as (F1 & F2 & _). destruct Hij as [Q|[Q|[Q|[Q|[]]]]]; injection Q as <- <-; cbn [corner fst snd] in *; lra.
    Qed.

    (* along the reflected ray: the way outwards X and the loss of height Y in units of the slope *)
    Lemma along s : 0 < s -> exists X Y, 0 < Y < X /\ X = s * S2 /\ - Y * t = s * C2.
    Proof using Ha Ht Ht0 Ht1.
      intros Hs. destruct bounce_facts as (B1 & B2 & B3). exists (s * S2), (s * (- C2 / t)).
      assert (D : - C2 / t < S2). { apply (Rmult_lt_reg_r t); [lra|]. replace (- C2 / t * t) with (- C2) by (field; lra). lra. }
      assert (D0 : 0 < - C2 / t) by (apply Rdiv_lt_0_compat; lra).
      split; [split; [apply Rmult_lt_0_compat; auto|apply Rmult_lt_compat_l; auto]|]. split; [reflexivity|]. field. lra.
    Qed.

    Lemma leaves_own : check_intersect q (going i) tris = None.
    Proof using All.
      rewrite check_intersect_none. intros T tau HT (Htau & Ho & _).
      destruct (tri_weights T _ HT Ho) as (i' & j' & al' & be' & c' & Hij' & A & B & C & S & F & _).
      set (s := 1 / 10 ^ 9 + tau). assert (Hs : 0 < s) by (unfold s; lra). destruct (along s Hs) as (X & Y & HXY & EX & EY).
      pose proof away as Hc.
      assert (Pa : 0 < al * L) by (apply Rmult_lt_0_compat; auto). assert (Pb : 0 < be * L) by (apply Rmult_lt_0_compat; auto).
      assert (S0 : al * L + be * L + c * L = L) by (rewrite <- !Rmult_plus_distr_r, Hsum; ring).
      assert (S1 : al' * L + be' * L + c' * L = L) by (rewrite <- !Rmult_plus_distr_r, S; ring).
      destruct F as (G1 & G2 & G3). destruct HF as (F1 & F2 & F3).
      unfold q, going, vadd, vscale in G1, G2, G3. cbn [vx vy vz] in G1, G2, G3. rewrite Hpx in G1. rewrite Hpy in G2.
      assert (H3 : c' * (L / 2) = c * (L / 2) - Y).
      { apply (Rmult_eq_reg_r t); [|lra]. rewrite F3 in G3. unfold s in EY. lra. }
      assert (H1 : x + fst (outw i) * X = al' * fst (corner L i') + be' * fst (corner L j') + c' * (L / 2)) by (rewrite EX, <- G1; unfold s; ring).
      assert (H2 : y + snd (outw i) * X = al' * snd (corner L i') + be' * snd (corner L j') + c' * (L / 2)) by (rewrite EX, <- G2; unfold s; ring).
      clear G1 G2 G3 Ho EX EY F3.
      destruct Hij as [Q|[Q|[Q|[Q|[]]]]]; injection Q as <- <-; cbn [outw corner fst snd] in *;
        destruct Hij' as [Q|[Q|[Q|[Q|[]]]]]; injection Q as <- <-; cbn [corner fst snd] in *; lra.
    Qed.

    Lemma next_side : fst (exit_side q (going i) L L) = next_cell i.
    Proof using All.
      destruct bounce_facts as (B1 & B2 & B3). pose proof away as Hc.
      assert (Pa : 0 < al * L) by (apply Rmult_lt_0_compat; auto). assert (Pb : 0 < be * L) by (apply Rmult_lt_0_compat; auto).
      assert (IC : in_cell L L q).
      { unfold in_cell, q, going, vadd, vscale. cbn [vx vy]. rewrite Hpx, Hpy.
        destruct Hij as [Q|[Q|[Q|[Q|[]]]]]; injection Q as <- <-; cbn [outw fst snd]; lra. }
      assert (NV : vx (going i) <> 0 \/ vy (going i) <> 0).
      { unfold going. cbn [vx vy]. destruct Hij as [Q|[Q|[Q|[Q|[]]]]]; injection Q as <- <-; cbn [outw fst snd]; [right|left|right|left]; lra. }
      pose proof (exit_side_spec L L q (going i) IC NV) as K. destruct (exit_side q (going i) L L) as [w ot]. cbn [fst].
      destruct K as (Hw & tt & _ & Htt & Hon & Hcl & _). destruct IC as [I1 I2]. unfold on_wall, vadd, vscale in Hon. cbn [vx vy] in Hon.
      assert (PS : 0 < tt * S2) by (apply Rmult_lt_0_compat; lra).
      unfold q, going, vadd, vscale in I1, I2. cbn [vx vy] in I1, I2.
      unfold q, going, vadd, vscale in Hon. cbn [vx vy] in Hon. rewrite Hpx, Hpy in *.
      destruct Hij as [Q|[Q|[Q|[Q|[]]]]]; injection Q as <- <-; cbn [outw next_cell fst snd] in *;
        destruct w as [|[|[|[|w]]]]; try reflexivity; try lia; exfalso; lra.
    Qed.

    Lemma meets_next : exists h, check_intersect (vadd q (translation L L (next_cell i))) (going i) tris = Some h /\
      h_N h = mkv (- fst (outw i) * (t * cos a)) (- snd (outw i) * (t * cos a)) (cos a).
    Proof using All.
      destruct bounce_facts as (B1 & B2 & B3). pose proof away as Hc.
      assert (Pa : 0 < al * L) by (apply Rmult_lt_0_compat; auto). assert (Pb : 0 < be * L) by (apply Rmult_lt_0_compat; auto).
      assert (S0 : al * L + be * L + c * L = L) by (rewrite <- !Rmult_plus_distr_r, Hsum; ring).
      set (q' := vadd q (translation L L (next_cell i))).
      (* where the facing facet is met *)
      set (s1 := c * L * t / (1 - 2 * C2)).
      assert (Hs1 : 1 / 10 ^ 9 < s1).
      { unfold s1. apply (Rmult_lt_reg_r (1 - 2 * C2)); [lra|].
        replace (c * L * t / (1 - 2 * C2) * (1 - 2 * C2)) with (c * L * t) by (field; lra).
        assert (c * L * 1 < c * L * t) by (apply Rmult_lt_compat_l; lra). lra. }
      destruct (along s1 ltac:(lra)) as (X1 & Y1 & HXY1 & EX1 & EY1).
      assert (Sum1 : X1 + Y1 = c * L).
      { apply (Rmult_eq_reg_r t); [|lra].
        replace ((X1 + Y1) * t) with (X1 * t - (- Y1 * t)) by ring. rewrite EY1, EX1.
        replace (s1 * S2 * t - s1 * C2) with (s1 * (t * S2 - C2)) by ring. rewrite B3. unfold s1. field. lra. }
      assert (Hfac : In (facing i) pyramid_sides).
      { destruct Hij as [Q|[Q|[Q|[Q|[]]]]]; injection Q as <- <-; cbn; tauto. }
      destruct (facing i) as [i2 j2] eqn:Efac.
      destruct (weights_tri i2 j2 Hfac) as (T1 & HT1 & On1 & Dt1).
      assert (Out : outw i2 = (- fst (outw i), - snd (outw i))).
      { destruct Hij as [Q|[Q|[Q|[Q|[]]]]]; injection Q as <- <-; cbn in Efac; injection Efac as <- <-; cbn; f_equal; ring. }
      destruct HF as (F1 & F2 & F3).
      assert (M1 : meets q' (going i) T1 (s1 - 1 / 10 ^ 9)).
      { split; [lra|]. split.
        - set (c1 := (c * L / 2 - Y1) * 2 / L). set (b1 := (al * L + Y1) / L). set (a1 := (be * L + Y1) / L).
          assert (Q1 : a1 + b1 + c1 = 1).
          { unfold a1, b1, c1. replace ((be * L + Y1) / L + (al * L + Y1) / L + (c * L / 2 - Y1) * 2 / L) with (al + be + c) by (field; lra). exact Hsum. }
          assert (IL : 0 < / L) by (apply Rinv_0_lt_compat; auto).
          apply (On1 a1 b1 c1); [apply Rmult_le_pos; lra|apply Rmult_le_pos; lra|apply Rmult_le_pos; [apply Rmult_le_pos|]; lra|exact Q1|].
          assert (Z1 : vz p + s1 * C2 = c1 * (t * L / 2)).
          { rewrite F3, <- EY1. unfold c1. field. lra. }
          assert (EA : a1 * L = be * L + Y1) by (unfold a1; field; lra).
          assert (EB : b1 * L = al * L + Y1) by (unfold b1; field; lra).
          assert (EC : c1 * (L / 2) = c * L / 2 - Y1) by (unfold c1; field; lra).
          unfold on_face, q', q, going, vadd, vscale. cbn [vx vy vz]. rewrite Hpx, Hpy.
          assert (T0 : vz (translation L L (next_cell i)) = 0)
            by (destruct Hij as [Q|[Q|[Q|[Q|[]]]]]; injection Q as <- <-; reflexivity).
          rewrite T0. replace (vz p + 1 / 10 ^ 9 * C2 + 0 + (s1 - 1 / 10 ^ 9) * C2) with (vz p + s1 * C2) by ring.
          rewrite Z1. clear Z1 F3 T0 Dt1 On1 HT1. clearbody a1 b1 c1 s1.
          destruct Hij as [Q|[Q|[Q|[Q|[]]]]]; injection Q as <- <-; cbn in Efac; injection Efac as <- <-;
            cbn [outw next_cell translation nth corner fst snd vx vy vz] in *; repeat split; lra.
        - rewrite Dt1, Out. cbn [fst snd]. unfold going. cbn [vx vy vz].
          assert (O : fst (outw i) * fst (outw i) + snd (outw i) * snd (outw i) = 1) by (destruct i as [|[|[|[|[|ii]]]]]; cbn; ring).
          replace (t * (- fst (outw i) * (fst (outw i) * S2) + - snd (outw i) * (snd (outw i) * S2)) + C2)
            with (- (t * S2) * (fst (outw i) * fst (outw i) + snd (outw i) * snd (outw i)) + C2) by ring.
          rewrite O, B3. assert (0 < L * L) by (apply Rmult_lt_0_compat; auto).
          apply Rmult_integral_contrapositive_currified; lra. }
      destruct (check_intersect q' (going i) tris) as [h|] eqn:Hh.
      2:{ exfalso. rewrite check_intersect_none in Hh. exact (Hh _ _ HT1 M1). }
      exists h. split; [reflexivity|].
      destruct (sound_nearest _ _ _ _ (going_unit i) Hh) as (T & tau & HT & (Htau & Ho & _) & Hmin & _ & UN & O1 & O2 & O3 & _).
      assert (Hle : tau <= s1 - 1 / 10 ^ 9) by exact (Hmin _ _ HT1 M1).
      destruct (tri_weights T _ HT Ho) as (i' & j' & al' & be' & c' & Hij' & A & B & C & S & F & G).
      rewrite (G (h_N h) UN O1 O2 O3). clear G O1 O2 O3 UN.
      set (s := 1 / 10 ^ 9 + tau). assert (Hs : 0 < s <= s1) by (unfold s; lra).
      destruct (along s ltac:(lra)) as (X & Y & HXY & EX & EY).
      assert (XX : X <= X1) by (rewrite EX, EX1; apply Rmult_le_compat_r; lra).
      assert (S1 : al' * L + be' * L + c' * L = L) by (rewrite <- !Rmult_plus_distr_r, S; ring).
      destruct F as (G1 & G2 & G3).
      unfold q', q, going, vadd, vscale in G1, G2, G3. cbn [vx vy vz] in G1, G2, G3. rewrite Hpx in G1. rewrite Hpy in G2.
      assert (T0 : vz (translation L L (next_cell i)) = 0)
        by (destruct Hij as [Q|[Q|[Q|[Q|[]]]]]; injection Q as <- <-; reflexivity).
      assert (H3 : c' * (L / 2) = c * (L / 2) - Y).
      { apply (Rmult_eq_reg_r t); [|lra]. rewrite F3, T0 in G3. unfold s in EY. lra. }
      assert (H1 : x + fst (outw i) * X + vx (translation L L (next_cell i)) = al' * fst (corner L i') + be' * fst (corner L j') + c' * (L / 2))
        by (rewrite EX, <- G1; unfold s; ring).
      assert (H2 : y + snd (outw i) * X + vy (translation L L (next_cell i)) = al' * snd (corner L i') + be' * snd (corner L j') + c' * (L / 2))
        by (rewrite EX, <- G2; unfold s; ring).
      clear G1 G2 G3 EX EY F3 EX1 EY1 Ho On1 Dt1 M1 T0 Hmin Hle Hs. clearbody s1 s.
      destruct Hij as [Q|[Q|[Q|[Q|[]]]]]; injection Q as <- <-; cbn [outw next_cell translation nth corner fst snd vx vy vz] in *;
        destruct Hij' as [Q|[Q|[Q|[Q|[]]]]]; injection Q as <- <-; cbn [outw corner fst snd] in *;
        first [exfalso; lra | apply vec_ext; cbn [vx vy vz]; ring].
    Qed.
  End Second.
End Steep.

(* ---------- the run ---------- *)

Lemma nint_grows E d0z : forall fuel st res, irun fuel E d0z st = Some (Ok res) -> (i_nint st <= r_nint res)%nat.
Proof.
  induction fuel as [|fuel IH]; intros st res; [discriminate|]. cbn [irun].
  assert (K : match istep E d0z st with inl st' => (i_nint st <= i_nint st')%nat | inr (Ok r) => (i_nint st <= r_nint r)%nat | inr (Err _) => True end).
  { unfold istep. destruct (check_pos _ _ _) as [h|].
    - destruct (e_dec E _ _ _ _ _) as [[d' s'] [A|]]; cbn; lia.
    - destruct (i_checked st); cbn [negb].
      + destruct (still_inside _ _ _ _); [cbn; lia|]. destruct (i_theta st); cbn; auto.
      + destruct (Nat.ltb 1 (S (i_i1 st))); [cbn; lia|]. destruct (Nat.ltb (i_misses st) 100); [|cbn; lia].
        destruct (e_xy E (i_misses st)). cbn. lia. }
  destruct (istep E d0z st) as [st'|[r|e]].
  - intros H. specialize (IH _ _ H). lia.
  - intros H. injection H as <-. exact K.
  - discriminate.
Qed.

Lemma irun_mono E d0z : forall f f' st o, irun f E d0z st = Some o -> (f <= f')%nat -> irun f' E d0z st = Some o.
Proof.
  induction f as [|f IH]; intros f' st o; [discriminate|]. intros H Hf. destruct f' as [|f']; [lia|]. cbn [irun] in *.
  destruct (istep E d0z st) as [st'|r]; [|exact H]. apply IH; [exact H|lia].
Qed.

Section SteepRun.
  Variables (del : list (R * R) -> triples) (angle size : R) (cov : option R) (fr re : rtsurf) (E : env) (q : vec) (n : nat).
  Hypothesis HA : 45 < angle < 90.
  Hypothesis HS : 0 < size.
  Hypothesis Hmade : regular_pyramids del angle size true cov None 0 = Ok (fr, re).
  Hypothesis Htri : pyramid_triangulation (su_simp fr).
  Hypothesis HEs : forall k, e_surf E k = as_surface fr.
  Hypothesis HEx : e_Lx E = size.
  Hypothesis HEy : e_Ly E = size.
  Hypothesis Hray : straight_at 1 (su_pts fr) size q (mkv 0 0 (-1)).
  Hypothesis Hoff : clear_of_edges size q.
  Let a := angle * PI / 180.
  Let down := mkv 0 0 (-1).

  Lemma steep_angle : PI / 4 < a < PI / 2 /\ 0 < cos a /\ 1 < tan a.
  Proof using HA.
    pose proof PI_RGT_0. assert (0 < (angle - 45) * PI) by (apply Rmult_lt_0_compat; lra).
    assert (0 < (90 - angle) * PI) by (apply Rmult_lt_0_compat; lra).
    assert (A : PI / 4 < a < PI / 2) by (unfold a; lra). split; [exact A|]. split; [apply cos_gt_0; lra|].
    rewrite <- tan_PI4. apply tan_increasing; lra.
  Qed.

  (* both facets; the state in which the second decision is taken *)
  Lemma steep_two : exists N1 N2 d' th1 th2 h2, unit N1 /\ unit N2 /\ unit d' /\ vz N1 = cos a /\ Rabs th1 = a /\ Rabs th2 = Rabs (PI - 3 * a) /\
    normalise (reflect down N1) = d' /\ dot d' N2 = - cos th2 /\ h_theta h2 = th2 /\ h_N h2 = N2 /\
    forall fuel d2 s2 A2, e_dec E 1%Z th1 down (vscale (IZR 1) N1) (e_rnd E n) = (d', 1%Z, None) ->
      e_dec E 1%Z th2 d' (vscale (IZR 1) N2) (e_rnd E (S n)) = (d2, s2, A2) ->
      single_interface_check (S (S (S fuel))) E (Some q) down 1 n =
      match A2 with
      | Some A => Some (Ok {| r_out := OAbsorbed A; r_pos := Some (vadd (h_point h2) (vscale (1 / 10 ^ 9) d2)); r_dir := d2;
          r_loc := th2; r_nint := S (S n); r_side := s2 |})
      | None => irun fuel E (vz down) {| i_r := Some (vadd (h_point h2) (vscale (1 / 10 ^ 9) d2)); i_d := d2; i_side := s2;
          i_checked := false; i_misses := 0; i_i1 := 3; i_theta := Some th2; i_nint := S (S n); i_ref := 1 |}
      end.
  Proof using All.
    destruct steep_angle as (A & Ca & T1). pose proof PI_RGT_0. set (t := tan a) in *.
    pose proof (made_upright _ _ _ _ _ _ Hmade) as Htr. fold a t in Htr. replace (size * t / 2) with (t * size / 2) in Htr by field.
    assert (Hpts : su_pts fr = pyr size (t * size / 2)).
    { destruct (regular_split _ _ _ _ _ _ _ _ _ Hmade) as [Ef _]. cbn zeta in Ef. rewrite pyramid_points_eq, Rmult_1_r in Ef.
      unfold pyramid_height, radians in Ef. rewrite Rmult_1_r in Ef. destruct (mk_tris _ _ _ _ _ Ef) as [K _]. rewrite K. f_equal. unfold t, a. field. }
    destruct Hray as (Rx & Ry & Rz & _). destruct q as [x y z] eqn:Eq. cbn [vx vy vz] in *.
    destruct Hoff as (Ox & Oy & O1 & O2). cbn [vx vy] in *.
    assert (PM : pm1 1) by (left; reflexivity). rewrite Hpts in Rz.
    destruct (straight_hits size (t * size / 2) (su_simp fr) x y z 1 HS Rx Ry PM Htri Rz) as [h Hh].
    replace (- IZR 1) with (-1) in Hh by (cbn; lra). change (mkv 0 0 (-1)) with down in Hh.
    destruct (under size t a (su_simp fr) HS Ca eq_refl (Rlt_trans _ _ _ Rlt_0_1 T1) Htri x y Ox Oy O1 O2 z h Hh) as (i & j & al & be & c & Hij & Pa & Pb & Ps & F & Ex & Ey & EN).
    pose proof (leaves_own size t a (su_simp fr) HS Ca eq_refl (Rlt_trans _ _ _ Rlt_0_1 T1) T1 Htri x y Ox Oy O1 O2 i j al be c (h_point h) Hij Pa Pb Ps F Ex Ey) as LO.
    pose proof (next_side size t a (su_simp fr) HS Ca eq_refl (Rlt_trans _ _ _ Rlt_0_1 T1) T1 Htri x y Ox Oy O1 O2 i j al be c (h_point h) Hij Pa Pb Ps F Ex Ey) as NS.
    destruct (meets_next size t a (su_simp fr) HS Ca eq_refl (Rlt_trans _ _ _ Rlt_0_1 T1) T1 Htri x y Ox Oy O1 O2 i j al be c (h_point h) Hij Pa Pb Ps F Ex Ey) as (h2 & Hh2 & EN2).
    set (d' := going t a i) in *.
    assert (Ud : unit down) by (unfold unit, dot, down; cbn; ring).
    assert (Ud' : unit d') by apply (going_unit t a Ca eq_refl).
    destruct (sound_nearest _ _ _ _ Ud Hh) as (_ & _ & _ & _ & _ & _ & UN & _ & _ & _ & TH & CT & _).
    destruct (sound_nearest _ _ _ _ Ud' Hh2) as (_ & _ & _ & _ & _ & _ & UN2 & _ & _ & _ & TH2 & CT2 & _).
    pose proof (unit_slope t a Ca eq_refl) as US.
    assert (O : fst (outw i) * fst (outw i) + snd (outw i) * snd (outw i) = 1) by (destruct i as [|[|[|[|[|ii]]]]]; cbn; ring).
    assert (D1 : dot down (h_N h) = - cos a) by (rewrite EN; unfold dot, down; cbn [vx vy vz]; ring).
    assert (D2 : dot d' (h_N h2) = cos (3 * a)).
    { rewrite EN2. unfold dot, d', going. cbn [vx vy vz].
      replace (3 * a) with (2 * a + a) by ring. rewrite cos_plus, cos_2a_cos, sin_2a.
      assert (Es : sin a = t * cos a) by (unfold t, tan; field; lra). rewrite Es.
      set (e1 := fst (outw i)) in *. set (e2 := snd (outw i)) in *. clearbody e1 e2.
      replace (e1 * (2 * t * (cos a * cos a)) * (- e1 * (t * cos a)) + e2 * (2 * t * (cos a * cos a)) * (- e2 * (t * cos a)) + (2 * (cos a * cos a) - 1) * cos a)
        with (- (2 * t * (cos a * cos a)) * (t * cos a) * (e1 * e1 + e2 * e2) + (2 * (cos a * cos a) - 1) * cos a) by ring.
      rewrite O. ring. }
    assert (N3 : cos (3 * a) < 0).
    { replace (cos (3 * a)) with (- cos (3 * a - PI)).
      - assert (0 < cos (3 * a - PI)) by (apply cos_gt_0; lra). lra.
      - replace (3 * a) with (3 * a - PI + PI) at 2 by ring. rewrite neg_cos. reflexivity. }
    assert (Th1 : Rabs (h_theta h) = a).
    { apply cos_inj; [split; [apply Rabs_pos|]|lra|]. { apply Rabs_le. lra. }
      rewrite cos_Rabs, CT, D1, Rabs_Ropp, Rabs_right; lra. }
    assert (Th2 : Rabs (h_theta h2) = Rabs (PI - 3 * a)).
    { apply cos_inj; [split; [apply Rabs_pos|apply Rabs_le; lra]|split; [apply Rabs_pos|apply Rabs_le; lra]|].
      rewrite !cos_Rabs, CT2, D2, Rabs_left by auto.
      replace (PI - 3 * a) with (- (3 * a - PI)) by ring. rewrite cos_neg. replace (3 * a) with (3 * a - PI + PI) at 1 by ring.
      rewrite neg_cos. ring. }
    exists (h_N h), (h_N h2), d', (h_theta h), (h_theta h2), h2.
    split; [exact UN|]. split; [exact UN2|]. split; [exact Ud'|]. split; [rewrite EN; reflexivity|]. split; [exact Th1|]. split; [exact Th2|].
    split.
    { rewrite normalise_unit by (apply reflect_unit; assumption). unfold reflect. rewrite D1, EN. unfold d', going.
      apply vec_ext; unfold vsub, vscale, down; cbn [vx vy vz]; ring. }
    split; [rewrite CT2, D2, Rabs_left; lra|]. split; [reflexivity|]. split; [reflexivity|].
    intros fuel d2 s2 A2 E1 E2.
    assert (Hm : first_met E (Some (mkv x y z)) down 0 h).
    { split; [lia|]. split; [|intros; lia]. cbn [start_pos check_pos]. rewrite HEs. cbn [as_surface s_tris]. rewrite Htr. exact Hh. }
    change (S (S (S fuel))) with (0 + S (S (S fuel)))%nat.
    rewrite (hits E _ down 1 n 0 h _ _ _ _ Hm E1).
    cbn [irun]. unfold istep at 1. cbn [i_r i_d i_side i_checked i_misses i_i1 i_theta i_nint i_ref check_pos].
    rewrite HEs. cbn [as_surface s_tris]. rewrite Htr, LO. cbn [negb Nat.ltb Nat.leb].
    cbn [irun]. unfold istep at 1. cbn [i_r i_d i_side i_checked i_misses i_i1 i_theta i_nint i_ref check_pos].
    rewrite HEs, HEx, HEy, NS. cbn [as_surface s_tris]. rewrite Htr, Hh2, E2. destruct A2; reflexivity.
  Qed.
End SteepRun.
