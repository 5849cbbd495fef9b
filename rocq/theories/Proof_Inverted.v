(* Light falling straight into inverted pyramids steeper than 45 degrees meets a second facet of the same pyramid (C196). *)
From Coq Require Import Reals List ZArith Bool Lia Lra Psatz.
From Verif Require Import Base Lib Model_Optics Spec_Optics Proof_Optics Proof_Geom Proof_OpticsProps Proof_OpticsEx
  Model_RayIface Spec_RayIface Spec_Shallow Model_Surface Proof_Surface Proof_Surface2 Proof_Shallow Proof_Pyramid Proof_Steep.
Import ListNotations.
Open Scope R_scope.

(* pyramids of either kind: t negative for inverted ones *)
Section Facets.
  Variables (L t a : R) (simp : list (nat * nat * nat)).
  Hypothesis HL : 0 < L.
  Hypothesis Ha : 0 < cos a.
  Hypothesis Hab : Rabs t = tan a.
  Hypothesis Htri : pyramid_triangulation simp.
  Let tris := map (tri_of (pyr L (t * L / 2))) simp.

  Lemma pit_weights T p : In T tris -> on_tri T p -> exists i j al be c, In (i, j) pyramid_sides /\
    - tol <= al /\ - tol <= be /\ - tol <= c /\ al + be + c = 1 /\ on_face L t i j al be c (vx p) (vy p) (vz p) /\
    forall N, unit N -> dot N (vsub (t_P1 T) (t_P0 T)) = 0 -> dot N (vsub (t_P2 T) (t_P0 T)) = 0 ->
      0 < dot N (cross (vsub (t_P1 T) (t_P0 T)) (vsub (t_P2 T) (t_P0 T))) ->
      N = mkv (fst (outw i) * (t * cos a)) (snd (outw i) * (t * cos a)) (cos a).
  Proof using HL Ha Hab Htri.
    intros HT (u & v & Hu & Hv & Huv & ->).
    assert (Tol : 0 <= tol) by (unfold tol; lra).
    destruct (pyr_face _ _ _ _ HT Htri) as (i & j & Hij & K).
    assert (G : forall N, unit N -> dot N (vsub (t_P1 T) (t_P0 T)) = 0 -> dot N (vsub (t_P2 T) (t_P0 T)) = 0 ->
      0 < dot N (cross (vsub (t_P1 T) (t_P0 T)) (vsub (t_P2 T) (t_P0 T))) ->
      N = mkv (fst (outw i) * (t * cos a)) (snd (outw i) * (t * cos a)) (cos a)).
    { intros N U O1 O2 O3.
      assert (P : dot N (vsub (cv L j) (cv L i)) = 0 /\ dot N (vsub (apex L (t * L / 2)) (cv L i)) = 0 /\
        0 < dot N (cross (vsub (cv L j) (cv L i)) (vsub (apex L (t * L / 2)) (cv L i)))).
      { destruct K as [-> | [-> | ->]]; cbn [t_P0 t_P1 t_P2] in *; unfold dot, cross, vsub in *; cbn [vx vy vz] in *; lra. }
      destruct P as (P1 & P2 & P3). pose proof (face_normal L t a i j N HL Ha Hab Hij U P1 P2 P3) as Z.
      destruct N as [x y z]. cbn [vz] in Z. subst z. clear P3 U O1 O2 O3.
      unfold dot, vsub, cv, apex in P1, P2.
      destruct Hij as [Q|[Q|[Q|[Q|[]]]]]; injection Q as <- <-; cbn [corner fst snd vx vy vz outw] in *;
        apply vec_ext; cbn [vx vy vz]; try reflexivity.
      - apply (Rmult_eq_reg_r L); lra.
      - apply (Rmult_eq_reg_r (L / 2)); [|lra]. assert (X : x * L = 0) by lra. lra.
      - apply (Rmult_eq_reg_r (L / 2)); [|lra]. assert (X : y * L = 0) by lra. lra.
      - apply (Rmult_eq_reg_r L); lra.
      - apply (Rmult_eq_reg_r L); lra.
      - apply (Rmult_eq_reg_r (L / 2)); [|lra]. assert (X : x * L = 0) by lra. lra.
      - apply (Rmult_eq_reg_r (L / 2)); [|lra]. assert (X : y * L = 0) by lra. lra.
      - apply (Rmult_eq_reg_r L); lra. }
    exists i, j. destruct K as [-> | [-> | ->]]; cbn [t_P0 t_P1 t_P2] in *.
    - exists (1 - u - v), u, v. repeat (split; [assumption || lra|]). split; [|exact G].
      unfold on_face, cv, apex, vadd, vscale, vsub. cbn [vx vy vz]. repeat split; ring.
    - exists v, (1 - u - v), u. repeat (split; [assumption || lra|]). split; [|exact G].
      unfold on_face, cv, apex, vadd, vscale, vsub. cbn [vx vy vz]. repeat split; ring.
    - exists u, v, (1 - u - v). repeat (split; [assumption || lra|]). split; [|exact G].
      unfold on_face, cv, apex, vadd, vscale, vsub. cbn [vx vy vz]. repeat split; ring.
  Qed.

  Lemma weights_pit i j : In (i, j) pyramid_sides -> exists T, In T tris /\
    (forall al be c p, 0 <= al -> 0 <= be -> 0 <= c -> al + be + c = 1 -> on_face L t i j al be c (vx p) (vy p) (vz p) -> on_tri T p) /\
    forall d, dot d (cross (vsub (t_P1 T) (t_P0 T)) (vsub (t_P2 T) (t_P0 T))) =
      L * L / 2 * (t * (fst (outw i) * vx d + snd (outw i) * vy d) + vz d).
  Proof using HL Ha Hab Htri.
    intros Hij. destruct Htri as [_ H2]. destruct (H2 (i, j) Hij) as (sm & Hsm & Hf).
    pose proof (face_tri L (t * L / 2) (i, j) sm Hij Hf) as K. cbn beta iota zeta in K.
    exists (tri_of (pyr L (t * L / 2)) sm). split; [apply in_map; exact Hsm|].
    assert (Tol : 0 <= tol) by (unfold tol; lra). split.
    - intros al be c [x y z] A B C S (Ex & Ey & Ez). cbn [vx vy vz] in *. unfold on_tri.
      destruct K as [-> | [-> | ->]]; cbn [t_P0 t_P1 t_P2];
        [exists be, c|exists c, al|exists al, be]; (split; [lra|]); (split; [lra|]); (split; [lra|]);
        apply vec_ext; unfold cv, apex, vadd, vscale, vsub; cbn [vx vy vz]; rewrite ?Ex, ?Ey, ?Ez;
        replace al with (1 - be - c) by lra; ring.
    - intros [x y z]. destruct Hij as [Q|[Q|[Q|[Q|[]]]]]; injection Q as <- <-;
        destruct K as [-> | [-> | ->]]; unfold dot, cross, vsub, cv, apex; cbn [t_P0 t_P1 t_P2 vx vy vz corner fst snd outw]; field.
  Qed.

End Facets.

(* the sides that start at the end of a side and end at its beginning *)
Definition after (i : nat) : nat * nat := match i with O => (2, 4) | 2%nat => (4, 3) | 4%nat => (3, 0) | _ => (0, 2) end%nat.
Definition before (i : nat) : nat * nat := match i with O => (3, 0) | 2%nat => (0, 2) | 4%nat => (2, 4) | _ => (4, 3) end%nat.

Section Pit.
  Variables (L t a : R) (simp : list (nat * nat * nat)).
  Hypothesis HL : 0 < L.
  Hypothesis Ha : 0 < cos a.
  Hypothesis Ht : t = tan a.
  Hypothesis Ht1 : 1 < t.
  Hypothesis Htri : pyramid_triangulation simp.
  Let tris := map (tri_of (pyr L (- t * L / 2))) simp.
  Let S2 := 2 * t * (cos a * cos a).
  Let C2 := 2 * (cos a * cos a) - 1.

  Lemma pit_abs : Rabs (- t) = tan a.
  Proof using Ht Ht1. rewrite Rabs_Ropp, <- Ht. apply Rabs_right. lra. Qed.

  Variables (x y : R).
  Hypothesis Hx : 0 <= x <= L.
  Hypothesis Hy : 0 <= y <= L.
  Hypothesis Hd1 : tol * L < Rabs (x - y).
  Hypothesis Hd2 : tol * L < Rabs (x + y - L).
  Hypothesis He1 : 2 / 10 ^ 9 < Rabs (x - y).
  Hypothesis He2 : 2 / 10 ^ 9 < Rabs (x + y - L).

  Definition inward (i : nat) : vec := mkv (- fst (outw i) * S2) (- snd (outw i) * S2) C2.

  Lemma inward_unit i : unit (inward i).
  Proof using Ha Ht Ht1.
    pose proof (going_unit t a Ha Ht i) as U. unfold unit, dot, going, inward, S2, C2 in *. cbn [vx vy vz] in *. lra.
  Qed.

  (* the facet under (x, y) *)
  Lemma pit_under z h : check_intersect (mkv x y z) (mkv 0 0 (-1)) tris = Some h ->
    exists i j al be c, In (i, j) pyramid_sides /\ 2 / 10 ^ 9 < al * L /\ 2 / 10 ^ 9 < be * L /\ 0 <= c * L /\ al + be + c = 1 /\
      on_face L (- t) i j al be c x y (vz (h_point h)) /\ vx (h_point h) = x /\ vy (h_point h) = y /\
      h_N h = mkv (fst (outw i) * (- t * cos a)) (snd (outw i) * (- t * cos a)) (cos a).
  Proof using All.
    intros Hh. assert (Ud : unit (mkv 0 0 (-1))) by (unfold unit, dot; cbn; ring).
    destruct (sound_nearest _ _ _ _ Ud Hh) as (T & tt & HT & (_ & Ho & _) & _ & Hp & UN & O1 & O2 & O3 & _).
    rewrite <- Hp in Ho. destruct (pit_weights L (- t) a simp HL Ha pit_abs Htri T _ HT Ho) as (i & j & al & be & c & Hij & A & B & C & S & F & G).
    assert (Ex : vx (h_point h) = x) by (rewrite Hp; cbn; ring). assert (Ey : vy (h_point h) = y) by (rewrite Hp; cbn; ring).
    rewrite Ex, Ey in F. exists i, j, al, be, c. split; [exact Hij|].
    apply (Rmult_le_compat_r L) in A; [|lra]. apply (Rmult_le_compat_r L) in B; [|lra]. apply (Rmult_le_compat_r L) in C; [|lra].
    assert (S' : al * L + be * L + c * L = L) by (rewrite <- !Rmult_plus_distr_r, S; ring).
    assert (P : 2 / 10 ^ 9 < al * L /\ 2 / 10 ^ 9 < be * L /\ 0 <= c * L).
    { destruct F as (F1 & F2 & _). destruct Hij as [Q|[Q|[Q|[Q|[]]]]]; injection Q as <- <-; cbn [corner fst snd] in *;
        revert Hd1 Hd2 He1 He2; unfold Rabs; destruct (Rcase_abs (x - y)), (Rcase_abs (x + y - L)); intros; lra. }
    destruct P as (P1 & P2 & P3).
    repeat (split; [assumption|]). exact (G (h_N h) UN O1 O2 O3).
  Qed.

  Section Second.
    Variables (i j : nat) (al be c : R) (p : vec).
    Hypothesis Hij : In (i, j) pyramid_sides.
    Hypothesis Hal : 2 / 10 ^ 9 < al * L.
    Hypothesis Hbe : 2 / 10 ^ 9 < be * L.
    Hypothesis Hc : 0 <= c * L.
    Hypothesis Hsum : al + be + c = 1.
    Hypothesis HF : on_face L (- t) i j al be c x y (vz p).
    Hypothesis Hpx : vx p = x.
    Hypothesis Hpy : vy p = y.
    Let q := vadd p (vscale (1 / 10 ^ 9) (inward i)).

    (* a point further along the ray that lies on a side *)
    Lemma lands s X Y i2 j2 a1 b1 c1 : 1 / 10 ^ 9 < s -> X = s * S2 -> Y * t = - (s * C2) -> In (i2, j2) pyramid_sides ->
      (- t * (fst (outw i2) * vx (inward i) + snd (outw i2) * vy (inward i)) + C2 <> 0) ->
      0 <= a1 * L -> 0 <= b1 * L -> 0 <= c1 * L -> a1 * L + b1 * L + c1 * L = L ->
      x - fst (outw i) * X = a1 * fst (corner L i2) + b1 * fst (corner L j2) + c1 * (L / 2) ->
      y - snd (outw i) * X = a1 * snd (corner L i2) + b1 * snd (corner L j2) + c1 * (L / 2) ->
      c1 * (L / 2) = c * (L / 2) + Y -> exists h, check_intersect q (inward i) tris = Some h.
    Proof using All.
      intros Hs EX EY Hij2 Hn A B C S Fx Fy Fz.
      destruct (weights_pit L (- t) a simp HL Ha pit_abs Htri i2 j2 Hij2) as (T1 & HT1 & On1 & Dt1).
      assert (M1 : meets q (inward i) T1 (s - 1 / 10 ^ 9)).
      { split; [lra|]. split.
        - assert (Z : forall w, 0 <= w * L -> 0 <= w) by (intros w Hw; apply (Rmult_le_reg_r L); lra).
          apply (On1 a1 b1 c1); [apply Z, A|apply Z, B|apply Z, C|apply (Rmult_eq_reg_r L); lra|].
          destruct HF as (_ & _ & F3).
          unfold on_face, q, inward, vadd, vscale. cbn [vx vy vz]. rewrite Hpx, Hpy.
          split; [rewrite <- Fx, EX; ring|]. split; [rewrite <- Fy, EX; ring|].
          replace (vz p + 1 / 10 ^ 9 * C2 + (s - 1 / 10 ^ 9) * C2) with (vz p + s * C2) by ring.
          replace (c1 * (- t * L / 2)) with (- t * (c1 * (L / 2))) by field. rewrite Fz, F3. lra.
        - rewrite Dt1. unfold inward at 3. cbn [vz]. assert (0 < L * L) by (apply Rmult_lt_0_compat; auto).
          apply Rmult_integral_contrapositive_currified; [lra|exact Hn]. }
      destruct (check_intersect q (inward i) tris) as [h|] eqn:Hh; [eauto|].
      exfalso. rewrite check_intersect_none in Hh. exact (Hh _ _ HT1 M1).
    Qed.

    Lemma meets_again : exists h, check_intersect q (inward i) tris = Some h.
    Proof using All.
      destruct (bounce_facts t a Ha Ht Ht1) as (B1 & B2 & B3). fold S2 in B1, B3. fold C2 in B2, B3.
      assert (S0 : al * L + be * L + c * L = L) by (rewrite <- !Rmult_plus_distr_r, Hsum; ring).
      assert (O : fst (outw i) * fst (outw i) + snd (outw i) * snd (outw i) = 1) by (destruct i as [|[|[|[|[|ii]]]]]; cbn; ring).
      assert (Hfac : In (facing i) pyramid_sides /\ In (after i) pyramid_sides /\ In (before i) pyramid_sides).
      { destruct Hij as [Q|[Q|[Q|[Q|[]]]]]; injection Q as <- <-; cbn; tauto. }
      destruct Hfac as (H1 & H2 & H3).
      (* the path: for s there are X and Y *)
      assert (HXY : forall s, 0 < s -> 0 < s * (- C2 / t) < s * S2 /\ s * (- C2 / t) * t = - (s * C2)).
      { intros s Hs.
        assert (D : - C2 / t < S2). { apply (Rmult_lt_reg_r t); [lra|]. replace (- C2 / t * t) with (- C2) by (field; lra). lra. }
        assert (D0 : 0 < - C2 / t) by (apply Rdiv_lt_0_compat; lra).
        split; [split; [apply Rmult_lt_0_compat; auto|apply Rmult_lt_compat_l; auto]|field; lra]. }
      (* where the opposite facet's plane is met *)
      set (s1 := (al * L + be * L) * t / (1 - 2 * C2)).
      assert (Hs1 : 1 / 10 ^ 9 < s1).
      { unfold s1. apply (Rmult_lt_reg_r (1 - 2 * C2)); [lra|].
        replace ((al * L + be * L) * t / (1 - 2 * C2) * (1 - 2 * C2)) with ((al * L + be * L) * t) by (field; lra).
        assert ((al * L + be * L) * 1 < (al * L + be * L) * t) by (apply Rmult_lt_compat_l; lra). lra. }
      assert (P1 : 0 < s1) by lra. destruct (HXY s1 P1) as ([Y1p Y1x] & EY1). set (X1 := s1 * S2) in *. set (Y1 := s1 * (- C2 / t)) in *.
      assert (Sum1 : X1 + Y1 = al * L + be * L).
      { apply (Rmult_eq_reg_r t); [|lra]. rewrite Rmult_plus_distr_r, EY1. unfold X1.
        replace (s1 * S2 * t + - (s1 * C2)) with (s1 * (t * S2 - C2)) by ring. rewrite B3. unfold s1. field. lra. }
      (* a lower side facet comes first: at height m L from the corner *)
      assert (Side : forall m, 2 / 10 ^ 9 < m -> m <= Y1 -> exists s X, 1 / 10 ^ 9 < s /\ X = s * S2 /\ m * t = - (s * C2) /\ m < X /\ X + m <= al * L + be * L).
      { intros m Hm HmY. exists (m * t / - C2), (m * t / - C2 * S2).
        assert (Es : m * t / - C2 * - C2 = m * t) by (field; lra).
        assert (Hs : 1 / 10 ^ 9 < m * t / - C2).
        { apply (Rmult_lt_reg_r (- C2)); [lra|]. rewrite Es. assert (m * 1 < m * t) by (apply Rmult_lt_compat_l; lra). lra. }
        assert (Hs0 : 0 < m * t / - C2) by lra. destruct (HXY _ Hs0) as ([K1 K2] & K3).
        assert (Em : m * t / - C2 * (- C2 / t) = m) by (field; lra). rewrite Em in K1, K2.
        split; [exact Hs|]. split; [reflexivity|]. split; [lra|]. split; [exact K2|].
        assert (Hle : m * t / - C2 <= s1).
        { apply (Rmult_le_reg_r (- C2)); [lra|]. rewrite Es. apply (Rmult_le_compat_r t) in HmY; [|lra]. lra. }
        assert (m * t / - C2 * S2 <= X1) by (unfold X1; apply Rmult_le_compat_r; lra). lra. }
      assert (N1 : - t * (fst (outw (fst (facing i))) * vx (inward i) + snd (outw (fst (facing i))) * vy (inward i)) + C2 <> 0).
      { unfold inward. cbn [vx vy]. destruct Hij as [Q|[Q|[Q|[Q|[]]]]]; injection Q as <- <-; cbn [facing outw fst snd]; lra. }
      assert (N2 : - t * (fst (outw (fst (after i))) * vx (inward i) + snd (outw (fst (after i))) * vy (inward i)) + C2 <> 0).
      { unfold inward. cbn [vx vy]. destruct Hij as [Q|[Q|[Q|[Q|[]]]]]; injection Q as <- <-; cbn [after outw fst snd]; lra. }
      assert (N3 : - t * (fst (outw (fst (before i))) * vx (inward i) + snd (outw (fst (before i))) * vy (inward i)) + C2 <> 0).
      { unfold inward. cbn [vx vy]. destruct Hij as [Q|[Q|[Q|[Q|[]]]]]; injection Q as <- <-; cbn [before outw fst snd]; lra. }
      destruct HF as (F1 & F2 & _).
      assert (Dv : forall w, w / L * L = w) by (intros; field; lra).
      assert (Dh : forall w, w / L * (L / 2) = w / 2) by (intros; field; lra).
      assert (After : 2 / 10 ^ 9 < al * L -> al * L <= Y1 -> al * L <= be * L -> exists h, check_intersect q (inward i) tris = Some h).
      { intros Z1 Z2 Z3. destruct (Side (al * L) Z1 Z2) as (s & X & K1 & K2 & K3 & K4 & K5).
        destruct (after i) as [i2 j2] eqn:Ef. cbn [fst] in N2.
        apply (lands s X (al * L) i2 j2 ((be * L - X) / L) ((X - al * L) / L) ((c * L + 2 * (al * L)) / L) K1 K2 K3 H2 N2);
          rewrite ?Dv, ?Dh; try lra;
          destruct Hij as [Q|[Q|[Q|[Q|[]]]]]; injection Q as <- <-; cbn in Ef; injection Ef as <- <-; cbn [outw corner fst snd] in *;
          rewrite ?Dv, ?Dh, ?Rmult_0_r; lra. }
      assert (Before : 2 / 10 ^ 9 < be * L -> be * L <= Y1 -> be * L <= al * L -> exists h, check_intersect q (inward i) tris = Some h).
      { intros Z1 Z2 Z3. destruct (Side (be * L) Z1 Z2) as (s & X & K1 & K2 & K3 & K4 & K5).
        destruct (before i) as [i2 j2] eqn:Ef. cbn [fst] in N3.
        apply (lands s X (be * L) i2 j2 ((X - be * L) / L) ((al * L - X) / L) ((c * L + 2 * (be * L)) / L) K1 K2 K3 H3 N3);
          rewrite ?Dv, ?Dh; try lra;
          destruct Hij as [Q|[Q|[Q|[Q|[]]]]]; injection Q as <- <-; cbn in Ef; injection Ef as <- <-; cbn [outw corner fst snd] in *;
          rewrite ?Dv, ?Dh, ?Rmult_0_r; lra. }
      assert (A1 : 0 < Y1) by exact Y1p.
      destruct (Rle_lt_dec Y1 (al * L)) as [Ca|Ca]; [destruct (Rle_lt_dec Y1 (be * L)) as [Cb|Cb]|].
      - (* the opposite facet *)
        destruct (facing i) as [i2 j2] eqn:Ef. cbn [fst] in N1.
        apply (lands s1 X1 Y1 i2 j2 ((be * L - Y1) / L) ((al * L - Y1) / L) ((c * L + 2 * Y1) / L) Hs1 eq_refl EY1 H1 N1);
          rewrite ?Dv, ?Dh; try lra;
          destruct Hij as [Q|[Q|[Q|[Q|[]]]]]; injection Q as <- <-; cbn in Ef; injection Ef as <- <-; cbn [outw corner fst snd] in *;
          rewrite ?Dv, ?Dh, ?Rmult_0_r; lra.
      - apply (Before Hbe ltac:(lra)). lra.
      - destruct (Rle_lt_dec (al * L) (be * L)) as [Cc|Cc]; [apply (After Hal ltac:(lra)); lra|apply (Before Hbe ltac:(lra)); lra].
    Qed.
  End Second.
End Pit.

(* ---------- the run ---------- *)

Lemma made_inverted del angle size cov f r : regular_pyramids del angle size false cov None 0 = Ok (f, r) ->
  su_pts f = pyr size (- tan (angle * PI / 180) * size / 2) /\
  su_tris f = map (tri_of (pyr size (- tan (angle * PI / 180) * size / 2))) (su_simp f).
Proof.
  intros E. destruct (regular_split _ _ _ _ _ _ _ _ _ E) as [Ef _]. cbn zeta in Ef. rewrite pyramid_points_eq, Rmult_1_r in Ef.
  unfold pyramid_height, radians in Ef. rewrite Rmult_1_r in Ef.
  replace (- (size * tan (angle * PI / 180) / 2)) with (- tan (angle * PI / 180) * size / 2) in Ef by field.
  apply (mk_tris _ _ _ _ _ Ef).
Qed.

Section PitRun.
  Variables (del : list (R * R) -> triples) (angle size : R) (cov : option R) (fr re : rtsurf) (E : env) (q : vec) (n : nat).
  Hypothesis HA : 45 < angle < 90.
  Hypothesis HS : 0 < size.
  Hypothesis Hmade : regular_pyramids del angle size false cov None 0 = Ok (fr, re).
  Hypothesis Htri : pyramid_triangulation (su_simp fr).
  Hypothesis HEs : forall k, e_surf E k = as_surface fr.
  Hypothesis Hray : straight_at 1 (su_pts fr) size q (mkv 0 0 (-1)).
  Hypothesis Hoff : clear_of_creases size q.
  Let a := angle * PI / 180.
  Let down := mkv 0 0 (-1).

  Lemma pit_two : exists N1 d' th1 h2, unit N1 /\ unit d' /\ Rabs th1 = a /\ normalise (reflect down N1) = d' /\
    forall fuel d2 s2 A2, e_dec E 1%Z th1 down (vscale (IZR 1) N1) (e_rnd E n) = (d', 1%Z, None) ->
      e_dec E 1%Z (h_theta h2) d' (vscale (IZR 1) (h_N h2)) (e_rnd E (S n)) = (d2, s2, A2) ->
      single_interface_check (S (S fuel)) E (Some q) down 1 n =
      match A2 with
      | Some A => Some (Ok {| r_out := OAbsorbed A; r_pos := Some (vadd (h_point h2) (vscale (1 / 10 ^ 9) d2)); r_dir := d2;
          r_loc := h_theta h2; r_nint := S (S n); r_side := s2 |})
      | None => irun fuel E (vz down) {| i_r := Some (vadd (h_point h2) (vscale (1 / 10 ^ 9) d2)); i_d := d2; i_side := s2;
          i_checked := false; i_misses := 0; i_i1 := 2; i_theta := Some (h_theta h2); i_nint := S (S n); i_ref := 0 |}
      end.
  Proof using All.
    destruct (steep_angle angle HA) as (A & Ca & T1). fold a in A, Ca, T1. pose proof PI_RGT_0. set (t := tan a) in *.
    destruct (made_inverted _ _ _ _ _ _ Hmade) as [Hpts Htr]. fold a t in Hpts, Htr.
    destruct Hray as (Rx & Ry & Rz & _). destruct q as [x y z] eqn:Eq. cbn [vx vy vz] in *.
    destruct Hoff as (O1 & O2 & O3 & O4). cbn [vx vy] in *.
    assert (PM : pm1 1) by (left; reflexivity). rewrite Hpts in Rz.
    destruct (straight_hits size (- t * size / 2) (su_simp fr) x y z 1 HS Rx Ry PM Htri Rz) as [h Hh].
    replace (- IZR 1) with (-1) in Hh by (cbn; lra). change (mkv 0 0 (-1)) with down in Hh.
    destruct (pit_under size t a (su_simp fr) HS Ca eq_refl T1 Htri x y Rx Ry O1 O3 O2 O4 z h Hh)
      as (i & j & al & be & c & Hij & Pa & Pb & Pc & Ps & F & Ex & Ey & EN).
    destruct (meets_again size t a (su_simp fr) HS Ca eq_refl T1 Htri x y Rx Ry O1 O3 O2 O4 i j al be c (h_point h) Hij Pa Pb Pc Ps F Ex Ey) as (h2 & Hh2).
    set (d' := inward t a i) in *.
    assert (Ud : unit down) by (unfold unit, dot, down; cbn; ring).
    assert (Ud' : unit d') by apply (inward_unit t a Ca eq_refl T1).
    destruct (sound_nearest _ _ _ _ Ud Hh) as (_ & _ & _ & _ & _ & _ & UN & _ & _ & _ & TH & CT & _).
    assert (D1 : dot down (h_N h) = - cos a) by (rewrite EN; unfold dot, down; cbn [vx vy vz]; ring).
    assert (Th1 : Rabs (h_theta h) = a).
    { apply cos_inj; [split; [apply Rabs_pos|]|lra|]. { apply Rabs_le. lra. }
      rewrite cos_Rabs, CT, D1, Rabs_Ropp, Rabs_right; lra. }
    exists (h_N h), d', (h_theta h), h2.
    split; [exact UN|]. split; [exact Ud'|]. split; [exact Th1|]. split.
    { rewrite normalise_unit by (apply reflect_unit; assumption). unfold reflect. rewrite D1, EN. unfold d', inward.
      apply vec_ext; unfold vsub, vscale, down; cbn [vx vy vz]; ring. }
    intros fuel d2 s2 A2 E1 E2.
    assert (Hm : first_met E (Some (mkv x y z)) down 0 h).
    { split; [lia|]. split; [|intros; lia]. cbn [start_pos check_pos]. rewrite HEs. cbn [as_surface s_tris]. rewrite Htr. exact Hh. }
    change (S (S fuel)) with (0 + S (S fuel))%nat.
    rewrite (hits E _ down 1 n 0 h _ _ _ _ Hm E1).
    cbn [irun]. unfold istep at 1. cbn [i_r i_d i_side i_checked i_misses i_i1 i_theta i_nint i_ref check_pos].
    rewrite HEs. cbn [as_surface s_tris]. rewrite Htr, Hh2, E2. destruct A2; reflexivity.
  Qed.
End PitRun.
