(* Regular pyramids are gently sloping surfaces (C191). *)
From Coq Require Import Reals List ZArith Bool Lia Lra Psatz.
From Verif Require Import Base Lib Model_Optics Spec_Optics Proof_Optics Proof_Geom Proof_OpticsProps Proof_OpticsEx
  Model_RayIface Spec_RayIface Spec_Shallow Model_Surface Proof_Surface Proof_Surface2 Proof_Shallow.
Import ListNotations.
Open Scope R_scope.

(* ---------- distance to the nearest multiple of L ---------- *)

Section Fold.
  Variable L : R.
  Hypothesis HL : 0 < L.
  Definition fold1 (x : R) : R := Rmin (pymod x L) (L - pymod x L).

  Lemma pymod_range x : 0 <= pymod x L < L.
  Proof using HL.
    unfold pymod. destruct (Zfloor_bounds (x / L)) as [A B].
    assert (E : x = x / L * L) by (field; lra). split.
    - apply (Rmult_le_compat_r L) in A; lra.
    - apply (Rmult_lt_compat_r L) in B; lra.
  Qed.

  Lemma fold1_le x k : fold1 x <= Rabs (x - L * IZR k).
  Proof using HL.
    pose proof (pymod_range x) as H. unfold fold1.
    assert (E : x - L * IZR k = pymod x L + L * IZR (Zfloor (x / L) - k)) by (unfold pymod; rewrite minus_IZR; ring).
    rewrite E. set (m := pymod x L) in *. destruct (Z_le_gt_dec 0 (Zfloor (x / L) - k)) as [K|K].
    - apply IZR_le in K. apply (Rle_trans _ m); [apply Rmin_l|]. rewrite Rabs_right; nra.
    - assert (K' : (Zfloor (x / L) - k <= -1)%Z) by lia. apply IZR_le in K'.
      apply (Rle_trans _ (L - m)); [apply Rmin_r|]. rewrite Rabs_left; nra.
  Qed.

  Lemma fold1_at x : exists k, fold1 x = Rabs (x - L * IZR k).
  Proof using HL.
    pose proof (pymod_range x) as H. unfold fold1, Rmin. destruct (Rle_dec _ _).
    - exists (Zfloor (x / L)). rewrite Rabs_right; [reflexivity|]. unfold pymod in *. lra.
    - exists (Zfloor (x / L) + 1)%Z. rewrite plus_IZR, Rabs_left; unfold pymod in *; lra.
  Qed.

  Lemma fold1_lip x y : Rabs (fold1 x - fold1 y) <= Rabs (x - y).
  Proof using HL.
    assert (A : forall x y, fold1 x - fold1 y <= Rabs (x - y)).
    { intros a b. destruct (fold1_at b) as [k Ek]. pose proof (fold1_le a k) as Ha. rewrite Ek.
      pose proof (Rabs_triang (a - b) (b - L * IZR k)) as T. replace (a - b + (b - L * IZR k)) with (a - L * IZR k) in T by ring. lra. }
    apply Rabs_le. pose proof (A x y). pose proof (A y x) as B. rewrite Rabs_minus_sym in B. lra.
  Qed.

  Lemma fold1_period x : fold1 (x + L) = fold1 x.
  Proof using HL.
    unfold fold1. replace (pymod (x + L) L) with (pymod x L); auto. unfold pymod.
    replace ((x + L) / L) with (x / L + IZR 1) by (field; lra). rewrite Zfloor_add_Z, plus_IZR. ring.
  Qed.

  Lemma fold1_in x : 0 <= x <= L -> fold1 x = Rmin x (L - x).
  Proof using HL.
    intros H. destruct (Req_dec x L) as [->|Hne].
    - replace (fold1 L) with (fold1 0) by (rewrite <- (fold1_period 0); f_equal; ring).
      assert (E : pymod 0 L = 0) by (unfold pymod; rewrite (Zfloor_unique (0 / L) 0); [ring|]; unfold Rdiv; rewrite Rmult_0_l; lra).
      unfold fold1. rewrite E. rewrite !Rmin_left by lra. rewrite Rmin_right by lra. ring.
    - unfold fold1. replace (pymod x L) with x; auto. unfold pymod. rewrite (Zfloor_unique (x / L) 0); [ring|].
      split; [apply Rmult_le_pos; [lra|apply Rlt_le, Rinv_0_lt_compat; auto]|].
      apply (Rmult_lt_reg_r L); auto. replace (x / L * L) with x by (field; lra). lra.
  Qed.

  Definition roof (t x y : R) : R := t * Rmin (fold1 x) (fold1 y).

  Lemma roof_lip t x y x' y' b : Rabs (x - x') <= b -> Rabs (y - y') <= b -> Rabs (roof t x y - roof t x' y') <= Rabs t * b.
  Proof using HL.
    intros Hx Hy. unfold roof. rewrite <- Rmult_minus_distr_l, Rabs_mult. apply Rmult_le_compat_l; [apply Rabs_pos|].
    pose proof (fold1_lip x x') as A. pose proof (fold1_lip y y') as B. apply Rabs_le_inv in A, B.
    apply Rabs_le. unfold Rmin. destruct (Rle_dec _ _), (Rle_dec _ _); lra.
  Qed.

  Lemma roof_gentle t s : 0 <= tan s -> Rabs t = tan s -> gentle (roof t) (tan s).
  Proof using HL.
    intros H0 Ht x y x' y'. rewrite <- Ht. apply roof_lip.
    - rewrite <- (sqrt_square (Rabs (x - x'))) by apply Rabs_pos. rewrite <- Rabs_mult, Rabs_right by (apply Rle_ge, Rle_0_sqr).
      apply sqrt_le_1_alt. pose proof (Rle_0_sqr (x - x')). pose proof (Rle_0_sqr (y - y')). unfold Rsqr in *. lra.
    - rewrite <- (sqrt_square (Rabs (y - y'))) by apply Rabs_pos. rewrite <- Rabs_mult, Rabs_right by (apply Rle_ge, Rle_0_sqr).
      apply sqrt_le_1_alt. pose proof (Rle_0_sqr (x - x')). pose proof (Rle_0_sqr (y - y')). unfold Rsqr in *. lra.
  Qed.

  Lemma roof_periodic t : periodic (roof t) L L.
  Proof using HL. split; intros x y; unfold roof; rewrite fold1_period; auto. Qed.

  (* ---------- one face ---------- *)

  (* a point with nonnegative coordinates in a face: corners p, q and the top *)
  Definition corner (i : nat) : R * R :=
    match i with O => (0, 0) | 2%nat => (L, 0) | 3%nat => (0, L) | _ => (L, L) end.

  Definition on_face (t : R) (i j : nat) (a b c x y z : R) : Prop :=
    x = a * fst (corner i) + b * fst (corner j) + c * (L / 2) /\
    y = a * snd (corner i) + b * snd (corner j) + c * (L / 2) /\ z = c * (t * L / 2).

  Lemma face_exact t i j a b c x y z : In (i, j) pyramid_sides -> 0 <= a -> 0 <= b -> 0 <= c ->
    a + b + c = 1 -> on_face t i j a b c x y z -> z = roof t x y /\ 0 <= x <= L /\ 0 <= y <= L.
  Proof using HL.
    intros Hij Ha Hb Hc Hs (Ex & Ey & Ez).
    assert (B : 0 <= x <= L /\ 0 <= y <= L).
    { destruct Hij as [E|[E|[E|[E|[]]]]]; injection E as <- <-; cbn [corner fst snd] in *; split; nra. }
    split; [|auto]. unfold roof. rewrite !fold1_in by lra. subst z.
    replace (c * (t * L / 2)) with (t * (c * (L / 2))) by field. f_equal.
    destruct Hij as [E|[E|[E|[E|[]]]]]; injection E as <- <-; cbn [corner fst snd] in *;
      unfold Rmin; repeat destruct (Rle_dec _ _); nra.
  Qed.

  (* the same within the tolerance *)
  Lemma face_close t i j a b c x y z e : In (i, j) pyramid_sides -> 0 <= e <= 1 / 10 ->
    - e <= a -> - e <= b -> - e <= c -> a + b + c = 1 -> on_face t i j a b c x y z ->
    Rabs (z - roof t x y) <= 6 * e * L * Rabs t.
  Proof using HL.
    intros Hij He Ha Hb Hc Hs Hf.
    set (k := 1 + 3 * e). assert (Hk : 1 <= k) by (unfold k; lra).
    assert (IV : / k * k = 1) by (field; lra). assert (Ip : 0 < / k) by (apply Rinv_0_lt_compat; lra).
    assert (I1 : / k <= 1) by (rewrite <- Rinv_1; apply Rinv_le_contravar; lra).
    set (a' := (a + e) * / k). set (b' := (b + e) * / k). set (c' := (c + e) * / k).
    assert (S' : a' + b' + c' = 1) by (unfold a', b', c'; replace ((a + e) * / k + (b + e) * / k + (c + e) * / k) with ((a + b + c + 3 * e) * / k) by ring; rewrite Hs; fold k; rewrite Rmult_comm; exact IV).
    assert (Pa : 0 <= a') by (unfold a'; nra). assert (Pb : 0 <= b') by (unfold b'; nra). assert (Pc : 0 <= c') by (unfold c'; nra).
    assert (D : forall u, - e <= u <= 1 + 2 * e -> Rabs (u - (u + e) * / k) <= 2 * e).
    { intros u Hu. replace (u - (u + e) * / k) with ((u * k - u - e) * / k) by (field; lra).
      assert (G : - (2 * e) * 1 <= u * k - u - e <= 2 * e * k).
      { unfold k. split; nra. }
      apply Rabs_le. split; nra. }
    pose proof (D a ltac:(lra)) as Da. pose proof (D b ltac:(lra)) as Db. pose proof (D c ltac:(lra)) as Dc.
    fold a' in Da. fold b' in Db. fold c' in Dc.
    destruct Hf as (Ex & Ey & Ez).
    set (x' := a' * fst (corner i) + b' * fst (corner j) + c' * (L / 2)).
    set (y' := a' * snd (corner i) + b' * snd (corner j) + c' * (L / 2)).
    destruct (face_exact t i j a' b' c' x' y' (c' * (t * L / 2)) Hij Pa Pb Pc S') as (Er & _); [repeat split|].
    apply Rabs_le_inv in Da, Db, Dc.
    assert (Dx : Rabs (x' - x) <= 5 * e * L /\ Rabs (y' - y) <= 5 * e * L).
    { unfold x', y'. rewrite Ex, Ey. clearbody a' b' c'.
      destruct Hij as [E|[E|[E|[E|[]]]]]; injection E as <- <-; cbn [corner fst snd]; split; apply Rabs_le; nra. }
    destruct Dx as [Dx Dy]. pose proof (roof_lip t x' y' x y _ Dx Dy) as RL.
    replace (z - roof t x y) with ((c - c') * (t * L / 2) + (roof t x' y' - roof t x y)) by (rewrite <- Er, Ez; ring).
    apply (Rle_trans _ _ _ (Rabs_triang _ _)).
    assert (T1 : Rabs ((c - c') * (t * L / 2)) <= e * L * Rabs t).
    { rewrite Rabs_mult. replace (t * L / 2) with (t * (L / 2)) by field. rewrite (Rabs_mult t), (Rabs_right (L / 2)) by lra.
      assert (Rabs (c - c') <= 2 * e) by (apply Rabs_le; lra). pose proof (Rabs_pos t).
      assert (0 <= Rabs t * (L / 2)) by nra. nra. }
    lra.
  Qed.
End Fold.

(* ---------- the surface ---------- *)

Definition cv (L : R) (i : nat) : vec := mkv (fst (corner L i)) (snd (corner L i)) 0.

Lemma face_normal L t a i j N : 0 < L -> 0 < cos a -> Rabs t = tan a -> In (i, j) pyramid_sides ->
  unit N -> dot N (vsub (cv L j) (cv L i)) = 0 -> dot N (vsub (apex L (t * L / 2)) (cv L i)) = 0 ->
  0 < dot N (cross (vsub (cv L j) (cv L i)) (vsub (apex L (t * L / 2)) (cv L i))) -> vz N = cos a.
Proof.
  intros HL Ca Ht Hij Hu H1 H2 H3.
  assert (Tt : t * t = tan a * tan a) by (rewrite <- Ht, <- Rabs_mult, Rabs_right; [auto|apply Rle_ge, Rle_0_sqr]).
  assert (T1 : (1 + t * t) * (cos a * cos a) = 1).
  { rewrite Tt. unfold tan. pose proof (sin2_cos2 a) as E. unfold Rsqr in E.
    replace ((1 + sin a / cos a * (sin a / cos a)) * (cos a * cos a)) with (cos a * cos a + sin a * sin a) by (field; lra). lra. }
  destruct N as [x y z]. unfold unit, dot, vsub, cross, cv, apex in *.
  assert (K : z * z * (1 + t * t) = 1 /\ 0 < z).
  { destruct Hij as [E|[E|[E|[E|[]]]]]; injection E as <- <-; cbn [corner fst snd vx vy vz] in *.
    - assert (X : x = 0) by (apply (Rmult_eq_reg_r L); lra). subst x.
      assert (Y : y = - t * z) by (apply (Rmult_eq_reg_r (L / 2)); lra). subst y. split; [lra|].
      assert (0 < (1 + t * t) * (L * L)) by (apply Rmult_lt_0_compat; nra). nra.
    - assert (Y : y = 0) by (apply (Rmult_eq_reg_r L); lra). subst y.
      assert (X : x = t * z) by (apply (Rmult_eq_reg_r (L / 2)); lra). subst x. split; [lra|].
      assert (0 < (1 + t * t) * (L * L)) by (apply Rmult_lt_0_compat; nra). nra.
    - assert (X : x = 0) by (apply (Rmult_eq_reg_r L); lra). subst x.
      assert (Y : y = t * z) by (apply (Rmult_eq_reg_r (L / 2)); lra). subst y. split; [lra|].
      assert (0 < (1 + t * t) * (L * L)) by (apply Rmult_lt_0_compat; nra). nra.
    - assert (Y : y = 0) by (apply (Rmult_eq_reg_r L); lra). subst y.
      assert (X : x = - t * z) by (apply (Rmult_eq_reg_r (L / 2)); lra). subst x. split; [lra|].
      assert (0 < (1 + t * t) * (L * L)) by (apply Rmult_lt_0_compat; nra). nra. }
  destruct K as [K1 K2]. cbn [vz].
  assert (Q : z * z = cos a * cos a).
  { apply (Rmult_eq_reg_r (1 + t * t)); [lra|nra]. }
  nra.
Qed.

Lemma face_tri L w ij sm : In ij pyramid_sides -> In sm (face_of ij) ->
  let T := tri_of (pyr L w) sm in let (i, j) := ij in
   (T = {| t_P0 := cv L i; t_P1 := cv L j; t_P2 := apex L w |} \/
    T = {| t_P0 := cv L j; t_P1 := apex L w; t_P2 := cv L i |} \/
    T = {| t_P0 := apex L w; t_P1 := cv L i; t_P2 := cv L j |}).
Proof.
  intros Hi Hs. rewrite pyr_points.
  destruct Hi as [<-|[<-|[<-|[<-|[]]]]]; destruct Hs as [<-|[<-|[<-|[]]]]; cbn [fst snd];
    (left; reflexivity) || (right; left; reflexivity) || (right; right; reflexivity).
Qed.

Lemma pyr_face L w T simp : In T (map (tri_of (pyr L w)) simp) -> pyramid_triangulation simp ->
  exists i j, In (i, j) pyramid_sides /\
   (T = {| t_P0 := cv L i; t_P1 := cv L j; t_P2 := apex L w |} \/
    T = {| t_P0 := cv L j; t_P1 := apex L w; t_P2 := cv L i |} \/
    T = {| t_P0 := apex L w; t_P1 := cv L i; t_P2 := cv L j |}).
Proof.
  intros HT [Hi _]. apply in_map_iff in HT. destruct HT as [sm [<- Hs]]. destruct (Hi sm Hs) as [[i j] [H1 H2]].
  exists i, j. split; auto. apply (face_tri L w (i, j) sm H1 H2).
Qed.

Lemma pyr_shallow L t a simp : 0 < L -> 0 <= a < PI / 2 -> Rabs t = tan a -> pyramid_triangulation simp ->
  let tris := map (tri_of (pyr L (t * L / 2))) simp in
  gentle (roof L t) (tan a) /\ periodic (roof L t) L L /\ near_graph (roof L t) (6 * tol * L * tan a) tris /\
  (forall T N, In T tris -> unit N -> dot N (vsub (t_P1 T) (t_P0 T)) = 0 -> dot N (vsub (t_P2 T) (t_P0 T)) = 0 ->
    0 < dot N (cross (vsub (t_P1 T) (t_P0 T)) (vsub (t_P2 T) (t_P0 T))) -> vz N = cos a).
Proof.
  intros HL Ha Ht Hi tris. pose proof PI_RGT_0. assert (Ca : 0 < cos a) by (apply cos_gt_0; lra).
  split; [apply roof_gentle; auto; rewrite <- Ht; apply Rabs_pos|]. split; [apply roof_periodic; auto|]. split.
  - intros T p HT (u & v & Hu & Hv & Huv & ->).
    assert (Tol : 0 <= tol <= 1 / 10) by (unfold tol; lra).
    destruct (pyr_face _ _ _ _ HT Hi) as (i & j & Hij & K). rewrite <- Ht.
    destruct K as [-> | [-> | ->]]; cbn [t_P0 t_P1 t_P2].
    + apply (face_close L HL t i j (1 - u - v) u v); auto; try lra.
      unfold on_face, cv, apex, vadd, vscale, vsub. cbn [vx vy vz]. repeat split; ring.
    + apply (face_close L HL t i j v (1 - u - v) u); auto; try lra.
      unfold on_face, cv, apex, vadd, vscale, vsub. cbn [vx vy vz]. repeat split; ring.
    + apply (face_close L HL t i j u v (1 - u - v)); auto; try lra.
      unfold on_face, cv, apex, vadd, vscale, vsub. cbn [vx vy vz]. repeat split; ring.
  - intros T N HT HN H1 H2 H3.
    destruct (pyr_face _ _ _ _ HT Hi) as (i & j & Hij & K).
    apply (face_normal L t a i j N); auto;
      destruct K as [-> | [-> | ->]]; cbn [t_P0 t_P1 t_P2] in *; auto;
      unfold dot, cross, vsub in *; cbn [vx vy vz] in *; lra.
Qed.

(* ---------- surfaces made by regular_pyramids ---------- *)

Lemma mk_tris del p cov dist s : mk_surface del p cov dist = Ok s -> su_pts s = p /\ su_tris s = map (tri_of p) (su_simp s).
Proof.
  unfold mk_surface. intros E. destruct (argmax (map Rabs (zs_of p))) as [h|e]; [|discriminate]. cbn [rbind] in E.
  destruct (match cov with Some c => Ok c | None => find_zcov p end) as [z|e]; [|discriminate]. cbn [rbind] in E.
  injection E as <-. cbn. auto.
Qed.

Lemma made_pyramid del angle size upright cov f r srf : 0 < angle < 90 -> 0 < size ->
  regular_pyramids del angle size upright cov None 0 = Ok (f, r) -> srf = f \/ srf = r ->
  exists t, Rabs t = tan (angle * PI / 180) /\ su_pts srf = pyr size (t * size / 2) /\
    su_tris srf = map (tri_of (pyr size (t * size / 2))) (su_simp srf).
Proof.
  intros HA HS E Hs. destruct (regular_split _ _ _ _ _ _ _ _ _ E) as [Ef Er]. cbn zeta in Ef, Er.
  rewrite pyramid_points_eq in Ef, Er. rewrite mirror_pyr in Er. rewrite Rmult_1_r in Ef, Er.
  unfold pyramid_height, radians in Ef, Er. rewrite Rmult_1_r in Ef, Er. pose proof PI_RGT_0.
  assert (T0 : 0 < tan (angle * PI / 180)) by (apply tan_gt_0; nra).
  set (a := angle * PI / 180) in *.
  assert (G : forall del c dd s w, mk_surface del (pyr size w) c dd = Ok s -> w = size * tan a / 2 \/ w = - (size * tan a / 2) ->
    exists t, Rabs t = tan a /\ su_pts s = pyr size (t * size / 2) /\ su_tris s = map (tri_of (pyr size (t * size / 2))) (su_simp s)).
  { intros del' c dd s w Es [-> | ->]; destruct (mk_tris _ _ _ _ _ Es) as [K1 K2].
    - exists (tan a). replace (tan a * size / 2) with (size * tan a / 2) by field. rewrite Rabs_right by lra. auto.
    - exists (- tan a). replace (- tan a * size / 2) with (- (size * tan a / 2)) by field. rewrite Rabs_left by lra.
      split; [lra|auto]. }
  destruct Hs as [-> | ->]; [eapply G; [exact Ef|]|eapply G; [exact Er|]]; destruct upright; auto; rewrite Ropp_involutive; auto.
Qed.

(* a vertical ray over the cell meets a face *)
Lemma over_face L x y : 0 < L -> 0 <= x <= L -> 0 <= y <= L -> exists i j a b c, In (i, j) pyramid_sides /\
  0 <= a /\ 0 <= b /\ 0 <= c /\ a + b + c = 1 /\
  x = a * fst (corner L i) + b * fst (corner L j) + c * (L / 2) /\
  y = a * snd (corner L i) + b * snd (corner L j) + c * (L / 2).
Proof.
  intros HL Hx Hy. set (u := x / L). set (v := y / L).
  assert (Ex : x = u * L) by (unfold u; field; lra). assert (Ey : y = v * L) by (unfold v; field; lra).
  assert (Hu : 0 <= u <= 1) by (split; [apply (Rmult_le_reg_r L)|apply (Rmult_le_reg_r L)]; lra).
  assert (Hv : 0 <= v <= 1) by (split; [apply (Rmult_le_reg_r L)|apply (Rmult_le_reg_r L)]; lra).
  clearbody u v. subst x y.
  destruct (Rle_lt_dec v u) as [A|A]; destruct (Rle_lt_dec (u + v) 1) as [B|B].
  - exists 0%nat, 2%nat, (1 - u - v), (u - v), (2 * v). split; [cbn; tauto|]. cbn [corner fst snd].
    do 3 (split; [lra|]). split; [lra|]. split; field.
  - exists 2%nat, 4%nat, (u - v), (u + v - 1), (2 * (1 - u)). split; [cbn; tauto|]. cbn [corner fst snd].
    do 3 (split; [lra|]). split; [lra|]. split; field.
  - exists 3%nat, 0%nat, (v - u), (1 - u - v), (2 * u). split; [cbn; tauto|]. cbn [corner fst snd].
    do 3 (split; [lra|]). split; [lra|]. split; field.
  - exists 4%nat, 3%nat, (u + v - 1), (v - u), (2 * (1 - v)). split; [cbn; tauto|]. cbn [corner fst snd].
    do 3 (split; [lra|]). split; [lra|]. split; field.
Qed.

Lemma straight_hits L w simp x y z side : 0 < L -> 0 <= x <= L -> 0 <= y <= L -> pm1 side -> pyramid_triangulation simp ->
  (forall v, In v (pyr L w) -> 0 < IZR side * (z - vz v)) ->
  exists h, check_intersect (mkv x y z) (mkv 0 0 (- IZR side)) (map (tri_of (pyr L w)) simp) = Some h.
Proof.
  intros HL Hx Hy Hs [_ HT] Hz.
  destruct (check_intersect _ _ _) as [h|] eqn:E; [eauto|]. exfalso. rewrite check_intersect_none in E.
  destruct (over_face L x y HL Hx Hy) as (i & j & a & b & c & Hij & Ha & Hb & Hc & Hsum & Ex & Ey).
  destruct (HT (i, j) Hij) as (sm & Hsm & Hf). pose proof (face_tri L w (i, j) sm Hij Hf) as K. cbn beta iota zeta in K.
  pose proof (Hz (mkv 0 0 0) ltac:(rewrite pyr_points; cbn; tauto)) as Z0.
  pose proof (Hz (apex L w) ltac:(rewrite pyr_points; cbn; tauto)) as Z1. cbn in Z0, Z1.
  apply (E (tri_of (pyr L w) sm) (IZR side * (z - c * w))); [apply in_map; auto|].
  assert (Tol : 0 <= tol) by (unfold tol; lra).
  assert (S1 : IZR side * IZR side = 1) by (destruct Hs as [-> | ->]; ring).
  split; [|split].
  - assert (c <= 1) by lra. unfold apex in Z1. cbn [vz] in Z1.
    replace (IZR side * (z - c * w)) with ((1 - c) * (IZR side * (z - 0)) + c * (IZR side * (z - w))) by ring.
    destruct (Rle_lt_dec c 0); [assert (c = 0) by lra; subst c; lra|].
    assert (0 < c * (IZR side * (z - w))) by (apply Rmult_lt_0_compat; auto).
    assert (0 <= (1 - c) * (IZR side * (z - 0))) by (apply Rmult_le_pos; lra). lra.
  - assert (P : vadd (mkv x y z) (vscale (IZR side * (z - c * w)) (mkv 0 0 (- IZR side))) = mkv x y (c * w)).
    { apply vec_ext; unfold vadd, vscale; cbn [vx vy vz]; try ring.
      replace (z + IZR side * (z - c * w) * - IZR side) with (z - IZR side * IZR side * (z - c * w)) by ring. rewrite S1. ring. }
    rewrite P. unfold on_tri. destruct K as [-> | [-> | ->]]; cbn [t_P0 t_P1 t_P2];
      [exists b, c|exists c, a|exists a, b]; (split; [lra|]); (split; [lra|]); (split; [lra|]);
      apply vec_ext; unfold cv, apex, vadd, vscale, vsub; cbn [vx vy vz]; rewrite ?Ex, ?Ey;
      replace a with (1 - b - c) by lra; ring.
  - assert (LL : 0 < L * L) by nra.
    assert (D : dot (mkv 0 0 (- IZR side)) (cross (vsub (t_P1 (tri_of (pyr L w) sm)) (t_P0 (tri_of (pyr L w) sm)))
                 (vsub (t_P2 (tri_of (pyr L w) sm)) (t_P0 (tri_of (pyr L w) sm)))) = - IZR side * (L * L / 2)).
    { destruct Hij as [Q|[Q|[Q|[Q|[]]]]]; injection Q as <- <-;
        destruct K as [-> | [-> | ->]]; unfold dot, cross, vsub, cv, apex; cbn [t_P0 t_P1 t_P2 vx vy vz corner fst snd]; field. }
    rewrite D. destruct Hs as [-> | ->]; lra.
Qed.

(* what one reflection or refraction at a facet does to a vertical ray *)
Lemma straight_mirror side a N d' : pm1 side -> unit N -> IZR side * vz N = cos a ->
  mirror_law (mkv 0 0 (- IZR side)) d' N -> IZR side * vz d' = cos (2 * a).
Proof.
  intros Hs HN HV [M1 M2]. pose proof (f_equal vz M2) as Z. unfold tang in Z. rewrite M1 in Z.
  assert (D : dot (mkv 0 0 (- IZR side)) N = - cos a) by (unfold dot; cbn; rewrite <- HV; ring).
  rewrite D in Z. unfold vsub, vscale in Z. cbn in Z. rewrite cos_2a_cos.
  assert (S1 : IZR side * IZR side = 1) by (destruct Hs as [-> | ->]; ring).
  assert (Z2 : vz d' = - IZR side + 2 * cos a * vz N) by lra. rewrite Z2.
  replace (IZR side * (- IZR side + 2 * cos a * vz N)) with (- (IZR side * IZR side) + 2 * cos a * (IZR side * vz N)) by ring.
  rewrite S1, HV. ring.
Qed.

Lemma straight_snell_at side a b N d' n0 n1 : pm1 side -> unit N -> unit d' -> 0 <= a < PI / 2 -> IZR side * vz N = cos a ->
  0 < n0 -> 0 < n1 -> n0 * sin a = n1 * sin b -> 0 <= b <= PI / 2 -> snell_law n0 n1 (mkv 0 0 (- IZR side)) d' N ->
  IZR side * vz d' = - cos (a - b).
Proof.
  intros Hs HN Hu Ha HV P0 P1 Hsn Hb [M1 M2]. pose proof PI_RGT_0.
  assert (D : dot (mkv 0 0 (- IZR side)) N = - cos a) by (unfold dot; cbn; rewrite <- HV; ring).
  assert (S1 : IZR side * IZR side = 1) by (destruct Hs as [-> | ->]; ring).
  assert (Ud : unit (mkv 0 0 (- IZR side))) by (unfold unit, dot; cbn; lra).
  assert (Ca : 0 < cos a) by (apply cos_gt_0; lra).
  set (k := n0 / n1). assert (Sb : sin b = k * sin a) by (apply (Rmult_eq_reg_l n1); [rewrite <- Hsn; unfold k; field|]; lra).
  assert (Cb : 0 <= cos b) by (apply cos_ge_0; lra).
  rewrite D in M2. set (q := dot d' N) in *.
  assert (Q : q = - cos b).
  { pose proof (tang_sq d' N HN) as A. pose proof (tang_sq (mkv 0 0 (- IZR side)) N HN) as B.
    rewrite M1, dot_scale_scale, B, D in A. unfold unit in Hu, Ud. rewrite Hu, Ud in A. fold q k in A.
    pose proof (sin2_cos2 a) as E1. pose proof (sin2_cos2 b) as E2. unfold Rsqr in *. rewrite Sb in E2.
    assert (E3 : k * k * (1 - cos a * cos a) = k * sin a * (k * sin a)) by (replace (1 - cos a * cos a) with (sin a * sin a) by lra; ring).
    assert (q * q = cos b * cos b) by lra. assert (q < 0) by nra. nra. }
  pose proof (f_equal vz M1) as Z. unfold tang in Z. fold q k in Z. rewrite D, Q in Z.
  unfold vsub, vscale in Z. cbn in Z. rewrite cos_minus, Sb.
  assert (Z2 : vz d' = k * (- IZR side + cos a * vz N) - cos b * vz N) by lra. rewrite Z2.
  replace (IZR side * (k * (- IZR side + cos a * vz N) - cos b * vz N)) with
    (- k * (IZR side * IZR side) + (k * cos a - cos b) * (IZR side * vz N)) by ring. rewrite S1, HV.
  pose proof (sin2_cos2 a) as E1. unfold Rsqr in E1. rewrite <- E1. ring.
Qed.

Lemma straight_snell side a N d' n0 n1 : pm1 side -> unit N -> unit d' -> 0 <= a < PI / 2 -> IZR side * vz N = cos a -> 0 < n0 <= n1 ->
  snell_law n0 n1 (mkv 0 0 (- IZR side)) d' N ->
  exists b, n0 * sin a = n1 * sin b /\ 0 <= b <= a /\ IZR side * vz d' = - cos (a - b).
Proof.
  intros Hs HN Hu Ha HV Hn [M1 M2]. pose proof PI_RGT_0.
  assert (D : dot (mkv 0 0 (- IZR side)) N = - cos a) by (unfold dot; cbn; rewrite <- HV; ring).
  assert (S1 : IZR side * IZR side = 1) by (destruct Hs as [-> | ->]; ring).
  assert (Ud : unit (mkv 0 0 (- IZR side))) by (unfold unit, dot; cbn; lra).
  assert (Ca : 0 < cos a) by (apply cos_gt_0; lra). assert (Sa : 0 <= sin a) by (apply sin_ge_0; lra).
  assert (S2 : sin a < 1) by (rewrite <- sin_PI2; apply sin_increasing_1; lra).
  set (k := n0 / n1). assert (Hk : 0 <= k <= 1).
  { unfold k. split; [apply Rlt_le, Rdiv_lt_0_compat; lra|]. apply (Rmult_le_reg_r n1); [lra|]. field_simplify; lra. }
  assert (Kb : 0 <= k * sin a < 1) by nra.
  exists (asin (k * sin a)). set (b := asin (k * sin a)).
  assert (Sb : sin b = k * sin a) by (apply sin_asin; lra).
  assert (Hb : - (PI / 2) <= b <= PI / 2) by (apply asin_bound).
  assert (Hb0 : 0 <= b).
  { destruct (Rle_lt_dec 0 b); auto. exfalso. assert (sin b < sin 0) by (apply sin_increasing_1; lra). rewrite sin_0 in *. lra. }
  assert (Hba : b <= a).
  { destruct (Rle_lt_dec b a); auto. exfalso. assert (sin a < sin b) by (apply sin_increasing_1; lra). nra. }
  split; [rewrite Sb; unfold k; field; lra|]. split; [lra|].
  assert (Cb : 0 <= cos b) by (apply cos_ge_0; lra).
  rewrite D in M2. set (q := dot d' N) in *.
  assert (Q : q = - cos b).
  { pose proof (tang_sq d' N HN) as A. pose proof (tang_sq (mkv 0 0 (- IZR side)) N HN) as B.
    rewrite M1, dot_scale_scale, B, D in A. unfold unit in Hu, Ud. rewrite Hu, Ud in A. fold q k in A.
    pose proof (sin2_cos2 a) as E1. pose proof (sin2_cos2 b) as E2. unfold Rsqr in *. rewrite Sb in E2.
    assert (q * q = cos b * cos b) by nra. assert (q < 0) by nra. nra. }
  pose proof (f_equal vz M1) as Z. unfold tang in Z. fold q k in Z. rewrite D, Q in Z.
  unfold vsub, vscale in Z. cbn in Z. rewrite cos_minus, Sb.
  assert (Z2 : vz d' = k * (- IZR side + cos a * vz N) - cos b * vz N) by lra. rewrite Z2.
  replace (IZR side * (k * (- IZR side + cos a * vz N) - cos b * vz N)) with
    (- k * (IZR side * IZR side) + (k * cos a - cos b) * (IZR side * vz N)) by ring. rewrite S1, HV.
  pose proof (sin2_cos2 a) as E1. unfold Rsqr in E1. nra.
Qed.

Section PyramidThms.
  Variables (del : list (R * R) -> triples) (angle size : R) (upright : bool) (cov : option R) (fr re srf : rtsurf) (E : env)
    (side : Z) (ni nj : R) (q d : vec) (n fuel : nat) (w : R).
  Hypothesis HA : 0 < angle < 30.
  Hypothesis HS : 0 < size.
  Hypothesis Hmade : regular_pyramids del angle size upright cov None 0 = Ok (fr, re).
  Hypothesis Hsrf : srf = fr \/ srf = re.
  Hypothesis Htri : pyramid_triangulation (su_simp srf).
  Hypothesis HEs : forall k, e_surf E k = as_surface srf.
  Hypothesis HEx : e_Lx E = size.
  Hypothesis HEy : e_Ly E = size.
  Hypothesis Hi : 0 < ni.
  Hypothesis Hj : 0 < nj.
  Let a := angle * PI / 180.
  Hypothesis Hsize : 12 / 10 * size * sin a < w.
  Hypothesis Hside : pm1 side.
  Hypothesis Hray : straight_at side (su_pts srf) size q d.
  Hypothesis Hfuel : (3 <= fuel)%nat.
  Let n0 := if Z.eqb side 1 then ni else nj.
  Let n1 := if Z.eqb side 1 then nj else ni.

  Lemma pyr_setup : 0 < a /\ 0 + 3 * a < PI / 2 /\ 2 * (6 * tol * size * tan a) * cos a < 1 / 10 ^ 9 * w /\
    heads side 0 d /\ shallow E a (6 * tol * size * tan a) /\
    exists h, first_met E (Some q) d 0 h /\ IZR side * vz (vscale (IZR side) (h_N h)) = cos a.
  Proof using All.
    pose proof PI_RGT_0. assert (0 < angle * PI) by (apply Rmult_lt_0_compat; lra).
    assert (0 < (30 - angle) * PI) by (apply Rmult_lt_0_compat; lra).
    assert (Ha : 0 < a < PI / 6) by (unfold a; lra).
    assert (A90 : 0 < angle < 90) by lra. destruct (made_pyramid _ _ _ _ _ _ _ _ A90 HS Hmade Hsrf) as (t & Ht & Hp & Htr). fold a in Ht.
    assert (A2 : 0 <= a < PI / 2) by lra. destruct (pyr_shallow size t a (su_simp srf) HS A2 Ht Htri) as (G1 & G2 & G3 & G4). cbv zeta in G3, G4.
    assert (Ca : 0 < cos a) by (apply cos_gt_0; lra).
    destruct Hray as (Rx & Ry & Rz & Rd).
    assert (S1 : IZR side * IZR side = 1) by (destruct Hside as [-> | ->]; ring).
    assert (Ud : unit d) by (rewrite Rd; unfold unit, dot; cbn; lra).
    split; [lra|]. split; [lra|]. split.
    { unfold tan, tol. replace (2 * (6 * (1 / 10 ^ 10) * size * (sin a / cos a)) * cos a) with
        (1 / 10 ^ 9 * (12 / 10 * size * sin a)) by (field; lra). apply Rmult_lt_compat_l; [lra|exact Hsize]. }
    split; [split; [exact Ud|rewrite Rd, cos_0; cbn; lra]|]. split.
    { exists (roof size t). split; [exact G1|]. split; [rewrite HEx, HEy; exact G2|]. intros k. rewrite HEs.
      cbn [as_surface s_tris]. rewrite Htr. split; [exact G3|]. intros T N HT U O1 O2 O3. rewrite (G4 T N); auto; lra. }
    rewrite Hp in Rz. destruct q as [x y z] eqn:Eq. cbn [vx vy vz] in *.
    destruct (straight_hits size (t * size / 2) (su_simp srf) x y z side HS Rx Ry Hside Htri Rz) as [h Hh].
    exists h. split.
    { split; [lia|]. split; [|intros; lia]. cbn [start_pos check_pos]. rewrite HEs. cbn [as_surface s_tris]. rewrite Htr, Rd. exact Hh. }
    rewrite <- Rd in Hh. destruct (sound_nearest _ _ _ _ Ud Hh) as (T & tt & HT & _ & _ & _ & U & O1 & O2 & O3 & _).
    cbn [vscale vz]. rewrite <- Rmult_assoc, S1, Rmult_1_l. apply (G4 T); auto.
  Qed.

  Lemma pyramids_once p : w = cos (3 * a) -> e_dec E = fresnel_decision ni nj p -> e_rnd E n < 1 ->
    (e_rnd E n <= fresnel_R n0 n1 a p -> exists res, single_interface_check fuel E (Some q) d side n = Some (Ok res) /\
       r_nint res = S n /\ Rabs (r_loc res) = a /\ r_out res = OReflected (acos (vz (r_dir res))) /\ r_side res = side /\
       unit (r_dir res) /\ IZR side * vz (r_dir res) = cos (2 * a)) /\
    (fresnel_R n0 n1 a p < e_rnd E n -> n0 <= n1 -> exists res b, single_interface_check fuel E (Some q) d side n = Some (Ok res) /\
       r_nint res = S n /\ Rabs (r_loc res) = a /\ r_out res = OTransmitted (acos (vz (r_dir res))) /\ r_side res = (- side)%Z /\
       unit (r_dir res) /\ n0 * sin a = n1 * sin b /\ 0 <= b <= a /\ IZR side * vz (r_dir res) = - cos (a - b)).
  Proof using All.
    intros Hw Hd Hr. destruct pyr_setup as (Ha & H3 & Heta & Hh & Hsh & h & Hm & HV). pose proof PI_RGT_0.
    rewrite Hw in Heta. replace (3 * a) with (0 + 3 * a) in Heta by ring.
    destruct (once_facet E a _ 0 side d (Some q) n 0 h fuel ni nj Hside Hh (Rle_refl 0) (Rlt_le _ _ Ha) H3 Heta Hsh Hi Hj Hm Hfuel)
      as (UN & VN & DN & TH & TL).
    destruct (once_fresnel E a _ 0 side d (Some q) n 0 h fuel ni nj Hside Hh (Rle_refl 0) (Rlt_le _ _ Ha) H3 Heta Hsh Hi Hj Hm Hfuel p Hd Hr)
      as [K1 K2]. fold n0 n1 in K1, K2.
    set (N := vscale (IZR side) (h_N h)) in *.
    assert (Ed : d = mkv 0 0 (- IZR side)) by apply Hray.
    assert (D : dot d N = - cos a) by (rewrite Ed; unfold dot; cbn [vx vy vz]; rewrite <- HV; ring).
    assert (X : Rabs (h_theta h) = a) by (apply cos_inj; lra). rewrite X in K1, K2.
    assert (P0 : 0 < n0) by (unfold n0; destruct (Z.eqb side 1); auto).
    split.
    - intros Hu. destruct (K1 Hu) as (res & R1 & R2 & R3 & R4 & R5 & [R6 _] & R7). exists res. rewrite R3. rewrite Ed in R5.
      assert (IZR side * vz (r_dir res) = cos (2 * a)) by exact (straight_mirror side a N (r_dir res) Hside UN HV R5). repeat (split; auto).
    - intros Hu Hn. destruct (K2 Hu Hn) as (res & R1 & R2 & R3 & R4 & R5 & [R6 _] & R7). rewrite Ed in R5.
      destruct (straight_snell side a N (r_dir res) n0 n1 Hside UN R6) as (b & B1 & B2 & B3); auto; try lra.
      exists res, b. rewrite R3. repeat (split; auto).
  Qed.

  Lemma pyramids_exit p b : 0 <= b -> n0 * sin a = n1 * sin b -> b + 2 * a < PI / 2 -> w = cos (b + 2 * a) ->
    e_dec E = fresnel_decision ni nj p -> e_rnd E n < 1 -> fresnel_R n0 n1 a p < e_rnd E n ->
    exists res, single_interface_check fuel E (Some q) d side n = Some (Ok res) /\
       r_nint res = S n /\ Rabs (r_loc res) = a /\ r_out res = OTransmitted (acos (vz (r_dir res))) /\ r_side res = (- side)%Z /\
       unit (r_dir res) /\ IZR side * vz (r_dir res) = - cos (a - b).
  Proof using All.
    intros Hb Hsn Hsum Hw Hd Hr HR. destruct pyr_setup as (Ha & H3 & Heta & Hh & Hsh & h & Hm & HV). pose proof PI_RGT_0.
    rewrite Hw in Heta. assert (Hts : 0 + a < PI / 2) by lra.
    assert (Hsn' : n0 * sin (0 + a) <= n1 * sin b) by (rewrite Rplus_0_l; lra).
    destruct (exit_facts E a _ 0 b side d (Some q) n 0 h fuel ni nj Hside Hh (Rle_refl 0) (Rlt_le _ _ Ha) Hts Hb Hsum Heta Hsh Hi Hj Hm Hfuel Hsn')
      as (UN & VN & DN & TH & _).
    set (N := vscale (IZR side) (h_N h)) in *.
    assert (Ed : d = mkv 0 0 (- IZR side)) by apply Hray.
    assert (D : dot d N = - cos a) by (rewrite Ed; unfold dot; cbn [vx vy vz]; rewrite <- HV; ring).
    assert (X : Rabs (h_theta h) = a) by (apply cos_inj; lra).
    pose proof (exit_fresnel E a _ 0 b side d (Some q) n 0 h fuel ni nj Hside Hh (Rle_refl 0) (Rlt_le _ _ Ha) Hts Hb Hsum Heta Hsh Hi Hj Hm Hfuel Hsn' p Hd Hr) as K.
    rewrite X in K. destruct (K HR) as (res & R1 & R2 & R3 & R4 & R5 & [R6 _] & R7). exists res. rewrite R3.
    assert (P0 : 0 < n0) by (unfold n0; destruct (Z.eqb side 1); auto).
    assert (P1 : 0 < n1) by (unfold n1; destruct (Z.eqb side 1); auto).
    rewrite Ed in R5. fold n0 n1 N in R5.
    assert (IZR side * vz (r_dir res) = - cos (a - b)) by (apply (straight_snell_at side a b N (r_dir res) n0 n1); auto; lra).
    repeat (split; auto).
  Qed.
End PyramidThms.

(* ---------- pyramids of size 100: the tolerance at the ridge is longer than the step of 10^-9 ---------- *)

Lemma snell_same d d' N : unit d -> unit d' -> unit N -> snell_law 1 1 d d' N -> d' = d.
Proof.
  intros U U' UN [T S]. pose proof (tang_sq d N UN) as A. pose proof (tang_sq d' N UN) as B. rewrite T, dot_scale_scale, A in B.
  unfold unit in U, U'. rewrite U, U' in B.
  unfold Rdiv in T, B. rewrite Rinv_1, !Rmult_1_l in B. rewrite Rinv_1 in T.
  assert (Q : dot d' N = dot d N).
  { assert (M : (dot d' N - dot d N) * (dot d' N + dot d N) = 0) by nra. apply Rmult_integral in M. destruct M; [lra|]. nra. }
  unfold tang in T. rewrite Q in T.
  pose proof (f_equal vx T) as X. pose proof (f_equal vy T) as Y. pose proof (f_equal vz T) as Z.
  unfold vsub, vscale in X, Y, Z. cbn [vx vy vz] in X, Y, Z. apply vec_ext; lra.
Qed.

Definition ridge_q : vec := mkv (25 - 1 / 10 ^ 8) 25 20.
Definition ridge_env (s : rtsurf) : env :=
  {| e_surf := fun _ => as_surface s; e_rnd := fun n => match n with O => 1 / 4 | _ => 3 / 4 end; e_xy := fun _ => (0, 0);
     e_Lx := 100; e_Ly := 100;
     e_dec := table_decision 1 1 (fun _ _ => {| te_R := 0; te_T := 1 / 2; te_A := [1 / 2] |}) |}.

Lemma down_meets p T t : 0 < t -> on_tri T (mkv (vx p) (vy p) (vz p - t)) ->
  vz (cross (vsub (t_P1 T) (t_P0 T)) (vsub (t_P2 T) (t_P0 T))) <> 0 -> meets p (mkv 0 0 (-1)) T t.
Proof.
  intros Ht Ho Hc. split; [exact Ht|]. split.
  - replace (vadd p (vscale t (mkv 0 0 (-1)))) with (mkv (vx p) (vy p) (vz p - t)); auto.
    apply vec_ext; unfold vadd, vscale; cbn [vx vy vz]; ring.
  - unfold dot. cbn [vx vy vz]. intros X. apply Hc. lra.
Qed.

Lemma ridge s : su_tris s = map (tri_of (pyr 100 (25 / 2))) (su_simp s) -> pyramid_triangulation (su_simp s) ->
  In (0, 2, 1)%nat (su_simp s) -> In (3, 0, 1)%nat (su_simp s) ->
  exists h, first_met (ridge_env s) (Some ridge_q) (mkv 0 0 (-1)) 0 h /\
  exists res, single_interface_check 3 (ridge_env s) (Some ridge_q) (mkv 0 0 (-1)) 1 0 = Some (Ok res) /\
    r_out res = OAbsorbed [1 / 2] /\ r_nint res = 2%nat.
Proof.
  intros Ht Htri I1 I2. set (d := mkv 0 0 (-1)) in *. assert (Ud : unit d) by (unfold unit, dot, d; cbn; ring).
  set (A := {| t_P0 := mkv 0 0 0; t_P1 := mkv 100 0 0; t_P2 := apex 100 (25 / 2) |}).
  set (B := {| t_P0 := mkv 0 100 0; t_P1 := mkv 0 0 0; t_P2 := apex 100 (25 / 2) |}).
  assert (J1 : In A (su_tris s)).
  { rewrite Ht. apply in_map_iff. exists (0, 2, 1)%nat. split; [|exact I1]. unfold tri_of. rewrite pyr_points. reflexivity. }
  assert (J2 : In B (su_tris s)).
  { rewrite Ht. apply in_map_iff. exists (3, 0, 1)%nat. split; [|exact I2]. unfold tri_of. rewrite pyr_points. reflexivity. }
  assert (M1 : meets ridge_q d A (20 - 25 / 4)).
  { apply down_meets; [lra| |unfold cross, vsub, A, apex; cbn; lra].
    exists (- tol), (1 / 2). unfold tol. split; [lra|]. split; [lra|]. split; [lra|].
    apply vec_ext; unfold vadd, vscale, vsub, A, apex, ridge_q; cbn [vx vy vz t_P0 t_P1 t_P2]; field. }
  assert (M2 : forall z, 25 / 4 - 1 / 10 ^ 9 <= z -> exists t, meets (mkv (25 - 1 / 10 ^ 8) 25 z) d B t).
  { intros z Hz. exists (z - (25 / 4 - 25 / 10 ^ 10)). apply down_meets; [lra| |unfold cross, vsub, B, apex; cbn; lra].
    exists (1 - 1 / 10 ^ 10 - (1 / 2 - 2 / 10 ^ 10)), (1 / 2 - 2 / 10 ^ 10). unfold tol. split; [lra|]. split; [lra|]. split; [lra|].
    apply vec_ext; unfold vadd, vscale, vsub, B, apex; cbn [vx vy vz t_P0 t_P1 t_P2]; field. }
  destruct (check_intersect ridge_q d (su_tris s)) as [h|] eqn:Hh; [|exfalso; rewrite check_intersect_none in Hh; exact (Hh _ _ J1 M1)].
  assert (Hm : first_met (ridge_env s) (Some ridge_q) d 0 h) by (split; [lia|split; [exact Hh|intros; lia]]).
  exists h. split; [exact Hm|].
  destruct (sound_nearest _ _ _ _ Ud Hh) as (T & t & HT & Hmt & Hmin & Hp & UN & O1 & O2 & O3 & TH & CT & _).
  assert (Lt : t <= 20 - 25 / 4) by exact (Hmin A _ J1 M1).
  pose proof PI_RGT_0.
  assert (Va : vz (h_N h) = cos (atan (1 / 4))).
  { assert (T4 : 0 <= atan (1 / 4) < PI / 2).
    { split; [|apply atan_bound]. rewrite <- atan_0. left. apply atan_increasing. lra. }
    destruct (pyr_shallow 100 (1 / 4) (atan (1 / 4)) (su_simp s)) as (_ & _ & _ & G); auto; try lra.
    { rewrite tan_atan. apply Rabs_right. lra. }
    apply (G T); auto. replace (1 / 4 * 100 / 2) with (25 / 2) by field. rewrite <- Ht. exact HT. }
  assert (V : 0 < vz (h_N h)) by (pose proof (atan_bound (1 / 4)); rewrite Va; apply cos_gt_0; lra).
  assert (D : dot d (h_N h) = - vz (h_N h)) by (unfold dot, d; cbn; ring).
  assert (E1 : vscale (IZR 1) (h_N h) = h_N h) by (apply vec_ext; unfold vscale; cbn; ring).
  assert (Ed : e_dec (ridge_env s) 1%Z (h_theta h) d (vscale (IZR 1) (h_N h)) (e_rnd (ridge_env s) 0) = (d, (-1)%Z, None)).
  { rewrite E1. set (e := {| te_R := 0; te_T := 1 / 2; te_A := [1 / 2] |}).
    change (decide_RT_TMM e 1 1 d (h_N h) 1%Z (1 / 4) = (d, (-1)%Z, None)).
    assert (X : 0 <= Rabs (h_theta h) < PI / 2) by (split; [apply Rabs_pos|apply Rabs_def1; lra]).
    assert (DX : dot d (h_N h) = - cos (Rabs (h_theta h))).
    { rewrite D. rewrite D, Rabs_Ropp, Rabs_right in CT by lra. unfold Rabs. destruct (Rcase_abs (h_theta h)); [rewrite cos_neg|]; lra. }
    assert (SX : 1 * sin (Rabs (h_theta h)) < 1).
    { rewrite Rmult_1_l. replace 1 with (sin (PI / 2)) by apply sin_PI2. apply sin_increasing_1; lra. }
    pose proof (interaction_TMM e 1 1 _ d (h_N h) 1%Z (1 / 4) Rlt_0_1 Rlt_0_1 X Ud UN DX SX) as K.
    unfold decide_RT_TMM in *. unfold e in *. cbn [te_R te_T te_A] in *.
    rewrite (proj2 (Rleb_false (1 / 4) 0)) in * by lra. rewrite (proj2 (Rltb_true 0 (1 / 4))) in * by lra.
    rewrite (proj2 (Rleb_true (1 / 4) (0 + 1 / 2))) in * by lra. cbn [andb] in *.
    destruct K as (U' & [(_ & X' & _)|[(_ & _ & K)|(X' & _)]]); [discriminate| |discriminate].
    rewrite (snell_same d _ (h_N h) Ud U' UN K). reflexivity. }
  change 3%nat with (0 + Datatypes.S 2)%nat.
  rewrite (hits (ridge_env s) (Some ridge_q) d 1%Z 0 0 h 2 d (-1)%Z None Hm Ed).
  set (p1 := vadd (h_point h) (vscale (1 / 10 ^ 9) d)).
  assert (P1 : p1 = mkv (25 - 1 / 10 ^ 8) 25 (20 - t - 1 / 10 ^ 9)).
  { unfold p1. rewrite Hp. apply vec_ext; unfold vadd, vscale, ridge_q, d; cbn [vx vy vz]; ring. }
  destruct (M2 (20 - t - 1 / 10 ^ 9) ltac:(lra)) as [t2 M3].
  destruct (check_intersect p1 d (su_tris s)) as [h2|] eqn:Hh2.
  2:{ exfalso. rewrite check_intersect_none in Hh2. rewrite P1 in Hh2. exact (Hh2 _ _ J2 M3). }
  cbn [irun]. unfold istep. cbn [i_r i_d i_side i_checked i_misses i_i1 i_theta i_nint i_ref].
  change (check_pos (Some p1) d (e_surf (ridge_env s) 0)) with (check_intersect p1 d (su_tris s)). rewrite Hh2.
  cbn [ridge_env e_dec e_rnd]. unfold table_decision, decide_RT_TMM. cbn [Z.eqb te_R te_T te_A].
  rewrite (proj2 (Rleb_false (3 / 4) 0)) by lra. rewrite (proj2 (Rltb_true 0 (3 / 4))) by lra.
  rewrite (proj2 (Rleb_false (3 / 4) (0 + 1 / 2))) by lra. cbn [andb].
  eexists. split; [reflexivity|]. cbn [r_out r_nint]. auto.
Qed.

Lemma made_simp del angle size upright cov f r : 0 < size -> regular_pyramids del angle size upright cov None 0 = Ok (f, r) ->
  (exists l, su_simp f = del l) /\ (exists l, su_simp r = del l).
Proof.
  intros HS E. destruct (regular_split _ _ _ _ _ _ _ _ _ E) as [Ef Er]. cbn zeta in Ef, Er.
  destruct (mk_fields _ _ _ _ _ Ef) as (_ & _ & _ & _ & _ & K1). destruct (mk_fields _ _ _ _ _ Er) as (_ & _ & _ & _ & _ & K2). eauto.
Qed.

Lemma made_upright del angle size cov f r : regular_pyramids del angle size true cov None 0 = Ok (f, r) ->
  su_tris f = map (tri_of (pyr size (size * tan (angle * PI / 180) / 2))) (su_simp f).
Proof.
  intros E. destruct (regular_split _ _ _ _ _ _ _ _ _ E) as [Ef _]. cbn zeta in Ef. rewrite pyramid_points_eq, Rmult_1_r in Ef.
  unfold pyramid_height, radians in Ef. rewrite Rmult_1_r in Ef. apply (mk_tris _ _ _ _ _ Ef).
Qed.
