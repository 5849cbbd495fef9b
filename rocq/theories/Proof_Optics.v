(* Lemmas about calc_R, reflection, refraction (C33-C36). *)
From Coq Require Import Reals List Bool ZArith Lra Lia Psatz.
From Verif Require Import Base Lib Model_Optics Spec_Optics.
Import ListNotations.
Open Scope R_scope.

(* ---------- vectors ---------- *)

Lemma vec_ext a b : vx a = vx b -> vy a = vy b -> vz a = vz b -> a = b.
Proof. destruct a, b; cbn; intros; subst; reflexivity. Qed.

Ltac vexp := unfold tang, reflect, vadd, vsub, vscale, vneg, dot, cross in *; cbn [vx vy vz] in *.

Lemma dot_nonneg a : 0 <= dot a a.
Proof. unfold dot. nra. Qed.

Lemma norm_sq a : norm a * norm a = dot a a.
Proof. unfold norm. apply sqrt_sqrt, dot_nonneg. Qed.

Lemma norm_nonneg a : 0 <= norm a.
Proof. unfold norm. apply sqrt_pos. Qed.

Lemma norm_unit a : unit a -> norm a = 1.
Proof. unfold unit, norm. intros ->. apply sqrt_1. Qed.

Lemma normalise_unit a : unit a -> normalise a = a.
Proof.
  intros H. unfold normalise. rewrite norm_unit by exact H.
  apply vec_ext; unfold vscale; cbn [vx vy vz]; field.
Qed.

Lemma reflect_unit d N : unit N -> unit d -> unit (reflect d N).
Proof.
  unfold unit. intros HN Hd.
  assert (E : dot (reflect d N) (reflect d N) =
              dot d d - 4 * (dot d N) * (dot d N) * (1 - dot N N)) by (vexp; ring).
  rewrite E, HN, Hd. ring.
Qed.

Lemma reflect_law d N : unit N -> mirror_law d (reflect d N) N.
Proof.
  intros HN.
  assert (E : dot (reflect d N) N = dot d N - 2 * dot d N * dot N N) by (vexp; ring).
  assert (E' : dot (reflect d N) N = - dot d N) by (rewrite E, HN; ring).
  split; [exact E'|].
  unfold tang. rewrite E'. apply vec_ext; vexp; ring.
Qed.

Lemma tang_perp d N : unit N -> dot (tang d N) N = 0.
Proof.
  unfold unit. intros HN.
  assert (E : dot (tang d N) N = dot d N * (1 - dot N N)) by (vexp; ring).
  rewrite E, HN. ring.
Qed.

Lemma tang_sq d N : unit N -> dot (tang d N) (tang d N) = dot d d - dot d N * dot d N.
Proof.
  unfold unit. intros HN.
  assert (E : dot (tang d N) (tang d N) =
              dot d d - 2 * dot d N * dot d N + dot d N * dot d N * dot N N) by (vexp; ring).
  rewrite E, HN. ring.
Qed.

Lemma dot_scale_l c a b : dot (vscale c a) b = c * dot a b.
Proof. vexp. ring. Qed.
Lemma dot_scale_scale c a : dot (vscale c a) (vscale c a) = c * c * dot a a.
Proof. vexp. ring. Qed.

Section Refract.
  Variables (n0 n1 : R) (d N : vec).
  Hypothesis H0 : 0 < n0.
  Hypothesis H1 : 0 < n1.
  Hypothesis HN : unit N.
  Hypothesis Hd : unit d.
  Let s2 := (n0 / n1) * (n0 / n1) * (1 - dot d N * dot d N).

  Lemma par_sq : norm (vscale (n0 / n1) (vsub d (vscale (dot d N) N))) ^ 2 = s2.
  Proof.
    replace (norm _ ^ 2) with (norm (vscale (n0 / n1) (tang d N)) * norm (vscale (n0 / n1) (tang d N)))
      by (unfold tang; ring).
    rewrite norm_sq, dot_scale_scale, tang_sq by exact HN. unfold s2.
    replace (dot d d) with 1 by (symmetry; exact Hd). ring.
  Qed.

  Lemma refract_eq : s2 <= 1 ->
    refract n0 n1 d N = vadd (vscale (n0 / n1) (tang d N)) (vscale (- sqrt (1 - s2)) N).
  Proof.
    intros Hs. unfold refract. rewrite par_sq. unfold real_sqrt.
    destruct (Rltb (1 - s2) 0) eqn:E; [apply Rltb_true in E; lra|]. reflexivity.
  Qed.

  Lemma refract_normal : s2 <= 1 -> dot (refract n0 n1 d N) N = - sqrt (1 - s2).
  Proof.
    intros Hs. rewrite refract_eq by exact Hs.
    assert (E : forall a c, dot (vadd a (vscale c N)) N = dot a N + c * dot N N)
      by (intros; vexp; ring).
    rewrite E, dot_scale_l, tang_perp by exact HN.
    replace (dot N N) with 1 by (symmetry; exact HN). ring.
  Qed.

  Lemma refract_tang : s2 <= 1 -> tang (refract n0 n1 d N) N = vscale (n0 / n1) (tang d N).
  Proof.
    intros Hs. unfold tang at 1. rewrite refract_normal, refract_eq by exact Hs.
    apply vec_ext; unfold vadd, vsub, vscale; cbn [vx vy vz]; ring.
  Qed.

  Lemma refract_unit : s2 <= 1 -> unit (refract n0 n1 d N).
  Proof.
    intros Hs. unfold unit. pose proof (tang_sq (refract n0 n1 d N) N HN) as E.
    rewrite refract_tang, refract_normal in E by exact Hs.
    rewrite dot_scale_scale, tang_sq in E by exact HN.
    assert (Hq : sqrt (1 - s2) * sqrt (1 - s2) = 1 - s2) by (apply sqrt_sqrt; lra).
    replace (dot d d) with 1 in E by (symmetry; exact Hd).
    assert (E2 : (n0 / n1) * (n0 / n1) * (1 - dot d N * dot d N) = s2) by reflexivity.
    rewrite E2 in E. lra.
  Qed.
End Refract.

(* ---------- Fresnel ---------- *)

Lemma cos_sin_sq x : cos x * cos x + sin x * sin x = 1.
Proof. pose proof (sin2_cos2 x) as H. unfold Rsqr in H. lra. Qed.

Lemma cos_pos x : 0 <= x < PI / 2 -> 0 < cos x.
Proof. intros. apply cos_gt_0; lra. Qed.

Lemma sin_nonneg x : 0 <= x < PI / 2 -> 0 <= sin x.
Proof. intros. apply sin_ge_0; lra. Qed.

Lemma snell_arg n1 n2 x : 0 < n1 -> 0 < n2 -> 0 <= x < PI / 2 -> n1 * sin x <= n2 ->
  0 <= n1 / n2 * sin x <= 1.
Proof.
  intros H1 H2 Hx Hs. pose proof (sin_nonneg x Hx) as S.
  replace (n1 / n2 * sin x) with ((n1 * sin x) / n2) by (field; lra).
  assert (0 <= n1 * sin x) by nra.
  split.
  - apply Rmult_le_pos; [lra|]. left. apply Rinv_0_lt_compat; lra.
  - apply Rmult_le_reg_r with n2; [lra|]. unfold Rdiv. rewrite Rmult_assoc, Rinv_l by lra. lra.
Qed.

(* the refracted angle of Snell's law *)
Lemma theta_t_facts n1 n2 x : 0 < n1 -> 0 < n2 -> 0 <= x < PI / 2 -> n1 * sin x <= n2 ->
  let t := asin (n1 / n2 * sin x) in
  0 <= t <= PI / 2 /\ n1 * sin x = n2 * sin t /\ 0 <= cos t.
Proof.
  intros H1 H2 Hx Hs t. pose proof (snell_arg n1 n2 x H1 H2 Hx Hs) as Ha.
  pose proof (asin_bound (n1 / n2 * sin x)) as Hb. fold t in Hb.
  assert (St : sin t = n1 / n2 * sin x) by (unfold t; apply sin_asin; lra).
  assert (Ct : 0 <= cos t) by (apply cos_ge_0; lra).
  assert (T0 : 0 <= t).
  { destruct (Rle_or_lt 0 t) as [|Hlt]; [assumption|]. exfalso.
    assert (sin t < 0) by (apply sin_lt_0_var; pose proof PI_RGT_0; lra). lra. }
  repeat apply conj; try lra. rewrite St. field. lra.
Qed.

Lemma frac_bound a b : 0 <= a -> 0 <= b -> 0 < a + b -> 0 <= Rabs ((a - b) / (a + b)) ^ 2 <= 1.
Proof.
  intros Ha Hb Hab.
  assert (E : Rabs ((a - b) / (a + b)) ^ 2 = ((a - b) / (a + b)) * ((a - b) / (a + b))).
  { rewrite <- Rsqr_pow2, <- Rsqr_abs. reflexivity. }
  rewrite E.
  assert (-1 <= (a - b) / (a + b) <= 1).
  { split; apply Rmult_le_reg_r with (a + b); try lra;
      unfold Rdiv; rewrite Rmult_assoc, Rinv_l by lra; lra. }
  nra.
Qed.

Lemma Rabs_sq x : Rabs x ^ 2 = x * x.
Proof. rewrite <- Rsqr_pow2, <- Rsqr_abs. reflexivity. Qed.

Section Fresnel.
  Variables (n1 n2 x : R).
  Hypothesis H1 : 0 < n1.
  Hypothesis H2 : 0 < n2.
  Hypothesis Hx : 0 <= x < PI / 2.
  Hypothesis Hs : n1 * sin x <= n2.

  Lemma calc_R_range p : 0 <= calc_R n1 n2 x p <= 1.
  Proof.
    destruct (theta_t_facts n1 n2 x H1 H2 Hx Hs) as (Ht & Hsn & Hct).
    pose proof (cos_pos x Hx) as Hc. unfold calc_R.
    set (t := asin (n1 / n2 * sin x)) in *.
    assert (A1 : 0 < n1 * cos x) by (apply Rmult_lt_0_compat; lra).
    assert (A2 : 0 <= n2 * cos t) by (apply Rmult_le_pos; lra).
    assert (A3 : 0 <= n1 * cos t) by (apply Rmult_le_pos; lra).
    assert (A4 : 0 < n2 * cos x) by (apply Rmult_lt_0_compat; lra).
    pose proof (frac_bound (n1 * cos x) (n2 * cos t)) as Bs.
    pose proof (frac_bound (n1 * cos t) (n2 * cos x)) as Bp.
    destruct p; [apply Bs|apply Bp|]; try lra.
  Qed.

  (* exchanging the media and entering at the refracted angle *)
  Lemma calc_R_symmetric p :
    n1 * sin x < n2 ->
    calc_R n2 n1 (asin (n1 / n2 * sin x)) p = calc_R n1 n2 x p.
  Proof.
    intros Hlt. destruct (theta_t_facts n1 n2 x H1 H2 Hx Hs) as (Ht & Hsn & Hct).
    pose proof (cos_pos x Hx) as Hc. unfold calc_R.
    set (t := asin (n1 / n2 * sin x)) in *.
    assert (E : asin (n2 / n1 * sin t) = x).
    { replace (n2 / n1 * sin t) with (sin x).
      - apply asin_sin. lra.
      - replace (n2 / n1 * sin t) with ((n2 * sin t) / n1) by (field; lra).
        rewrite <- Hsn. field. lra. }
    rewrite E.
    assert (A1 : 0 < n1 * cos x) by (apply Rmult_lt_0_compat; lra).
    assert (A2 : 0 <= n2 * cos t) by (apply Rmult_le_pos; lra).
    assert (A3 : 0 <= n1 * cos t) by (apply Rmult_le_pos; lra).
    assert (A4 : 0 < n2 * cos x) by (apply Rmult_lt_0_compat; lra).
    assert (Es : Rabs ((n2 * cos t - n1 * cos x) / (n2 * cos t + n1 * cos x)) ^ 2 =
                 Rabs ((n1 * cos x - n2 * cos t) / (n1 * cos x + n2 * cos t)) ^ 2)
      by (rewrite !Rabs_sq; field; lra).
    assert (Ep : Rabs ((n2 * cos x - n1 * cos t) / (n2 * cos x + n1 * cos t)) ^ 2 =
                 Rabs ((n1 * cos t - n2 * cos x) / (n1 * cos t + n2 * cos x)) ^ 2)
      by (rewrite !Rabs_sq; field; lra).
    destruct p; rewrite ?Es, ?Ep; reflexivity.
  Qed.

  (* Fresnel's sine and tangent laws *)
  Lemma calc_R_sine : 0 < x ->
    let t := asin (n1 / n2 * sin x) in
    calc_R n1 n2 x PolS = (sin (x - t) / sin (x + t)) ^ 2.
  Proof.
    intros Hx0 t. destruct (theta_t_facts n1 n2 x H1 H2 Hx Hs) as (Ht & Hsn & Hct).
    fold t in Ht, Hsn, Hct. pose proof (cos_pos x Hx) as Hc.
    assert (Sx : 0 < sin x) by (apply sin_gt_0; lra).
    assert (St : 0 < sin t).
    { destruct (Rle_or_lt (sin t) 0); [|assumption]. exfalso.
      assert (n2 * sin t <= 0) by nra. assert (0 < n1 * sin x) by nra. lra. }
    unfold calc_R. fold t. rewrite Rabs_sq, sin_minus, sin_plus.
    assert (En : n1 = n2 * sin t / sin x) by (rewrite <- Hsn; field; lra).
    assert (P1 : 0 < sin t * cos x) by (apply Rmult_lt_0_compat; lra).
    assert (P2 : 0 <= sin x * cos t) by (apply Rmult_le_pos; lra).
    rewrite En. field. repeat apply conj; try lra.
    all: intros Hz; assert (0 < n2 * (sin t * cos x + sin x * cos t)) by (apply Rmult_lt_0_compat; lra); nra.
  Qed.

  Lemma calc_R_tangent : 0 < x ->
    let t := asin (n1 / n2 * sin x) in
    cos (x + t) <> 0 ->
    calc_R n1 n2 x PolP = (tan (x - t) / tan (x + t)) ^ 2.
  Proof.
    intros Hx0 t Hne. destruct (theta_t_facts n1 n2 x H1 H2 Hx Hs) as (Ht & Hsn & Hct).
    fold t in Ht, Hsn, Hct. pose proof (cos_pos x Hx) as Hc.
    assert (Sx : 0 < sin x) by (apply sin_gt_0; lra).
    assert (St : 0 < sin t).
    { destruct (Rle_or_lt (sin t) 0); [|assumption]. exfalso.
      assert (n2 * sin t <= 0) by nra. assert (0 < n1 * sin x) by nra. lra. }
    unfold calc_R. fold t. rewrite Rabs_sq. unfold tan.
    assert (P1 : 0 <= cos x * cos t) by (apply Rmult_le_pos; lra).
    assert (P2 : 0 < sin x * sin t) by (apply Rmult_lt_0_compat; lra).
    assert (Cm : cos (x - t) <> 0) by (rewrite cos_minus; lra).
    assert (Q1 : 0 < sin x * cos x) by (apply Rmult_lt_0_compat; lra).
    assert (Q2 : 0 <= sin t * cos t) by (apply Rmult_le_pos; lra).
    (* sin a cos a +- sin b cos b = sin (a +- b) cos (a -+ b) *)
    assert (I1 : sin (x + t) * cos (x - t) = sin x * cos x + sin t * cos t).
    { rewrite sin_plus, cos_minus. pose proof (cos_sin_sq x). pose proof (cos_sin_sq t).
      transitivity (sin x * cos x * (cos t * cos t + sin t * sin t)
                    + sin t * cos t * (cos x * cos x + sin x * sin x)); [ring|].
      rewrite H, H0. ring. }
    assert (I2 : sin (x - t) * cos (x + t) = sin x * cos x - sin t * cos t).
    { rewrite sin_minus, cos_plus. pose proof (cos_sin_sq x). pose proof (cos_sin_sq t).
      transitivity (sin x * cos x * (cos t * cos t + sin t * sin t)
                    - sin t * cos t * (cos x * cos x + sin x * sin x)); [ring|].
      rewrite H, H0. ring. }
    assert (Sp : sin (x + t) <> 0) by (intros Hz; rewrite Hz in I1; lra).
    assert (ER : sin (x - t) / cos (x - t) / (sin (x + t) / cos (x + t)) =
                 (sin x * cos x - sin t * cos t) / (sin x * cos x + sin t * cos t)).
    { rewrite <- I1, <- I2. field. repeat apply conj; assumption. }
    rewrite ER.
    assert (En : n1 = n2 * sin t / sin x) by (rewrite <- Hsn; field; lra).
    assert (EL : (n1 * cos t - n2 * cos x) / (n1 * cos t + n2 * cos x) =
                 - ((sin x * cos x - sin t * cos t) / (sin x * cos x + sin t * cos t))).
    { rewrite En. field. repeat apply conj; try lra.
      intros Hz. assert (0 < n2 * (sin t * cos t + sin x * cos x)) by (apply Rmult_lt_0_compat; lra). nra. }
    rewrite EL. ring.
  Qed.

  (* critical angle *)
  Lemma calc_R_critical p : n1 * sin x = n2 -> calc_R n1 n2 x p = 1.
  Proof.
    intros Hcr. pose proof (cos_pos x Hx) as Hc. unfold calc_R.
    replace (n1 / n2 * sin x) with 1.
    2:{ replace (n1 / n2 * sin x) with ((n1 * sin x) / n2) by (field; lra). rewrite Hcr. field. lra. }
    rewrite asin_1, cos_PI2.
    assert (Es : Rabs ((n1 * cos x - n2 * 0) / (n1 * cos x + n2 * 0)) ^ 2 = 1)
      by (rewrite Rabs_sq; field; split; lra).
    assert (Ep : Rabs ((n1 * 0 - n2 * cos x) / (n1 * 0 + n2 * cos x)) ^ 2 = 1)
      by (rewrite Rabs_sq; field; split; lra).
    destruct p; rewrite ?Es, ?Ep; lra.
  Qed.
End Fresnel.

Lemma calc_R_matched n x p : 0 < n -> 0 <= x < PI / 2 -> calc_R n n x p = 0.
Proof.
  intros Hn Hx. unfold calc_R.
  replace (n / n * sin x) with (sin x) by (field; lra).
  rewrite asin_sin by lra. rewrite !Rabs_sq.
  replace (n * cos x - n * cos x) with 0 by ring. unfold Rdiv. rewrite !Rmult_0_l.
  destruct p; ring.
Qed.

Lemma calc_R_normal n1 n2 p : 0 < n1 -> 0 < n2 -> calc_R n1 n2 0 p = ((n1 - n2) / (n1 + n2)) ^ 2.
Proof.
  intros H1 H2. unfold calc_R. rewrite sin_0, Rmult_0_r, asin_0, cos_0, !Rabs_sq, !Rmult_1_r.
  destruct p; try field; lra.
Qed.

Lemma calc_R_brewster n1 n2 : 0 < n1 -> 0 < n2 -> calc_R n1 n2 (atan (n2 / n1)) PolP = 0.
Proof.
  intros H1 H2. unfold calc_R. set (x := atan (n2 / n1)).
  assert (Hb : 0 < x < PI / 2).
  { unfold x. split; [|apply atan_bound]. rewrite <- atan_0. apply atan_increasing.
    apply Rdiv_lt_0_compat; lra. }
  assert (Hc : 0 < cos x) by (apply cos_gt_0; lra).
  assert (Ht : sin x = n2 / n1 * cos x).
  { assert (tan x = n2 / n1) by (unfold x; rewrite tan_atan; reflexivity).
    rewrite <- H. unfold tan. field. lra. }
  assert (E : n1 / n2 * sin x = cos x) by (rewrite Ht; field; lra).
  rewrite E. assert (Ea : asin (cos x) = PI / 2 - x).
  { rewrite <- sin_shift. apply asin_sin. lra. }
  rewrite Ea, cos_shift, Ht. rewrite Rabs_sq.
  replace (n1 * (n2 / n1 * cos x) - n2 * cos x) with 0 by (field; lra).
  unfold Rdiv. rewrite !Rmult_0_l. reflexivity.
Qed.

(* fresnel_R by the side of the critical angle *)
Lemma fresnel_R_cases n0 n1 x p : 0 < n0 -> 0 < n1 -> 0 <= x < PI / 2 ->
  (n1 < n0 * sin x -> fresnel_R n0 n1 x p = 1) /\
  (n0 * sin x <= n1 -> fresnel_R n0 n1 x p = calc_R n0 n1 x p).
Proof.
  intros H0 H1 Hx. unfold fresnel_R, clip. rewrite (Rabs_pos_eq x) by lra.
  pose proof PI_RGT_0 as HPI.
  pose proof (sin_nonneg x Hx) as Sx. pose proof (cos_pos x Hx) as Cx.
  pose proof (SIN_bound x) as Sb.
  assert (Hq : 0 < n1 / n0) by (apply Rdiv_lt_0_compat; lra).
  assert (Eq : n1 = n1 / n0 * n0) by (field; lra).
  destruct (Rltb (n1 / n0) (-1)) eqn:E1; [apply Rltb_true in E1; lra|].
  destruct (Rltb 1 (n1 / n0)) eqn:E2.
  - apply Rltb_true in E2. rewrite asin_1.
    assert (n0 < n1) by nra. assert (n0 * sin x <= n0) by nra.
    destruct (Rltb (PI / 2) x) eqn:E3; [apply Rltb_true in E3; lra|].
    split; [intros; lra|reflexivity].
  - apply Rltb_false in E2.
    assert (Sa : sin (asin (n1 / n0)) = n1 / n0) by (apply sin_asin; lra).
    pose proof (asin_bound (n1 / n0)) as Ba.
    split; intros Hc.
    + destruct (Rltb (asin (n1 / n0)) x) eqn:E3; [reflexivity|].
      apply Rltb_false in E3. exfalso.
      assert (sin x <= sin (asin (n1 / n0))) by (apply sin_incr_1; lra).
      rewrite Sa in H. assert (sin x * n0 <= n1 / n0 * n0) by nra. lra.
    + destruct (Rltb (asin (n1 / n0)) x) eqn:E3; [|reflexivity].
      apply Rltb_true in E3. exfalso.
      assert (sin (asin (n1 / n0)) < sin x) by (apply sin_increasing_1; lra).
      rewrite Sa in H. assert (n1 / n0 * n0 < sin x * n0) by nra. lra.
Qed.

Lemma decide_cases n0 n1 x d N side p rnd :
  0 < n0 -> 0 < n1 -> 0 <= x < PI / 2 -> unit d -> unit N -> dot d N = - cos x -> rnd < 1 ->
  let '(d', s', A) := decide_RT_Fresnel n0 n1 x d N side p rnd in
  A = None /\ unit d' /\
  ((rnd <= fresnel_R n0 n1 x p /\ s' = side /\ mirror_law d d' N) \/
   (fresnel_R n0 n1 x p < rnd /\ s' = (- side)%Z /\ n0 * sin x < n1 /\ snell_law n0 n1 d d' N)).
Proof.
  intros H0 H1 Hx Hd HN Hdot Hr. unfold decide_RT_Fresnel.
  destruct (fresnel_R_cases n0 n1 x p H0 H1 Hx) as [Htir Hbelow].
  pose proof (cos_pos x Hx) as Cx. pose proof (sin_nonneg x Hx) as Sx.
  destruct (Rleb rnd (fresnel_R n0 n1 x p)) eqn:E.
  - apply Rleb_true in E. rewrite normalise_unit by (apply reflect_unit; assumption).
    split; [reflexivity|]. split; [apply reflect_unit; assumption|]. left.
    split; [exact E|]. split; [reflexivity|]. apply reflect_law, HN.
  - apply Rleb_false in E.
    assert (Hlt : n0 * sin x < n1).
    { destruct (Rtotal_order (n0 * sin x) n1) as [Hl|[He|Hg]]; [exact Hl| |].
      - rewrite Hbelow, (calc_R_critical n0 n1 x) in E by lra. lra.
      - rewrite Htir in E by lra. lra. }
    pose proof (snell_arg n0 n1 x H0 H1 Hx ltac:(lra)) as Ha.
    assert (Ha1 : n0 / n1 * sin x < 1).
    { replace (n0 / n1 * sin x) with ((n0 * sin x) / n1) by (field; lra).
      apply Rmult_lt_reg_r with n1; [lra|]. unfold Rdiv. rewrite Rmult_assoc, Rinv_l by lra. lra. }
    assert (Es : (n0 / n1) * (n0 / n1) * (1 - dot d N * dot d N) = (n0 / n1 * sin x) * (n0 / n1 * sin x)).
    { rewrite Hdot. pose proof (cos_sin_sq x).
      replace (1 - - cos x * - cos x) with (sin x * sin x) by lra. ring. }
    assert (Hlt1 : (n0 / n1) * (n0 / n1) * (1 - dot d N * dot d N) < 1) by (rewrite Es; nra).
    assert (Hle1 : (n0 / n1) * (n0 / n1) * (1 - dot d N * dot d N) <= 1) by lra.
    pose proof (refract_unit n0 n1 d N HN Hd Hle1) as Hu.
    rewrite normalise_unit by exact Hu.
    split; [reflexivity|]. split; [exact Hu|]. right.
    split; [exact E|]. split; [reflexivity|]. split; [exact Hlt|].
    split; [exact (refract_tang n0 n1 d N HN Hd Hle1)|].
    rewrite (refract_normal n0 n1 d N HN Hd Hle1), Hdot.
    assert (0 < sqrt (1 - n0 / n1 * (n0 / n1) * (1 - dot d N * dot d N))) by (apply sqrt_lt_R0; lra).
    rewrite Hdot in H. nra.
Qed.
