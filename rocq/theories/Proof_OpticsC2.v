(* Textbook formula, decisions with complex indices. *)
From Coq Require Import Reals List Bool ZArith Lra Lia Psatz.
From Verif Require Import Base Lib Model_Optics Model_OpticsC Spec_Optics Spec_OpticsC Proof_Optics Proof_OpticsProps Proof_OpticsC.
Import ListNotations.
Open Scope R_scope.

Lemma ratio2_scale m a b : 0 < re m ^ 2 + im m ^ 2 -> 0 < re (cadd a b) ^ 2 + im (cadd a b) ^ 2 ->
  ratio2 (cmul m a) (cmul m b) = ratio2 a b.
Proof.
  intros M H.
  assert (E : forall f, f = cadd \/ f = csub -> re (f (cmul m a) (cmul m b)) ^ 2 + im (f (cmul m a) (cmul m b)) ^ 2 =
     (re m ^ 2 + im m ^ 2) * (re (f a b) ^ 2 + im (f a b) ^ 2)) by (intros f [-> | ->]; cbn [cadd csub cmul re im]; ring).
  rewrite !ratio2_eq; [|exact H|rewrite E by auto; apply Rmult_lt_0_compat; auto].
  rewrite !E by auto. field. split; lra.
Qed.

Lemma calc_Rc_metal n a k x u v p : 0 < n -> 0 < a -> 0 < k -> 0 <= x < PI / 2 -> normal_wave n a k x u v ->
  calc_Rc (creal n) (mkc a k) x p = metal_R n a k x u v p.
Proof.
  intros Hn Ha Hk Hx (Hu & Hv & E & F).
  assert (Hm : 0 < re (creal n) * re (mkc a k) + im (creal n) * im (mkc a k)) by (cbn; nra).
  pose proof (w_root (creal n) (mkc a k) x Hm) as W. pose proof (forwards (creal n) (mkc a k) x Hm) as G. cbv zeta in W, G.
  rewrite calc_Rc_ratio. cbv zeta. set (w := ccos _) in *. destruct W as (W0 & W1 & W2).
  assert (A : 0 < a ^ 2 + k ^ 2) by nra. cbn [re im creal] in W1, W2, G.
  set (Q := cmul (mkc a k) w).
  assert (QE : re Q ^ 2 - im Q ^ 2 = a ^ 2 - k ^ 2 - (n * sin x) ^ 2).
  { unfold Q; cbn [re im cmul].
    transitivity ((a ^ 2 - k ^ 2) * (re w ^ 2 - im w ^ 2) - 4 * a * k * (re w * im w)); [ring|].
    rewrite W1, W2. field. lra. }
  assert (QF : re Q * im Q = a * k).
  { unfold Q; cbn [re im cmul].
    transitivity (a * k * (re w ^ 2 - im w ^ 2) + (a ^ 2 - k ^ 2) * (re w * im w)); [ring|].
    rewrite W1, W2. field. lra. }
  assert (Q0 : 0 <= re Q).
  { unfold Q; cbn [re im cmul]. pose proof (Rle_abs ((n * k - 0 * a) * im w)).
    assert (0 <= n * (a * re w - k * im w)) by lra. nra. }
  destruct (root_unique (re Q) (im Q) u v) as [U V]; try lra.
  { left. assert (0 < a * k) by nra. destruct (Rle_lt_or_eq_dec _ _ Q0) as [?|Z]; [assumption|]. rewrite <- Z in QF. lra. }
  pose proof (cos_pos x Hx) as C.
  assert (U0 : 0 < u).
  { assert (0 < a * k) by nra. destruct (Rle_lt_or_eq_dec _ _ Hu) as [?|Z]; [assumption|]. rewrite <- Z in F. lra. }
  assert (RS : ratio2 (cmul (creal n) (creal (cos x))) Q = metal_Rs n x u v).
  { rewrite cmul_creal. assert (0 < n * cos x) by nra. rewrite ratio2_eq by (cbn [re im cadd creal]; rewrite U, V; nra).
    cbn [re im cadd csub creal]. rewrite U, V. unfold metal_Rs. f_equal; [ring|f_equal; ring]. }
  assert (RP : ratio2 (cmul (creal n) w) (cmul (mkc a k) (creal (cos x))) = metal_Rp n a k x u v).
  { rewrite <- (ratio2_scale (mkc a k)).
    - assert (E1 : cmul (mkc a k) (cmul (creal n) w) = mkc (n * u) (n * v)).
      { apply ceq; cbn [re im cmul creal]; rewrite <- ?U, <- ?V; unfold Q; cbn [re im cmul]; ring. }
      assert (E2 : cmul (mkc a k) (cmul (mkc a k) (creal (cos x))) = mkc ((a ^ 2 - k ^ 2) * cos x) (2 * a * k * cos x)).
      { apply ceq; cbn [re im cmul creal]; ring. }
      rewrite E1, E2. rewrite ratio2_sym, ratio2_eq.
      + cbn [re im cadd csub]. unfold metal_Rp. reflexivity.
      + cbn [re im cadd]. assert (0 < 2 * a * k * cos x) by (repeat apply Rmult_lt_0_compat; lra). assert (0 <= n * v) by nra.
        apply Rplus_le_lt_0_compat; [apply pow2_ge_0|apply pow_lt; lra].
    - cbn [re im]. exact A.
    - assert (0 <= re (cmul (creal n) w) * re (cmul (mkc a k) (creal (cos x))) + im (cmul (creal n) w) * im (cmul (mkc a k) (creal (cos x)))).
      { pose proof (p_dot (creal n) (mkc a k) x) as PD. cbv zeta in PD. fold w in PD. rewrite PD. cbn [re im creal]. rewrite <- Rabs_Ropp in G. pose proof (Rle_abs (- ((n * k - 0 * a) * im w))). nra. }
      assert (0 < re (cmul (mkc a k) (creal (cos x))) ^ 2).
      { apply pow_lt. cbn [re im cmul creal]. nra. }
      cbn [re im cadd] in *. nra. }
  unfold metal_R. rewrite <- RS, <- RP. destruct p; reflexivity.
Qed.

Lemma calc_Rc_normal a b c d p : 0 < a * c + b * d ->
  calc_Rc (mkc a b) (mkc c d) 0 p = ((a - c) ^ 2 + (b - d) ^ 2) / ((a + c) ^ 2 + (b + d) ^ 2).
Proof.
  intros H. pose proof (w_root (mkc a b) (mkc c d) 0 H) as W. rewrite calc_Rc_ratio. cbv zeta in *.
  set (w := ccos _) in *. destruct W as (W0 & W1 & W2). rewrite sin_0 in *.
  assert (M : 0 < c ^ 2 + d ^ 2) by (apply (sum2_pos _ _ a b); lra). cbn [re im] in W1, W2.
  assert (W3 : w = creal 1).
  { assert (Z1 : re w ^ 2 - im w ^ 2 = 1 ^ 2 - 0 ^ 2) by (rewrite W1; unfold Rdiv; ring).
    assert (Z2 : re w * im w = 1 * 0) by (rewrite W2; unfold Rdiv; ring).
    destruct (root_unique (re w) (im w) 1 0) as [X Y]; [exact W0|lra|right; left; lra|exact Z1|exact Z2|now apply ceq]. }
  rewrite W3, cos_0.
  assert (O : forall z, cmul z (creal 1) = z) by (intros; apply ceq; cbn; ring). rewrite !O.
  assert (P : 0 < (a + c) ^ 2 + (b + d) ^ 2) by nra.
  assert (E : ratio2 (mkc a b) (mkc c d) = ((a - c) ^ 2 + (b - d) ^ 2) / ((a + c) ^ 2 + (b + d) ^ 2)).
  { rewrite ratio2_eq by exact P. reflexivity. }
  destruct p; rewrite E; [reflexivity|reflexivity|field; lra].
Qed.

Lemma critical_test n0 n1 x : 0 < n0 -> 0 < n1 -> 0 <= x < PI / 2 ->
  Rltb (asin (clip (n1 / n0) (-1) 1)) (Rabs x) = Rltb n1 (n0 * sin x).
Proof.
  intros H0 H1 Hx. unfold clip. rewrite (Rabs_pos_eq x) by lra.
  pose proof PI_RGT_0 as HPI.
  pose proof (sin_nonneg x Hx) as Sx. pose proof (cos_pos x Hx) as Cx.
  pose proof (SIN_bound x) as Sb.
  assert (Hq : 0 < n1 / n0) by (apply Rdiv_lt_0_compat; lra).
  assert (Eq : n1 = n1 / n0 * n0) by (field; lra).
  destruct (Rltb (n1 / n0) (-1)) eqn:E1; [apply Rltb_true in E1; lra|].
  destruct (Rltb 1 (n1 / n0)) eqn:E2.
  - apply Rltb_true in E2. rewrite asin_1.
    assert (n0 < n1) by nra. assert (n0 * sin x <= n0) by nra.
    rewrite (proj2 (Rltb_false _ _)) by lra. symmetry. apply Rltb_false. lra.
  - apply Rltb_false in E2.
    assert (Sa : sin (asin (n1 / n0)) = n1 / n0) by (apply sin_asin; lra).
    pose proof (asin_bound (n1 / n0)) as Ba.
    destruct (Rltb n1 (n0 * sin x)) eqn:E3.
    + apply Rltb_true in E3. apply Rltb_true. apply Rnot_le_lt. intros C.
      assert (sin x <= sin (asin (n1 / n0))) by (apply sin_incr_1; lra).
      rewrite Sa in H. assert (sin x * n0 <= n1 / n0 * n0) by nra. lra.
    + apply Rltb_false in E3. apply Rltb_false. apply Rnot_lt_le. intros C.
      assert (sin (asin (n1 / n0)) < sin x) by (apply sin_increasing_1; lra).
      rewrite Sa in H. assert (n1 / n0 * n0 < sin x * n0) by nra. lra.
Qed.

Lemma fresnel_Rc_cases n0 n1 x p : 0 < re n0 -> 0 < re n1 -> 0 <= x < PI / 2 ->
  (re n1 < re n0 * sin x -> fresnel_Rc n0 n1 x p = 1) /\
  (re n0 * sin x <= re n1 -> fresnel_Rc n0 n1 x p = calc_Rc n0 n1 x p).
Proof.
  intros H0 H1 Hx. unfold fresnel_Rc. rewrite critical_test by auto. split; intros H.
  - now rewrite (proj2 (Rltb_true _ _)).
  - rewrite (proj2 (Rltb_false _ _)) by auto. now rewrite Rabs_pos_eq by lra.
Qed.

Lemma fresnel_Rc_real n0 n1 th p : 0 < n0 -> 0 < n1 -> - (PI / 2) < th < PI / 2 ->
  fresnel_Rc (creal n0) (creal n1) th p = fresnel_R n0 n1 th p.
Proof.
  intros H0 H1 Hth. assert (Hx : 0 <= Rabs th < PI / 2) by (split; [apply Rabs_pos|apply Rabs_def1; lra]).
  unfold fresnel_Rc, fresnel_R. cbn [re creal].
  pose proof (critical_test n0 n1 (Rabs th) H0 H1 Hx) as T. rewrite (Rabs_pos_eq (Rabs th)) in T by lra. rewrite T.
  destruct (Rltb n1 (n0 * sin (Rabs th))) eqn:E; [reflexivity|]. apply Rltb_false in E.
  now apply calc_Rc_real.
Qed.

Lemma refract_c_real n0 n1 d N : n1 <> 0 -> refract_c (creal n0) (creal n1) d N = refract n0 n1 d N.
Proof.
  intros H. unfold refract_c, refract. rewrite cdiv_creal by auto. cbv zeta. cbn [re im creal].
  set (v := vsub _ _).
  assert (E : cabs (mkc (n0 / n1 * vx v) (0 * vx v)) ^ 2 + cabs (mkc (n0 / n1 * vy v) (0 * vy v)) ^ 2 + cabs (mkc (n0 / n1 * vz v) (0 * vz v)) ^ 2 =
              dot (vscale (n0 / n1) v) (vscale (n0 / n1) v)).
  { rewrite !cabs_pow2. unfold dot, vscale. cbn [re im vx vy vz]. ring. }
  rewrite E. reflexivity.
Qed.

(* without imaginary parts the functions of Model_Optics are obtained *)
Lemma decide_Fresnel_real n0 n1 th d N side p rnd : 0 < n0 -> 0 < n1 -> - (PI / 2) < th < PI / 2 ->
  decide_RT_Fresnel_c (creal n0) (creal n1) th d N side p rnd = decide_RT_Fresnel n0 n1 th d N side p rnd.
Proof. intros. unfold decide_RT_Fresnel_c, decide_RT_Fresnel. now rewrite fresnel_Rc_real. Qed.
Lemma decide_TMM_real e n0 n1 d N side rnd : n1 <> 0 ->
  decide_RT_TMM_c e (creal n0) (creal n1) d N side rnd = decide_RT_TMM e n0 n1 d N side rnd.
Proof. intros. unfold decide_RT_TMM_c, decide_RT_TMM. now rewrite refract_c_real. Qed.

(* ---------- directions ---------- *)

Lemma media_dot n0 n1 : optical_medium n0 -> optical_medium n1 -> 0 < re n0 * re n1 + im n0 * im n1.
Proof. intros [A B] [C D]. nra. Qed.

(* absolute value and real part of n0 / n1 *)
Definition ratio_abs2 (n0 n1 : cplx) : R := (re n0 ^ 2 + im n0 ^ 2) / (re n1 ^ 2 + im n1 ^ 2).

Lemma refract_c_eq n0 n1 d N : 0 < re n1 ^ 2 + im n1 ^ 2 -> unit N -> unit d ->
  refract_c n0 n1 d N = vadd (vscale (re (cdiv n0 n1)) (tang d N))
    (vscale (- real_sqrt (1 - ratio_abs2 n0 n1 * (1 - dot d N * dot d N))) N).
Proof.
  intros H HN Hd. unfold refract_c. cbv zeta. fold (tang d N). set (m := cdiv n0 n1). set (v := tang d N).
  assert (E : cabs (mkc (re m * vx v) (im m * vx v)) ^ 2 + cabs (mkc (re m * vy v) (im m * vy v)) ^ 2 + cabs (mkc (re m * vz v) (im m * vz v)) ^ 2 =
              ratio_abs2 n0 n1 * (1 - dot d N * dot d N)).
  { rewrite !cabs_pow2. cbn [re im]. transitivity ((re m ^ 2 + im m ^ 2) * dot v v); [unfold dot; ring|].
    unfold v. rewrite tang_sq by auto. replace (dot d d) with 1 by (symmetry; exact Hd). f_equal.
    unfold m, ratio_abs2, cdiv; cbn [re im]. field. lra. }
  rewrite E. assert (P : 0 <= ratio_abs2 n0 n1 * (1 - dot d N * dot d N)).
  { rewrite <- E. rewrite !cabs_pow2. nra. }
  rewrite pow2_sqrt by exact P. reflexivity.
Qed.

Lemma re_ratio n0 n1 : optical_medium n0 -> optical_medium n1 -> 0 < re (cdiv n0 n1).
Proof.
  intros H0 H1. pose proof (media_dot _ _ H0 H1) as D. destruct H1 as [A B]. unfold cdiv; cbn [re].
  apply Rmult_lt_0_compat; [exact D|]. apply Rinv_0_lt_compat. nra.
Qed.

Lemma refract_c_dots n0 n1 d N : optical_medium n0 -> optical_medium n1 -> unit N -> unit d ->
  let t := refract_c n0 n1 d N in let q := real_sqrt (1 - ratio_abs2 n0 n1 * (1 - dot d N * dot d N)) in
  dot t N = - q /\ dot t t = re (cdiv n0 n1) ^ 2 * (1 - dot d N * dot d N) + q ^ 2 /\ tang t N = vscale (re (cdiv n0 n1)) (tang d N).
Proof.
  intros H0 H1 HN Hd. cbv zeta. assert (M : 0 < re n1 ^ 2 + im n1 ^ 2) by (destruct H1; nra).
  rewrite refract_c_eq by auto. set (q := real_sqrt _). set (m := re (cdiv n0 n1)). set (v := tang d N).
  pose proof (tang_perp d N HN) as P. pose proof (tang_sq d N HN) as S. fold v in P, S.
  replace (dot d d) with 1 in S by (symmetry; exact Hd).
  assert (D1 : dot (vadd (vscale m v) (vscale (- q) N)) N = m * dot v N + - q * dot N N) by (unfold dot, vadd, vscale; cbn [vx vy vz]; ring).
  assert (D2 : dot (vadd (vscale m v) (vscale (- q) N)) (vadd (vscale m v) (vscale (- q) N)) =
     m ^ 2 * dot v v - 2 * m * q * dot v N + q ^ 2 * dot N N) by (unfold dot, vadd, vscale; cbn [vx vy vz]; ring).
  assert (N1 : dot N N = 1) by exact HN. rewrite P, N1 in D1, D2. rewrite S in D2.
  split; [rewrite D1; ring|]. split; [rewrite D2; ring|].
  unfold tang at 1. rewrite D1. apply vec_ext; unfold vsub, vadd, vscale; cbn [vx vy vz]; ring.
Qed.

Lemma sin2_bound d N : unit d -> unit N -> 0 <= 1 - dot d N * dot d N.
Proof.
  intros Hd HN. pose proof (tang_sq d N HN) as S. pose proof (dot_nonneg (tang d N)). replace (dot d d) with 1 in S by (symmetry; exact Hd). lra.
Qed.

Lemma real_sqrt_pow2 x : real_sqrt x ^ 2 = Rmax 0 x.
Proof.
  unfold real_sqrt. destruct (Rltb x 0) eqn:L; [apply Rltb_true in L|apply Rltb_false in L].
  - rewrite Rmax_left by lra. ring.
  - rewrite Rmax_right by lra. apply pow2_sqrt. lra.
Qed.
Lemma real_sqrt_nonneg x : 0 <= real_sqrt x.
Proof. unfold real_sqrt. destruct (Rltb x 0); [lra|apply sqrt_pos]. Qed.

Lemma refract_c_nonzero n0 n1 d N : optical_medium n0 -> optical_medium n1 -> unit d -> unit N ->
  0 < dot (refract_c n0 n1 d N) (refract_c n0 n1 d N).
Proof.
  intros H0 H1 Hd HN. destruct (refract_c_dots n0 n1 d N H0 H1 HN Hd) as (_ & E & _). rewrite E.
  pose proof (re_ratio n0 n1 H0 H1) as M. pose proof (sin2_bound d N Hd HN) as S.
  rewrite real_sqrt_pow2. destruct (Rle_lt_or_eq_dec _ _ S) as [P|Z].
  - assert (0 < re (cdiv n0 n1) ^ 2 * (1 - dot d N * dot d N)) by (apply Rmult_lt_0_compat; [apply pow_lt; exact M|exact P]).
    pose proof (Rmax_l 0 (1 - ratio_abs2 n0 n1 * (1 - dot d N * dot d N))). lra.
  - rewrite <- Z. rewrite !Rmult_0_r, Rminus_0_r, Rmax_right by lra. lra.
Qed.

Lemma refract_in_phase n0 n1 d N : 0 < re n1 -> in_phase n0 n1 -> refract_c n0 n1 d N = refract (re n0) (re n1) d N.
Proof.
  intros H P. assert (M : 0 < re n1 ^ 2 + im n1 ^ 2) by nra. unfold in_phase in P.
  assert (E : cdiv n0 n1 = cdiv (creal (re n0)) (creal (re n1))).
  { rewrite cdiv_creal by lra. unfold cdiv. apply ceq; cbn [re im creal].
    - apply Rmult_eq_reg_r with ((re n1 ^ 2 + im n1 ^ 2) * re n1); [|nra].
      replace (re n0 / re n1 * ((re n1 ^ 2 + im n1 ^ 2) * re n1)) with (re n0 * (re n1 ^ 2 + im n1 ^ 2)) by (field; lra).
      transitivity ((re n0 * re n1 + im n0 * im n1) * re n1); [field; nra|].
      replace ((re n0 * re n1 + im n0 * im n1) * re n1) with (re n0 * re n1 * re n1 + (im n0 * re n1) * im n1) by ring. rewrite <- P. ring.
    - replace (im n0 * re n1 - re n0 * im n1) with 0 by lra. unfold Rdiv. ring. }
  rewrite <- refract_c_real by lra. unfold refract_c. rewrite E. reflexivity.
Qed.

Lemma TMM_in_phase e n0 n1 d N side rnd : 0 < re n1 -> in_phase n0 n1 ->
  decide_RT_TMM_c e n0 n1 d N side rnd = decide_RT_TMM e (re n0) (re n1) d N side rnd.
Proof. intros H P. unfold decide_RT_TMM_c, decide_RT_TMM. now rewrite refract_in_phase. Qed.

(* Fresnel, any media: mirrored, or refracted by the real parts; exactly at the critical angle the ray goes along the surface *)
Lemma decide_cases_c n0 n1 x d N side p rnd : 0 < re n0 -> 0 < re n1 ->
  0 <= x < PI / 2 -> unit d -> unit N -> dot d N = - cos x -> rnd < 1 ->
  let '(d', s', A) := decide_RT_Fresnel_c n0 n1 x d N side p rnd in
  A = None /\ unit d' /\
  ((rnd <= fresnel_Rc n0 n1 x p /\ s' = side /\ mirror_law d d' N) \/
   (fresnel_Rc n0 n1 x p < rnd /\ s' = (- side)%Z /\
    ((re n0 * sin x < re n1 /\ snell_law (re n0) (re n1) d d' N) \/
     (re n0 * sin x = re n1 /\ tang d' N = vscale (re n0 / re n1) (tang d N) /\ dot d' N = 0)))).
Proof.
  intros H0 H1 Hx Hd HN Hdot Hr. unfold decide_RT_Fresnel_c.
  destruct (fresnel_Rc_cases n0 n1 x p H0 H1 Hx) as [Htir Hbelow].
  pose proof (cos_pos x Hx) as Cx. pose proof (sin_nonneg x Hx) as Sx.
  destruct (Rleb rnd (fresnel_Rc n0 n1 x p)) eqn:E.
  - apply Rleb_true in E. rewrite normalise_unit by (apply reflect_unit; assumption).
    split; [reflexivity|]. split; [apply reflect_unit; assumption|]. left.
    split; [exact E|]. split; [reflexivity|]. apply reflect_law, HN.
  - apply Rleb_false in E.
    assert (Hle : re n0 * sin x <= re n1) by (apply Rnot_lt_le; intros C; rewrite Htir in E by exact C; lra).
    set (a := re n0) in *. set (b := re n1) in *.
    pose proof (snell_arg a b x H0 H1 Hx Hle) as Ha.
    assert (Es : (a / b) * (a / b) * (1 - dot d N * dot d N) = (a / b * sin x) * (a / b * sin x)).
    { rewrite Hdot. pose proof (cos_sin_sq x). replace (1 - - cos x * - cos x) with (sin x * sin x) by lra. ring. }
    assert (Hle1 : (a / b) * (a / b) * (1 - dot d N * dot d N) <= 1) by (rewrite Es; nra).
    pose proof (refract_unit a b d N HN Hd Hle1) as Hu.
    rewrite normalise_unit by exact Hu.
    split; [reflexivity|]. split; [exact Hu|]. right. split; [exact E|]. split; [reflexivity|].
    pose proof (refract_tang a b d N HN Hd Hle1) as RT. pose proof (refract_normal a b d N HN Hd Hle1) as RN.
    assert (Q : a / b * sin x = (a * sin x) / b) by (field; lra).
    destruct (Rle_lt_or_eq_dec _ _ Hle) as [L|L]; [left|right]; (split; [exact L|]).
    + assert (Ha1 : a / b * sin x < 1).
      { rewrite Q. apply Rmult_lt_reg_r with b; [lra|]. unfold Rdiv. rewrite Rmult_assoc, Rinv_l by lra. lra. }
      split; [exact RT|]. rewrite RN, Hdot.
      assert (S : 0 < sqrt (1 - a / b * (a / b) * (1 - dot d N * dot d N))) by (apply sqrt_lt_R0; rewrite Es; nra).
      rewrite Hdot in S. nra.
    + split; [exact RT|]. rewrite RN, Es, Q, L. replace (b / b * (b / b)) with 1 by (field; lra).
      rewrite Rminus_diag_eq by reflexivity. rewrite sqrt_0. lra.
Qed.
