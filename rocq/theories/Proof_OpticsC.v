(* Lemmas about complex indices: arcsin, calc_R, agreement with Model_Optics. *)
From Coq Require Import Reals List Bool ZArith Lra Lia Psatz.
From Verif Require Import Base Lib Model_Optics Model_OpticsC Spec_Optics Spec_OpticsC Proof_Optics.
Import ListNotations.
Open Scope R_scope.

Lemma ceq a b : re a = re b -> im a = im b -> a = b.
Proof. destruct a, b; cbn; now intros -> ->. Qed.

Lemma cabs_pow2 a : cabs a ^ 2 = re a ^ 2 + im a ^ 2.
Proof. unfold cabs. rewrite pow2_sqrt; nra. Qed.
Lemma cabs_nonneg a : 0 <= cabs a.
Proof. apply sqrt_pos. Qed.

Lemma cosh_sinh x : cosh x ^ 2 - sinh x ^ 2 = 1.
Proof.
  unfold cosh, sinh. replace (((exp x + exp (- x)) / 2) ^ 2 - ((exp x - exp (- x)) / 2) ^ 2) with (exp x * exp (- x)) by field.
  rewrite <- exp_plus. replace (x + - x) with 0 by ring. apply exp_0.
Qed.
Lemma cosh_pos x : 0 < cosh x.
Proof. unfold cosh. pose proof (exp_pos x); pose proof (exp_pos (- x)); lra. Qed.
Lemma cosh_neg x : cosh (- x) = cosh x.
Proof. unfold cosh. rewrite Ropp_involutive. lra. Qed.
Lemma sinh_neg x : sinh (- x) = - sinh x.
Proof. unfold sinh. rewrite Ropp_involutive. lra. Qed.

Section arcsin_facts.
  Variable z : cplx.
  Let p := cabs (cadd z (creal 1)).
  Let q := cabs (csub z (creal 1)).
  Let x := re z.
  Let y := im z.

  Lemma p2 : p ^ 2 = (x + 1) ^ 2 + y ^ 2.
  Proof. unfold p. rewrite cabs_pow2. cbn. fold x y. ring. Qed.
  Lemma q2 : q ^ 2 = (x - 1) ^ 2 + y ^ 2.
  Proof. unfold q. rewrite cabs_pow2. cbn. fold x y. ring. Qed.
  Lemma p_pos : 0 <= p. Proof. apply cabs_nonneg. Qed.
  Lemma q_pos : 0 <= q. Proof. apply cabs_nonneg. Qed.

  Lemma pq_big : Rabs (x ^ 2 + y ^ 2 - 1) <= p * q.
  Proof.
    pose proof p_pos; pose proof q_pos. assert (0 <= p * q) by nra.
    rewrite <- (Rabs_pos_eq (p * q)) by auto. apply Rsqr_le_abs_0. unfold Rsqr.
    replace (p * q * (p * q)) with (p ^ 2 * q ^ 2) by ring. rewrite p2, q2. nra.
  Qed.

  Lemma half_diff : -1 <= (p - q) / 2 <= 1.
  Proof.
    pose proof pq_big as B. pose proof p2; pose proof q2.
    assert ((p - q) ^ 2 <= 2 ^ 2) by (pose proof (Rle_abs (x ^ 2 + y ^ 2 - 1)); nra). split; nra.
  Qed.

  Lemma half_sum : 1 <= (p + q) / 2.
  Proof.
    pose proof pq_big as B. pose proof p2; pose proof q2. pose proof p_pos; pose proof q_pos.
    rewrite <- Rabs_Ropp in B. pose proof (Rle_abs (- (x ^ 2 + y ^ 2 - 1))). nra.
  Qed.

  Let b := arcsinh (sqrt (((p + q) / 2) ^ 2 - 1)).
  Lemma sinh_b : sinh b = sqrt (((p + q) / 2) ^ 2 - 1).
  Proof. apply sinh_arcsinh. Qed.
  Lemma cosh_b : cosh b = (p + q) / 2.
  Proof.
    pose proof half_sum. pose proof (cosh_sinh b) as C. rewrite sinh_b in C.
    rewrite pow2_sqrt in C by nra. pose proof (cosh_pos b). nra.
  Qed.

  Lemma cos_sinh : cos (asin ((p - q) / 2)) * sinh b = Rabs y.
  Proof.
    pose proof half_diff as D. pose proof half_sum as S. rewrite sinh_b, cos_asin by lra.
    unfold Rsqr. rewrite <- sqrt_mult by nra. rewrite <- sqrt_Rsqr_abs. f_equal. unfold Rsqr.
    pose proof p2; pose proof q2. nra.
  Qed.

  Lemma csin_carcsin : csin (carcsin z) = z.
  Proof.
    unfold carcsin. fold p q. cbv zeta. fold b. pose proof half_diff as D. pose proof cos_sinh as E.
    apply ceq; unfold csin; cbn [re im].
    - destruct (Rltb _ _); rewrite ?cosh_neg, cosh_b, sin_asin by lra; pose proof p2; pose proof q2; fold x; nra.
    - change (im z) with y. destruct (Rltb y 0) eqn:L; [apply Rltb_true in L|apply Rltb_false in L].
      + rewrite sinh_neg. rewrite Rabs_left in E by auto. lra.
      + rewrite Rabs_right in E by lra. exact E.
  Qed.

  Lemma carcsin_range : - (PI / 2) <= re (carcsin z) <= PI / 2.
  Proof. unfold carcsin. cbn [re]. apply asin_bound. Qed.
End arcsin_facts.

(* cos (arcsin z) is the principal square root of 1 - z^2 *)
Lemma ccos_carcsin z : let w := ccos (carcsin z) in
  0 <= re w /\ re w ^ 2 - im w ^ 2 = 1 - (re z ^ 2 - im z ^ 2) /\ re w * im w = - (re z * im z).
Proof.
  set (t := carcsin z). pose proof (carcsin_range z) as G. pose proof (csin_carcsin z) as E. fold t in G, E.
  assert (EX : re z = sin (re t) * cosh (im t)) by (rewrite <- E; reflexivity).
  assert (EY : im z = cos (re t) * sinh (im t)) by (rewrite <- E; reflexivity).
  clearbody t. unfold ccos. cbn [re im]. rewrite EX, EY. pose proof (cosh_sinh (im t)) as H. pose proof (sin2_cos2 (re t)) as K. unfold Rsqr in K.
  set (s := sin (re t)) in *. set (c := cos (re t)) in *. set (S := sinh (im t)) in *. set (C := cosh (im t)) in *.
  assert (HC : C ^ 2 = 1 + S ^ 2) by lra. assert (Hs : s ^ 2 = 1 - c ^ 2) by nra.
  split; [|split].
  - apply Rmult_le_pos; [apply cos_ge_0; [apply G|apply G]|left; apply cosh_pos].
  - replace ((c * C) ^ 2) with (c ^ 2 * C ^ 2) by ring.
    replace ((- (s * S)) ^ 2) with (s ^ 2 * S ^ 2) by ring.
    replace ((s * C) ^ 2) with (s ^ 2 * C ^ 2) by ring.
    replace ((c * S) ^ 2) with (c ^ 2 * S ^ 2) by ring. rewrite HC, Hs. ring.
  - ring.
Qed.

Lemma root_unique x y x' y' : 0 <= x -> 0 <= x' -> (0 < x \/ 0 < x' \/ y = y') ->
  x ^ 2 - y ^ 2 = x' ^ 2 - y' ^ 2 -> x * y = x' * y' -> x = x' /\ y = y'.
Proof.
  intros H H' O E F.
  assert (M : x ^ 2 + y ^ 2 = x' ^ 2 + y' ^ 2).
  { assert (Q : (x ^ 2 + y ^ 2) ^ 2 = (x' ^ 2 + y' ^ 2) ^ 2).
    { replace ((x ^ 2 + y ^ 2) ^ 2) with ((x ^ 2 - y ^ 2) ^ 2 + 4 * (x * y) ^ 2) by ring. rewrite E, F. ring. }
    nra. }
  assert (X : x ^ 2 = x' ^ 2) by lra. assert (XX : x = x') by nra. split; [exact XX|]. subst x'.
  destruct O as [O|[O|O]]; [| |exact O]; nra.
Qed.

(* real indices *)
Lemma cabs_creal x : cabs (creal x) = Rabs x.
Proof. unfold cabs, creal; cbn [re im]. rewrite <- sqrt_Rsqr_abs. f_equal. unfold Rsqr. ring. Qed.
Lemma cdiv_creal x y : y <> 0 -> cdiv (creal x) (creal y) = creal (x / y).
Proof. intros H. apply ceq; cbn; field; auto. Qed.
Lemma cmul_creal x y : cmul (creal x) (creal y) = creal (x * y).
Proof. apply ceq; cbn; ring. Qed.
Lemma cadd_creal x y : cadd (creal x) (creal y) = creal (x + y).
Proof. apply ceq; cbn; ring. Qed.
Lemma csub_creal x y : csub (creal x) (creal y) = creal (x - y).
Proof. apply ceq; cbn; ring. Qed.
Lemma ccos_arcsin_creal x : -1 <= x <= 1 -> ccos (carcsin (creal x)) = creal (cos (asin x)).
Proof.
  intros H. pose proof (ccos_carcsin (creal x)) as (A & B & C). cbn [re im creal] in *.
  set (w := ccos _) in *. rewrite cos_asin by lra. assert (S : 0 <= 1 - Rsqr x) by (unfold Rsqr; nra).
  pose proof (sqrt_pos (1 - Rsqr x)) as P. pose proof (pow2_sqrt _ S) as P2. unfold Rsqr in *.
  assert (C0 : re w * im w = 0) by lra.
  assert (I0 : im w = 0).
  { apply Rmult_integral in C0 as [Z|Z]; [|exact Z]. rewrite Z in B. nra. }
  apply ceq; cbn [re im creal]; [|exact I0]. rewrite I0 in B. nra.
Qed.

Lemma calc_Rc_real n1 n2 x p : 0 < n1 -> 0 < n2 -> 0 <= x < PI / 2 -> n1 * sin x <= n2 ->
  calc_Rc (creal n1) (creal n2) x p = calc_R n1 n2 x p.
Proof.
  intros H1 H2 Hx Hs. pose proof PI_RGT_0.
  assert (S0 : 0 <= sin x) by (apply sin_ge_0; lra). assert (C0 : 0 < cos x) by (apply cos_gt_0; lra).
  assert (Z : -1 <= n1 / n2 * sin x <= 1).
  { replace (n1 / n2 * sin x) with (n1 * sin x / n2) by (field; lra). split.
    - apply Rle_trans with 0; [lra|]. apply Rmult_le_pos; [nra|]. left. now apply Rinv_0_lt_compat.
    - apply Rmult_le_reg_r with n2; [lra|]. replace (n1 * sin x / n2 * n2) with (n1 * sin x) by (field; lra). lra. }
  assert (T0 : 0 <= cos (asin (n1 / n2 * sin x))) by (apply cos_ge_0; apply asin_bound).
  unfold calc_Rc, calc_R. cbv zeta. rewrite (cdiv_creal n1 n2), !cmul_creal by lra. rewrite ccos_arcsin_creal by exact Z.
  rewrite !cmul_creal, !cadd_creal, !csub_creal. set (t := cos (asin _)) in *.
  rewrite !cdiv_creal by nra. rewrite !cabs_creal. reflexivity.
Qed.

(* |a - b|^2 / |a + b|^2 *)
Definition ratio2 (a b : cplx) : R := cabs (cdiv (csub a b) (cadd a b)) ^ 2.

Lemma ratio2_eq a b : 0 < re (cadd a b) ^ 2 + im (cadd a b) ^ 2 ->
  ratio2 a b = (re (csub a b) ^ 2 + im (csub a b) ^ 2) / (re (cadd a b) ^ 2 + im (cadd a b) ^ 2).
Proof. intros H. unfold ratio2. rewrite cabs_pow2. unfold cdiv; cbn [re im]. field. lra. Qed.

Lemma ratio2_range a b : 0 <= re a * re b + im a * im b -> 0 < re a ^ 2 + im a ^ 2 -> 0 <= ratio2 a b <= 1.
Proof.
  intros H P. assert (D : 0 < re (cadd a b) ^ 2 + im (cadd a b) ^ 2) by (cbn [re im cadd]; nra).
  rewrite ratio2_eq by exact D. split.
  - apply Rmult_le_pos; [nra|]. left. now apply Rinv_0_lt_compat.
  - apply Rmult_le_reg_r with (re (cadd a b) ^ 2 + im (cadd a b) ^ 2); [exact D|].
    unfold Rdiv. rewrite Rmult_assoc, Rinv_l by lra. cbn [re im cadd csub]. nra.
Qed.

Lemma ratio2_lt a b : 0 < re a * re b + im a * im b -> ratio2 a b < 1.
Proof.
  intros H. assert (D : 0 < re (cadd a b) ^ 2 + im (cadd a b) ^ 2) by (cbn [re im cadd]; nra).
  rewrite ratio2_eq by exact D.
  apply Rmult_lt_reg_r with (re (cadd a b) ^ 2 + im (cadd a b) ^ 2); [exact D|].
  unfold Rdiv. rewrite Rmult_assoc, Rinv_l by lra. cbn [re im cadd csub]. nra.
Qed.

(* the inequality behind it: m = n2 conj(n1), w^2 = 1 - kappa conj(m)^2, Re w >= 0 *)
Lemma forward u v wr wi kappa : 0 < u -> 0 <= kappa -> 0 <= wr ->
  wr ^ 2 - wi ^ 2 = 1 - kappa * (u ^ 2 - v ^ 2) -> wr * wi = kappa * u * v ->
  Rabs (v * wi) <= u * wr.
Proof.
  intros Hu Hk Hr E F. destruct (Req_dec (v * wi) 0) as [Z|Z]; [rewrite Z, Rabs_R0; nra|].
  assert (V : v <> 0) by (intros ->; lra). assert (W : wi <> 0) by (intros ->; lra).
  assert (V2 : 0 < v ^ 2) by nra. assert (W2 : 0 < wi ^ 2) by nra.
  assert (L : wi ^ 2 <= kappa * u ^ 2).
  { apply Rnot_lt_le. intros C.
    assert (G : wr ^ 2 * wi ^ 2 = kappa ^ 2 * u ^ 2 * v ^ 2) by (replace (wr ^ 2 * wi ^ 2) with ((wr * wi) ^ 2) by ring; rewrite F; ring).
    assert (wr ^ 2 <= kappa * v ^ 2).
    { apply Rmult_le_reg_r with (wi ^ 2); [exact W2|]. rewrite G. assert (0 <= kappa * v ^ 2) by nra. nra. }
    lra. }
  apply Rsqr_incr_0_var; [|nra]. rewrite <- Rsqr_abs. unfold Rsqr.
  assert (Q : wi ^ 2 * (v ^ 2 * wi ^ 2) <= wi ^ 2 * (u ^ 2 * wr ^ 2)).
  { replace (wi ^ 2 * (u ^ 2 * wr ^ 2)) with (u ^ 2 * (wr * wi) ^ 2) by ring. rewrite F.
    replace (u ^ 2 * (kappa * u * v) ^ 2) with (v ^ 2 * (kappa * u ^ 2) ^ 2) by ring.
    replace (wi ^ 2 * (v ^ 2 * wi ^ 2)) with (v ^ 2 * (wi ^ 2) ^ 2) by ring. apply Rmult_le_compat_l; [lra|]. nra. }
  apply Rmult_le_reg_l in Q; [|exact W2]. nra.
Qed.

Lemma sum2_pos a b c d : 0 < a * c + b * d -> 0 < a ^ 2 + b ^ 2.
Proof.
  intros H. destruct (Req_dec a 0) as [->|A]; [|pose proof (pow2_ge_0 b); assert (0 < a ^ 2) by nra; lra].
  destruct (Req_dec b 0) as [->|B]; [lra|]. assert (0 < b ^ 2) by nra. lra.
Qed.

Section calc.
  Variables (n1 n2 : cplx) (x : R).
  Hypothesis Hm : 0 < re n1 * re n2 + im n1 * im n2.
  Hypothesis Hx : 0 <= x < PI / 2.

  Let z := cmul (cdiv n1 n2) (creal (sin x)).
  Let w := ccos (carcsin z).
  Let m2 := re n2 ^ 2 + im n2 ^ 2.
  Let u := re n1 * re n2 + im n1 * im n2.
  Let v := re n1 * im n2 - im n1 * re n2.

  Lemma m2_pos : 0 < m2. Proof. apply (sum2_pos _ _ (re n1) (im n1)). lra. Qed.
  Lemma m1_pos : 0 < re n1 ^ 2 + im n1 ^ 2. Proof. apply (sum2_pos _ _ (re n2) (im n2)). exact Hm. Qed.

  Lemma w_root : 0 <= re w /\ re w ^ 2 - im w ^ 2 = 1 - (sin x / m2) ^ 2 * (u ^ 2 - v ^ 2) /\
    re w * im w = (sin x / m2) ^ 2 * u * v.
  Proof.
    pose proof (ccos_carcsin z) as (A & B & C). fold w in A, B, C. pose proof m2_pos as M.
    assert (EX : re z = sin x / m2 * u) by (unfold z, cmul, cdiv, creal; cbn [re im]; fold m2; unfold u; field; lra).
    assert (EY : im z = - (sin x / m2 * v)) by (unfold z, cmul, cdiv, creal; cbn [re im]; fold m2; unfold v; field; lra).
    split; [exact A|]. rewrite B, C, EX, EY. split; ring.
  Qed.

  Lemma forwards : Rabs (v * im w) <= u * re w.
  Proof.
    destruct w_root as (A & B & C). apply (forward u v (re w) (im w) ((sin x / m2) ^ 2)); auto. apply pow2_ge_0.
  Qed.

  Lemma cos_x : 0 < cos x. Proof. pose proof PI_RGT_0. destruct Hx. apply cos_gt_0; [lra|assumption]. Qed.

  Lemma s_dot : re (cmul n1 (creal (cos x))) * re (cmul n2 w) + im (cmul n1 (creal (cos x))) * im (cmul n2 w) = cos x * (u * re w - v * im w).
  Proof. cbn [cmul re im creal]. unfold u, v. ring. Qed.
  Lemma p_dot : re (cmul n1 w) * re (cmul n2 (creal (cos x))) + im (cmul n1 w) * im (cmul n2 (creal (cos x))) = cos x * (u * re w + v * im w).
  Proof. cbn [cmul re im creal]. unfold u, v. ring. Qed.

  Lemma s_range : 0 <= ratio2 (cmul n1 (creal (cos x))) (cmul n2 w) <= 1.
  Proof.
    pose proof forwards as F. pose proof cos_x as C. pose proof m1_pos as M. apply ratio2_range.
    - rewrite s_dot. pose proof (Rle_abs (v * im w)). nra.
    - cbn [cmul re im creal]. replace ((re n1 * cos x - im n1 * 0) ^ 2 + (re n1 * 0 + im n1 * cos x) ^ 2) with (cos x ^ 2 * (re n1 ^ 2 + im n1 ^ 2)) by ring.
      apply Rmult_lt_0_compat; [nra|exact M].
  Qed.

  Lemma ratio2_sym a b : ratio2 a b = ratio2 b a.
  Proof. unfold ratio2. rewrite !cabs_pow2. unfold cdiv; cbn [re im cadd csub]. unfold Rdiv.
    replace (re b + re a) with (re a + re b) by ring. replace (im b + im a) with (im a + im b) by ring. ring. Qed.

  Lemma p_range : 0 <= ratio2 (cmul n1 w) (cmul n2 (creal (cos x))) <= 1.
  Proof.
    pose proof forwards as F. pose proof cos_x as C. pose proof m2_pos as M. rewrite ratio2_sym. apply ratio2_range.
    - rewrite Rmult_comm, (Rmult_comm (im _)), p_dot. rewrite <- Rabs_Ropp in F. pose proof (Rle_abs (- (v * im w))). nra.
    - cbn [cmul re im creal]. replace ((re n2 * cos x - im n2 * 0) ^ 2 + (re n2 * 0 + im n2 * cos x) ^ 2) with (cos x ^ 2 * m2) by (unfold m2; ring).
      apply Rmult_lt_0_compat; [nra|exact M].
  Qed.

  Lemma calc_Rc_ratio p : calc_Rc n1 n2 x p =
    let Rs := ratio2 (cmul n1 (creal (cos x))) (cmul n2 w) in
    let Rp := ratio2 (cmul n1 w) (cmul n2 (creal (cos x))) in
    match p with PolS => Rs | PolP => Rp | PolU => (Rs + Rp) / 2 end.
  Proof. destruct p; reflexivity. Qed.

  Lemma calc_Rc_range p : 0 <= calc_Rc n1 n2 x p <= 1.
  Proof. rewrite calc_Rc_ratio. pose proof s_range; pose proof p_range. destruct p; cbv zeta; lra. Qed.
End calc.
