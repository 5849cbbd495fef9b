(* The end of the golden spiral: the lowest points of a whole sphere, and the highest ones of any. *)
From Coq Require Import Reals List ZArith Bool Lia Lra Permutation.
From Verif Require Import Base Lib Model_Optics Model_RayIface Model_Surface Model_Hyper Spec_Surface Spec_Hyper Proof_Surface2 Proof_Hyper Proof_Hyper2 Proof_Hyper3 Proof_HyperNum.
Import ListNotations.
Open Scope R_scope.

(* ---------- carrying a face over by a similarity ---------- *)

Lemma scale_cross k m u v : cross (vscale k u) (vscale m v) = vscale (k * m) (cross u v).
Proof. unfold cross, vscale. cbn [vx vy vz]. f_equal; ring. Qed.

Lemma scale_norm k v : 0 <= k -> norm (vscale k v) = k * norm v.
Proof.
  intros H. unfold norm. replace (dot (vscale k v) (vscale k v)) with (k * k * dot v v) by (unfold dot, vscale; cbn [vx vy vz]; ring).
  rewrite sqrt_mult_alt by nra. now rewrite sqrt_square.
Qed.

Section Carry.
Variables (lin g : vec -> vec) (R0 : R).
Hypothesis HR : 0 < R0.
Hypothesis Hdot : forall u v, dot (lin u) (lin v) = dot u v.
Hypothesis Hnorm : forall u v, norm (cross (lin u) (lin v)) = norm (cross u v).
Hypothesis Hz : forall u v, Rabs (vz (cross (lin u) (lin v))) = Rabs (vz (cross u v)).
Hypothesis Hg : forall u v, vsub (g u) (g v) = vscale R0 (lin (vsub u v)).

Lemma carry_dot n u v : dot (lin n) (vsub (g u) (g v)) = R0 * dot n (vsub u v).
Proof. rewrite Hg, <- (Hdot n (vsub u v)). unfold dot, vscale. cbn [vx vy vz]. ring. Qed.

Lemma carry_face p n a b c : In (g a) p -> In (g b) p -> In (g c) p -> 0 < dot n n -> perpendicular n a b c ->
  (forall q, In q p -> exists v, q = g v /\ (v = a \/ v = b \/ v = c \/ dot n (vsub v a) < 0)) -> proper_face p (lin n) (g a) (g b) (g c).
Proof.
  intros A B C N0 [P1 P2] H. assert (Z : dot n (vsub a a) = 0) by (unfold dot, vsub; cbn [vx vy vz]; ring). split.
  - unfold face, perpendicular. rewrite Hdot, !carry_dot, P1, P2. repeat split; auto; try ring. intros q Hq. destruct (H q Hq) as (v & -> & V). rewrite carry_dot.
    destruct V as [ -> | [ -> | [ -> | V]]]; [rewrite Z|rewrite P1|rewrite P2|]; nra.
  - intros q Hq E. destruct (H q Hq) as (v & -> & V). rewrite carry_dot in E. destruct V as [ -> | [ -> | [ -> | V]]]; auto. exfalso. nra.
Qed.

Lemma carry_level a b c : nearly_level a b c -> nearly_level (g a) (g b) (g c).
Proof.
  unfold nearly_level. rewrite !Hg, scale_cross, scale_norm by nra. cbn [vscale vz]. rewrite Hnorm, Rabs_mult, Hz, (Rabs_pos_eq (R0 * R0)) by nra.
  assert (0 < R0 * R0) by nra. generalize (norm (cross (vsub b a) (vsub c a))), (Rabs (vz (cross (vsub b a) (vsub c a)))). intros x y H0. nra.
Qed.

Lemma carry_area a b c : 0 < norm (cross (vsub b a) (vsub c a)) -> 0 < norm (cross (vsub (g b) (g a)) (vsub (g c) (g a))).
Proof. intros H. rewrite !Hg, scale_cross, scale_norm, Hnorm by nra. apply Rmult_lt_0_compat; nra. Qed.
End Carry.

(* ---------- the end of the spiral, in units of the radius, down from the end of the axis ---------- *)

Definition wt (q : R) (k : nat) : R := sqrt ((2 * INR k + 1) * (1 - q * q * (2 * INR k + 1) / 4)).
Definition tip (q : R) (k : nat) : vec := mkv (q * wt q k * azc k) (q * wt q k * azs k) (q * q * (2 * INR k + 1) / 2).

Section Tip.
Variable q : R.
Hypothesis Hq : 0 < q.
Hypothesis Hq2 : q * q <= 2 / 51.

Lemma sqrt_between lo hi x : 0 <= lo -> 0 <= hi -> lo * lo <= x <= hi * hi -> lo <= sqrt x <= hi.
Proof.
  intros Hl Hh [A B]. split.
  - rewrite <- (sqrt_square lo) by auto. apply sqrt_le_1_alt. exact A.
  - rewrite <- (sqrt_square hi) by auto. apply sqrt_le_1_alt. exact B.
Qed.

Lemma w_0 : 995 / 1000 <= wt q 0 <= 1.
Proof. unfold wt. cbn [INR]. apply sqrt_between; try lra. pose proof (Rmult_lt_0_compat _ _ Hq Hq). split; lra. Qed.
Lemma w_1 : 1706 / 1000 <= wt q 1 <= 17321 / 10000.
Proof. unfold wt. cbn [INR]. apply sqrt_between; try lra. pose proof (Rmult_lt_0_compat _ _ Hq Hq). split; lra. Qed.
Lemma w_2 : 2180 / 1000 <= wt q 2 <= 22361 / 10000.
Proof. unfold wt. cbn [INR]. apply sqrt_between; try lra. pose proof (Rmult_lt_0_compat _ _ Hq Hq). split; lra. Qed.
Lemma w_3 : 255 / 100 <= wt q 3 <= 26458 / 10000.
Proof. unfold wt. cbn [INR]. apply sqrt_between; try lra. pose proof (Rmult_lt_0_compat _ _ Hq Hq). split; lra. Qed.

(* w1 cos, w1 sin, ... *)
Lemma xy_1 : (-12773 / 10000 <= wt q 1 * azc 1 <= -12578 / 10000) /\ (-11703 / 10000 <= wt q 1 * azs 1 <= -11522 / 10000).
Proof.
  destruct w_1 as [W W'], az_1 as [[C C'] [S S']].
  assert (D : 7373 / 10000 <= - azc 1) by lra. assert (D' : - azc 1 <= 7374 / 10000) by lra. assert (E : 6754 / 10000 <= - azs 1) by lra. assert (E' : - azs 1 <= 6756 / 10000) by lra.
  pose proof (mul_bound _ _ _ _ _ _ W W' D D' ltac:(lra) ltac:(lra)). pose proof (mul_bound _ _ _ _ _ _ W W' E E' ltac:(lra) ltac:(lra)). lra.
Qed.
Lemma xy_2 : (1900 / 10000 <= wt q 2 * azc 2 <= 1962 / 10000) /\ (21710 / 10000 <= wt q 2 * azs 2 <= 22281 / 10000).
Proof.
  destruct w_2 as [W W'], az_2 as [[C C'] [S S']].
  pose proof (mul_bound _ _ _ _ _ _ W W' C C' ltac:(lra) ltac:(lra)). pose proof (mul_bound _ _ _ _ _ _ W W' S S' ltac:(lra) ltac:(lra)). lra.
Qed.
Lemma xy_3 : 1549 / 1000 <= wt q 3 * azc 3 /\ wt q 3 * azs 3 <= 0.
Proof.
  destruct w_3 as [W W'], az_3 as [[C C'] [S S']].
  pose proof (mul_bound _ _ _ _ _ _ W W' C C' ltac:(lra) ltac:(lra)). split; [lra|nra].
Qed.

(* the plane of the first three points *)
Definition pNx : R := 2 * (wt q 1 * azs 1) - wt q 2 * azs 2.
Definition pNy : R := wt q 2 * azc 2 + wt q 0 - 2 * (wt q 1 * azc 1).
Definition pD : R := (wt q 1 * azc 1 - wt q 0) * (wt q 2 * azs 2) - wt q 1 * azs 1 * (wt q 2 * azc 2 - wt q 0).
Definition pn : vec := mkv (q * pNx) (q * pNy) pD.

Lemma pNx_b : -457 / 100 <= pNx <= -447 / 100.
Proof. unfold pNx. pose proof xy_1. pose proof xy_2. lra. Qed.
Lemma pNy_b : 370 / 100 <= pNy <= 3751 / 1000.
Proof. unfold pNy. pose proof xy_1. pose proof xy_2. pose proof w_0. lra. Qed.
Lemma pD_b : -603 / 100 <= pD <= -581 / 100.
Proof.
  unfold pD. destruct xy_1 as [[A A'] [B B']], xy_2 as [[C C'] [D D']], w_0 as [W W'].
  assert (E : 22528 / 10000 <= wt q 0 - wt q 1 * azc 1) by lra. assert (E' : wt q 0 - wt q 1 * azc 1 <= 22773 / 10000) by lra.
  assert (F : 11522 / 10000 <= - (wt q 1 * azs 1)) by lra. assert (F' : - (wt q 1 * azs 1) <= 11703 / 10000) by lra.
  assert (G : 7988 / 10000 <= wt q 0 - wt q 2 * azc 2) by lra. assert (G' : wt q 0 - wt q 2 * azc 2 <= 8100 / 10000) by lra.
  pose proof (mul_bound _ _ _ _ _ _ E E' D D' ltac:(lra) ltac:(lra)). pose proof (mul_bound _ _ _ _ _ _ F F' G G' ltac:(lra) ltac:(lra)). lra.
Qed.

Lemma tip_cross : cross (vsub (tip q 1) (tip q 0)) (vsub (tip q 2) (tip q 0)) = vscale (q * q) pn.
Proof.
  unfold pn, pNx, pNy, pD, tip, cross, vsub, vscale. destruct az_0 as [-> ->]. cbn [vx vy vz INR]. f_equal; field.
Qed.

Lemma tip_perp : perpendicular pn (tip q 0) (tip q 1) (tip q 2).
Proof.
  destruct (cross_perp (vsub (tip q 1) (tip q 0)) (vsub (tip q 2) (tip q 0))) as [A B]. rewrite tip_cross, scale_dot in A, B.
  assert (0 < q * q) by nra. split; [apply Rmult_integral in A; destruct A as [A|A]; [lra|exact A]|apply Rmult_integral in B; destruct B as [B|B]; [lra|exact B]].
Qed.

Lemma pn_pos : 0 < dot pn pn.
Proof. unfold dot, pn. cbn [vx vy vz]. pose proof pD_b. assert (0 < pD * pD) by nra. nra. Qed.

Lemma tip_area : 0 < norm (cross (vsub (tip q 1) (tip q 0)) (vsub (tip q 2) (tip q 0))).
Proof. rewrite tip_cross, scale_norm by nra. apply Rmult_lt_0_compat; [nra|]. unfold norm. apply sqrt_lt_R0. apply pn_pos. Qed.

Lemma sq_bound m x : - m <= x <= m -> x * x <= m * m.
Proof. intros. nra. Qed.

Lemma level_by n : vx n * vx n + vy n * vy n <= q * q * (3500 / 100) -> 5 * 5 <= vz n * vz n -> 9 / 10 * norm n < Rabs (vz n).
Proof.
  intros A B. unfold norm, dot. rewrite <- (sqrt_Rsqr_abs (vz n)). replace (9 / 10) with (sqrt (81 / 100)) by (replace (81 / 100) with ((9 / 10) * (9 / 10)) by lra; apply sqrt_square; lra).
  rewrite <- sqrt_mult_alt by lra. apply sqrt_lt_1_alt. unfold Rsqr. pose proof (Rle_0_sqr (vx n)). pose proof (Rle_0_sqr (vy n)). unfold Rsqr in *. split; [nra|]. nra.
Qed.

Lemma tip_level : nearly_level (tip q 0) (tip q 1) (tip q 2).
Proof.
  unfold nearly_level. rewrite tip_cross, scale_norm by nra. cbn [vscale vz]. rewrite Rabs_mult, (Rabs_pos_eq (q * q)) by nra.
  assert (K : 9 / 10 * norm pn < Rabs (vz pn)).
  { apply level_by; unfold pn; cbn [vx vy vz].
    - pose proof pNx_b. pose proof pNy_b. assert (pNx * pNx <= (457 / 100) * (457 / 100)) by (apply sq_bound; lra). assert (pNy * pNy <= (3751 / 1000) * (3751 / 1000)) by (apply sq_bound; lra).
      replace (q * pNx * (q * pNx) + q * pNy * (q * pNy)) with (q * q * (pNx * pNx + pNy * pNy)) by ring. apply Rmult_le_compat_l; [nra|]. lra.
    - pose proof pD_b. nra. }
  assert (0 < q * q) by nra. nra.
Qed.

(* Cauchy and Schwarz in the plane *)
Lemma cauchy a b x y A m : 0 <= A -> 0 <= m -> a * a + b * b <= A * A -> x * x + y * y <= m * m -> a * x + b * y <= A * m.
Proof.
  intros HA Hm H1 H2. apply Rsqr_incr_0_var; [|nra]. unfold Rsqr.
  assert (E : (a * x + b * y) * (a * x + b * y) <= (a * a + b * b) * (x * x + y * y)).
  { pose proof (Rle_0_sqr (a * y - b * x)). unfold Rsqr in *. nra. }
  assert ((a * a + b * b) * (x * x + y * y) <= (A * A) * (m * m)).
  { apply Rmult_le_compat; auto; nra. }
  replace (A * m * (A * m)) with (A * A * (m * m)) by ring. lra.
Qed.

(* a point of the sphere no nearer to the end than the fifth of the spiral *)
Lemma tip_far v : vx v * vx v + vy v * vy v <= 2 * vz v -> 9 * (q * q) <= 2 * vz v -> dot pn (vsub v (tip q 0)) < 0.
Proof.
  intros H1 H2. set (t := sqrt (2 * vz v) / q). assert (Ht : q * t = sqrt (2 * vz v)) by (unfold t; field; lra).
  assert (P : 0 <= 2 * vz v) by nra. assert (T2 : q * t * (q * t) = 2 * vz v) by (rewrite Ht; now apply sqrt_sqrt).
  assert (T0 : 0 <= t). { unfold t. apply Rmult_le_pos; [apply sqrt_pos|]. left. now apply Rinv_0_lt_compat. }
  assert (T3 : 3 <= t). { apply Rnot_lt_le. intros L. assert (Q : 0 < q * q) by nra. assert (t * t < 9) by nra. nra. }
  clearbody t. unfold dot, pn, vsub, tip. cbn [vx vy vz INR]. destruct az_0 as [-> ->].
  replace (vz v) with (q * t * (q * t) / 2) by lra.
  pose proof pNx_b as NX. pose proof pNy_b as NY. pose proof pD_b as D. pose proof w_0 as W.
  assert (C : pNx * vx v + pNy * vy v <= 592 / 100 * (q * t)).
  { apply cauchy; try lra; [nra|]. assert (pNx * pNx <= (457 / 100) * (457 / 100)) by (apply sq_bound; lra). assert (pNy * pNy <= (3751 / 1000) * (3751 / 1000)) by (apply sq_bound; lra). lra. }
  assert (E : - pNx * wt q 0 <= 457 / 100). { replace (457 / 100) with (457 / 100 * 1) by lra. apply Rmult_le_compat; lra. }
  set (w := wt q 0) in *. set (nx := pNx) in *. set (ny := pNy) in *. set (d := pD) in *. clearbody w nx ny d.
  replace (q * nx * (vx v - q * w * 1) + q * ny * (vy v - q * w * 0) + d * (q * t * (q * t) / 2 - q * q * (2 * 0 + 1) / 2))
    with (q * (nx * vx v + ny * vy v) + q * q * (- nx * w) + d * (q * q) * (t * t - 1) / 2) by field.
  assert (F : q * (nx * vx v + ny * vy v) <= q * q * (592 / 100 * t)) by nra.
  assert (G : d * (q * q) * (t * t - 1) / 2 <= q * q * (- (581 / 200) * (t * t - 1))).
  { replace (d * (q * q) * (t * t - 1) / 2) with (q * q * (d / 2 * (t * t - 1))) by field. apply Rmult_le_compat_l; [nra|]. apply Rmult_le_compat_r; [nra|lra]. }
  assert (K : 592 / 100 * t + 457 / 100 - 581 / 200 * (t * t - 1) < 0) by nra.
  assert (Q : 0 < q * q) by nra. nra.
Qed.

Lemma tip_third : dot pn (vsub (tip q 3) (tip q 0)) < 0.
Proof.
  unfold dot, pn, vsub, tip. cbn [vx vy vz INR]. destruct az_0 as [-> ->].
  pose proof pNx_b as NX. pose proof pNy_b as NY. pose proof pD_b as D. pose proof w_0 as W. pose proof xy_3 as [X Y].
  replace (q * pNx * (q * wt q 3 * azc 3 - q * wt q 0 * 1) + q * pNy * (q * wt q 3 * azs 3 - q * wt q 0 * 0) + pD * (q * q * (2 * (1 + 1 + 1) + 1) / 2 - q * q * (2 * 0 + 1) / 2))
    with (q * q * (pNx * (wt q 3 * azc 3 - wt q 0) + pNy * (wt q 3 * azs 3) + 3 * pD)) by field.
  assert (pNx * (wt q 3 * azc 3 - wt q 0) <= 0) by nra. assert (pNy * (wt q 3 * azs 3) <= 0) by nra. assert (0 < q * q) by nra. nra.
Qed.

Lemma wt_sq k : 0 <= 1 - q * q * (2 * INR k + 1) / 4 -> wt q k * wt q k = (2 * INR k + 1) * (1 - q * q * (2 * INR k + 1) / 4).
Proof. intros H. unfold wt. apply sqrt_sqrt. pose proof (pos_INR k). apply Rmult_le_pos; lra. Qed.

Lemma tip_sphere k : 0 <= 1 - q * q * (2 * INR k + 1) / 4 ->
  vx (tip q k) * vx (tip q k) + vy (tip q k) * vy (tip q k) + vz (tip q k) * vz (tip q k) = 2 * vz (tip q k).
Proof.
  intros H. unfold tip. cbn [vx vy vz]. pose proof (wt_sq k H) as E. pose proof (sin2_cos2 (INR k * long_incr)) as T. unfold Rsqr in T. fold (azc k) (azs k) in T.
  set (w := wt q k) in *. set (c := azc k) in *. set (s := azs k) in *. clearbody w c s.
  replace (q * w * c * (q * w * c) + q * w * s * (q * w * s) + q * q * (2 * INR k + 1) / 2 * (q * q * (2 * INR k + 1) / 2))
    with (q * q * ((w * w) * (s * s + c * c)) + q * q * (2 * INR k + 1) / 2 * (q * q * (2 * INR k + 1) / 2)) by ring.
  rewrite T, E. field.
Qed.

(* all the other points of the spiral lie on one side *)
Lemma tip_others k : 0 <= 1 - q * q * (2 * INR k + 1) / 4 -> tip q k = tip q 0 \/ tip q k = tip q 1 \/ tip q k = tip q 2 \/ dot pn (vsub (tip q k) (tip q 0)) < 0.
Proof.
  intros H. destruct k as [|[|[|[|k]]]]; auto; do 3 right; [apply tip_third|].
  apply tip_far.
  - pose proof (tip_sphere _ H) as E. pose proof (Rle_0_sqr (vz (tip q (S (S (S (S k))))))) as Z. unfold Rsqr in Z. lra.
  - unfold tip. cbn [vz]. rewrite !S_INR. pose proof (pos_INR k). nra.
Qed.

(* ---------- with the end of the axis itself among the points ---------- *)

Definition oA : R := wt q 2 * azs 2.
Definition oB : R := 5 * wt q 0 - wt q 2 * azc 2.
Definition on : vec := mkv (q * oA) (q * oB) (- 2 * (wt q 0 * oA)).

Lemma oA_b : 217 / 100 <= oA <= 2229 / 1000. Proof. unfold oA. pose proof xy_2. lra. Qed.
Lemma oB_b : 477 / 100 <= oB <= 481 / 100. Proof. unfold oB. pose proof xy_2. pose proof w_0. lra. Qed.
Lemma oD_b : 431 / 100 <= 2 * (wt q 0 * oA).
Proof. destruct w_0 as [W W'], oA_b as [A A']. pose proof (mul_bound _ _ _ _ _ _ W W' A A' ltac:(lra) ltac:(lra)). lra. Qed.

Lemma o_cross : cross (vsub (tip q 0) v0) (vsub (tip q 2) v0) = vscale (- (q * q / 2)) on.
Proof. unfold on, oA, oB, tip, cross, vsub, vscale, v0. destruct az_0 as [-> ->]. cbn [vx vy vz INR]. f_equal; field. Qed.

Lemma o_perp : perpendicular on v0 (tip q 0) (tip q 2).
Proof.
  destruct (cross_perp (vsub (tip q 0) v0) (vsub (tip q 2) v0)) as [A B]. rewrite o_cross, scale_dot in A, B.
  assert (0 < q * q) by nra. split; [apply Rmult_integral in A; destruct A as [A|A]; [lra|exact A]|apply Rmult_integral in B; destruct B as [B|B]; [lra|exact B]].
Qed.

Lemma on_pos : 0 < dot on on.
Proof. unfold dot, on. cbn [vx vy vz]. pose proof oD_b. nra. Qed.

Lemma o_norm : norm (cross (vsub (tip q 0) v0) (vsub (tip q 2) v0)) = q * q / 2 * norm on /\
  Rabs (vz (cross (vsub (tip q 0) v0) (vsub (tip q 2) v0))) = q * q / 2 * Rabs (vz on).
Proof.
  rewrite o_cross. replace (vscale (- (q * q / 2)) on) with (vscale (q * q / 2) (neg on)) by (unfold neg, vscale; cbn [vx vy vz]; f_equal; ring).
  rewrite scale_norm, norm_neg by nra. split; auto. cbn [vscale vz]. rewrite neg_z, Rabs_mult, Rabs_Ropp, (Rabs_pos_eq (q * q / 2)) by nra. reflexivity.
Qed.

Lemma o_area : 0 < norm (cross (vsub (tip q 0) v0) (vsub (tip q 2) v0)).
Proof. rewrite (proj1 o_norm). apply Rmult_lt_0_compat; [nra|]. unfold norm. apply sqrt_lt_R0. apply on_pos. Qed.

Lemma o_level : nearly_level v0 (tip q 0) (tip q 2).
Proof.
  unfold nearly_level. destruct o_norm as [-> ->].
  assert (K : 9 / 10 * norm on < Rabs (vz on)).
  { assert (S : sqrt (81 / 100) = 9 / 10) by (replace (81 / 100) with ((9 / 10) * (9 / 10)) by lra; apply sqrt_square; lra).
    unfold norm. rewrite <- S, <- sqrt_mult_alt by lra. rewrite <- sqrt_Rsqr_abs. apply sqrt_lt_1_alt. pose proof on_pos. split; [lra|].
    unfold dot, on, Rsqr. cbn [vx vy vz]. pose proof oD_b as D. pose proof oA_b as A. pose proof oB_b as B.
    assert (oA * oA <= (2229 / 1000) * (2229 / 1000)) by (apply sq_bound; lra). assert (oB * oB <= (481 / 100) * (481 / 100)) by (apply sq_bound; lra).
    set (d := 2 * (wt q 0 * oA)) in *. replace (- 2 * (wt q 0 * oA)) with (- d) by (unfold d; ring). clearbody d.
    replace (q * oA * (q * oA) + q * oB * (q * oB) + - d * - d) with (q * q * (oA * oA + oB * oB) + d * d) by ring.
    assert (q * q * (oA * oA + oB * oB) <= 2 / 51 * (oA * oA + oB * oB)) by (apply Rmult_le_compat_r; nra). assert (431 / 100 * (431 / 100) <= d * d) by nra. lra. }
  assert (0 < q * q) by nra. nra.
Qed.

Lemma o_far v : vx v * vx v + vy v * vy v <= 2 * vz v -> 7 * (q * q) <= 2 * vz v -> dot on (vsub v v0) < 0.
Proof.
  intros H1 H2. set (t := sqrt (2 * vz v) / q). assert (Ht : q * t = sqrt (2 * vz v)) by (unfold t; field; lra).
  assert (P : 0 <= 2 * vz v) by nra. assert (T2 : q * t * (q * t) = 2 * vz v) by (rewrite Ht; now apply sqrt_sqrt).
  assert (T0 : 0 <= t). { unfold t. apply Rmult_le_pos; [apply sqrt_pos|]. left. now apply Rinv_0_lt_compat. }
  assert (T3 : 264 / 100 <= t). { apply Rnot_lt_le. intros L. assert (Q : 0 < q * q) by nra. assert (t * t < 7) by nra. nra. }
  clearbody t. unfold dot, on, vsub, v0. cbn [vx vy vz].
  replace (vz v) with (q * t * (q * t) / 2) by lra.
  pose proof oD_b as D. pose proof oA_b as A. pose proof oB_b as B.
  assert (C : oA * vx v + oB * vy v <= 531 / 100 * (q * t)).
  { apply cauchy; try lra; [nra|]. assert (oA * oA <= (2229 / 1000) * (2229 / 1000)) by (apply sq_bound; lra). assert (oB * oB <= (481 / 100) * (481 / 100)) by (apply sq_bound; lra). lra. }
  set (d := 2 * (wt q 0 * oA)) in *. replace (- 2 * (wt q 0 * oA)) with (- d) by (unfold d; ring). clearbody d.
  replace (q * oA * (vx v - 0) + q * oB * (vy v - 0) + - d * (q * t * (q * t) / 2 - 0)) with (q * (oA * vx v + oB * vy v) - q * q * (d / 2 * (t * t))) by field.
  assert (F : q * (oA * vx v + oB * vy v) <= q * q * (531 / 100 * t)) by nra.
  assert (K : 531 / 100 * t < d / 2 * (t * t)) by nra.
  assert (Q : 0 < q * q) by nra. nra.
Qed.

Lemma o_first : dot on (vsub (tip q 1) v0) < 0.
Proof.
  unfold dot, on, vsub, tip, v0. cbn [vx vy vz INR]. pose proof oD_b as D. pose proof oA_b as A. pose proof oB_b as B. pose proof xy_1 as [X Y].
  replace (q * oA * (q * wt q 1 * azc 1 - 0) + q * oB * (q * wt q 1 * azs 1 - 0) + -2 * (wt q 0 * oA) * (q * q * (2 * 1 + 1) / 2 - 0))
    with (q * q * (oA * (wt q 1 * azc 1) + oB * (wt q 1 * azs 1) - 2 * (wt q 0 * oA) * (3 / 2))) by field.
  assert (oA * (wt q 1 * azc 1) <= 0) by nra. assert (oB * (wt q 1 * azs 1) <= 0) by nra. assert (0 < q * q) by nra. nra.
Qed.

Lemma o_others k : 0 <= 1 - q * q * (2 * INR k + 1) / 4 -> tip q k = v0 \/ tip q k = tip q 0 \/ tip q k = tip q 2 \/ dot on (vsub (tip q k) v0) < 0.
Proof.
  intros H. destruct k as [|[|[|k]]]; auto; do 3 right; [apply o_first|].
  apply o_far.
  - pose proof (tip_sphere _ H) as E. pose proof (Rle_0_sqr (vz (tip q (S (S (S k)))))) as Z. unfold Rsqr in Z. lra.
  - unfold tip. cbn [vz]. rewrite !S_INR. pose proof (pos_INR k). nra.
Qed.
End Tip.
