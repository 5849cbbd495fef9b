(* The nearly level faces that hyperhemisphere removes from a whole sphere and from the top of a low cap. *)
From Coq Require Import Reals List ZArith Bool Lia Lra Permutation.
From Verif Require Import Base Lib Model_Optics Model_RayIface Model_Surface Model_Hyper Spec_Surface Spec_Hyper Proof_Surface2 Proof_Hyper Proof_Hyper2 Proof_Hyper3 Proof_HyperNum Proof_Hyper4.
Import ListNotations.
Open Scope R_scope.

Definition qN (N : nat) : R := sqrt (2 / INR N).

Lemma qN_pos N : (0 < N)%nat -> 0 < qN N.
Proof. intros H. apply sqrt_lt_R0. apply Rdiv_lt_0_compat; [lra|now apply lt_0_INR]. Qed.
Lemma qN_sq N : (0 < N)%nat -> qN N * qN N = 2 / INR N.
Proof. intros H. apply sqrt_sqrt. left. apply Rdiv_lt_0_compat; [lra|now apply lt_0_INR]. Qed.

Lemma div_le a b c : 0 < c -> a <= b * c -> a / c <= b.
Proof. intros Hc H. apply (Rmult_le_reg_r c); auto. unfold Rdiv. rewrite Rmult_assoc, Rinv_l; lra. Qed.
Lemma le_div a b c : 0 < c -> b * c <= a -> b <= a / c.
Proof. intros Hc H. apply (Rmult_le_reg_r c); auto. unfold Rdiv. rewrite Rmult_assoc, Rinv_l; lra. Qed.
Lemma div_lt a b c : 0 < c -> a < b * c -> a / c < b.
Proof. intros Hc H. apply (Rmult_lt_reg_r c); auto. unfold Rdiv. rewrite Rmult_assoc, Rinv_l; lra. Qed.

Lemma qN_small N : (51 <= N)%nat -> qN N * qN N <= 2 / 51.
Proof. intros H. rewrite qN_sq by lia. apply le_INR in H. replace (INR 51) with 51 in H by (rewrite INR_IZR_INZ; reflexivity). apply div_le; lra. Qed.

(* the height of a point of the spiral over the lowest point of the sphere *)
Lemma u_of N k : (0 < N)%nat -> qN N * qN N * (2 * INR k + 1) / 2 = (2 * INR k + 1) / INR N.
Proof. intros H. rewrite qN_sq by auto. pose proof (lt_0_INR N H). field. lra. Qed.

Lemma in_turn N k : (k < N)%nat -> 0 <= 1 - qN N * qN N * (2 * INR k + 1) / 4.
Proof.
  intros H. pose proof (u_of N k ltac:(lia)) as U. pose proof (lt_0_INR N ltac:(lia)) as HN.
  assert (K : INR k + 1 <= INR N) by (rewrite <- S_INR; apply le_INR; lia).
  assert ((2 * INR k + 1) / INR N <= 2) by (apply div_le; lra). lra.
Qed.

(* its distance from the axis *)
Lemma rho_of N k z : (k < N)%nat -> z = qN N * qN N * (2 * INR k + 1) / 2 - 1 \/ z = 1 - qN N * qN N * (2 * INR k + 1) / 2 -> sqrt (1 - z * z) = qN N * wt (qN N) k.
Proof.
  intros H E. unfold wt. set (q := qN N) in *. set (X := (2 * INR k + 1) * (1 - q * q * (2 * INR k + 1) / 4)).
  replace (1 - z * z) with (q * q * X) by (unfold X; destruct E as [-> | ->]; field).
  rewrite sqrt_mult_alt by nra. rewrite sqrt_square; auto. unfold q. left. apply qN_pos. lia.
Qed.

Lemma spiral_low N radius k : (k < N)%nat -> spiral N radius radius k = vscale radius (tip (qN N) k).
Proof.
  intros H. unfold spiral, tip, vscale. cbn [vx vy vz]. pose proof (u_of N k ltac:(lia)) as U. pose proof (lt_0_INR N ltac:(lia)) as HN.
  assert (Z : INR k * (2 / INR N) - 1 + 2 / INR N / 2 = qN N * qN N * (2 * INR k + 1) / 2 - 1) by (rewrite U; field; lra).
  rewrite Z. rewrite (rho_of N k _ H (or_introl eq_refl)). unfold azc, azs. f_equal; ring.
Qed.

(* the same seen from the top *)
Definition turn (c s : R) (v : vec) : vec := mkv (c * vx v + s * vy v) (s * vx v - c * vy v) (- vz v).
Definition down (radius h c s : R) (v : vec) : vec := mkv (radius * (c * vx v + s * vy v)) (radius * (s * vx v - c * vy v)) (radius + h - radius * vz v).
Definition up (radius h c s : R) (w : vec) : vec := mkv ((c * vx w + s * vy w) / radius) ((s * vx w - c * vy w) / radius) ((radius + h - vz w) / radius).

Section Turn.
Variables (radius h c s : R).
Hypothesis Hr : 0 < radius.
Hypothesis Hcs : s * s + c * c = 1.

Lemma turn_dot u v : dot (turn c s u) (turn c s v) = dot u v.
Proof.
  unfold dot, turn. cbn [vx vy vz].
  replace ((c * vx u + s * vy u) * (c * vx v + s * vy v) + (s * vx u - c * vy u) * (s * vx v - c * vy v) + - vz u * - vz v)
    with ((s * s + c * c) * (vx u * vx v + vy u * vy v) + vz u * vz v) by ring. rewrite Hcs. ring.
Qed.

Lemma turn_cross u v : cross (turn c s u) (turn c s v) = turn c s (cross u v).
Proof.
  unfold cross, turn. cbn [vx vy vz]. f_equal; try ring.
  replace ((c * vx u + s * vy u) * (s * vx v - c * vy v) - (s * vx u - c * vy u) * (c * vx v + s * vy v)) with (- ((s * s + c * c) * (vx u * vy v - vy u * vx v))) by ring.
  rewrite Hcs. ring.
Qed.

Lemma turn_norm u v : norm (cross (turn c s u) (turn c s v)) = norm (cross u v).
Proof. rewrite turn_cross. unfold norm. now rewrite turn_dot. Qed.

Lemma turn_z u v : Rabs (vz (cross (turn c s u) (turn c s v))) = Rabs (vz (cross u v)).
Proof. rewrite turn_cross. unfold turn. cbn [vz]. apply Rabs_Ropp. Qed.

Lemma down_sub u v : vsub (down radius h c s u) (down radius h c s v) = vscale radius (turn c s (vsub u v)).
Proof. unfold vsub, down, vscale, turn. cbn [vx vy vz]. f_equal; ring. Qed.

Lemma down_up w : down radius h c s (up radius h c s w) = w.
Proof.
  unfold down, up. cbn [vx vy vz]. destruct w as [x y z]. cbn [vx vy vz]. f_equal.
  - replace (radius * (c * ((c * x + s * y) / radius) + s * ((s * x - c * y) / radius))) with ((s * s + c * c) * x) by (field; lra). rewrite Hcs. ring.
  - replace (radius * (s * ((c * x + s * y) / radius) - c * ((s * x - c * y) / radius))) with ((s * s + c * c) * y) by (field; lra). rewrite Hcs. ring.
  - field. lra.
Qed.

Lemma up_sphere w : on_sphere radius h w -> vx (up radius h c s w) * vx (up radius h c s w) + vy (up radius h c s w) * vy (up radius h c s w) <= 2 * vz (up radius h c s w).
Proof.
  unfold on_sphere, up. cbn [vx vy vz]. destruct w as [x y z]. cbn [vx vy vz]. intros H.
  replace ((c * x + s * y) / radius * ((c * x + s * y) / radius) + (s * x - c * y) / radius * ((s * x - c * y) / radius)) with ((s * s + c * c) * (x * x + y * y) / (radius * radius)) by (field; lra).
  rewrite Hcs. apply div_le; [nra|]. replace (2 * ((radius + h - z) / radius) * (radius * radius)) with (2 * (radius + h - z) * radius) by (field; lra).
  pose proof (Rle_0_sqr (z - h - radius)) as Q. unfold Rsqr in Q. nra.
Qed.
End Turn.

Lemma spiral_high N radius h j : (j < N)%nat -> let f := INR (N - 1) * long_incr in
  spiral N radius h (N - 1 - j) = down radius h (cos f) (sin f) (tip (qN N) j).
Proof.
  intros H f. unfold spiral, tip, down. cbn [vx vy vz]. pose proof (u_of N j ltac:(lia)) as U. pose proof (lt_0_INR N ltac:(lia)) as HN.
  assert (E : INR (N - 1 - j) = INR N - 1 - INR j) by (rewrite !minus_INR by lia; cbn [INR]; ring).
  assert (Z : INR (N - 1 - j) * (2 / INR N) - 1 + 2 / INR N / 2 = 1 - qN N * qN N * (2 * INR j + 1) / 2) by (rewrite U, E; field; lra).
  rewrite Z. rewrite (rho_of N j _ H (or_intror eq_refl)).
  replace (INR (N - 1 - j) * long_incr) with (f - INR j * long_incr) by (unfold f; rewrite E, minus_INR by lia; cbn [INR]; ring).
  rewrite cos_minus, sin_minus. unfold azc, azs. f_equal; ring.
Qed.

(* ---------- the two holes ---------- *)

Lemma id_carry radius : forall u v, vsub (vscale radius u) (vscale radius v) = vscale radius ((fun x => x) (vsub u v)).
Proof. intros u v. unfold vsub, vscale. cbn [vx vy vz]. f_equal; ring. Qed.

Lemma rim_zero radius n v : In v (rim_points radius radius n) -> v = v0.
Proof.
  unfold rim_points, r_cross. destruct (Rltb (radius * radius - radius * radius) 0); [intros []|]. intros H. apply in_map_iff in H. destruct H as [f [<- _]].
  replace (radius * radius - radius * radius) with 0 by ring. rewrite sqrt_0. unfold v0. f_equal; ring.
Qed.

Lemma low_in N radius k : 0 < radius -> (k < N)%nat -> In (vscale radius (tip (qN N) k)) (sphere_points N radius radius).
Proof.
  intros Hr H. apply sphere_in. exists k. split; auto. rewrite <- spiral_low by auto. split; auto. rewrite spiral_low by auto. unfold tip, vscale. cbn [vz].
  rewrite u_of by lia. apply Rmult_le_pos; [lra|]. left. apply Rdiv_lt_0_compat; [pose proof (pos_INR k); lra|apply lt_0_INR; lia].
Qed.

Lemma low_z N radius k : 0 < radius -> (51 <= N)%nat -> (k <= 2)%nat -> vz (vscale radius (tip (qN N) k)) < radius / 10.
Proof.
  intros Hr HN Hk. unfold tip, vscale. cbn [vz]. rewrite u_of by lia. apply le_INR in HN. apply le_INR in Hk.
  replace (INR 51) with 51 in HN by (rewrite INR_IZR_INZ; reflexivity). replace (INR 2) with 2 in Hk by (cbn; lra).
  assert ((2 * INR k + 1) / INR N < 1 / 10) by (apply div_lt; lra). nra.
Qed.

Lemma low_hole N radius : (51 <= N)%nat -> 0 < radius -> exists n a b c, proper_face (hyper_points N radius radius) n a b c /\
  0 < norm (cross (vsub b a) (vsub c a)) /\ nearly_level a b c /\ below (radius / 10) a b c.
Proof.
  intros HN Hr. pose proof (qN_pos N ltac:(lia)) as Q. pose proof (qN_small N HN) as Q2. set (q := qN N) in *.
  assert (Hz0 : vscale radius v0 = v0) by (unfold vscale, v0; cbn [vx vy vz]; f_equal; ring).
  assert (S : forall w, In w (sphere_points N radius radius) -> exists k, (k < N)%nat /\ w = vscale radius (tip q k)).
  { intros w Hw. apply sphere_in in Hw. destruct Hw as [k [Hk [-> _]]]. exists k. split; auto. now apply spiral_low. }
  unfold hyper_points. set (sp := sphere_points N radius radius) in *. destruct (rim_points radius radius (rim_count radius radius sp)) as [|w0 l] eqn:ER.
  - exists (pn q), (vscale radius (tip q 0)), (vscale radius (tip q 1)), (vscale radius (tip q 2)). cbn [app]. split; [|split; [|split]].
    + apply (carry_face (fun x => x) (vscale radius) radius); auto using id_carry, pn_pos, tip_perp; try (apply low_in; auto; lia).
      intros w Hw. destruct (S w Hw) as [k [Hk ->]]. exists (tip q k). split; auto. apply tip_others; auto. now apply in_turn.
    + apply (carry_area (fun x => x) (vscale radius) radius); auto using id_carry, tip_area.
    + apply (carry_level (fun x => x) (vscale radius) radius); auto using id_carry, tip_level.
    + repeat split; apply low_z; auto.
  - assert (Z0 : forall w, In w (w0 :: l) -> w = vscale radius v0) by (intros w Hw; rewrite Hz0; apply (rim_zero radius (rim_count radius radius sp)); now rewrite ER).
    exists (on q), (vscale radius v0), (vscale radius (tip q 0)), (vscale radius (tip q 2)). split; [|split; [|split]].
    + apply (carry_face (fun x => x) (vscale radius) radius); auto using id_carry, on_pos, o_perp; try (apply in_app_iff; right; apply low_in; auto; lia).
      * apply in_app_iff. left. left. symmetry. rewrite Hz0, <- Hz0. symmetry. rewrite (Z0 w0) by now left. reflexivity.
      * intros w Hw. apply in_app_iff in Hw. destruct Hw as [Hw|Hw]; [exists v0; split; auto|].
        destruct (S w Hw) as [k [Hk ->]]. exists (tip q k). split; auto. apply o_others; auto. now apply in_turn.
    + apply (carry_area (fun x => x) (vscale radius) radius); auto using id_carry, o_area.
    + apply (carry_level (fun x => x) (vscale radius) radius); auto using id_carry, o_level.
    + repeat split; try (apply low_z; auto). rewrite Hz0. unfold v0. cbn [vz]. lra.
Qed.

Lemma high_hole N radius h : (90 <= N)%nat -> 0 < radius -> - (1 - 9 / INR N) * radius <= h <= - (9 / 10) * radius ->
  exists n a b c, proper_face (hyper_points N radius h) n a b c /\ 0 < norm (cross (vsub b a) (vsub c a)) /\ nearly_level a b c /\ below (radius / 10) a b c.
Proof.
  intros HN Hr Hh. pose proof (qN_pos N ltac:(lia)) as Q. pose proof (qN_small N ltac:(lia)) as Q2.
  assert (P : 0 < INR N) by (apply lt_0_INR; lia).
  set (f := INR (N - 1) * long_incr). pose proof (sin2_cos2 f) as T. unfold Rsqr in T.
  assert (HI : forall j, (j < N)%nat -> spiral N radius h (N - 1 - j) = down radius h (cos f) (sin f) (tip (qN N) j)) by (intros; apply spiral_high; auto).
  set (c := cos f) in *. set (s := sin f) in *. clearbody c s f.
  assert (Z : forall j, (j <= 2)%nat -> 0 <= vz (down radius h c s (tip (qN N) j)) < radius / 10).
  { intros j Hj. unfold down, tip. cbn [vz]. rewrite u_of by lia. apply le_INR in Hj. replace (INR 2) with 2 in Hj by (cbn; lra). pose proof (pos_INR j).
    assert ((2 * INR j + 1) / INR N <= 9 / INR N) by (apply Rmult_le_compat_r; [left; now apply Rinv_0_lt_compat|lra]).
    assert (0 < (2 * INR j + 1) / INR N) by (apply Rdiv_lt_0_compat; lra). split; nra. }
  assert (IN : forall j, (j <= 2)%nat -> In (down radius h c s (tip (qN N) j)) (hyper_points N radius h)).
  { intros j Hj. unfold hyper_points. apply in_app_iff. right. apply sphere_in. exists (N - 1 - j)%nat. split; [lia|]. rewrite HI by lia. split; auto. now apply Z. }
  exists (turn c s (pn (qN N))), (down radius h c s (tip (qN N) 0)), (down radius h c s (tip (qN N) 1)), (down radius h c s (tip (qN N) 2)).
  split; [|split; [|split]].
  - apply (carry_face (turn c s) (down radius h c s) radius); auto using turn_dot, down_sub, pn_pos, tip_perp.
    intros w Hw. unfold hyper_points in Hw. apply in_app_iff in Hw. destruct Hw as [Hw|Hw].
    + apply rim_sphere in Hw. destruct Hw as [Hs Hw]. exists (up radius h c s w). split; [symmetry; now apply down_up|]. do 3 right.
      apply tip_far; auto; [now apply up_sphere|]. unfold up. cbn [vz]. rewrite Hw, qN_sq by lia.
      assert (9 / INR N <= (radius + h - 0) / radius) by (apply le_div; lra). unfold Rdiv in *. lra.
    + apply sphere_in in Hw. destruct Hw as [k [Hk [-> _]]]. exists (tip (qN N) (N - 1 - k)). split.
      * rewrite <- HI by lia. f_equal. lia.
      * apply tip_others; auto. apply in_turn. lia.
  - apply (carry_area (turn c s) (down radius h c s) radius); auto using turn_norm, down_sub, tip_area.
  - apply (carry_level (turn c s) (down radius h c s) radius); auto using turn_norm, turn_z, down_sub, tip_level.
  - exact (conj (proj2 (Z 0%nat ltac:(lia))) (conj (proj2 (Z 1%nat ltac:(lia))) (proj2 (Z 2%nat ltac:(lia))))).
Qed.

(* such faces are never returned *)
Lemma not_returned hull N radius h f r tf tb a b c : run hull N radius h f r tf tb -> nearly_level a b c -> below (radius / 10) a b c -> ~ has_face f a b c.
Proof.
  intros Q L B H. apply (kept_faces _ _ _ _ (front_kept _ _ _ _ _ _ _ _ Q)) in H. destruct H as (t & _ & C & D).
  assert (bottom_planar radius (tri_of (su_pts f) t) = true); [|congruence]. apply (bottom_iff radius _ a b c C). auto.
Qed.
