(* Decimal bounds for the first azimuths of the golden spiral. *)
From Coq Require Import Reals Lra Lia Machin ZArith.
From Verif Require Import Base Model_Hyper.
Open Scope R_scope.

Lemma PI_num : 314159 / 100000 <= PI <= 314160 / 100000.
Proof.
  pose proof (PI_2_3_7_ineq 2) as [A B]. unfold tg_alt, PI_2_3_7_tg, Ratan_seq in A, B.
  cbn [sum_f_R0 Nat.mul Nat.add] in A, B.
  repeat match goal with H : context [INR ?n] |- _ => rewrite (INR_IZR_INZ n) in H end.
  cbn [Z.of_nat Pos.of_succ_nat Pos.succ] in A, B.
  cbn [pow Nat.add Nat.mul] in A, B. split; lra.
Qed.

Lemma sqrt5_num : 223606 / 100000 <= sqrt 5 <= 223607 / 100000.
Proof.
  split.
  - rewrite <- (sqrt_Rsqr (223606 / 100000)) by lra. apply sqrt_le_1; unfold Rsqr; lra.
  - rewrite <- (sqrt_Rsqr (223607 / 100000)) by lra. apply sqrt_le_1; unfold Rsqr; lra.
Qed.

(* long_incr less half a turn *)
Definition beta : R := PI * (sqrt 5 - 2).

Lemma beta_num : 74160 / 100000 <= beta <= 74166 / 100000.
Proof. unfold beta. pose proof PI_num. pose proof sqrt5_num. nra. Qed.

Lemma incr_beta : long_incr = beta + PI.
Proof.
  unfold long_incr, golden, beta. pose proof sqrt5_num. assert (Q : sqrt 5 * sqrt 5 = 5) by (apply sqrt_sqrt; lra).
  set (s := sqrt 5) in *. clearbody s. apply (Rmult_eq_reg_r (1 + s)); [|lra].
  replace (2 * PI / ((1 + s) / 2) * (1 + s)) with (4 * PI) by (field; lra).
  replace ((PI * (s - 2) + PI) * (1 + s)) with (PI * (s * s) - PI) by ring. rewrite Q. ring.
Qed.

Lemma cos_low a : 0 <= a <= 1 ->
  1 - a * a / 2 + a * a * a * a / 24 - a * a * a * a * a * a / 720 <= cos a <= 1 - a * a / 2 + a * a * a * a / 24 - a * a * a * a * a * a / 720 + a * a * a * a * a * a * a * a / 40320.
Proof.
  intros H. pose proof (pre_cos_bound a 1 ltac:(lra) ltac:(lra)) as [A B].
  unfold cos_approx, cos_term in A, B. cbn [sum_f_R0 Nat.mul Nat.add] in A, B.
  replace (INR (fact 0)) with 1 in * by (cbn; lra). replace (INR (fact 2)) with 2 in * by (cbn; lra). replace (INR (fact 4)) with 24 in * by (cbn; lra).
  replace (INR (fact 6)) with 720 in * by (rewrite INR_IZR_INZ; reflexivity). replace (INR (fact 8)) with 40320 in * by (rewrite INR_IZR_INZ; reflexivity).
  cbn [pow] in A, B. lra.
Qed.

Lemma sin_low a : 0 <= a <= 1 ->
  a - a * a * a / 6 + a * a * a * a * a / 120 - a * a * a * a * a * a * a / 5040 <= sin a <= a - a * a * a / 6 + a * a * a * a * a / 120.
Proof.
  intros H. pose proof (pre_sin_bound a 1 ltac:(lra) ltac:(lra)) as [A _]. pose proof (pre_sin_bound a 0 ltac:(lra) ltac:(lra)) as [_ B].
  unfold sin_approx, sin_term in A, B. cbn [sum_f_R0 Nat.mul Nat.add] in A, B.
  replace (INR (fact 1)) with 1 in * by (cbn; lra). replace (INR (fact 3)) with 6 in * by (cbn; lra). replace (INR (fact 5)) with 120 in * by (rewrite INR_IZR_INZ; reflexivity).
  replace (INR (fact 7)) with 5040 in A by (rewrite INR_IZR_INZ; reflexivity).
  cbn [pow] in A, B. lra.
Qed.

Lemma cos_beta : 73734 / 100000 <= cos beta <= 73740 / 100000.
Proof.
  pose proof beta_num. pose proof PI_num.
  assert (cos (74166 / 100000) <= cos beta) by (apply cos_decr_1; lra).
  assert (cos beta <= cos (7416 / 10000)) by (apply cos_decr_1; lra).
  pose proof (cos_low (74166 / 100000) ltac:(lra)). pose proof (cos_low (7416 / 10000) ltac:(lra)). lra.
Qed.

Lemma sin_beta : 67544 / 100000 <= sin beta <= 67555 / 100000.
Proof.
  pose proof beta_num. pose proof PI_num.
  assert (sin (7416 / 10000) <= sin beta) by (apply sin_incr_1; lra).
  assert (sin beta <= sin (74166 / 100000)) by (apply sin_incr_1; lra).
  pose proof (sin_low (74166 / 100000) ltac:(lra)). pose proof (sin_low (7416 / 10000) ltac:(lra)). lra.
Qed.

(* the cosines and sines of the first azimuths *)
Lemma az_step c k : cos (INR (S k) * long_incr + c) = - (cos (INR k * long_incr + c) * cos beta - sin (INR k * long_incr + c) * sin beta) /\
  sin (INR (S k) * long_incr + c) = - (sin (INR k * long_incr + c) * cos beta + cos (INR k * long_incr + c) * sin beta).
Proof.
  replace (INR (S k) * long_incr + c) with ((INR k * long_incr + c) + beta + PI) by (rewrite S_INR, incr_beta; ring).
  generalize (INR k * long_incr + c). intros a. rewrite neg_cos, neg_sin, cos_plus, sin_plus. split; ring.
Qed.

Definition azc (k : nat) : R := cos (INR k * long_incr).
Definition azs (k : nat) : R := sin (INR k * long_incr).

Lemma az_S k : azc (S k) = - (azc k * cos beta - azs k * sin beta) /\ azs (S k) = - (azs k * cos beta + azc k * sin beta).
Proof. pose proof (az_step 0 k) as [A B]. rewrite !Rplus_0_r in A, B. unfold azc, azs. auto. Qed.

Lemma az_0 : azc 0 = 1 /\ azs 0 = 0.
Proof. unfold azc, azs. cbn [INR]. rewrite Rmult_0_l, cos_0, sin_0. auto. Qed.

Lemma az_1 : (-7374 / 10000 <= azc 1 <= -7373 / 10000) /\ (-6756 / 10000 <= azs 1 <= -6754 / 10000).
Proof. destruct az_0 as [C S], (az_S 0) as [-> ->]. rewrite C, S. pose proof cos_beta. pose proof sin_beta. lra. Qed.

Lemma az_2 : (872 / 10000 <= azc 2 <= 877 / 10000) /\ (9959 / 10000 <= azs 2 <= 9964 / 10000).
Proof.
  destruct az_0 as [C S], (az_S 0) as [C1 S1], (az_S 1) as [C2 S2]. pose proof cos_beta. pose proof sin_beta.
  rewrite C, S in C1, S1. rewrite C1, S1 in C2, S2. rewrite C2, S2. nra.
Qed.

Lemma mul_bound a b c d x y : a <= x -> x <= b -> c <= y -> y <= d -> 0 <= a -> 0 <= c -> a * c <= x * y <= b * d.
Proof. intros. split; apply Rmult_le_compat; lra. Qed.

Lemma az_3 : (6075 / 10000 <= azc 3 <= 6094 / 10000) /\ (-7943 / 10000 <= azs 3 <= -7929 / 10000).
Proof.
  destruct az_2 as [[C C'] [S S']], (az_S 2) as [-> ->]. destruct cos_beta as [B B']. destruct sin_beta as [D D'].
  pose proof (mul_bound _ _ _ _ _ _ C C' B B' ltac:(lra) ltac:(lra)). pose proof (mul_bound _ _ _ _ _ _ S S' D D' ltac:(lra) ltac:(lra)).
  pose proof (mul_bound _ _ _ _ _ _ C C' D D' ltac:(lra) ltac:(lra)). pose proof (mul_bound _ _ _ _ _ _ S S' B B' ltac:(lra) ltac:(lra)). lra.
Qed.

Lemma az_4 : (-9861 / 10000 <= azc 4 <= -9834 / 10000) /\ (1721 / 10000 <= azs 4 <= 1763 / 10000).
Proof.
  destruct az_3 as [[C C'] [S S']], (az_S 3) as [-> ->]. destruct cos_beta as [B B']. destruct sin_beta as [D D'].
  assert (T : 7929 / 10000 <= - azs 3) by lra. assert (T' : - azs 3 <= 7943 / 10000) by lra.
  pose proof (mul_bound _ _ _ _ _ _ C C' B B' ltac:(lra) ltac:(lra)). pose proof (mul_bound _ _ _ _ _ _ T T' D D' ltac:(lra) ltac:(lra)).
  pose proof (mul_bound _ _ _ _ _ _ C C' D D' ltac:(lra) ltac:(lra)). pose proof (mul_bound _ _ _ _ _ _ T T' B B' ltac:(lra) ltac:(lra)). lra.
Qed.
