(* Comparing two runs of calculate_RAT (C186, C187) *)
From Coq Require Import Reals List ZArith Bool Lia Lra.
From Verif Require Import Base Lib Model_Angles Spec_Angles Model_Ideal Model_MatMul Spec_Matrix Spec_MatMul Spec_More
  Proof_OutInProps Proof_MatMul Proof_RAT Proof_RAT2 Proof_RAT3 Proof_More Prop_MatMul.
Import ListNotations.
Open Scope R_scope.

(* ---------------- C186 ---------------- *)

Theorem C186_more_absorption : forall n phi_sym c sp g h m theta phi_in alphas alphas' thick thick' f0 b0 f1 thresh prof fuel st o,
  valid_request n phi_sym c -> make_angle_vector n phi_sym c sp = Ok g -> length (g_av g) = (2 * h)%nat ->
  m_fold m phi_sym -> relabel_ok n m g -> good_direction phi_sym theta phi_in -> absorbs_less alphas thick alphas' thick' ->
  file_passive (length alphas) h f0 -> file_passive (length alphas) h b0 -> file_passive (length alphas) h f1 ->
  calculate_RAT n phi_sym c sp theta phi_in alphas thick f0 b0 f1 thresh prof fuel = Ok (Some (st, o)) ->
  exists st' o', calculate_RAT n phi_sym c sp theta phi_in alphas' thick' f0 b0 f1 thresh prof fuel = Ok (Some (st', o')) /\
    forall w, (w < length alphas)%nat ->
      R_at o' w <= R_at o w /\ T_at o' w <= T_at o w /\ A_front_at st' w <= A_front_at st w /\ A_back_at st' w <= A_back_at st w /\
      (file_conserves (length alphas) h f0 -> file_conserves (length alphas) h b0 -> file_conserves (length alphas) h f1 ->
        A_bulk_at o w + still_travelling st w <= A_bulk_at o' w + still_travelling st' w /\ A_bulk_at o w - thresh <= A_bulk_at o' w).
Proof. exact C186_ex. Qed.
Print Assumptions C186_more_absorption.

(* half-transparent surfaces; the second bulk is thinner but absorbs more strongly at both wavelengths *)
Example C186_case : exists g h st o, valid_request 5 (PI / 2) (1 / 4) /\
  make_angle_vector 5 (PI / 2) (1 / 4) SpSin = Ok g /\ length (g_av g) = (2 * h)%nat /\ (0 < h)%nat /\
  m_fold 4 (PI / 2) /\ relabel_ok 5 4 g /\ good_direction (PI / 2) (PI / 6) (PhiNum 1) /\
  absorbs_less [1; 2] 1 [3; 4] (1 / 2) /\ ~ (1 <= 1 / 2) /\
  file_conserves 2 h (half_mirror h) /\ file_passive 2 h (half_mirror h) /\
  calculate_RAT 5 (PI / 2) (1 / 4) SpSin (PI / 6) (PhiNum 1) [1; 2] 1 (half_mirror h) (half_mirror h) (half_mirror h)
    (1 / 1000) true (Z.to_nat (Zceil (ln (1 / 1000) / (- 2 * 1)) + 1)) = Ok (Some (st, o)).
Proof.
  destruct C09_case as (g & h & [st o] & A & B & C & D & E & F & G & H & I & J). exists g, h, st, o.
  assert (L : absorbs_less [1; 2] 1 [3; 4] (1 / 2)). { split; [reflexivity|]. intros [|[|w]] Lw; cbn in *; try lra. lia. }
  assert (~ (1 <= 1 / 2)) by lra. auto 20.
Qed.

(* ---------------- C187 ---------------- *)

Theorem C187_light_trapping : forall n phi_sym c sp g h m theta phi_in alphas thick f0 b0 f1 f0' b0' f1' thresh prof fuel st o,
  valid_request n phi_sym c -> make_angle_vector n phi_sym c sp = Ok g -> length (g_av g) = (2 * h)%nat ->
  m_fold m phi_sym -> relabel_ok n m g -> good_direction phi_sym theta phi_in -> (forall a, In a alphas -> 0 <= a * thick) ->
  file_passive (length alphas) h f0 -> file_passive (length alphas) h b0 -> file_passive (length alphas) h f1 ->
  file_passive (length alphas) h f0' -> file_passive (length alphas) h b0' -> file_passive (length alphas) h f1' ->
  transmits_less Front (length alphas) h f0' f0 -> reflects_less Rear (length alphas) h b0' b0 -> reflects_less Front (length alphas) h f1' f1 ->
  calculate_RAT n phi_sym c sp theta phi_in alphas thick f0 b0 f1 thresh prof fuel = Ok (Some (st, o)) ->
  exists st' o', calculate_RAT n phi_sym c sp theta phi_in alphas thick f0' b0' f1' thresh prof fuel = Ok (Some (st', o')) /\
    forall w, (w < length alphas)%nat ->
      A_bulk_at o' w <= A_bulk_at o w /\
      (f0' = f0 -> b0' = b0 -> R_at o' w <= R_at o w /\ A_front_at st' w <= A_front_at st w) /\
      (f1' = f1 -> T_at o' w <= T_at o w /\ A_back_at st' w <= A_back_at st w).
Proof. exact C187_ex. Qed.
Print Assumptions C187_light_trapping.

(* a surface that absorbs all the light, at two wavelengths *)
Definition black (h : nat) : stored := mk_stored (M2 (repeat (repeat 0 h) (2 * h))) (M3 [[repeat 1 h]; [repeat 1 h]]).

Lemma black_entry h r k : entry (repeat (repeat 0 h) (2 * h)) r k = 0.
Proof.
  unfold entry. destruct (Nat.lt_ge_cases r (2 * h)) as [L|L].
  - rewrite nth_repeat_any by exact L. apply nth_repeat.
  - rewrite (nth_overflow (repeat _ _)) by (rewrite repeat_length; exact L). destruct k; reflexivity.
Qed.

Lemma black_passive h : file_passive 2 h (black h).
Proof.
  split; [split|split].
  - cbn [f_RT black stored_for]. split; [apply repeat_length|]. intros row H. apply repeat_spec in H. subst row. apply repeat_length.
  - cbn [f_A black abs_stored]. exists 1%nat. split; [reflexivity|]. intros y [<-|[<-|[]]]; (split; [reflexivity|]; intros row [<-|[]]; apply repeat_length).
  - intros w Hw. assert (E : at_wl (f_A (black h)) w = [repeat 1 h]) by (destruct w as [|[|w]]; [reflexivity|reflexivity|lia]). rewrite E. change (nonneg_matrix (repeat (repeat 0 h) (2 * h)) /\ nonneg_matrix [repeat 1 h]). split.
    + intros row x H Hx. apply repeat_spec in H. subst row. apply repeat_spec in Hx. lra.
    + intros row x [<-|[]] Hx. apply repeat_spec in Hx. lra.
  - intros w k Hw Hk. assert (E0 : at_wl (f_A (black h)) w = [repeat 1 h]) by (destruct w as [|[|w]]; [reflexivity|reflexivity|lia]). rewrite E0.
    change (col_total (repeat (repeat 0 h) (2 * h)) k + col_total [repeat 1 h] k <= 1).
    assert (E : col_total (repeat (repeat 0 h) (2 * h)) k = 0).
    { unfold col_total. generalize (2 * h)%nat. intros q. induction q; cbn; [reflexivity|]. rewrite IHq, nth_repeat. lra. }
    rewrite E. unfold col_total. cbn. rewrite nth_repeat_any by exact Hk. lra.
Qed.

Lemma half_entry h r k : 0 <= entry (half_id h ++ half_id h) r k.
Proof.
  assert (N : nonneg_matrix (half_id h ++ half_id h)).
  { intros row x H Hx. apply in_app_iff in H. destruct H; eapply half_id_nonneg; eauto. }
  unfold entry. destruct (nth_in_or_default r (half_id h ++ half_id h) []) as [I| ->]; [|destruct k; cbn; lra].
  destruct (nth_in_or_default k (nth r (half_id h ++ half_id h) []) 0) as [J|J]; [exact (N _ _ I J)|rewrite J; lra].
Qed.

(* the same plate with its back surface blackened: bulk absorption and reflection do not increase *)
Example C187_case : exists g h st o, valid_request 5 (PI / 2) (1 / 4) /\
  make_angle_vector 5 (PI / 2) (1 / 4) SpSin = Ok g /\ length (g_av g) = (2 * h)%nat /\ (0 < h)%nat /\
  m_fold 4 (PI / 2) /\ relabel_ok 5 4 g /\ good_direction (PI / 2) (PI / 6) (PhiNum 1) /\
  file_passive 2 h (half_mirror h) /\ file_passive 2 h (black h) /\
  transmits_less Front 2 h (half_mirror h) (half_mirror h) /\ reflects_less Rear 2 h (half_mirror h) (half_mirror h) /\
  reflects_less Front 2 h (black h) (half_mirror h) /\ ~ reflects_less Front 2 h (half_mirror h) (black h) /\
  calculate_RAT 5 (PI / 2) (1 / 4) SpSin (PI / 6) (PhiNum 1) [1; 2] 1 (half_mirror h) (half_mirror h) (half_mirror h)
    (1 / 1000) true (Z.to_nat (Zceil (ln (1 / 1000) / (- 2 * 1)) + 1)) = Ok (Some (st, o)).
Proof.
  destruct C09_case as (g & h & [st o] & A & B & C & D & E & F & G & H & I & J). exists g, h, st, o.
  pose proof (black_passive h). pose proof (trans_refl Front 2 h (half_mirror h)). pose proof (refl_refl Rear 2 h (half_mirror h)).
  assert (reflects_less Front 2 h (black h) (half_mirror h)).
  { intros w r k _ _ _. change (entry (repeat (repeat 0 h) (2 * h)) r k <= entry (half_id h ++ half_id h) r k). rewrite black_entry. apply half_entry. }
  assert (~ reflects_less Front 2 h (half_mirror h) (black h)).
  { intros X. specialize (X 0%nat 0%nat 0%nat ltac:(lia) D D). change (entry (half_id h ++ half_id h) 0 0 <= entry (repeat (repeat 0 h) (2 * h)) 0 0) in X.
    rewrite black_entry in X. destruct h; [lia|]. cbn in X. lra. }
  auto 25.
Qed.
