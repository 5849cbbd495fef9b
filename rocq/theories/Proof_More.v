(* Comparing two runs of calculate_RAT: less light in the bulk never gives more out of it. *)
From Coq Require Import Reals List ZArith Bool Lia Lra.
From Verif Require Import Base Lib Model_Angles Model_Ideal Model_MatMul Spec_Angles Spec_Matrix Spec_MatMul Spec_More Proof_MatMul Proof_RAT Proof_RAT2.
Import ListNotations.
Open Scope R_scope.

Definition vle (u v : list R) : Prop := forall k, nth k u 0 <= nth k v 0.
Definition mle (m m' : matrix) : Prop := forall r k, entry m r k <= entry m' r k.

Lemma vle_refl v : vle v v.
Proof. intros k. lra. Qed.
Lemma mle_refl m : mle m m.
Proof. intros r k. lra. Qed.

Lemma vpos_nth v k : vpos v -> 0 <= nth k v 0.
Proof. intros P. destruct (Nat.lt_ge_cases k (length v)) as [L|L]; [apply P, nth_In, L|rewrite nth_overflow by exact L; lra]. Qed.

Lemma vle_sum u v n : length u = n -> length v = n -> vle u v -> rsum u <= rsum v.
Proof. intros L1 L2 H. rewrite (rsum_nth_seq u n L1), (rsum_nth_seq v n L2). apply rsum_map_le. intros k _. apply H. Qed.

Lemma matvec_nth m v nr nc r : has_shape m nr nc -> length v = nc -> (r < nr)%nat ->
  nth r (matvec m v) 0 = rsum (map (fun k => entry m r k * nth k v 0) (seq 0 nc)).
Proof.
  intros [L1 L2] Lv Hr. unfold matvec. rewrite (nth_map_lt (fun row => dot row v) m r []) by lia. apply dot_nth; auto. apply L2, nth_In. lia.
Qed.

Lemma matvec_le m m' u v nr nc : has_shape m nr nc -> has_shape m' nr nc -> mle m m' -> nonneg_matrix m -> length u = nc -> length v = nc -> vpos u -> vle u v ->
  vle (matvec m u) (matvec m' v).
Proof.
  intros S1 S2 HM NN L1 L2 P HV r. destruct (Nat.lt_ge_cases r nr) as [L|L].
  - rewrite (matvec_nth m u nr nc), (matvec_nth m' v nr nc) by auto. apply rsum_map_le. intros k Hk. apply in_seq in Hk. specialize (HM r k). specialize (HV k).
    assert (0 <= entry m r k). { destruct S1 as [A1 A2]. apply (NN (nth r m [])); [apply nth_In; lia|]. apply nth_In. rewrite A2 by (apply nth_In; lia). lia. }
    pose proof (vpos_nth u k P). apply Rmult_le_compat; lra.
  - rewrite !nth_overflow; [lra| |]; rewrite matvec_length; [destruct S2|destruct S1]; lia.
Qed.

Lemma diag_nth d v k n : length d = n -> length v = n -> nth k (diag_mul d v) 0 = nth k d 0 * nth k v 0.
Proof.
  intros L1 L2. unfold diag_mul. destruct (Nat.lt_ge_cases k n) as [L|L]; [apply map2_nth; lia|].
  rewrite !nth_overflow; [ring| | |]; rewrite ?map2_length; lia.
Qed.

Lemma diag_le d d' u v n : length d = n -> length d' = n -> length u = n -> length v = n -> vpos d -> vpos u -> vle d d' -> vle u v ->
  vle (diag_mul d u) (diag_mul d' v).
Proof.
  intros L1 L2 L3 L4 P1 P2 H1 H2 k. rewrite (diag_nth d u k n), (diag_nth d' v k n) by auto.
  apply Rmult_le_compat; auto using vpos_nth.
Qed.

(* what the bulk takes from u is at most what it takes from v *)
Lemma taken_le d u v n : length d = n -> length u = n -> length v = n -> (forall x, In x d -> 0 <= x <= 1) -> vle u v ->
  rsum u - rsum (diag_mul d u) <= rsum v - rsum (diag_mul d v).
Proof.
  intros L1 L2 L3 D H. assert (Q : forall a, length a = n -> rsum a - rsum (diag_mul d a) = rsum (map (fun k => (1 - nth k d 0) * nth k a 0) (seq 0 n))).
  { intros a La. rewrite (rsum_nth_seq a n La), (rsum_nth_seq (diag_mul d a) n) by (apply diag_mul_length; auto).
    rewrite <- (Ropp_involutive (rsum (map (fun k => nth k (diag_mul d a) 0) (seq 0 n)))), <- Rmult_1_l with (r := - - _).
    replace (1 * - - rsum (map (fun k => nth k (diag_mul d a) 0) (seq 0 n))) with (- (-1 * rsum (map (fun k => nth k (diag_mul d a) 0) (seq 0 n)))) by ring.
    rewrite <- rsum_map_scal. unfold Rminus. rewrite Ropp_involutive, <- rsum_map_plus. apply rsum_map_ext. intros k _. rewrite (diag_nth d a k n) by auto. ring. }
  rewrite (Q u L2), (Q v L3). apply rsum_map_le. intros k Hk. apply in_seq in Hk. specialize (H k).
  assert (0 <= nth k d 0 <= 1) by (apply D, nth_In; lia). apply Rmult_le_compat_l; lra.
Qed.

Section Order.
  Variables (nwl h : nat) (S' S : mm_setup) (w : nat).
  Hypothesis HP' : passive_structure nwl h S'.
  Hypothesis HP : passive_structure nwl h S.
  Hypothesis Hw : (w < nwl)%nat.
  Hypothesis Hu : m_up2down S' = m_up2down S.
  Hypothesis Hd : m_down2up S' = m_down2up S.
  Hypothesis HD : vle (nth w (m_D S') []) (nth w (m_D S) []).
  Hypothesis HRb : mle (at_wl (m_Rb S') w) (at_wl (m_Rb S) w).
  Hypothesis HR2 : mle (at_wl (m_Rf2 S') w) (at_wl (m_Rf2 S) w).
  Let HS' := pa_shaped nwl h S' HP'.
  Let HS := pa_shaped nwl h S HP.

  Lemma dot_le m' m u v : stored_for m' nwl h h -> stored_for m nwl h h -> mle (at_wl m' w) (at_wl m w) -> nonneg_matrix (at_wl m' w) ->
    length u = h -> length v = h -> vpos u -> vle u v -> vle (dot_w m' w u) (dot_w m w v).
  Proof.
    intros S1 S2 M N L1 L2 P V. rewrite (dot_w_square m' nwl h), (dot_w_square m nwl h) by auto.
    apply (matvec_le _ _ _ _ h h); auto; eapply stored_shape; eauto.
  Qed.
  Lemma dot_sum_le m' m u v : stored_for m' nwl h h -> stored_for m nwl h h -> mle (at_wl m' w) (at_wl m w) -> nonneg_matrix (at_wl m' w) ->
    length u = h -> length v = h -> vpos u -> vle u v -> rsum (dot_w m' w u) <= rsum (dot_w m w v).
  Proof. intros S1 S2 M N L1 L2 P V. apply (vle_sum _ _ h); [eapply dot_w_len; eauto|eapply dot_w_len; eauto|]. apply dot_le; auto. Qed.
  Lemma abs_sum_le A u v : abs_stored A nwl h -> nonneg_matrix (at_wl A w) -> length u = h -> length v = h -> vpos u -> vle u v ->
    rsum (dot_w A w u) <= rsum (dot_w A w v).
  Proof.
    intros HA N L1 L2 P V. rewrite !(dot_w_abs_sum A nwl h) by auto. apply rsum_map_le. intros k _. apply Rmult_le_compat_l; [apply col_total_nonneg; auto|apply V].
  Qed.

  Lemma mid_le x' x : wlen h x' -> wlen h x -> vpos (x_v x') -> vle (x_v x') (x_v x) ->
    vle (w_f1 S' w x') (w_f1 S w x) /\ vle (w_b1 S' w x') (w_b1 S w x) /\ vle (w_b2 S' w x') (w_b2 S w x) /\ vle (w_f2' S' w x') (w_f2' S w x).
  Proof.
    intros L' L P V. destruct (w_lens nwl h S' HS' w x' Hw L') as [A1 [A2 [A3 [A4 A5]]]]. destruct (w_lens nwl h S HS w x Hw L) as [B1 [B2 [B3 [B4 B5]]]].
    destruct (w_pos nwl h S' HP' w x' Hw L' P) as [P1 [P2 [P3 [P4 [P5 _]]]]].
    destruct (pa_d2u _ _ _ HP') as [Dsh [Dnn _]]. destruct (pa_u2d _ _ _ HP') as [Ush [Unn _]].
    destruct (pa_back _ _ _ HP') as [[K1 _] [Knn _]]. destruct (pa_back _ _ _ HP) as [[K1' _] _].
    assert (DP : vpos (nth w (m_D S') [])) by (intros y Hy; apply (D_bounds nwl h S' HP' w y Hy)).
    assert (V1 : vle (w_f1 S' w x') (w_f1 S w x)).
    { unfold w_f1. rewrite <- Hd. apply (matvec_le _ _ _ _ h h); auto. apply mle_refl. }
    assert (V2 : vle (w_b1 S' w x') (w_b1 S w x)).
    { apply (diag_le _ _ _ _ h); auto; eapply D_len; eauto. }
    assert (V3 : vle (w_b2 S' w x') (w_b2 S w x)) by (apply dot_le; auto; apply Knn; auto).
    assert (V4 : vle (w_f2 S' w x') (w_f2 S w x)).
    { apply (diag_le _ _ _ _ h); auto; eapply D_len; eauto. }
    split; [exact V1|]. split; [exact V2|]. split; [exact V3|]. unfold w_f2'. rewrite <- Hu. apply (matvec_le _ _ _ _ h h); auto. apply mle_refl.
  Qed.

  Lemma v_le prof n : forall x' x, wlen h x' -> wlen h x -> vpos (x_v x') -> vle (x_v x') (x_v x) ->
    vle (x_v (witer S' prof w n x')) (x_v (witer S prof w n x)).
  Proof.
    induction n; intros x' x L' L P V; cbn [witer]; [exact V|].
    apply IHn; [apply (wlen_pass nwl h S' HS'); auto|apply (wlen_pass nwl h S HS); auto|apply (pass_grows nwl h S' HP'); auto|].
    destruct (mid_le x' x L' L P V) as [_ [_ [_ V4]]]. destruct (w_pos nwl h S' HP' w x' Hw L' P) as [_ [_ [_ [_ [P5 _]]]]].
    destruct (pa_rear _ _ _ HP') as [[K1 _] [Knn _]]. destruct (pa_rear _ _ _ HP) as [[K1' _] _].
    cbn [wpass x_v]. apply dot_le; auto; try (eapply w_lens; eauto). apply Knn; auto.
  Qed.

  (* same front surface: what leaves through it and what it absorbs *)
  Lemma front_le prof n : at_wl (m_Tb S') w = at_wl (m_Tb S) w -> m_Ab S' = m_Ab S ->
    forall x' x, wlen h x' -> wlen h x -> vpos (x_v x') -> vle (x_v x') (x_v x) -> x_r x' <= x_r x -> x_a0 x' <= x_a0 x ->
    x_r (witer S' prof w n x') <= x_r (witer S prof w n x) /\ x_a0 (witer S' prof w n x') <= x_a0 (witer S prof w n x).
  Proof.
    intros HTb HAb. induction n; intros x' x L' L P V H1 H3; cbn [witer]; [auto|].
    destruct (mid_le x' x L' L P V) as [_ [_ [_ V4]]]. destruct (w_pos nwl h S' HP' w x' Hw L' P) as [_ [_ [_ [_ [P5 _]]]]].
    destruct (w_lens nwl h S' HS' w x' Hw L') as [A1 [A2 [A3 [A4 A5]]]]. destruct (w_lens nwl h S HS w x Hw L) as [B1 [B2 [B3 [B4 B5]]]].
    destruct (pa_rear _ _ _ HP') as [[K1 [K2 K3]] [Knn _]]. destruct (pa_rear _ _ _ HP) as [[K1' [K2' K3']] _]. destruct (Knn w Hw) as [N1 [N2 N3]].
    apply IHn; try (apply (wlen_pass nwl h S' HS'); auto); try (apply (wlen_pass nwl h S HS); auto); try (apply (pass_grows nwl h S' HP'); auto);
      cbn [wpass x_v x_r x_a0].
    - apply dot_le; auto.
    - apply Rplus_le_compat; [exact H1|]. apply dot_sum_le; auto. rewrite HTb. apply mle_refl.
    - apply Rplus_le_compat; [exact H3|]. rewrite <- HAb. apply abs_sum_le; auto.
  Qed.

  (* same back surface *)
  Lemma back_le prof n : at_wl (m_Tf2 S') w = at_wl (m_Tf2 S) w -> m_Af2 S' = m_Af2 S ->
    forall x' x, wlen h x' -> wlen h x -> vpos (x_v x') -> vle (x_v x') (x_v x) -> x_t x' <= x_t x -> x_a1 x' <= x_a1 x ->
    x_t (witer S' prof w n x') <= x_t (witer S prof w n x) /\ x_a1 (witer S' prof w n x') <= x_a1 (witer S prof w n x).
  Proof.
    intros HT2 HA2. induction n; intros x' x L' L P V H2 H4; cbn [witer]; [auto|].
    destruct (mid_le x' x L' L P V) as [_ [V2 [_ V4]]]. destruct (w_pos nwl h S' HP' w x' Hw L' P) as [_ [P2 [_ [_ [P5 _]]]]].
    destruct (w_lens nwl h S' HS' w x' Hw L') as [A1 [A2 [A3 [A4 A5]]]]. destruct (w_lens nwl h S HS w x Hw L) as [B1 [B2 [B3 [B4 B5]]]].
    destruct (pa_rear _ _ _ HP') as [[K1 [K2 K3]] [Knn _]]. destruct (pa_rear _ _ _ HP) as [[K1' [K2' K3']] _].
    destruct (pa_back _ _ _ HP') as [[J1 [J2 J3]] [Jnn _]]. destruct (pa_back _ _ _ HP) as [[J1' [J2' J3']] _].
    destruct (Knn w Hw) as [N1 [N2 N3]]. destruct (Jnn w Hw) as [N4 [N5 N6]].
    apply IHn; try (apply (wlen_pass nwl h S' HS'); auto); try (apply (wlen_pass nwl h S HS); auto); try (apply (pass_grows nwl h S' HP'); auto);
      cbn [wpass x_v x_t x_a1].
    - apply dot_le; auto.
    - apply Rplus_le_compat; [exact H2|]. apply dot_sum_le; auto. rewrite HT2. apply mle_refl.
    - apply Rplus_le_compat; [exact H4|]. rewrite <- HA2. apply abs_sum_le; auto.
  Qed.

  (* same bulk: what it absorbs *)
  Lemma bulk_le prof n : nth w (m_D S') [] = nth w (m_D S) [] -> forall x' x, wlen h x' -> wlen h x -> vpos (x_v x') -> vle (x_v x') (x_v x) ->
    vpos (x_v x) -> x_A x' <= x_A x -> x_A (witer S' prof w n x') <= x_A (witer S prof w n x).
  Proof.
    intros ED. induction n; intros x' x L' L P V PX H; cbn [witer]; [exact H|].
    destruct (mid_le x' x L' L P V) as [V1 [V2 [V3 V4]]]. destruct (w_pos nwl h S' HP' w x' Hw L' P) as [_ [P2 [P3 [_ [P5 [_ [_ [_ Q1]]]]]]]].
    destruct (w_pos nwl h S HP w x Hw L PX) as [_ [_ [_ [_ [_ [_ [_ [_ Q2]]]]]]]].
    destruct (w_lens nwl h S' HS' w x' Hw L') as [A1 [A2 [A3 [A4 A5]]]]. destruct (w_lens nwl h S HS w x Hw L) as [B1 [B2 [B3 [B4 B5]]]].
    destruct (pa_rear _ _ _ HP') as [[K1 [K2 K3]] [Knn _]]. destruct (pa_rear _ _ _ HP) as [[K1' [K2' K3']] _].
    apply IHn; try (apply (wlen_pass nwl h S' HS'); auto); try (apply (wlen_pass nwl h S HS); auto); try (apply (pass_grows nwl h S' HP'); auto); try (apply (pass_grows nwl h S HP); auto);
      cbn [wpass x_v x_A].
    - apply dot_le; auto. apply Knn; auto.
    - assert (T1 : rsum (w_f1 S' w x') - rsum (w_b1 S' w x') <= rsum (w_f1 S w x) - rsum (w_b1 S w x)).
      { unfold w_b1. rewrite ED. apply (taken_le _ _ _ h); auto; [eapply D_len; eauto|apply (D_bounds nwl h S HP w)]. }
      assert (T2 : rsum (w_b2 S' w x') - rsum (w_f2 S' w x') <= rsum (w_b2 S w x) - rsum (w_f2 S w x)).
      { unfold w_f2. rewrite ED. apply (taken_le _ _ _ h); auto; [eapply D_len; eauto|apply (D_bounds nwl h S HP w)]. }
      destruct prof; rewrite ?Q1, ?Q2; lra.
  Qed.
End Order.

Lemma loop_more prof S n : forall m st st', (n <= m)%nat -> mm_loop prof S n st = Some st' -> mm_loop prof S m st = Some st'.
Proof.
  induction n; intros m st st' L H; cbn [mm_loop] in H; destruct (go_on S st) eqn:E; try discriminate.
  - destruct m; cbn [mm_loop]; rewrite E; exact H.
  - destruct m; [lia|]. cbn [mm_loop]. rewrite E. apply IHn; [lia|exact H].
  - destruct m; cbn [mm_loop]; rewrite E; exact H.
Qed.

(* the run with less light ends no later *)
Lemma ends_sooner nwl h S' S prof v0 fuel st : passive_structure nwl h S' -> passive_structure nwl h S -> incident nwl h v0 -> nonneg_power v0 ->
  m_thresh S' = m_thresh S ->
  (forall w n, (w < nwl)%nat -> vle (x_v (witer S' prof w n (winit S' w (nth w v0 [])))) (x_v (witer S prof w n (winit S w (nth w v0 []))))) ->
  mm_loop prof S fuel (mm_init S v0) = Some st ->
  exists st' n' n, mm_loop prof S' fuel (mm_init S' v0) = Some st' /\ (n' <= n)%nat /\
    forall w, (w < nwl)%nat -> view w st' = witer S' prof w n' (winit S' w (nth w v0 [])) /\ view w st = witer S prof w n (winit S w (nth w v0 [])).
Proof.
  intros HP' HP HI HN HT HV HL. pose proof (pa_shaped _ _ _ HP') as HS'. pose proof (pa_shaped _ _ _ HP) as HS.
  destruct (mm_loop_iter S prof fuel _ _ HL) as (n & Ln & En & Gn & _).
  pose proof (init_len nwl h S' HS' v0 HI) as I'. pose proof (init_len nwl h S HS v0 HI) as I.
  assert (VW' : forall w k, (w < nwl)%nat -> view w (miter S' prof k (mm_init S' v0)) = witer S' prof w k (winit S' w (nth w v0 []))).
  { intros w k Hw. rewrite (view_iter nwl h S' HS') by auto. rewrite (view_init nwl h S' HS' v0 w HI Hw). reflexivity. }
  assert (VW : forall w k, (w < nwl)%nat -> view w (miter S prof k (mm_init S v0)) = witer S prof w k (winit S w (nth w v0 []))).
  { intros w k Hw. rewrite (view_iter nwl h S HS) by auto. rewrite (view_init nwl h S HS v0 w HI Hw). reflexivity. }
  assert (G' : go_on S' (miter S' prof n (mm_init S' v0)) = false).
  { destruct (go_on S' (miter S' prof n (mm_init S' v0))) eqn:E; [|reflexivity]. exfalso. unfold go_on in E. apply existsb_exists in E. destruct E as (p & Hp & Lp). apply Rltb_true in Lp.
    unfold sums in Hp. apply in_map_iff in Hp. destruct Hp as (v & <- & Hv). apply In_nth with (d := []) in Hv. destruct Hv as (w & Hw & <-).
    rewrite (miter_len nwl h S' HS' prof n _ I') in Hw.
    assert (B : rsum (nth w (s_vf1 st) []) <= m_thresh S). { apply (go_on_false S); auto. rewrite En, (miter_len nwl h S HS prof n _ I). exact Hw. }
    assert (Q' : nth w (s_vf1 (miter S' prof n (mm_init S' v0))) [] = x_v (witer S' prof w n (winit S' w (nth w v0 [])))) by (rewrite <- VW' by exact Hw; reflexivity).
    assert (Q : nth w (s_vf1 st) [] = x_v (witer S prof w n (winit S w (nth w v0 [])))) by (rewrite <- VW by exact Hw; rewrite En; reflexivity).
    rewrite Q' in Lp. rewrite Q in B.
    pose proof (vle_sum _ _ h (wlen_iter nwl h S' HS' prof w n Hw _ (wlen_init nwl h S' HS' w _ Hw)) (wlen_iter nwl h S HS prof w n Hw _ (wlen_init nwl h S HS w _ Hw)) (HV w n Hw)). lra. }
  destruct (loop_stops prof S' n _ G') as [st' E']. destruct (mm_loop_iter S' prof n _ _ E') as (n' & Ln' & En' & _).
  exists st', n', n. split; [exact (loop_more prof S' n fuel _ _ Ln E')|]. split; [exact Ln'|]. intros w Hw. rewrite En', En. auto.
Qed.

Lemma witer_add S prof w a : forall b x, witer S prof w (a + b) x = witer S prof w b (witer S prof w a x).
Proof. induction a; intros b x; cbn [Nat.add witer]; auto. Qed.

Lemma entry_over m nr nc r k : has_shape m nr nc -> ~ ((r < nr)%nat /\ (k < nc)%nat) -> entry m r k = 0.
Proof.
  intros [L1 L2] H. unfold entry. destruct (Nat.lt_ge_cases r nr) as [A|A].
  - apply nth_overflow. rewrite L2 by (apply nth_In; lia). lia.
  - rewrite (nth_overflow m) by lia. apply nth_overflow. cbn. lia.
Qed.
Lemma mle_in m m' nr nc : has_shape m nr nc -> has_shape m' nr nc -> (forall r k, (r < nr)%nat -> (k < nc)%nat -> entry m r k <= entry m' r k) -> mle m m'.
Proof.
  intros S1 S2 H r k. destruct (Nat.lt_ge_cases r nr) as [A|A]; [destruct (Nat.lt_ge_cases k nc) as [B|B]|]; auto;
    rewrite (entry_over m nr nc), (entry_over m' nr nc) by (auto; lia); lra.
Qed.

Lemma reflects_mle s nwl h f' f w : (w < nwl)%nat -> file_shaped nwl h f' -> file_shaped nwl h f -> reflects_less s nwl h f' f ->
  mle (at_wl (fst (split_wmat s h (f_RT f'))) w) (at_wl (fst (split_wmat s h (f_RT f))) w).
Proof.
  intros Hw HF' HF HR. pose proof (proj1 (split_data s nwl h f' HF')) as D'. pose proof (proj1 (split_data s nwl h f HF)) as D.
  apply (mle_in _ _ h h); [eapply stored_shape; eauto|eapply stored_shape; eauto|]. intros r k Hr Hk. rewrite !at_split_R.
  assert (S' : has_shape (at_wl (f_RT f') w) (2 * h) h) by (eapply stored_shape; [apply HF'|auto]).
  assert (S0 : has_shape (at_wl (f_RT f) w) (2 * h) h) by (eapply stored_shape; [apply HF|auto]).
  rewrite (proj1 (split_entries s h _ h S' r k Hr)), (proj1 (split_entries s h _ h S0 r k Hr)). apply (HR w r k); auto.
Qed.
Lemma transmits_mle s nwl h f' f w : (w < nwl)%nat -> file_shaped nwl h f' -> file_shaped nwl h f -> transmits_less s nwl h f' f ->
  mle (at_wl (snd (split_wmat s h (f_RT f'))) w) (at_wl (snd (split_wmat s h (f_RT f))) w).
Proof.
  intros Hw HF' HF HR. pose proof (proj1 (proj2 (split_data s nwl h f' HF'))) as D'. pose proof (proj1 (proj2 (split_data s nwl h f HF))) as D.
  apply (mle_in _ _ h h); [eapply stored_shape; eauto|eapply stored_shape; eauto|]. intros r k Hr Hk. rewrite !at_split_T.
  assert (S' : has_shape (at_wl (f_RT f') w) (2 * h) h) by (eapply stored_shape; [apply HF'|auto]).
  assert (S0 : has_shape (at_wl (f_RT f) w) (2 * h) h) by (eapply stored_shape; [apply HF|auto]).
  rewrite (proj2 (split_entries s h _ h S' r k Hr)), (proj2 (split_entries s h _ h S0 r k Hr)). apply (HR w r k); auto.
Qed.

Lemma refl_refl s nwl h f : reflects_less s nwl h f f.
Proof. intros w r k _ _ _. lra. Qed.
Lemma trans_refl s nwl h f : transmits_less s nwl h f f.
Proof. intros w r k _ _ _. lra. Qed.

Lemma in_nth_less alphas (thick : R) : (forall w, (w < length alphas)%nat -> 0 <= nth w alphas 0 * thick) -> forall a, In a alphas -> 0 <= a * thick.
Proof. intros H a Ha. destruct (In_nth _ _ 0 Ha) as (w & Lw & <-). auto. Qed.

Section Two.
  Variables (n : nat) (phi_sym c : R) (sp : spacing) (g : grid) (h : nat) (m : nat) (theta : R) (phi_in : phi_opt).
  Variables (alphas alphas' : list R) (thick thick' : R) (f0 b0 f1 f0' b0' f1' : stored) (thresh : R) (prof : bool) (fuel : nat).
  Hypothesis Hv : valid_request n phi_sym c.
  Hypothesis Hg : make_angle_vector n phi_sym c sp = Ok g.
  Hypothesis Hh : length (g_av g) = (2 * h)%nat.
  Hypothesis Hm : m_fold m phi_sym.
  Hypothesis Hok : relabel_ok n m g.
  Hypothesis Hd : good_direction phi_sym theta phi_in.
  Hypothesis HA : absorbs_less alphas thick alphas' thick'.
  Hypothesis F0 : file_passive (length alphas) h f0.
  Hypothesis F1 : file_passive (length alphas) h b0.
  Hypothesis F2 : file_passive (length alphas) h f1.
  Hypothesis F0' : file_passive (length alphas) h f0'.
  Hypothesis F1' : file_passive (length alphas) h b0'.
  Hypothesis F2' : file_passive (length alphas) h f1'.
  Hypothesis T0 : transmits_less Front (length alphas) h f0' f0.
  Hypothesis R1 : reflects_less Rear (length alphas) h b0' b0.
  Hypothesis R2 : reflects_less Front (length alphas) h f1' f1.

  Definition both (st' : mm_state) (o' : rat) (st : mm_state) (o : rat) : Prop :=
    (f0' = f0 -> b0' = b0 -> forall w, (w < length alphas)%nat -> R_at o' w <= R_at o w /\ A_front_at st' w <= A_front_at st w) /\
    (f1' = f1 -> forall w, (w < length alphas)%nat -> T_at o' w <= T_at o w /\ A_back_at st' w <= A_back_at st w) /\
    (thick' = thick -> alphas' = alphas -> forall w, (w < length alphas)%nat -> A_bulk_at o' w <= A_bulk_at o w).

  Lemma two_runs st o :
    calculate_RAT n phi_sym c sp theta phi_in alphas thick f0 b0 f1 thresh prof fuel = Ok (Some (st, o)) ->
    exists st' o', calculate_RAT n phi_sym c sp theta phi_in alphas' thick' f0' b0' f1' thresh prof fuel = Ok (Some (st', o')) /\ both st' o' st o.
  Proof.
    intros HR. destruct HA as [LA HB]. set (nwl := length alphas) in *.
    assert (P0 : forall a, In a alphas -> 0 <= a * thick) by (apply in_nth_less; intros w Lw; apply (HB w Lw)).
    assert (P0' : forall a, In a alphas' -> 0 <= a * thick') by (apply in_nth_less; intros w Lw; rewrite <- LA in Lw; pose proof (HB w Lw); lra).
    destruct (calc_unfold n phi_sym c sp g h Hv Hg Hh m theta phi_in alphas thick f0 b0 f1 thresh Hm Hok Hd) as [S [row [ES [Er [E [L1 [L2 L3]]]]]]].
    destruct (calc_unfold n phi_sym c sp g h Hv Hg Hh m theta phi_in alphas' thick' f0' b0' f1' thresh Hm Hok Hd) as [S' [row' [ES' [Er' [E' [_ _]]]]]].
    assert (row' = row) by congruence. subst row'.
    destruct (build_pa n phi_sym c sp g h Hv Hg Hh m alphas thick f0 b0 f1 thresh S Hm Hok P0 F0 F1 F2 ES) as [P T].
    destruct (build_pa n phi_sym c sp g h Hv Hg Hh m alphas' thick' f0' b0' f1' thresh S' Hm Hok P0') as [P' T']; try (rewrite <- LA; auto); auto.
    rewrite <- LA in P', E'. fold nwl in P, P', E, E'.
    rewrite E in HR. inversion HR as [HR2]. destruct (mm_inv _ _ _ _ _ _ HR2) as [HL ->]. clear HR HR2.
    destruct (build_ok n phi_sym c sp g h Hv Hg Hh m alphas thick f0 b0 f1 thresh Hm Hok) as [u [d [Eo [_ [_ EB]]]]].
    destruct (build_ok n phi_sym c sp g h Hv Hg Hh m alphas' thick' f0' b0' f1' thresh Hm Hok) as [u' [d' [Eo' [_ [_ EB']]]]].
    rewrite Eo in Eo'. inversion Eo'. subst u' d'. clear Eo'. rewrite EB in ES. rewrite EB' in ES'. inversion ES as [QS]. inversion ES' as [QS']. clear ES ES' EB EB'.
    pose proof (pa_shaped _ _ _ P) as HS. pose proof (pa_shaped _ _ _ P') as HS'.
    assert (Lth : length (map a_theta (firstn h (g_av g))) = h) by (apply thetas_len; exact Hh).
    assert (HD : forall w, (w < nwl)%nat -> vle (nth w (m_D S') []) (nth w (m_D S) [])).
    { intros w Hw k. destruct (Nat.lt_ge_cases k h) as [Lk|Lk].
      - rewrite <- QS, <- QS'. cbn [m_D]. rewrite !make_D_nth by (rewrite ?Lth, <- ?LA; auto). apply exp_le.
        assert (Hc : 0 < Rabs (cos (nth k (map a_theta (firstn h (g_av g))) 0))).
        { apply cos_abs. apply (theta_upper n phi_sym c sp g h); auto. apply nth_In. rewrite Lth. exact Lk. }
        apply quot_le; [exact Hc|]. pose proof (HB w Hw). lra.
      - assert (X : length (nth w (m_D S) []) = h) by (eapply D_len; eauto). assert (X' : length (nth w (m_D S') []) = h) by (eapply D_len; eauto).
        rewrite !nth_overflow; [lra| |]; lia. }
    assert (HTf : forall w, (w < nwl)%nat -> mle (at_wl (m_Tf S') w) (at_wl (m_Tf S) w)).
    { intros w Hw. rewrite <- QS, <- QS'. cbn [m_Tf]. apply (transmits_mle Front nwl); auto; [apply F0'|apply F0]. }
    assert (HRb : forall w, (w < nwl)%nat -> mle (at_wl (m_Rb S') w) (at_wl (m_Rb S) w)).
    { intros w Hw. rewrite <- QS, <- QS'. cbn [m_Rb]. apply (reflects_mle Rear nwl); auto; [apply F1'|apply F1]. }
    assert (HRf2 : forall w, (w < nwl)%nat -> mle (at_wl (m_Rf2 S') w) (at_wl (m_Rf2 S) w)).
    { intros w Hw. rewrite <- QS, <- QS'. cbn [m_Rf2]. apply (reflects_mle Front nwl); auto; [apply F2'|apply F2]. }
    assert (Hu : m_up2down S' = m_up2down S) by (rewrite <- QS, <- QS'; reflexivity).
    assert (Hdd : m_down2up S' = m_down2up S) by (rewrite <- QS, <- QS'; reflexivity).
    pose proof (incident_repeat h row nwl L1) as HI.
    assert (Hnn : nonneg_power (repeat row nwl)) by (intros v x Hv' Hx; apply repeat_spec in Hv'; subst; auto).
    assert (Hrow : forall w, (w < nwl)%nat -> nth w (repeat row nwl) [] = row) by (intros; apply nth_repeat_row; auto).
    assert (I' : forall w, (w < nwl)%nat -> vpos (x_v (winit S' w row))).
    { intros w Hw. destruct (init_pos nwl h S' P' w row Hw L1 L3) as [[Q _] _]. exact Q. }
    assert (I0 : forall w, (w < nwl)%nat -> vpos (x_v (winit S w row))).
    { intros w Hw. destruct (init_pos nwl h S P w row Hw L1 L3) as [[Q _] _]. exact Q. }
    assert (IV : forall w, (w < nwl)%nat -> vle (x_v (winit S' w row)) (x_v (winit S w row))).
    { intros w Hw. cbn [winit x_v]. destruct (pa_front _ _ _ P') as [[_ [K _]] [Knn _]]. destruct (pa_front _ _ _ P) as [[_ [K' _]] _].
      apply (dot_le nwl h w Hw); auto; [apply Knn; auto|apply vle_refl]. }
    destruct (ends_sooner nwl h S' S prof (repeat row nwl) fuel st P' P HI Hnn) as (st' & n' & nn & HL' & Hn & HV); [congruence| |exact HL|].
    { intros w k Hw. rewrite Hrow by exact Hw. apply (v_le nwl h S' S w P' P Hw Hu Hdd (HD w Hw) (HRb w Hw) (HRf2 w Hw)); auto; [apply (wlen_init nwl h S' HS'); auto|apply (wlen_init nwl h S HS); auto]. }
    exists st', (mm_result prof (length (repeat row nwl)) st'). split.
    { rewrite E'. unfold matrix_multiplication. rewrite HL'. reflexivity. }
    assert (GR : forall w, (w < nwl)%nat -> let y := witer S prof w n' (winit S w row) in let z := view w st in
      x_r y <= x_r z /\ x_t y <= x_t z /\ x_a0 y <= x_a0 z /\ x_a1 y <= x_a1 z /\ x_A y <= x_A z).
    { intros w Hw y z. unfold z. rewrite (proj2 (HV w Hw)), Hrow by exact Hw. replace nn with (n' + (nn - n'))%nat by lia. rewrite witer_add. fold y.
      pose proof (wlen_init nwl h S HS w row Hw) as W0.
      destruct (iter_grows nwl h S P prof w n' Hw _ W0 (I0 w Hw)) as [Gv _].
      destruct (iter_grows nwl h S P prof w (nn - n') Hw y (wlen_iter nwl h S HS prof w n' Hw _ W0) Gv) as [_ [A1 [A2 [A3 [A4 [A5 _]]]]]]. auto. }
    split; [|split].
    - intros Q0 Q1 w Hw.
      assert (LE : x_r (witer S' prof w n' (winit S' w row)) <= x_r (witer S prof w n' (winit S w row)) /\
        x_a0 (witer S' prof w n' (winit S' w row)) <= x_a0 (witer S prof w n' (winit S w row))).
      { apply (front_le nwl h S' S w P' P Hw Hu Hdd (HD w Hw) (HRb w Hw) (HRf2 w Hw)); try (rewrite <- QS, <- QS', Q1; reflexivity); auto;
          try (apply (wlen_init nwl h S' HS'); auto); try (apply (wlen_init nwl h S HS); auto); rewrite <- QS, <- QS', Q0; apply Rle_refl. }
      destruct (result_view prof S fuel _ st w HL ltac:(rewrite repeat_length; exact Hw)) as [V1 [_ [_ [V4 _]]]].
      destruct (result_view prof S' fuel _ st' w HL' ltac:(rewrite repeat_length; exact Hw)) as [V1' [_ [_ [V4' _]]]].
      rewrite V1, V4, V1', V4'. rewrite (proj1 (HV w Hw)), Hrow by exact Hw.
      destruct LE as [X1 X3]. destruct (GR w Hw) as [Y1 [_ [Y3 _]]]. cbv zeta in *. split; eapply Rle_trans; eauto.
    - intros Q2 w Hw.
      assert (LE : x_t (witer S' prof w n' (winit S' w row)) <= x_t (witer S prof w n' (winit S w row)) /\
        x_a1 (witer S' prof w n' (winit S' w row)) <= x_a1 (witer S prof w n' (winit S w row))).
      { apply (back_le nwl h S' S w P' P Hw Hu Hdd (HD w Hw) (HRb w Hw) (HRf2 w Hw)); try (rewrite <- QS, <- QS', Q2; reflexivity); auto;
          try (apply (wlen_init nwl h S' HS'); auto); try (apply (wlen_init nwl h S HS); auto); cbn; lra. }
      destruct (result_view prof S fuel _ st w HL ltac:(rewrite repeat_length; exact Hw)) as [_ [V2 [_ [_ [V5 _]]]]].
      destruct (result_view prof S' fuel _ st' w HL' ltac:(rewrite repeat_length; exact Hw)) as [_ [V2' [_ [_ [V5' _]]]]].
      rewrite V2, V5, V2', V5'. rewrite (proj1 (HV w Hw)), Hrow by exact Hw.
      destruct LE as [X2 X4]. destruct (GR w Hw) as [_ [Y2 [_ [Y4 _]]]]. cbv zeta in *. split; eapply Rle_trans; eauto.
    - intros Q1 Q2 w Hw.
      assert (LE : x_A (witer S' prof w n' (winit S' w row)) <= x_A (witer S prof w n' (winit S w row))).
      { apply (bulk_le nwl h S' S w P' P Hw Hu Hdd (HD w Hw) (HRb w Hw) (HRf2 w Hw)); auto;
          try (apply (wlen_init nwl h S' HS'); auto); try (apply (wlen_init nwl h S HS); auto); [|cbn; lra].
        rewrite <- QS, <- QS', Q1, Q2. reflexivity. }
      destruct (result_view prof S fuel _ st w HL ltac:(rewrite repeat_length; exact Hw)) as [_ [_ [V3 _]]].
      destruct (result_view prof S' fuel _ st' w HL' ltac:(rewrite repeat_length; exact Hw)) as [_ [_ [V3' _]]].
      rewrite V3, V3'. rewrite (proj1 (HV w Hw)), Hrow by exact Hw. destruct (GR w Hw) as [_ [_ [_ [_ Y5]]]]. cbv zeta in *. lra.
  Qed.
End Two.

(* ---------- C186 ---------- *)

Lemma C186_ex n phi_sym c sp g h m theta phi_in alphas alphas' thick thick' f0 b0 f1 thresh prof fuel st o :
  valid_request n phi_sym c -> make_angle_vector n phi_sym c sp = Ok g -> length (g_av g) = (2 * h)%nat ->
  m_fold m phi_sym -> relabel_ok n m g -> good_direction phi_sym theta phi_in -> absorbs_less alphas thick alphas' thick' ->
  file_passive (length alphas) h f0 -> file_passive (length alphas) h b0 -> file_passive (length alphas) h f1 ->
  calculate_RAT n phi_sym c sp theta phi_in alphas thick f0 b0 f1 thresh prof fuel = Ok (Some (st, o)) ->
  exists st' o', calculate_RAT n phi_sym c sp theta phi_in alphas' thick' f0 b0 f1 thresh prof fuel = Ok (Some (st', o')) /\
    forall w, (w < length alphas)%nat ->
      R_at o' w <= R_at o w /\ T_at o' w <= T_at o w /\ A_front_at st' w <= A_front_at st w /\ A_back_at st' w <= A_back_at st w /\
      (file_conserves (length alphas) h f0 -> file_conserves (length alphas) h b0 -> file_conserves (length alphas) h f1 ->
        A_bulk_at o w + still_travelling st w <= A_bulk_at o' w + still_travelling st' w /\ A_bulk_at o w - thresh <= A_bulk_at o' w).
Proof.
  intros Hv Hg Hh Hm Hok Hd HA F0 F1 F2 HR.
  destruct (two_runs n phi_sym c sp g h m theta phi_in alphas alphas' thick thick' f0 b0 f1 f0 b0 f1 thresh prof fuel Hv Hg Hh Hm Hok Hd HA F0 F1 F2 F0 F1 F2
    (trans_refl _ _ _ _) (refl_refl _ _ _ _) (refl_refl _ _ _ _) st o HR) as (st' & o' & HR' & B1 & B2 & _).
  exists st', o'. split; [exact HR'|]. intros w Hw. destruct (B1 eq_refl eq_refl w Hw) as [C1 C3]. destruct (B2 eq_refl w Hw) as [C2 C4].
  repeat split; auto.
  - destruct (C09_ex n phi_sym c sp g h m theta phi_in alphas thick f0 b0 f1 thresh prof fuel Hv Hg Hh Hm Hok Hd H H0 H1) as (r & Er & X). rewrite HR in Er. inversion Er as [Er'].
    destruct HA as [LA _]. rewrite LA in H, H0, H1, Hw.
    destruct (C09_ex n phi_sym c sp g h m theta phi_in alphas' thick' f0 b0 f1 thresh prof fuel Hv Hg Hh Hm Hok Hd H H0 H1) as (r' & Er2 & X'). rewrite HR' in Er2. inversion Er2 as [Er2'].
    destruct (X st o (eq_sym Er') w ltac:(rewrite LA; exact Hw)) as [Y _]. destruct (X' st' o' (eq_sym Er2') w Hw) as [Y' _]. lra.
  - assert (Pa : forall a, In a alphas -> 0 <= a * thick) by (apply in_nth_less; intros v Lv; apply (proj2 HA v Lv)).
    destruct (C10_ex n phi_sym c sp g h m theta phi_in alphas thick f0 b0 f1 thresh prof fuel st o Hv Hg Hh Hm Hok Hd Pa F0 F1 F2 HR w Hw) as [_ [_ [_ [_ [_ [Z _]]]]]].
    destruct (C09_ex n phi_sym c sp g h m theta phi_in alphas thick f0 b0 f1 thresh prof fuel Hv Hg Hh Hm Hok Hd H H0 H1) as (r & Er & X). rewrite HR in Er. inversion Er as [Er'].
    destruct HA as [LA _]. rewrite LA in H, H0, H1, Hw.
    destruct (C09_ex n phi_sym c sp g h m theta phi_in alphas' thick' f0 b0 f1 thresh prof fuel Hv Hg Hh Hm Hok Hd H H0 H1) as (r' & Er2 & X'). rewrite HR' in Er2. inversion Er2 as [Er2'].
    destruct (X st o (eq_sym Er') w ltac:(rewrite LA; exact Hw)) as [Y _]. destruct (X' st' o' (eq_sym Er2') w Hw) as [Y' W]. lra.
Qed.

(* ---------- C187 ---------- *)

Lemma C187_ex n phi_sym c sp g h m theta phi_in alphas thick f0 b0 f1 f0' b0' f1' thresh prof fuel st o :
  valid_request n phi_sym c -> make_angle_vector n phi_sym c sp = Ok g -> length (g_av g) = (2 * h)%nat ->
  m_fold m phi_sym -> relabel_ok n m g -> good_direction phi_sym theta phi_in -> (forall a, In a alphas -> 0 <= a * thick) ->
  file_passive (length alphas) h f0 -> file_passive (length alphas) h b0 -> file_passive (length alphas) h f1 ->
  file_passive (length alphas) h f0' -> file_passive (length alphas) h b0' -> file_passive (length alphas) h f1' ->
  transmits_less Front (length alphas) h f0' f0 -> reflects_less Rear (length alphas) h b0' b0 -> reflects_less Front (length alphas) h f1' f1 ->
  calculate_RAT n phi_sym c sp theta phi_in alphas thick f0 b0 f1 thresh prof fuel = Ok (Some (st, o)) ->
  exists st' o', calculate_RAT n phi_sym c sp theta phi_in alphas thick f0' b0' f1' thresh prof fuel = Ok (Some (st', o')) /\
    forall w, (w < length alphas)%nat ->
      A_bulk_at o' w <= A_bulk_at o w /\
      (f0' = f0 -> b0' = b0 -> R_at o' w <= R_at o w /\ A_front_at st' w <= A_front_at st w) /\
      (f1' = f1 -> T_at o' w <= T_at o w /\ A_back_at st' w <= A_back_at st w).
Proof.
  intros Hv Hg Hh Hm Hok Hd HA F0 F1 F2 F0' F1' F2' T0 R1 R2 HR.
  assert (LA : absorbs_less alphas thick alphas thick).
  { split; [reflexivity|]. intros w Lw. split; [apply HA, nth_In, Lw|lra]. }
  destruct (two_runs n phi_sym c sp g h m theta phi_in alphas alphas thick thick f0 b0 f1 f0' b0' f1' thresh prof fuel Hv Hg Hh Hm Hok Hd LA F0 F1 F2 F0' F1' F2'
    T0 R1 R2 st o HR) as (st' & o' & HR' & B1 & B2 & B3).
  exists st', o'. split; [exact HR'|]. intros w Hw. split; [apply (B3 eq_refl eq_refl w Hw)|]. split; intros; [apply B1|apply B2]; auto.
Qed.
