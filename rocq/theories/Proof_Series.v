(* The loop of calculate_RAT computes the pass series of Spec_Series. *)
From Coq Require Import Reals List ZArith Bool Lia Lra.
From Verif Require Import Base Lib Model_Angles Spec_Angles Model_Ideal Model_MatMul Spec_Matrix Spec_MatMul Spec_Series
  Proof_Angles Proof_Ideal Proof_IdealProps Proof_MatMul Proof_OutIn Proof_OutInProps Proof_RAT Proof_RAT2 Proof_Profile Proof_RAT3.
Import ListNotations.
Open Scope R_scope.

Lemma times_matvec m v nr nc : has_shape m nr nc -> length v = nc -> times m v = matvec m v.
Proof.
  intros [_ H] Hv. unfold times, matvec. apply map_ext_in. intros row Hr. symmetry.
  rewrite Hv. apply dot_nth; auto.
Qed.

Lemma over_S n f : over (S n) f = over n f + f n.
Proof. unfold over. rewrite seq_S, map_app, rsum_app. simpl. lra. Qed.

Section Series.
  Variables (n : nat) (phi_sym c : R) (sp : spacing) (g : grid) (h : nat).
  Hypothesis Hv : valid_request n phi_sym c.
  Hypothesis Hg : make_angle_vector n phi_sym c sp = Ok g.
  Hypothesis Hh : length (g_av g) = (2 * h)%nat.
  Variables (u d : list (list R)) (alphas : list R) (thick : R) (f0 b0 f1 : stored) (thresh : R) (row : list R).
  Hypothesis Ku : keeps_power h u.
  Hypothesis Kd : keeps_power h d.
  Hypothesis F0 : file_shaped (length alphas) h f0.
  Hypothesis B0 : file_shaped (length alphas) h b0.
  Hypothesis F1 : file_shaped (length alphas) h f1.
  Hypothesis Hrow : length row = h.

  Let S := mk_setup
      (fst (split_wmat Front h (f_RT f0))) (snd (split_wmat Front h (f_RT f0))) (f_A f0)
      (fst (split_wmat Rear h (f_RT b0))) (snd (split_wmat Rear h (f_RT b0))) (f_A b0)
      (fst (split_wmat Front h (f_RT f1))) (snd (split_wmat Front h (f_RT f1))) (f_A f1)
      u d (make_D alphas thick (map a_theta (firstn h (g_av g)))) thresh.

  Lemma series_shaped : shaped (length alphas) h S.
  Proof.
    constructor; cbn; auto using split_data; try apply Ku; try apply Kd.
    eapply D_data; eauto.
  Qed.

  Lemma across_D w v : (w < length alphas)%nat -> length v = h ->
    diag_mul (nth w (m_D S) []) v = across g h alphas thick w v.
  Proof.
    intros Hw Hl. destruct (D_data g h Hh alphas thick) as [L1 L2].
    assert (LD : length (nth w (m_D S) []) = h) by (apply L2, nth_In; cbn; lia).
    apply list_ext with (d := 0).
    - rewrite (diag_mul_length _ _ h) by auto. unfold across. rewrite map_length, seq_length. auto.
    - intros i Hi. rewrite (diag_mul_length _ _ h) in Hi by auto. unfold diag_mul.
      rewrite map2_nth with (da := 0) (db := 0) by lia.
      unfold across. rewrite nth_map_lt with (da := 0%nat) by (rewrite seq_length; auto). rewrite nth_seq0 by auto.
      cbn [m_D S]. rewrite make_D_nth by (auto; rewrite (thetas_len g h Hh); auto).
      unfold ray_theta. rewrite <- firstn_map, nth_firstn_lt by auto. rewrite Rmult_comm. f_equal. f_equal.
      unfold Rdiv. ring.
  Qed.

  Lemma across_len w v : length (across g h alphas thick w v) = h.
  Proof. unfold across. rewrite map_length, seq_length. auto. Qed.

  Lemma up_shape w f : (w < length alphas)%nat -> file_shaped (length alphas) h f ->
    has_shape (upward h w f) h h /\ has_shape (downward h w f) h h.
  Proof.
    intros Hw [H _]. pose proof (stored_shape _ _ _ _ w H Hw).
    split; [apply first_shape|apply skip_shape]; auto.
  Qed.

  Lemma dot_up s w f v : (w < length alphas)%nat -> file_shaped (length alphas) h f -> length v = h ->
    dot_w (fst (split_wmat s h (f_RT f))) w v = times (match s with Front => upward h w f | Rear => downward h w f end) v /\
    dot_w (snd (split_wmat s h (f_RT f))) w v = times (match s with Front => downward h w f | Rear => upward h w f end) v.
  Proof.
    intros Hw Hf Hl. destruct (up_shape w f Hw Hf) as [U D]. destruct Hf as [Hf _].
    destruct (split_stored s _ _ _ _ Hf) as [S1 S2].
    rewrite (dot_w_square _ _ h w v S1 Hw), (dot_w_square _ _ h w v S2 Hw), at_split_R, at_split_T.
    split; destruct s; cbn [split_rows fst snd]; symmetry; eapply times_matvec; eauto.
  Qed.

  Lemma dot_A w f v : (w < length alphas)%nat -> file_shaped (length alphas) h f -> length v = h ->
    rsum (dot_w (f_A f) w v) = into (absorbing w f) v.
  Proof.
    intros Hw [_ HA] Hl. rewrite (dot_w_abs_sum _ _ _ _ _ HA Hw Hl). unfold into, absorbing.
    assert (exists nl, has_shape (at_wl (f_A f) w) nl h) as [nl Hs].
    { destruct (f_A f) as [ms|m]; cbn in *.
      - destruct HA as [nl [H1 H2]]. exists nl. apply H2, nth_In. lia.
      - subst m. exists 1%nat. split; auto. intros r [<-|[]]. apply repeat_length. }
    rewrite (times_matvec _ v nl h Hs Hl). symmetry. eapply rsum_matvec; eauto.
  Qed.

  Lemma times_d v : length v = h -> times d v = matvec d v.
  Proof. intros. eapply times_matvec; eauto. apply Kd. Qed.
  Lemma times_u v : length v = h -> times u v = matvec u v.
  Proof. intros. eapply times_matvec; eauto. apply Ku. Qed.
  Lemma times_len m v : has_shape m h h -> length (times m v) = h.
  Proof. intros [H _]. unfold times. rewrite map_length. auto. Qed.

  Let IN w k := inside g h u d alphas thick f0 b0 f1 row w k.
  Lemma inside_len w k : (w < length alphas)%nat -> length (IN w k) = h.
  Proof. intros Hw. destruct k; apply times_len, up_shape; auto. Qed.

  (* the single-wavelength state after k passes *)
  Lemma series_iter prof w k : (w < length alphas)%nat ->
    let x := witer S prof w k (winit S w row) in
    x_v x = IN w k /\
    x_r x = series_R g h u d alphas thick f0 b0 f1 row w k /\
    x_t x = series_T g h u d alphas thick f0 b0 f1 row w k /\
    x_a0 x = series_A_front g h u d alphas thick f0 b0 f1 row w k /\
    x_a1 x = series_A_back g h u d alphas thick f0 b0 f1 row w k /\
    x_A x = series_A_bulk g h u d alphas thick f0 b0 f1 row w k.
  Proof.
    intros Hw. induction k as [|k IH].
    - cbv zeta. cbn [witer]. unfold winit. cbn [x_v x_r x_t x_a0 x_a1 x_A m_Tf m_Rf m_Af S].
      destruct (dot_up Front w f0 row Hw F0 Hrow) as [E1 E2]. rewrite E1, E2.
      rewrite (dot_A w f0 row Hw F0 Hrow).
      unfold series_R, series_T, series_A_front, series_A_back, series_A_bulk, over, into. cbn [seq map rsum].
      repeat split; try reflexivity; lra.
    - cbv zeta in *. rewrite witer_S. set (x := witer S prof w k (winit S w row)) in *.
      destruct IH as [I1 [I2 [I3 [I4 [I5 I6]]]]].
      pose proof (inside_len w k Hw) as LI.
      assert (E1 : w_f1 S w x = times d (IN w k)).
      { unfold w_f1. rewrite I1. symmetry. apply times_d. auto. }
      assert (E2 : w_b1 S w x = at_back g h u d alphas thick f0 b0 f1 row w k).
      { unfold w_b1. rewrite E1. apply across_D; auto. apply times_len, Kd. }
      assert (L2 : length (at_back g h u d alphas thick f0 b0 f1 row w k) = h) by apply across_len.
      assert (E3 : w_b2 S w x = off_back g h u d alphas thick f0 b0 f1 row w k).
      { unfold w_b2. rewrite E2. apply (dot_up Front w f1); auto. }
      assert (L3 : length (off_back g h u d alphas thick f0 b0 f1 row w k) = h) by (apply times_len, up_shape; auto).
      assert (E4 : w_f2 S w x = across g h alphas thick w (off_back g h u d alphas thick f0 b0 f1 row w k)).
      { unfold w_f2. rewrite E3. apply across_D; auto. }
      assert (E5 : w_f2' S w x = at_front g h u d alphas thick f0 b0 f1 row w k).
      { unfold w_f2'. rewrite E4. symmetry. apply times_u, across_len. }
      assert (L5 : length (at_front g h u d alphas thick f0 b0 f1 row w k) = h) by apply times_len, Ku.
      assert (E6 : rsum (if prof then w_f2 S w x else w_f2' S w x) =
                   rsum (across g h alphas thick w (off_back g h u d alphas thick f0 b0 f1 row w k))).
      { destruct prof; [rewrite E4; auto|]. unfold w_f2'. rewrite (keeps_power_sum h) by (auto; rewrite E4; apply across_len).
        rewrite E4. auto. }
      unfold wpass. cbn [x_v x_r x_t x_a0 x_a1 x_A]. rewrite E6, E1, E2, E3, E5.
      cbn [m_Rb m_Tb m_Ab m_Tf2 m_Af2 S].
      destruct (dot_up Rear w b0 _ Hw B0 L5) as [R1 R2]. destruct (dot_up Front w f1 _ Hw F1 L2) as [R3 R4].
      rewrite R1, R2, R4, (dot_A w b0 _ Hw B0 L5), (dot_A w f1 _ Hw F1 L2).
      unfold series_R, series_T, series_A_front, series_A_back, series_A_bulk in *. rewrite !over_S.
      split; [reflexivity|]. rewrite I2, I3, I4, I5, I6. unfold into. fold (IN w k).
      repeat split; lra.
  Qed.

  Lemma series_loop prof fuel st : 
    mm_loop prof S fuel (mm_init S (repeat row (length alphas))) = Some st ->
    exists N, s_i2 st = (N + 1)%nat /\
      (forall w, (w < length alphas)%nat -> view w st = witer S prof w N (winit S w row)) /\
      (forall w, (w < length alphas)%nat -> rsum (IN w N) <= thresh) /\
      (forall k, (k < N)%nat -> exists w, (w < length alphas)%nat /\ thresh < rsum (IN w k)).
  Proof.
    intros E. pose proof series_shaped as HS.
    set (v0 := repeat row (length alphas)) in *.
    assert (HI : incident (length alphas) h v0) by (apply incident_repeat; auto).
    assert (L0 : length (s_vf1 (mm_init S v0)) = length alphas).
    { cbn [mm_init s_vf1]. eapply dot_wl_length; [eapply lists_all; eauto|apply HI]. }
    assert (V : forall k w, (w < length alphas)%nat -> view w (miter S prof k (mm_init S v0)) = witer S prof w k (winit S w row)).
    { intros k w Hw. rewrite (view_iter (length alphas) h S HS) by auto.
      rewrite (view_init (length alphas) h) by auto. unfold v0. rewrite nth_repeat_row by auto. auto. }
    assert (P : forall k w, (w < length alphas)%nat -> nth w (sums (s_vf1 (miter S prof k (mm_init S v0)))) 0 = rsum (IN w k)).
    { intros k w Hw. rewrite nth_sums. change (nth w (s_vf1 (miter S prof k (mm_init S v0))) []) with
        (x_v (view w (miter S prof k (mm_init S v0)))). rewrite V by auto. f_equal. apply series_iter; auto. }
    assert (LS : forall k, length (sums (s_vf1 (miter S prof k (mm_init S v0)))) = length alphas).
    { intros k. unfold sums. rewrite map_length. apply (miter_len (length alphas) h S HS); auto. }
    destruct (mm_loop_iter S prof fuel _ _ E) as [N [_ [-> [E2 E3]]]]. exists N.
    split; [rewrite miter_i2; reflexivity|]. split; [auto|]. split.
    - intros w Hw. rewrite <- P by auto.
      destruct (Rle_or_lt (nth w (sums (s_vf1 (miter S prof N (mm_init S v0)))) 0) thresh) as [|Hlt]; auto. exfalso.
      unfold go_on in E2. cbn [m_thresh S] in E2.
      assert (existsb (fun p => Rltb thresh p) (sums (s_vf1 (miter S prof N (mm_init S v0)))) = true); [|congruence].
      apply existsb_exists. eexists. split; [apply nth_In; rewrite LS; eauto|]. apply Rltb_true. eauto.
    - intros k Hk. specialize (E3 k Hk). unfold go_on in E3. cbn [m_thresh S] in E3.
      apply existsb_exists in E3. destruct E3 as [p [Hp Hlt]].
      apply In_nth with (d := 0) in Hp. destruct Hp as [w [Hw <-]]. rewrite LS in Hw.
      exists w. split; auto. rewrite <- P by auto. apply Rltb_true. auto.
  Qed.
End Series.

Lemma pass_series n phi_sym c sp g h m theta phi_in alphas thick f0 b0 f1 thresh prof fuel st o row u d :
  valid_request n phi_sym c -> make_angle_vector n phi_sym c sp = Ok g -> length (g_av g) = (2 * h)%nat ->
  m_fold m phi_sym -> relabel_ok n m g -> good_direction phi_sym theta phi_in ->
  file_shaped (length alphas) h f0 -> file_shaped (length alphas) h b0 -> file_shaped (length alphas) h f1 ->
  make_v0_row g theta (fold_phi_in phi_in phi_sym) = Ok row ->
  out_to_in_matrix g phi_sym = Ok (u, d) ->
  calculate_RAT n phi_sym c sp theta phi_in alphas thick f0 b0 f1 thresh prof fuel = Ok (Some (st, o)) ->
  exists N,
    (forall w, (w < length alphas)%nat -> rsum (inside g h u d alphas thick f0 b0 f1 row w N) <= thresh) /\
    (forall k, (k < N)%nat -> exists w, (w < length alphas)%nat /\ thresh < rsum (inside g h u d alphas thick f0 b0 f1 row w k)) /\
    forall w, (w < length alphas)%nat ->
      R_at o w = series_R g h u d alphas thick f0 b0 f1 row w N /\
      T_at o w = series_T g h u d alphas thick f0 b0 f1 row w N /\
      A_bulk_at o w = series_A_bulk g h u d alphas thick f0 b0 f1 row w N /\
      ((1 <= N)%nat -> prof = true -> exists a_front a_back, o_A_interface o = Some (a_front, a_back) /\
         nth w a_front 0 = series_A_front g h u d alphas thick f0 b0 f1 row w N /\
         nth w a_back 0 = series_A_back g h u d alphas thick f0 b0 f1 row w N).
Proof.
  intros Hv Hg Hh Hm Hok Hd H0 H1 H2 Er Eo E.
  destruct (build_ok n phi_sym c sp g h Hv Hg Hh m alphas thick f0 b0 f1 thresh Hm Hok) as [u' [d' [E1 [Ku [Kd E2]]]]].
  rewrite Eo in E1. injection E1 as <- <-.
  destruct (calc_unfold n phi_sym c sp g h Hv Hg Hh m theta phi_in alphas thick f0 b0 f1 thresh Hm Hok Hd)
    as [S [row' [E3 [E4 [E5 [L [_ _]]]]]]].
  rewrite E2 in E3. injection E3 as <-. rewrite Er in E4. injection E4 as <-.
  rewrite E5 in E. injection E as E. apply mm_inv in E. destruct E as [El ->].
  destruct (series_loop g h Hh u d alphas thick f0 b0 f1 thresh row Ku Kd H0 H1 H2 L prof fuel st El)
    as [N [Ei [V [Q1 Q2]]]].
  exists N. split; [exact Q1|]. split; [exact Q2|]. intros w Hw.
  assert (Hw' : (w < length (repeat row (length alphas)))%nat) by (rewrite repeat_length; auto).
  destruct (result_view _ _ _ _ _ w El Hw') as [R1 [R2 [R3 [R4 [R5 _]]]]]. cbv zeta in *.
  destruct (series_iter g h Hh u d alphas thick f0 b0 f1 thresh row Ku Kd H0 H1 H2 L prof w N Hw)
    as [I1 [I2 [I3 [I4 [I5 I6]]]]].
  rewrite V in * by auto.
  split; [rewrite R1; auto|]. split; [rewrite R2; auto|]. split; [rewrite R3; auto|].
  intros HN ->. unfold mm_result. rewrite Ei. destruct (Nat.ltb_spec 1 (N + 1)); [|lia]. cbn [o_A_interface].
  eexists. eexists. split; [reflexivity|]. rewrite !sum02_nth by auto.
  fold (A_front_at st w) (A_back_at st w). split; congruence.
Qed.
