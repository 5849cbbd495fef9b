(* Proofs about calculate_RAT as a whole (C09-C13, C16, C17) *)
From Coq Require Import Reals List ZArith Bool Lia Lra Psatz.
From Verif Require Import Base Lib Model_Angles Proof_Angles Spec_Angles Proof_AnglesProps
  Model_Ideal Model_MatMul Spec_Matrix Spec_MatMul Proof_Ideal Proof_IdealProps Proof_MatMul Proof_OutIn Proof_OutInProps.
Import ListNotations.
Open Scope R_scope.

(* ---------- loading ---------- *)

Lemma at_split_R s h full w : at_wl (fst (split_wmat s h full)) w = fst (split_rows s h (at_wl full w)).
Proof.
  destruct full as [ms|m]; simpl; auto.
  replace (@nil (list R)) with (fst (split_rows s h [])) at 1 by (destruct s; simpl; rewrite ?firstn_nil, ?skipn_nil; auto).
  apply (map_nth (fun m => fst (split_rows s h m))).
Qed.
Lemma at_split_T s h full w : at_wl (snd (split_wmat s h full)) w = snd (split_rows s h (at_wl full w)).
Proof.
  destruct full as [ms|m]; simpl; auto.
  replace (@nil (list R)) with (snd (split_rows s h [])) at 1 by (destruct s; simpl; rewrite ?firstn_nil, ?skipn_nil; auto).
  apply (map_nth (fun m => snd (split_rows s h m))).
Qed.

Lemma in_firstn {A} (x : A) n l : In x (firstn n l) -> In x l.
Proof. intros H. rewrite <- (firstn_skipn n l). apply in_or_app. auto. Qed.
Lemma in_skipn {A} (x : A) n l : In x (skipn n l) -> In x l.
Proof. intros H. rewrite <- (firstn_skipn n l). apply in_or_app. auto. Qed.

Lemma first_shape m h c : has_shape m (2 * h) c -> has_shape (firstn h m) h c.
Proof. intros [H1 H2]. split; [rewrite firstn_length; lia|]. intros r Hr. apply H2. eapply in_firstn; eauto. Qed.
Lemma skip_shape m h c : has_shape m (2 * h) c -> has_shape (skipn h m) h c.
Proof. intros [H1 H2]. split; [rewrite skipn_length; lia|]. intros r Hr. apply H2. eapply in_skipn; eauto. Qed.

Lemma split_shape s h m c : has_shape m (2 * h) c ->
  has_shape (fst (split_rows s h m)) h c /\ has_shape (snd (split_rows s h m)) h c.
Proof. intros H. destruct s; simpl; split; auto using first_shape, skip_shape. Qed.

Lemma split_stored s nwl h full c : stored_for full nwl (2 * h) c ->
  stored_for (fst (split_wmat s h full)) nwl h c /\ stored_for (snd (split_wmat s h full)) nwl h c.
Proof.
  destruct full as [ms|m]; simpl.
  - intros [H1 H2]. rewrite !map_length. split; split; auto; intros x Hx; apply in_map_iff in Hx;
      destruct Hx as [y [<- Hy]]; apply (split_shape s h y c); auto.
  - apply split_shape.
Qed.

Lemma col_total_app a b k : col_total (a ++ b) k = col_total a k + col_total b k.
Proof. unfold col_total. rewrite map_app, rsum_app. auto. Qed.

Lemma col_total_split s h m k :
  col_total (fst (split_rows s h m)) k + col_total (snd (split_rows s h m)) k = col_total m k.
Proof. rewrite <- (firstn_skipn h m) at 3. rewrite col_total_app. destruct s; simpl; lra. Qed.

Lemma split_nonneg s h m : nonneg_matrix m ->
  nonneg_matrix (fst (split_rows s h m)) /\ nonneg_matrix (snd (split_rows s h m)).
Proof.
  intros H. destruct s; simpl; split; intros row x Hr Hx; apply (H row x); auto; first [exact (in_firstn _ _ _ Hr)|exact (in_skipn _ _ _ Hr)].
Qed.

Lemma split_data s nwl h f : file_shaped nwl h f ->
  interface_data nwl h (fst (split_wmat s h (f_RT f))) (snd (split_wmat s h (f_RT f))) (f_A f).
Proof. intros [H1 H2]. destruct (split_stored s nwl h _ _ H1). split; [|split]; auto. Qed.

Lemma split_conserves s nwl h f : file_conserves nwl h f ->
  conserves nwl h (fst (split_wmat s h (f_RT f))) (snd (split_wmat s h (f_RT f))) (f_A f).
Proof.
  intros [H1 H2]. split; [apply split_data; auto|]. intros w k Hw Hk.
  rewrite at_split_R, at_split_T, col_total_split. auto.
Qed.

Lemma split_passive s nwl h f : file_passive nwl h f ->
  passive nwl h (fst (split_wmat s h (f_RT f))) (snd (split_wmat s h (f_RT f))) (f_A f).
Proof.
  intros [H1 [H2 H3]]. split; [apply split_data; auto|]. split.
  - intros w Hw. destruct (H2 w Hw) as [A B]. rewrite at_split_R, at_split_T.
    destruct (split_nonneg s h _ A). auto.
  - intros w k Hw Hk. rewrite at_split_R, at_split_T, col_total_split. auto.
Qed.

(* ---------- reported values ---------- *)

Lemma sum02_nth nwl l w : (w < nwl)%nat -> nth w (sum02 nwl l) 0 = per_pass_total l w.
Proof.
  intros Hw. unfold sum02. rewrite nth_map_lt with (da := 0%nat) by (rewrite seq_length; auto).
  rewrite nth_seq0 by auto. auto.
Qed.
Lemma sum0_nth nwl l w : (w < nwl)%nat -> nth w (sum0 nwl l) 0 = rsum (map (fun p => nth w p 0) l).
Proof.
  intros Hw. unfold sum0. rewrite nth_map_lt with (da := 0%nat) by (rewrite seq_length; auto).
  rewrite nth_seq0 by auto. auto.
Qed.

Lemma pass_i2 prof S st : s_i2 (pass prof S st) = Datatypes.S (s_i2 st).
Proof. destruct prof; auto. Qed.
Lemma miter_i2 S prof n : forall st, s_i2 (miter S prof n st) = (n + s_i2 st)%nat.
Proof. induction n; intros st; simpl; auto. rewrite IHn, pass_i2. lia. Qed.

Lemma loop_i2 prof S fuel v0 st : mm_loop prof S fuel (mm_init S v0) = Some st ->
  st = mm_init S v0 \/ (2 <= s_i2 st)%nat.
Proof.
  intros H. destruct (mm_loop_iter S prof fuel _ _ H) as [[|n] [_ [E _]]]; [left; auto|right].
  rewrite E, miter_i2. unfold mm_init. cbn [s_i2]. lia.
Qed.

Lemma result_view prof S fuel v0 st w : mm_loop prof S fuel (mm_init S v0) = Some st -> (w < length v0)%nat ->
  let o := mm_result prof (length v0) st in
  R_at o w = x_r (view w st) /\ T_at o w = x_t (view w st) /\ A_bulk_at o w = x_A (view w st) /\
  A_front_at st w = x_a0 (view w st) /\ A_back_at st w = x_a1 (view w st) /\
  still_travelling st w = rsum (x_v (view w st)).
Proof.
  intros H Hw. cbv zeta. unfold mm_result. destruct (loop_i2 _ _ _ _ _ H) as [->|Hi].
  - unfold mm_init at 1 2 3. cbn [s_i2]. change (1 <? 1)%nat with false. cbv iota.
    unfold R_at, T_at, A_bulk_at. cbn [o_R o_T o_A_bulk]. rewrite sum02_nth by auto.
    unfold view. cbn [x_r x_t x_A x_a0 x_a1 x_v]. repeat split; auto.
  - destruct (Nat.ltb_spec 1 (s_i2 st)); [|lia].
    unfold R_at, T_at, A_bulk_at. cbn [o_R o_T o_A_bulk]. rewrite !sum02_nth, sum0_nth by auto.
    unfold view. cbn [x_r x_t x_A x_a0 x_a1 x_v]. repeat split; auto.
Qed.

(* ---------- the whole calculation ---------- *)

Lemma fold_in_good phi_sym p : 0 < phi_sym -> 0 <= p -> p <> phi_sym ->
  exists p', fold_phi_in (PhiNum p) phi_sym = PhiNum p' /\ 0 <= p' < phi_sym.
Proof.
  intros Hs Hp Hne. simpl. destruct (Rltb phi_sym p) eqn:E.
  - eexists. split; eauto. apply fold_phi_range. auto.
  - apply Rltb_false in E. exists p. split; auto. lra.
Qed.

Lemma incident_repeat h (row : list R) nwl : length row = h -> incident nwl h (repeat row nwl).
Proof. intros H. split; [apply repeat_length|]. intros v Hv. apply repeat_spec in Hv. subst. auto. Qed.

Lemma exp_le_1 x : x <= 0 -> exp x <= 1.
Proof.
  intros H. destruct (Req_dec x 0) as [->|]; [rewrite exp_0; lra|].
  rewrite <- exp_0. apply Rlt_le, exp_increasing. lra.
Qed.

Lemma cos_abs t : 0 < t < PI / 2 -> 0 < Rabs (cos t) <= 1.
Proof.
  intros H. pose proof (cos_gt_0 t ltac:(lra) ltac:(lra)). rewrite Rabs_pos_eq by lra.
  pose proof (COS_bound t). lra.
Qed.

Section Whole.
  Variables (n : nat) (phi_sym c : R) (sp : spacing) (g : grid) (h : nat).
  Hypothesis Hv : valid_request n phi_sym c.
  Hypothesis Hg : make_angle_vector n phi_sym c sp = Ok g.
  Hypothesis Hh : length (g_av g) = (2 * h)%nat.

  Lemma h_off : off n c n = h.
  Proof. pose proof (g_len n phi_sym c sp g Hv Hg). lia. Qed.
  Lemma h_div : (length (g_av g) / 2)%nat = h.
  Proof. rewrite (g_half n phi_sym c sp g Hv Hg). apply h_off. Qed.

  Lemma v0_row_of theta p row : make_v0 g theta p 1 = Ok (repeat row 1) -> make_v0_row g theta p = Ok row.
  Proof. unfold make_v0. destruct (make_v0_row g theta p); simpl; intros H; inversion H; auto. Qed.

  Lemma v0_good theta phi_in : good_direction phi_sym theta phi_in ->
    exists row, make_v0_row g theta (fold_phi_in phi_in phi_sym) = Ok row /\
      length row = h /\ rsum row = 1 /\ vpos row.
  Proof.
    intros [Ht Hp]. destruct Hv as [Hn [Hc Hs]]. destruct phi_in as [|p].
    - destruct (v0_all n phi_sym c sp g Hv Hg theta 1 Ht) as [i [row [_ [E1 [E2 [E3 E4]]]]]].
      rewrite h_off in *. exists row. split; [apply v0_row_of; auto|]. split; auto. split; auto.
      intros x Hx. apply In_nth with (d := 0) in Hx. destruct Hx as [k [Hk <-]].
      destruct (nth_error (g_av g) k) as [r|] eqn:Er.
      + rewrite (E4 k r) by (auto; lia). destruct (Nat.eqb (a_ring r) i); [|lra].
        destruct (Nat.eq_dec (length (phi_edges_of g i) - 1) 0) as [->|].
        * simpl. unfold Rdiv. rewrite Rinv_0. lra.
        * apply Rlt_le, Rdiv_lt_0_compat; [lra|]. apply lt_0_INR. lia.
      + apply nth_error_None in Er. lia.
    - destruct Hp as [Hp Hne]. destruct (fold_in_good phi_sym p Hs Hp Hne) as [p' [-> Hp']].
      destruct (v0_numeric n phi_sym c sp g Hv Hg theta p' 1 Ht Hp') as [k [i [j [row [Hk [_ [_ [_ [E1 [E2 E3]]]]]]]]]].
      rewrite h_off in *. exists row. split; [apply v0_row_of; auto|]. split; auto. split.
      + rewrite (rsum_nth_seq row h E2). rewrite (rsum_map_single (fun k => nth k row 0) h k); auto.
        * rewrite E3, Nat.eqb_refl. auto.
        * intros q Hq Hne'. rewrite E3. destruct (Nat.eqb_spec q k); congruence.
      + intros x Hx. apply In_nth with (d := 0) in Hx. destruct Hx as [q [Hq <-]]. rewrite E3.
        destruct (Nat.eqb q k); lra.
  Qed.

  Lemma thetas_len : length (map a_theta (firstn h (g_av g))) = h.
  Proof. rewrite map_length, firstn_length. lia. Qed.

  Lemma theta_upper t : In t (map a_theta (firstn h (g_av g))) -> 0 < t < PI / 2.
  Proof.
    intros Ht. apply in_map_iff in Ht. destruct Ht as [r [<- Hr]].
    apply In_nth with (d := default_row) in Hr. destruct Hr as [k [Hk E]].
    rewrite firstn_length in Hk. rewrite nth_firstn_lt in E by lia.
    destruct Hv as [Hn [Hc Hs]].
    destruct (oi_rows n phi_sym c sp g Hv Hg k ltac:(rewrite h_off; lia)) as [i [j [Hi [Hj [E1 [E2 _]]]]]].
    rewrite E2 in E. subst r. cbn [a_theta]. apply theta_mid_low; auto.
    destruct (Nat.lt_ge_cases i n); auto. exfalso.
    pose proof (off_high n phi_sym c Hv i ltac:(lia)). rewrite h_off in *. lia.
  Qed.

  Lemma D_data alphas thick : bulk_data (length alphas) h (make_D alphas thick (map a_theta (firstn h (g_av g)))).
  Proof.
    split; [apply map_length|]. intros d Hd. apply in_map_iff in Hd. destruct Hd as [a [<- _]].
    rewrite map_length. apply thetas_len.
  Qed.

  Lemma D_att alphas thick : (forall a, In a alphas -> 0 <= a * thick) ->
    attenuates (make_D alphas thick (map a_theta (firstn h (g_av g)))).
  Proof.
    intros Ha d x Hd Hx. apply in_map_iff in Hd. destruct Hd as [a [<- Hin]].
    apply in_map_iff in Hx. destruct Hx as [t [<- Ht]].
    split; [apply Rlt_le, exp_pos|]. apply exp_le_1.
    pose proof (cos_abs t (theta_upper t Ht)) as [Hc1 _]. specialize (Ha a Hin).
    apply Rmult_le_reg_r with (Rabs (cos t)); auto. unfold Rdiv. rewrite Rmult_assoc, Rinv_l by lra. nra.
  Qed.

  Lemma build_ok m alphas thick f0 b0 f1 thresh : m_fold m phi_sym -> relabel_ok n m g ->
    exists u d, out_to_in_matrix g phi_sym = Ok (u, d) /\ keeps_power h u /\ keeps_power h d /\
    build_setup g phi_sym alphas thick f0 b0 f1 thresh = Ok (mk_setup
      (fst (split_wmat Front h (f_RT f0))) (snd (split_wmat Front h (f_RT f0))) (f_A f0)
      (fst (split_wmat Rear h (f_RT b0))) (snd (split_wmat Rear h (f_RT b0))) (f_A b0)
      (fst (split_wmat Front h (f_RT f1))) (snd (split_wmat Front h (f_RT f1))) (f_A f1)
      u d (make_D alphas thick (map a_theta (firstn h (g_av g)))) thresh).
  Proof.
    intros Hm Hok. destruct (C08_ex n phi_sym c sp g m Hv Hg Hm Hok) as [h' [u [d [L [E [Pu [Pd _]]]]]]].
    assert (h' = h) by lia. subst h'. exists u, d. split; auto.
    split; [apply perm_keeps_power; auto|]. split; [apply perm_keeps_power; auto|].
    unfold build_setup. rewrite E, h_div. auto.
  Qed.

  Lemma calc_unfold m theta phi_in alphas thick f0 b0 f1 thresh :
    m_fold m phi_sym -> relabel_ok n m g -> good_direction phi_sym theta phi_in ->
    exists S row, build_setup g phi_sym alphas thick f0 b0 f1 thresh = Ok S /\
      make_v0_row g theta (fold_phi_in phi_in phi_sym) = Ok row /\
      (forall prof fuel, calculate_RAT n phi_sym c sp theta phi_in alphas thick f0 b0 f1 thresh prof fuel =
        Ok (matrix_multiplication prof S (repeat row (length alphas)) fuel)) /\
      length row = h /\ rsum row = 1 /\ vpos row.
  Proof.
    intros Hm Hok Hd. destruct (build_ok m alphas thick f0 b0 f1 thresh Hm Hok) as [u [d [_ [_ [_ E]]]]].
    destruct (v0_good theta phi_in Hd) as [row [E1 [E2 [E3 E4]]]].
    eexists. exists row. split; [exact E|]. split; auto. split; auto.
    intros prof fuel. unfold calculate_RAT. rewrite Hg. cbn [rbind]. unfold make_v0. rewrite E1. cbn [rbind]. rewrite E. auto.
  Qed.

  Lemma build_ec m alphas thick f0 b0 f1 thresh S : m_fold m phi_sym -> relabel_ok n m g ->
    file_conserves (length alphas) h f0 -> file_conserves (length alphas) h b0 -> file_conserves (length alphas) h f1 ->
    build_setup g phi_sym alphas thick f0 b0 f1 thresh = Ok S ->
    energy_conserving (length alphas) h S /\ m_thresh S = thresh.
  Proof.
    intros Hm Hok H0 H1 H2 E. destruct (build_ok m alphas thick f0 b0 f1 thresh Hm Hok) as [u [d [_ [Ku [Kd E']]]]].
    rewrite E' in E. inversion E. subst S. clear E. split; [|auto].
    constructor; cbn; auto using split_conserves, D_data.
  Qed.

  Lemma build_pa m alphas thick f0 b0 f1 thresh S : m_fold m phi_sym -> relabel_ok n m g ->
    (forall a, In a alphas -> 0 <= a * thick) ->
    file_passive (length alphas) h f0 -> file_passive (length alphas) h b0 -> file_passive (length alphas) h f1 ->
    build_setup g phi_sym alphas thick f0 b0 f1 thresh = Ok S ->
    passive_structure (length alphas) h S /\ m_thresh S = thresh.
  Proof.
    intros Hm Hok Ha H0 H1 H2 E. destruct (build_ok m alphas thick f0 b0 f1 thresh Hm Hok) as [u [d [_ [Ku [Kd E']]]]].
    rewrite E' in E. inversion E. subst S. clear E. split; [|auto].
    constructor; cbn; auto using split_passive, D_data, D_att.
  Qed.
End Whole.

Lemma nth_repeat_row (row : list R) k w : (w < k)%nat -> nth w (repeat row k) [] = row.
Proof. intros. apply nth_repeat_any. auto. Qed.

Lemma mm_inv prof S v0 fuel st o : matrix_multiplication prof S v0 fuel = Some (st, o) ->
  mm_loop prof S fuel (mm_init S v0) = Some st /\ o = mm_result prof (length v0) st.
Proof. unfold matrix_multiplication. destruct (mm_loop _ _ _ _); intros H; inversion H; auto. Qed.

(* ---------- C09 ---------- *)

Lemma C09_ex n phi_sym c sp g h m theta phi_in alphas thick f0 b0 f1 thresh prof fuel :
  valid_request n phi_sym c -> make_angle_vector n phi_sym c sp = Ok g -> length (g_av g) = (2 * h)%nat ->
  m_fold m phi_sym -> relabel_ok n m g -> good_direction phi_sym theta phi_in ->
  file_conserves (length alphas) h f0 -> file_conserves (length alphas) h b0 -> file_conserves (length alphas) h f1 ->
  exists r, calculate_RAT n phi_sym c sp theta phi_in alphas thick f0 b0 f1 thresh prof fuel = Ok r /\
    forall st o, r = Some (st, o) -> forall w, (w < length alphas)%nat ->
      R_at o w + T_at o w + A_bulk_at o w + A_front_at st w + A_back_at st w + still_travelling st w = 1 /\
      still_travelling st w <= thresh.
Proof.
  intros Hv Hg Hh Hm Hok Hd F0 F1 F2.
  destruct (calc_unfold n phi_sym c sp g h Hv Hg Hh m theta phi_in alphas thick f0 b0 f1 thresh Hm Hok Hd)
    as [S [row [ES [_ [E [L1 [L2 L3]]]]]]].
  destruct (build_ec n phi_sym c sp g h Hv Hg Hh m alphas thick f0 b0 f1 thresh S Hm Hok F0 F1 F2 ES) as [EC ET].
  eexists. split; [exact (E prof fuel)|]. intros st o Hr w Hw. destruct (mm_inv _ _ _ _ _ _ Hr) as [HL ->].
  pose proof (incident_repeat h row (length alphas) L1) as HI.
  destruct (energy_loop _ _ _ EC prof _ fuel st HI HL w Hw) as [En Es].
  destruct (result_view prof S fuel _ st w HL ltac:(rewrite repeat_length; auto)) as [V1 [V2 [V3 [V4 [V5 V6]]]]].
  rewrite V1, V2, V3, V4, V5, V6. rewrite ET in Es. split; [|rewrite <- V6; auto].
  rewrite nth_repeat_row in En by auto. unfold total in En. lra.
Qed.

(* ---------- C10 ---------- *)

Lemma C10_ex n phi_sym c sp g h m theta phi_in alphas thick f0 b0 f1 thresh prof fuel st o :
  valid_request n phi_sym c -> make_angle_vector n phi_sym c sp = Ok g -> length (g_av g) = (2 * h)%nat ->
  m_fold m phi_sym -> relabel_ok n m g -> good_direction phi_sym theta phi_in ->
  (forall a, In a alphas -> 0 <= a * thick) ->
  file_passive (length alphas) h f0 -> file_passive (length alphas) h b0 -> file_passive (length alphas) h f1 ->
  calculate_RAT n phi_sym c sp theta phi_in alphas thick f0 b0 f1 thresh prof fuel = Ok (Some (st, o)) ->
  forall w, (w < length alphas)%nat ->
    0 <= R_at o w /\ 0 <= T_at o w /\ 0 <= A_bulk_at o w /\ 0 <= A_front_at st w /\ 0 <= A_back_at st w /\
    0 <= still_travelling st w /\
    R_at o w + T_at o w + A_bulk_at o w + A_front_at st w + A_back_at st w + still_travelling st w <= 1.
Proof.
  intros Hv Hg Hh Hm Hok Hd Ha F0 F1 F2 HR w Hw.
  destruct (calc_unfold n phi_sym c sp g h Hv Hg Hh m theta phi_in alphas thick f0 b0 f1 thresh Hm Hok Hd)
    as [S [row [ES [_ [E [L1 [L2 L3]]]]]]].
  destruct (build_pa n phi_sym c sp g h Hv Hg Hh m alphas thick f0 b0 f1 thresh S Hm Hok Ha F0 F1 F2 ES) as [EC ET].
  rewrite E in HR. inversion HR as [HR2]. destruct (mm_inv _ _ _ _ _ _ HR2) as [HL ->].
  pose proof (incident_repeat h row (length alphas) L1) as HI.
  assert (Hnn : nonneg_power (repeat row (length alphas))).
  { intros v x Hv' Hx. apply repeat_spec in Hv'. subst. auto. }
  destruct (passive_loop _ _ _ EC prof _ fuel st HI Hnn HL w Hw) as [[P0 [P1 [P2 [P3 [P4 P5]]]]] Pt].
  destruct (result_view prof S fuel _ st w HL ltac:(rewrite repeat_length; auto)) as [V1 [V2 [V3 [V4 [V5 V6]]]]].
  rewrite V1, V2, V3, V4, V5, V6. rewrite nth_repeat_row in Pt by auto. unfold total in Pt.
  repeat split; auto; try lra. apply rsum_nonneg. auto.
Qed.

(* ---------- C11 ---------- *)

Record sim (nwl : nat) (a b : mm_state) : Prop := {
  si_v : s_vf1 a = s_vf1 b; si_r : s_vr a = s_vr b; si_t : s_vt a = s_vt b;
  si_a0 : s_a0 a = s_a0 b; si_a1 : s_a1 a = s_a1 b; si_i : s_i2 a = s_i2 b;
  si_A : forall w, (w < nwl)%nat -> rsum (map (fun p => nth w p 0) (s_A a)) = rsum (map (fun p => nth w p 0) (s_A b));
  si_len : length (s_vf1 a) = nwl }.

Lemma sim_pass nwl h S a b : shaped nwl h S -> keeps_power h (m_up2down S) ->
  (forall w, (w < nwl)%nat -> length (nth w (s_vf1 a) []) = h) ->
  sim nwl a b -> sim nwl (pass true S a) (pass false S b) /\
  (forall w, (w < nwl)%nat -> length (nth w (s_vf1 (pass true S a)) []) = h).
Proof.
  intros HS HK Hl [E1 E2 E3 E4 E5 E6 E7 E8].
  assert (M : forall w, (w < nwl)%nat -> view w (pass true S a) = wpass true S w (view w a) /\
              view w (pass false S b) = wpass false S w (view w b)).
  { intros w Hw. split; apply (view_pass nwl h S HS); auto. rewrite <- E1. auto. }
  assert (Hvv : mm_vf2' S a = mm_vf2' S b /\ mm_vb1 S a = mm_vb1 S b).
  { unfold mm_vf2', mm_vf2, mm_vb2, mm_vb1, mm_vf1. rewrite E1. auto. }
  destruct Hvv as [Hv1 Hv2].
  split.
  - constructor; unfold pass, pass_prof, pass_noprof, append_pass; cbn [s_vf1 s_vr s_vt s_a0 s_a1 s_i2]; try congruence.
    + intros w Hw. destruct (M w Hw) as [M1 M2].
      apply (f_equal x_A) in M1. apply (f_equal x_A) in M2. cbn [view x_A] in M1, M2.
      unfold pass in M1, M2. unfold pass_prof, append_pass in M1. unfold pass_noprof, append_pass in M2.
      cbn [s_A] in M1, M2. cbn [s_A]. rewrite M1, M2. unfold wpass. cbn [x_A].
      assert (Q : x_v (view w a) = x_v (view w b)) by (unfold view; cbn [x_v]; rewrite E1; auto).
      assert (E : w_f2 S w (view w a) = w_f2 S w (view w b)) by (unfold w_f2, w_b2, w_b1, w_f1; rewrite Q; auto).
      assert (E0 : w_b2 S w (view w a) = w_b2 S w (view w b)) by (unfold w_b2, w_b1, w_f1; rewrite Q; auto).
      assert (EB : w_b1 S w (view w a) = w_b1 S w (view w b)) by (unfold w_b1, w_f1; rewrite Q; auto).
      assert (EF : w_f1 S w (view w a) = w_f1 S w (view w b)) by (unfold w_f1; rewrite Q; auto).
      assert (E' : rsum (w_f2' S w (view w b)) = rsum (w_f2 S w (view w b))).
      { apply (keeps_power_sum h); auto.
        destruct (w_lens nwl h S HS w (view w b) Hw) as [_ [_ [_ [L4 _]]]]; auto.
        unfold wlen. rewrite <- Q. apply Hl. auto. }
      rewrite E', E, E0, EB, EF. unfold view at 1 6. cbn [x_A]. rewrite (E7 w Hw). auto.
    + rewrite <- (pass_vf1 S true a). apply (pass_len nwl h S HS). auto.
  - intros w Hw. destruct (M w Hw) as [M1 _]. apply (f_equal x_v) in M1. cbn [view x_v] in M1. rewrite M1.
    apply (wlen_pass nwl h S HS); auto. apply Hl. auto.
Qed.

Lemma sim_loop nwl h S fuel : shaped nwl h S -> keeps_power h (m_up2down S) -> forall a b,
  (forall w, (w < nwl)%nat -> length (nth w (s_vf1 a) []) = h) -> sim nwl a b ->
  match mm_loop true S fuel a, mm_loop false S fuel b with
  | Some a', Some b' => sim nwl a' b'
  | None, None => True
  | _, _ => False
  end.
Proof.
  intros HS HK. induction fuel; intros a b Hl Hsim; simpl.
  - assert (E : go_on S a = go_on S b) by (unfold go_on; rewrite (si_v _ _ _ Hsim); auto).
    rewrite E. destruct (go_on S b); auto.
  - assert (E : go_on S a = go_on S b) by (unfold go_on; rewrite (si_v _ _ _ Hsim); auto).
    rewrite E. destruct (go_on S b); auto.
    destruct (sim_pass nwl h S a b HS HK Hl Hsim) as [H1 H2]. apply IHfuel; auto.
Qed.

Lemma C11_ex n phi_sym c sp g h m theta phi_in alphas thick f0 b0 f1 thresh fuel :
  valid_request n phi_sym c -> make_angle_vector n phi_sym c sp = Ok g -> length (g_av g) = (2 * h)%nat ->
  m_fold m phi_sym -> relabel_ok n m g -> good_direction phi_sym theta phi_in ->
  file_shaped (length alphas) h f0 -> file_shaped (length alphas) h b0 -> file_shaped (length alphas) h f1 ->
  exists r r', calculate_RAT n phi_sym c sp theta phi_in alphas thick f0 b0 f1 thresh true fuel = Ok r /\
    calculate_RAT n phi_sym c sp theta phi_in alphas thick f0 b0 f1 thresh false fuel = Ok r' /\
    match r, r' with
    | Some (_, o), Some (_, o') => o_R o = o_R o' /\ o_T o = o_T o' /\ o_A_bulk o = o_A_bulk o'
    | None, None => True
    | _, _ => False
    end.
Proof.
  intros Hv Hg Hh Hm Hok Hd F0 F1 F2.
  destruct (calc_unfold n phi_sym c sp g h Hv Hg Hh m theta phi_in alphas thick f0 b0 f1 thresh Hm Hok Hd)
    as [S [row [ES [_ [E [L1 [L2 L3]]]]]]].
  destruct (build_ok n phi_sym c sp g h Hv Hg Hh m alphas thick f0 b0 f1 thresh Hm Hok) as [u [d [_ [Ku [Kd EB]]]]].
  eexists. eexists. split; [exact (E true fuel)|]. split; [exact (E false fuel)|].
  assert (HS : shaped (length alphas) h S).
  { rewrite EB in ES. inversion ES. destruct Ku as [Ku _], Kd as [Kd _].
    constructor; cbn; auto using split_data. apply (D_data g h); auto. }
  assert (HK : keeps_power h (m_up2down S)).
  { rewrite EB in ES. inversion ES. auto. }
  pose proof (incident_repeat h row (length alphas) L1) as HI.
  assert (H0 : sim (length alphas) (mm_init S (repeat row (length alphas))) (mm_init S (repeat row (length alphas)))).
  { constructor; auto. apply (init_len _ _ S HS _ HI). }
  assert (Hl : forall w, (w < length alphas)%nat -> length (nth w (s_vf1 (mm_init S (repeat row (length alphas)))) []) = h).
  { intros w Hw. pose proof (view_init _ _ S HS _ w HI Hw) as V. apply (f_equal x_v) in V. cbn [view x_v] in V. rewrite V.
    apply (wlen_init _ _ S HS w _ Hw). }
  pose proof (sim_loop _ h S fuel HS HK _ _ Hl H0) as HSim.
  unfold matrix_multiplication. rewrite repeat_length.
  destruct (mm_loop true _ _ _) as [a|], (mm_loop false _ _ _) as [b|]; auto.
  destruct HSim as [S1 S2 S3 S4 S5 S6 S7 S8].
  unfold mm_result. rewrite S6, S2, S3. destruct (1 <? s_i2 b)%nat; cbn [o_R o_T o_A_bulk]; auto.
  repeat split; auto. f_equal. unfold sum0. apply map_ext_in. intros w Hw. apply in_seq in Hw. apply S7. lia.
Qed.

(* ---------- C12 ---------- *)

Lemma loop_stops prof S n : forall st, go_on S (miter S prof n st) = false ->
  exists st', mm_loop prof S n st = Some st'.
Proof.
  induction n; intros st H; simpl in *.
  - rewrite H. eauto.
  - destruct (go_on S st); eauto.
Qed.

Lemma x_v_pass nwl h S prof w x : shaped nwl h S -> (w < nwl)%nat -> 
  x_v (wpass prof S w x) = round_trip S w (x_v x).
Proof.
  intros HS Hw. destruct HS as [_ [B1 _] [C1 _] _ _ _].
  unfold wpass, round_trip. cbn [x_v]. rewrite (dot_w_square _ nwl h) by auto.
  unfold w_f2', w_f2, w_b2. rewrite (dot_w_square _ nwl h) by auto. auto.
Qed.

Section Term.
  Variables (nwl h : nat) (S : mm_setup) (q : R).
  Hypothesis HP : passive_structure nwl h S.
  Hypothesis Hq : 0 <= q.
  Hypothesis Hloss : forall w v, (w < nwl)%nat -> length v = h -> (forall x, In x v -> 0 <= x) ->
    rsum (round_trip S w v) <= q * rsum v.
  Let HS := pa_shaped nwl h S HP.

  Lemma power_decay prof w k : (w < nwl)%nat -> forall x, wlen h x -> vpos (x_v x) ->
    rsum (x_v (witer S prof w k x)) <= q ^ k * rsum (x_v x).
  Proof.
    intros Hw. induction k; intros x Hx Hp; [simpl; lra|].
    rewrite witer_S. rewrite (x_v_pass nwl h) by auto.
    destruct (iter_grows nwl h S HP prof w k Hw x Hx Hp) as [G _].
    specialize (Hloss w (x_v (witer S prof w k x)) Hw (wlen_iter nwl h S HS prof w k Hw x Hx) G).
    specialize (IHk x Hx Hp). simpl. nra.
  Qed.

  Lemma term prof v0 N : incident nwl h v0 -> nonneg_power v0 ->
    (forall v, In v v0 -> rsum v <= 1) -> q ^ N <= m_thresh S ->
    exists st, mm_loop prof S N (mm_init S v0) = Some st.
  Proof.
    intros HI Hnn H1 HN. apply loop_stops. unfold go_on.
    assert (Hl := init_len nwl h S HS v0 HI).
    set (st := miter S prof N (mm_init S v0)).
    assert (Hl' : length (s_vf1 st) = nwl) by (apply (miter_len nwl h S HS); auto).
    destruct (existsb _ _) eqn:E; auto. exfalso. apply existsb_exists in E. destruct E as [p [Hp Hlt]].
    apply Rltb_true in Hlt. unfold sums in Hp. apply in_map_iff in Hp. destruct Hp as [v [<- Hv]].
    apply In_nth with (d := []) in Hv. destruct Hv as [w [Hw <-]]. rewrite Hl' in Hw.
    assert (EV : nth w (s_vf1 st) [] = x_v (witer S prof w N (winit S w (nth w v0 [])))).
    { rewrite <- (view_init nwl h S HS v0 w HI Hw), <- (view_iter nwl h S HS) by auto. auto. }
    rewrite EV in Hlt. destruct HI as [I1 I2].
    assert (Hin : In (nth w v0 []) v0) by (apply nth_In; lia).
    destruct (init_pos nwl h S HP w (nth w v0 []) Hw (I2 _ Hin) (fun x Hx => Hnn _ x Hin Hx)) as [[P0 [P1 [P2 [P3 [P4 P5]]]]] PT].
    pose proof (power_decay prof w N Hw _ (wlen_init nwl h S HS w _ Hw) P0) as Hd.
    unfold total in PT. specialize (H1 _ Hin).
    assert (0 <= rsum (x_v (winit S w (nth w v0 [])))) by (apply rsum_nonneg; auto).
    assert (rsum (x_v (winit S w (nth w v0 []))) <= 1) by lra.
    assert (0 <= q ^ N) by (apply pow_le; auto). nra.
  Qed.
End Term.

Lemma pow_ln q N t : 0 < q < 1 -> 0 < t -> ln t / ln q <= INR N -> q ^ N <= t.
Proof.
  intros Hq Ht H. assert (Hl : ln q < 0) by (rewrite <- ln_1; apply ln_increasing; lra).
  rewrite <- (exp_ln t) by auto. rewrite <- Rpower_pow by lra. unfold Rpower.
  assert (INR N * ln q <= ln t).
  { apply Rmult_le_compat_neg_l with (r := ln q) in H; [|lra].
    replace (ln q * (ln t / ln q)) with (ln t) in H by (field; lra). lra. }
  destruct (Req_dec (INR N * ln q) (ln t)) as [->|]; [lra|]. apply Rlt_le, exp_increasing. lra.
Qed.

Definition passes (thresh eps : R) : nat := Z.to_nat (Zceil (ln thresh / ln (1 - eps)) + 1).

Lemma passes_ok thresh eps : 0 < eps < 1 -> 0 < thresh -> (1 - eps) ^ passes thresh eps <= thresh.
Proof.
  intros He Ht. apply pow_ln; [lra|lra|]. unfold passes.
  pose proof (Zceil_bounds (ln thresh / ln (1 - eps))) as [_ Hb].
  rewrite INR_IZR_INZ.
  assert (Zceil (ln thresh / ln (1 - eps)) <= Z.of_nat (Z.to_nat (Zceil (ln thresh / ln (1 - eps)) + 1)))%Z by lia.
  apply IZR_le in H. lra.
Qed.

Lemma C12_general nwl h S prof v0 eps : passive_structure nwl h S -> incident nwl h v0 -> nonneg_power v0 ->
  (forall v, In v v0 -> rsum v <= 1) -> 0 < eps < 1 -> 0 < m_thresh S ->
  (forall w v, (w < nwl)%nat -> length v = h -> (forall x, In x v -> 0 <= x) ->
     rsum (round_trip S w v) <= (1 - eps) * rsum v) ->
  exists st, mm_loop prof S (Z.to_nat (Zceil (ln (m_thresh S) / ln (1 - eps)) + 1)) (mm_init S v0) = Some st.
Proof.
  intros HP HI Hnn H1 He Ht Hl. apply (term nwl h S (1 - eps)); auto; [lra|].
  apply (passes_ok (m_thresh S) eps); auto.
Qed.

(* an absorbing bulk is enough *)
Lemma diag_bound d q v : 0 <= q -> (forall x, In x d -> x <= q) -> vpos v -> rsum (diag_mul d v) <= q * rsum v.
Proof. intros. apply diag_mul_contract; auto. Qed.

Lemma passive_sum_le m nwl h (w : nat) v : stored_for m nwl h h -> (w < nwl)%nat -> length v = h -> vpos v ->
  (forall k, (k < h)%nat -> col_total (at_wl m w) k <= 1) -> rsum (matvec (at_wl m w) v) <= rsum v.
Proof.
  intros Hm Hw Hv Hp Hc. rewrite (rsum_matvec _ v h h); auto; [|eapply stored_shape; eauto].
  rewrite (rsum_nth_seq v h Hv). apply rsum_map_le. intros k Hk. apply in_seq in Hk.
  specialize (Hc k ltac:(lia)). assert (0 <= nth k v 0) by (apply Hp, nth_In; lia). nra.
Qed.

Lemma col_total_nonneg m k : nonneg_matrix m -> 0 <= col_total m k.
Proof.
  intros H. unfold col_total. apply rsum_nonneg. intros x Hx. apply in_map_iff in Hx. destruct Hx as [row [<- Hr]].
  destruct (Nat.lt_ge_cases k (length row)) as [L|L]; [apply (H row); auto; apply nth_In; auto|].
  rewrite nth_overflow by auto. lra.
Qed.

Lemma round_trip_bulk nwl h S q w v : passive_structure nwl h S -> 0 <= q -> (w < nwl)%nat -> length v = h -> vpos v ->
  (forall x, In x (nth w (m_D S) []) -> x <= q) -> rsum (round_trip S w v) <= (q * q) * rsum v.
Proof.
  intros HP Hq Hw Hl Hv HD. pose proof (pa_shaped _ _ _ HP) as HS.
  set (x := mk_w v 0 0 0 0 0).
  destruct (w_lens nwl h S HS w x Hw Hl) as [L1 [L2 [L3 [L4 L5]]]].
  destruct (w_pos nwl h S HP w x Hw Hl Hv) as [P1 [P2 [P3 [P4 [P5 [Q1 [Q2 [Q3 Q4]]]]]]]].
  destruct (pa_back _ _ _ HP) as [[B1 [B2 B3]] [Bnn Bs]].
  destruct (pa_rear _ _ _ HP) as [[R1 [R2 R3]] [Rnn Rs]].
  assert (E : round_trip S w v = matvec (at_wl (m_Rb S) w) (w_f2' S w x)).
  { unfold round_trip, w_f2', w_f2, w_b2. rewrite (dot_w_square _ nwl h) by auto. auto. }
  rewrite E.
  assert (A1 : rsum (matvec (at_wl (m_Rb S) w) (w_f2' S w x)) <= rsum (w_f2' S w x)).
  { apply (passive_sum_le _ nwl h); auto. intros k Hk. specialize (Rs w k Hw Hk).
    destruct (Rnn w Hw) as [_ [N1 N2]]. pose proof (col_total_nonneg _ k N1). pose proof (col_total_nonneg _ k N2). lra. }
  assert (A2 : rsum (w_f2 S w x) <= q * rsum (w_b2 S w x)) by (apply diag_bound; auto).
  assert (A3 : rsum (w_b2 S w x) <= rsum (w_b1 S w x)).
  { unfold w_b2. rewrite (dot_w_square _ nwl h) by auto. apply (passive_sum_le _ nwl h); auto.
    intros k Hk. specialize (Bs w k Hw Hk).
    destruct (Bnn w Hw) as [_ [N1 N2]]. pose proof (col_total_nonneg _ k N1). pose proof (col_total_nonneg _ k N2). lra. }
  assert (A4 : rsum (w_b1 S w x) <= q * rsum (w_f1 S w x)) by (apply diag_bound; auto).
  rewrite Q1 in A4. cbn [x_v x] in A4. simpl in A4.
  assert (rsum (w_b1 S w x) <= q * rsum v) by (exact A4). nra.
Qed.

Lemma C12_bulk n phi_sym c sp g h m theta phi_in alphas thick f0 b0 f1 thresh prof a :
  valid_request n phi_sym c -> make_angle_vector n phi_sym c sp = Ok g -> length (g_av g) = (2 * h)%nat ->
  m_fold m phi_sym -> relabel_ok n m g -> good_direction phi_sym theta phi_in ->
  0 < a -> (forall x, In x alphas -> a <= x * thick) -> 0 < thresh ->
  file_passive (length alphas) h f0 -> file_passive (length alphas) h b0 -> file_passive (length alphas) h f1 ->
  exists so, calculate_RAT n phi_sym c sp theta phi_in alphas thick f0 b0 f1 thresh prof
               (Z.to_nat (Zceil (ln thresh / (- 2 * a)) + 1)) = Ok (Some so).
Proof.
  intros Hv Hg Hh Hm Hok Hd Ha0 Ha Ht F0 F1 F2.
  destruct (calc_unfold n phi_sym c sp g h Hv Hg Hh m theta phi_in alphas thick f0 b0 f1 thresh Hm Hok Hd)
    as [S [row [ES [_ [E [L1 [L2 L3]]]]]]].
  assert (Hpos : forall a', In a' alphas -> 0 <= a' * thick) by (intros a' H; specialize (Ha a' H); lra).
  destruct (build_pa n phi_sym c sp g h Hv Hg Hh m alphas thick f0 b0 f1 thresh S Hm Hok Hpos F0 F1 F2 ES) as [EC ET].
  set (eps := 1 - exp (- a) * exp (- a)).
  assert (Hx : 0 < exp (- a) < 1).
  { split; [apply exp_pos|]. rewrite <- exp_0. apply exp_increasing. lra. }
  assert (He : 0 < eps < 1) by (unfold eps; nra).
  assert (Hln : ln (1 - eps) = - 2 * a).
  { unfold eps. replace (1 - (1 - exp (- a) * exp (- a))) with (exp (- a) * exp (- a)) by ring.
    rewrite <- exp_plus, ln_exp. ring. }
  destruct (C12_general (length alphas) h S prof (repeat row (length alphas)) eps EC) as [st Hst]; auto.
  - apply incident_repeat. auto.
  - intros v x Hv' Hx'. apply repeat_spec in Hv'. subst. auto.
  - intros v Hv'. apply repeat_spec in Hv'. subst. lra.
  - rewrite ET. auto.
  - intros w v Hw Hl Hp. unfold eps.
    replace (1 - (1 - exp (- a) * exp (- a))) with (exp (- a) * exp (- a)) by ring.
    apply (round_trip_bulk (length alphas) h); auto; [lra|].
    destruct (build_ok n phi_sym c sp g h Hv Hg Hh m alphas thick f0 b0 f1 thresh Hm Hok) as [u [d [_ [_ [_ EB]]]]].
    rewrite EB in ES. inversion ES as [ES']. cbn [m_D].
    intros x Hin. unfold make_D in Hin.
    rewrite nth_map_lt with (da := 0) in Hin by auto.
    apply in_map_iff in Hin. destruct Hin as [t [<- Htt]].
    pose proof (cos_abs t (theta_upper n phi_sym c sp g h Hv Hg Hh t Htt)) as [Hc1 Hc2].
    assert (Hal : a <= nth w alphas 0 * thick) by (apply Ha, nth_In; auto).
    assert (Hle : - nth w alphas 0 * thick / Rabs (cos t) <= - a).
    { apply Rmult_le_reg_r with (Rabs (cos t)); auto. unfold Rdiv. rewrite Rmult_assoc, Rinv_l by lra. nra. }
    destruct Hle as [Hlt|Heq]; [apply Rlt_le, exp_increasing; auto|rewrite Heq; lra].
  - rewrite ET, Hln in Hst. rewrite E. unfold matrix_multiplication. rewrite Hst. eauto.
Qed.

Lemma C12_never nwl h S prof v0 w : shaped nwl h S -> incident nwl h v0 -> (w < nwl)%nat ->
  (forall v, length v = h -> rsum (round_trip S w v) = rsum v) ->
  m_thresh S < rsum (matvec (at_wl (m_Tf S) w) (nth w v0 [])) ->
  forall fuel, mm_loop prof S fuel (mm_init S v0) = None.
Proof.
  intros HS HI Hw Hk Hp fuel. destruct (mm_loop prof S fuel (mm_init S v0)) as [st|] eqn:E; auto. exfalso.
  destruct (mm_loop_iter S prof fuel _ _ E) as [k [_ [E1 [E2 _]]]].
  assert (Hl := init_len nwl h S HS v0 HI).
  assert (Hg := go_on_false S st w E2 ltac:(rewrite E1, (miter_len nwl h S HS); auto)).
  assert (EV : nth w (s_vf1 st) [] = x_v (witer S prof w k (winit S w (nth w v0 [])))).
  { rewrite <- (view_init nwl h S HS v0 w HI Hw), <- (view_iter nwl h S HS) by auto. rewrite E1. auto. }
  rewrite EV in Hg.
  assert (K : forall j, rsum (x_v (witer S prof w j (winit S w (nth w v0 [])))) = rsum (x_v (winit S w (nth w v0 [])))).
  { induction j; auto. rewrite witer_S, (x_v_pass nwl h) by auto. rewrite Hk; auto.
    apply (wlen_iter nwl h S HS prof w j Hw). apply (wlen_init nwl h S HS w _ Hw). }
  rewrite K in Hg. unfold winit in Hg. cbn [x_v] in Hg.
  rewrite (dot_w_square _ nwl h) in Hg; auto; [lra|]. destruct (sh_front _ _ _ HS) as [_ [A _]]. auto.
Qed.
