(* C16 (shape of the result), loss of energy for odd symmetry, and sample data used by the examples *)
From Coq Require Import Reals List ZArith Bool Lia Lra Psatz.
From Verif Require Import Base Lib Model_Angles Proof_Angles Spec_Angles Model_Ideal Model_MatMul Spec_Matrix Spec_MatMul
  Proof_AnglesProps Proof_Ideal Proof_IdealProps Proof_MatMul Proof_OutIn Proof_OutInProps Proof_RAT Proof_RAT2.
Import ListNotations.
Open Scope R_scope.

(* ---------- sample data: half of the light reflected, half transmitted ---------- *)

Definition half_id (h : nat) : matrix := map (fun r => map (fun k => if Nat.eqb r k then 1 / 2 else 0) (seq 0 h)) (seq 0 h).
Definition half_mirror (h : nat) : stored := mk_stored (M2 (half_id h ++ half_id h)) (M2 [repeat 0 h]).

Lemma half_id_shape h : has_shape (half_id h) h h.
Proof.
  split; [unfold half_id; rewrite map_length, seq_length; auto|].
  intros row Hr. apply in_map_iff in Hr. destruct Hr as [r [<- _]]. rewrite map_length, seq_length. auto.
Qed.

Lemma half_id_col h k : (k < h)%nat -> col_total (half_id h) k = 1 / 2.
Proof.
  intros Hk. unfold col_total, half_id. rewrite map_map.
  rewrite (rsum_map_ext _ (fun r => if Nat.eqb r k then 1 / 2 else 0)).
  - rewrite (rsum_map_single _ h k Hk); [rewrite Nat.eqb_refl; auto|].
    intros j _ Hne. destruct (Nat.eqb_spec j k); [congruence|auto].
  - intros r _. rewrite nth_map_lt with (da := 0%nat) by (rewrite seq_length; auto). rewrite nth_seq0 by auto. auto.
Qed.

Lemma half_id_nonneg h : nonneg_matrix (half_id h).
Proof.
  intros row x Hr Hx. apply in_map_iff in Hr. destruct Hr as [r [<- _]].
  apply in_map_iff in Hx. destruct Hx as [k [<- _]]. destruct (Nat.eqb r k); lra.
Qed.

Lemma zero_row_col h k : col_total [repeat 0 h] k = 0.
Proof.
  unfold col_total. simpl. destruct (Nat.lt_ge_cases k h).
  - rewrite nth_repeat_any by auto. lra.
  - rewrite nth_overflow by (rewrite repeat_length; auto). lra.
Qed.

Lemma half_mirror_conserves nwl h : file_conserves nwl h (half_mirror h).
Proof.
  split; [split|].
  - cbn. destruct (half_id_shape h) as [A B]. split; [rewrite app_length; lia|].
    intros row Hr. apply in_app_iff in Hr. destruct Hr; auto.
  - reflexivity.
  - intros w k _ Hk. change (col_total (half_id h ++ half_id h) k + col_total [repeat 0 h] k = 1).
    rewrite col_total_app, half_id_col, zero_row_col by auto. lra.
Qed.

Lemma half_mirror_passive nwl h : file_passive nwl h (half_mirror h).
Proof.
  destruct (half_mirror_conserves nwl h) as [A B]. split; auto. split.
  - intros w _. split; cbn.
    + intros row x Hr Hx. apply in_app_iff in Hr. destruct Hr; apply (half_id_nonneg h row); auto.
    + intros row x [<-|[]] Hx. apply repeat_spec in Hx. lra.
  - intros w k Hw Hk. rewrite B by auto. lra.
Qed.

(* ---------- C16 ---------- *)

Lemma go_on_iff S st : go_on S st = true <-> exists v, In v (s_vf1 st) /\ m_thresh S < rsum v.
Proof.
  unfold go_on, sums. rewrite existsb_exists. split.
  - intros [x [Hx Hl]]. apply in_map_iff in Hx. destruct Hx as [v [<- Hv]]. apply Rltb_true in Hl. eauto.
  - intros [v [Hv Hl]]. exists (rsum v). split; [apply in_map; auto|apply Rltb_true; auto].
Qed.

Lemma sum02_length nwl l : length (sum02 nwl l) = nwl.
Proof. unfold sum02. rewrite map_length, seq_length. auto. Qed.
Lemma sum0_length nwl l : length (sum0 nwl l) = nwl.
Proof. unfold sum0. rewrite map_length, seq_length. auto. Qed.

Lemma loop_first prof S fuel st st' : mm_loop prof S fuel st = Some st' -> go_on S st = true -> (s_i2 st < s_i2 st')%nat.
Proof.
  intros H Hg. destruct fuel; simpl in H; rewrite Hg in H; [discriminate|].
  assert (G : forall f s s', mm_loop prof S f s = Some s' -> (s_i2 s <= s_i2 s')%nat).
  { induction f as [|f IH]; intros s s' E; simpl in E; destruct (go_on S s); try discriminate; try (injection E as <-; lia).
    apply IH in E. rewrite pass_i2 in E. lia. }
  apply G in H. rewrite pass_i2 in H. lia.
Qed.

(* light enters the bulk at some wavelength: all variables are there *)
Lemma C16_all n phi_sym c sp g h m theta phi_in alphas thick f0 b0 f1 thresh prof fuel st o w row :
  valid_request n phi_sym c -> make_angle_vector n phi_sym c sp = Ok g -> length (g_av g) = (2 * h)%nat ->
  m_fold m phi_sym -> relabel_ok n m g -> good_direction phi_sym theta phi_in ->
  file_shaped (length alphas) h f0 ->
  make_v0_row g theta (fold_phi_in phi_in phi_sym) = Ok row ->
  (w < length alphas)%nat ->
  thresh < rsum (map (fun r => dot r row) (skipn h (at_wl (f_RT f0) w))) ->
  calculate_RAT n phi_sym c sp theta phi_in alphas thick f0 b0 f1 thresh prof fuel = Ok (Some (st, o)) ->
  length (o_R o) = length alphas /\
  (exists T A, o_T o = Some T /\ o_A_bulk o = Some A /\ length T = length alphas /\ length A = length alphas) /\
  (prof = true -> o_has_profiles o = true /\
     exists a0 a1, o_A_interface o = Some (a0, a1) /\ length a0 = length alphas /\ length a1 = length alphas).
Proof.
  intros Hv Hg Hh Hm Hr Hd Hf Hrow Hw Hp E.
  destruct (calc_unfold n phi_sym c sp g h Hv Hg Hh m theta phi_in alphas thick f0 b0 f1 thresh Hm Hr Hd)
    as [S [row' [HS [Hrow' [Hc [L1 [L2 L3]]]]]]].
  rewrite Hrow in Hrow'. injection Hrow' as <-.
  rewrite Hc in E. injection E as E. apply mm_inv in E. destruct E as [El Eo]. rewrite repeat_length in Eo.
  assert (ES : m_Tf S = snd (split_wmat Front h (f_RT f0)) /\ m_thresh S = thresh).
  { unfold build_setup in HS. destruct (out_to_in_matrix g phi_sym) as [ud|]; cbn [rbind] in HS; [|discriminate].
    rewrite Hh in HS. replace (2 * h / 2)%nat with h in HS by (rewrite Nat.mul_comm, Nat.div_mul; lia).
    apply (f_equal (fun r => match r with Ok s => s | _ => S end)) in HS. rewrite <- HS. auto. }
  destruct ES as [ET Eth].
  assert (Hgo : go_on S (mm_init S (repeat row (length alphas))) = true).
  { apply go_on_iff. cbn [s_vf1 mm_init]. rewrite Eth.
    destruct Hf as [Hf1 _].
    assert (Hs : stored_for (m_Tf S) (length alphas) h h) by (rewrite ET; apply (split_stored Front); auto).
    exists (nth w (dot_wl (m_Tf S) (repeat row (length alphas))) []). split.
    - apply nth_In. rewrite dot_wl_length with (nwl := length alphas); auto; [eapply stored_lists; eauto|apply repeat_length].
    - rewrite dot_wl_nth with (nwl := length alphas); auto; [|eapply stored_lists; eauto|apply repeat_length].
      rewrite nth_repeat_row by auto. rewrite (dot_w_square _ (length alphas) h w row Hs Hw).
      rewrite ET, at_split_T. exact Hp. }
  pose proof (loop_first _ _ _ _ _ El Hgo) as Hi. cbn [s_i2 mm_init] in Hi.
  assert (Hb : (1 <? s_i2 st)%nat = true) by (apply Nat.ltb_lt; auto).
  rewrite Eo. unfold mm_result. rewrite Hb. cbn [o_R o_T o_A_bulk o_A_interface o_has_profiles].
  rewrite sum02_length. split; auto. split.
  - eexists. eexists. split; [reflexivity|]. split; [reflexivity|]. rewrite sum02_length, sum0_length. auto.
  - intros ->. split; auto. eexists. eexists. split; [reflexivity|]. rewrite !sum02_length. auto.
Qed.

(* no light enters the bulk: T, the bulk absorption, the interface absorption and the profiles are missing *)
Lemma C16_none n phi_sym c sp g h m theta phi_in alphas thick f0 b0 f1 thresh prof fuel :
  valid_request n phi_sym c -> make_angle_vector n phi_sym c sp = Ok g -> length (g_av g) = (2 * h)%nat ->
  m_fold m phi_sym -> relabel_ok n m g -> good_direction phi_sym theta phi_in -> 0 <= thresh ->
  file_shaped (length alphas) h f0 ->
  (forall w r k, (w < length alphas)%nat -> (h <= r < 2 * h)%nat -> (k < h)%nat -> entry (at_wl (f_RT f0) w) r k = 0) ->
  exists st o, calculate_RAT n phi_sym c sp theta phi_in alphas thick f0 b0 f1 thresh prof fuel = Ok (Some (st, o)) /\
    o_T o = None /\ o_A_bulk o = None /\ o_A_interface o = None /\ o_has_profiles o = false.
Proof.
  intros Hv Hg Hh Hm Hr Hd Hth Hf Hz.
  destruct (calc_unfold n phi_sym c sp g h Hv Hg Hh m theta phi_in alphas thick f0 b0 f1 thresh Hm Hr Hd)
    as [S [row [HS [Hrow [Hc [L1 [L2 L3]]]]]]].
  assert (ES : m_Tf S = snd (split_wmat Front h (f_RT f0)) /\ m_thresh S = thresh).
  { unfold build_setup in HS. destruct (out_to_in_matrix g phi_sym) as [ud|]; cbn [rbind] in HS; [|discriminate].
    rewrite Hh in HS. replace (2 * h / 2)%nat with h in HS by (rewrite Nat.mul_comm, Nat.div_mul; lia).
    apply (f_equal (fun r => match r with Ok s => s | _ => S end)) in HS. rewrite <- HS. auto. }
  destruct ES as [ET Eth]. destruct Hf as [Hf1 _].
  assert (Hs : stored_for (m_Tf S) (length alphas) h h) by (rewrite ET; apply (split_stored Front); auto).
  assert (Hgo : go_on S (mm_init S (repeat row (length alphas))) = false).
  { destruct (go_on S _) eqn:E; auto. exfalso. apply go_on_iff in E. destruct E as [v [Hin Hl]].
    cbn [s_vf1 mm_init] in Hin. apply In_nth with (d := []) in Hin. destruct Hin as [w [Hw <-]].
    rewrite dot_wl_length with (nwl := length alphas) in Hw; [|eapply stored_lists; eauto|apply repeat_length].
    rewrite dot_wl_nth with (nwl := length alphas) in Hl; auto; [|eapply stored_lists; eauto|apply repeat_length].
    rewrite nth_repeat_row in Hl by auto. rewrite (dot_w_square _ (length alphas) h w row Hs Hw) in Hl.
    rewrite (rsum_matvec _ row h h) in Hl; auto; [|eapply stored_shape; eauto].
    rewrite rsum_map_0 in Hl; [lra|]. intros k Hk. apply in_seq in Hk.
    rewrite ET, at_split_T. cbn [split_rows snd].
    assert (HC : col_total (skipn h (at_wl (f_RT f0) w)) k = 0); [|rewrite HC; ring].
    unfold col_total. apply rsum_map_0. intros x Hx. apply In_nth with (d := []) in Hx. destruct Hx as [q [Hq <-]].
    pose proof (stored_shape _ _ _ _ w Hf1 Hw) as [Hl1 _]. rewrite skipn_length in Hq.
    rewrite nth_skipn_add. apply (Hz w (h + q)%nat k); auto; lia. }
  exists (mm_init S (repeat row (length alphas))), (mm_result prof (length alphas) (mm_init S (repeat row (length alphas)))).
  split; [|cbn; auto].
  rewrite Hc. unfold matrix_multiplication. destruct fuel; simpl mm_loop; rewrite Hgo, repeat_length; auto.
Qed.

(* a Lambertian front interface is such a case *)
Lemma C16_lambertian n phi_sym c sp g m theta phi_in alphas thick b0 f1 thresh prof fuel :
  valid_request n phi_sym c -> make_angle_vector n phi_sym c sp = Ok g ->
  m_fold m phi_sym -> relabel_ok n m g -> good_direction phi_sym theta phi_in -> 0 <= thresh ->
  let f0 := mk_stored (M2 (fst (lambertian_matrix g))) (M2 (snd (lambertian_matrix g))) in
  exists st o, calculate_RAT n phi_sym c sp theta phi_in alphas thick f0 b0 f1 thresh prof fuel = Ok (Some (st, o)) /\
    o_T o = None /\ o_A_bulk o = None /\ o_A_interface o = None /\ o_has_profiles o = false.
Proof.
  intros Hv Hg Hm Hr Hd Hth f0.
  destruct (C04_ex n phi_sym c sp g Hv Hg) as [h [M [Hh [EM [Hl [Hsh [_ [_ [Hz _]]]]]]]]].
  apply (C16_none n phi_sym c sp g h m); auto.
  - subst f0. rewrite EM. cbn. split; [exact Hsh|reflexivity].
  - intros w r k _ Hr' Hk. subst f0. rewrite EM. exact (Hz r k Hr' Hk).
Qed.

(* ---------- energy is lost for odd symmetry ---------- *)

Definition window1 : stored := mk_stored (M2 [[0]; [1]]) (M2 [[0]]).

Lemma C09_lost : exists n phi_sym c sp g m theta phi_in alphas thick f0 b0 f1 thresh prof fuel st o,
  valid_request n phi_sym c /\ make_angle_vector n phi_sym c sp = Ok g /\ m_fold m phi_sym /\
  good_direction phi_sym theta phi_in /\
  file_conserves (length alphas) 1 f0 /\ file_conserves (length alphas) 1 b0 /\ file_conserves (length alphas) 1 f1 /\
  length (g_av g) = 2%nat /\
  calculate_RAT n phi_sym c sp theta phi_in alphas thick f0 b0 f1 thresh prof fuel = Ok (Some (st, o)) /\
  (0 < length alphas)%nat /\
  R_at o 0 + T_at o 0 + A_bulk_at o 0 + A_front_at st 0 + A_back_at st 0 + still_travelling st 0 = 0.
Proof.
  pose proof PI_RGT_0 as HPI.
  assert (Hv : valid_request 1 (2 * PI / INR 3) 1) by (repeat split; try lia; try lra; apply Rdiv_lt_0_compat; simpl; lra).
  destruct (make_angle_vector 1 (2 * PI / INR 3) 1 SpLinear) as [g|] eqn:Hg.
  2:{ exfalso. revert Hg. unfold make_angle_vector. discriminate. }
  destruct (C08_lost_ex 1 1 SpLinear g 3 Hv eq_refl ltac:(lia) ltac:(lra) Hg) as [h [u [d [k [Hh [Eud [Hk [Hsh Hcol]]]]]]]].
  assert (HD : (length (g_av g) / 2)%nat = 1%nat).
  { rewrite (g_half 1 (2 * PI / INR 3) 1 SpLinear g Hv Hg). unfold off. simpl. unfold ring_count. simpl.
    rewrite (Zceil_unique (1 * 1) 1) by (simpl; lra). reflexivity. }
  assert (H1 : h = 1%nat) by (rewrite Hh in HD; rewrite Nat.mul_comm, Nat.div_mul in HD; lia).
  subst h. replace k with 0%nat in Hcol by lia. clear k Hk.
  assert (Hgood : good_direction (2 * PI / INR 3) (PI / 4) PhiAll) by (split; [lra|auto]).
  destruct (v0_good 1 _ 1 SpLinear g 1 Hv Hg Hh (PI / 4) PhiAll Hgood) as [row [Hrow [L1 [L2 L3]]]].
  destruct row as [|x [|]]; try discriminate. simpl in L2. assert (x = 1) by lra. subst x. clear L2 L3 L1.
  destruct Hsh as [S1 S2]. destruct d as [|dr [|]]; try discriminate.
  specialize (S2 dr (or_introl eq_refl)). destruct dr as [|d0 [|]]; try discriminate.
  unfold col_total in Hcol. simpl in Hcol. assert (d0 = 0) by lra. subst d0. clear S1 S2 Hcol.
  assert (HT : exists t, map a_theta (firstn 1 (g_av g)) = [t]).
  { destruct (g_av g) as [|r l]; [discriminate|]. exists (a_theta r). reflexivity. }
  destruct HT as [t HT].
  set (S := mk_setup (M2 [[0]]) (M2 [[1]]) (M2 [[0]]) (M2 [[1]]) (M2 [[0]]) (M2 [[0]]) (M2 [[0]]) (M2 [[1]]) (M2 [[0]])
              u [[0]] (make_D [1] 1 [t]) (1 / 2)).
  assert (HS : build_setup g (2 * PI / INR 3) [1] 1 window1 window1 window1 (1 / 2) = Ok S).
  { unfold build_setup. rewrite Eud. cbn [rbind fst snd]. rewrite HD, HT. reflexivity. }
  assert (Dz : forall r v, (forall y, In y v -> y = 0) -> dot r v = 0).
  { unfold dot. induction r as [|a r IH]; intros [|b v] H; simpl; auto. rewrite (H b) by (simpl; auto).
    rewrite IH by (intros; apply H; simpl; auto). ring. }
  set (e := exp (- (1) * 1 / Rabs (cos t))).
  set (st1 := pass false S (mm_init S [[1]])).
  assert (Hu : forall y, In y (matvec u [e * (0 * (e * (0 * (1 * 1 + 0) + 0)) + 0)]) -> y = 0).
  { intros y Hy. apply in_map_iff in Hy. destruct Hy as [r [<- _]]. apply Dz. intros z [<-|[]]. ring. }
  assert (Ez : dot [1] (matvec u [e * (0 * (e * (0 * (1 * 1 + 0) + 0)) + 0)]) = 0) by (apply Dz; auto).
  assert (Ez0 : dot [0] (matvec u [e * (0 * (e * (0 * (1 * 1 + 0) + 0)) + 0)]) = 0) by (apply Dz; auto).
  assert (G0 : go_on S (mm_init S [[1]]) = true).
  { apply go_on_iff. exists [1 * 1 + 0]. split; [left; reflexivity|]. cbn. lra. }
  assert (E1 : s_vf1 st1 = [[0]]).
  { change (s_vf1 st1) with [[dot [1] (matvec u [e * (0 * (e * (0 * (1 * 1 + 0) + 0)) + 0)])]]. rewrite Ez. auto. }
  assert (G1 : go_on S st1 = false).
  { destruct (go_on S st1) eqn:E; auto. apply go_on_iff in E. destruct E as [v [Hv' Hl]]. rewrite E1 in Hv'.
    destruct Hv' as [<-|[]]. cbn in Hl. lra. }
  exists 1%nat, (2 * PI / INR 3), 1, SpLinear, g, 3%nat, (PI / 4), PhiAll, [1], 1, window1, window1, window1, (1 / 2), false, 1%nat,
    st1, (mm_result false 1 st1).
  assert (HF : file_conserves (length [1]) 1 window1).
  { split; [split|].
    - cbn. split; auto. intros r [<-|[<-|[]]]; auto.
    - reflexivity.
    - intros w k _ Hk. replace k with 0%nat by lia. cbn. unfold col_total. simpl. lra. }
  split; auto. split; auto. split; [split; [lia|auto]|]. split; auto. split; auto. split; auto. split; auto. split; auto.
  split.
  { unfold calculate_RAT. rewrite Hg. cbn [rbind]. unfold make_v0. rewrite Hrow. cbn [rbind]. rewrite HS. cbn [rbind length repeat].
    unfold matrix_multiplication. cbn [mm_loop]. rewrite G0. fold st1. rewrite G1. auto. }
  split; [simpl; lia|].
  assert (ER : R_at (mm_result false 1 st1) 0 = 0).
  { change (R_at (mm_result false 1 st1) 0) with
      ((0 * 1 + 0 + 0) + ((dot [0] (matvec u [e * (0 * (e * (0 * (1 * 1 + 0) + 0)) + 0)]) + 0) + 0)).
    rewrite Ez0. ring. }
  assert (ET : T_at (mm_result false 1 st1) 0 = 0).
  { change (T_at (mm_result false 1 st1) 0) with (((1 * (e * (0 * (1 * 1 + 0) + 0)) + 0) + 0) + 0). ring. }
  assert (EA : A_bulk_at (mm_result false 1 st1) 0 = 0).
  { change (A_bulk_at (mm_result false 1 st1) 0) with
      ((((0 * (1 * 1 + 0) + 0) + 0) - (e * (0 * (1 * 1 + 0) + 0) + 0)) +
       ((((0 * (e * (0 * (1 * 1 + 0) + 0)) + 0) + 0) -
         rsum (matvec u [e * (0 * (e * (0 * (1 * 1 + 0) + 0)) + 0)])) + 0)).
    assert (Er : rsum (matvec u [e * (0 * (e * (0 * (1 * 1 + 0) + 0)) + 0)]) = 0).
    { clear - Hu. revert Hu. generalize (matvec u [e * (0 * (e * (0 * (1 * 1 + 0) + 0)) + 0)]).
      intros l0; induction l0 as [|a l IH]; intros H; simpl; auto. rewrite (H a) by (simpl; auto). rewrite IH; [ring|]. intros; apply H; simpl; auto. }
    rewrite Er. ring. }
  assert (EF : A_front_at st1 0 = 0).
  { change (A_front_at st1 0) with
      ((0 * 1 + 0 + 0) + ((dot [0] (matvec u [e * (0 * (e * (0 * (1 * 1 + 0) + 0)) + 0)]) + 0) + 0)).
    rewrite Ez0. ring. }
  assert (EB : A_back_at st1 0 = 0).
  { change (A_back_at st1 0) with (((0 * (e * (0 * (1 * 1 + 0) + 0)) + 0) + 0) + 0). ring. }
  assert (EV : still_travelling st1 0 = 0).
  { unfold still_travelling. rewrite E1. simpl. ring. }
  rewrite ER, ET, EA, EF, EB, EV. ring.
Qed.

(* ---------- C07 ---------- *)

Lemma C07_num n phi_sym c sp g m theta phi nwl :
  valid_request n phi_sym c -> make_angle_vector n phi_sym c sp = Ok g -> m_fold m phi_sym ->
  0 <= theta < PI / 2 -> 0 <= phi -> phi <> phi_sym ->
  exists k i j q row, row_is g k i j /\ in_bin_left (g_theta_intv g) i theta /\
    in_bin_left (phi_edges_of g i) j (phi + IZR q * phi_sym) /\
    make_v0 g theta (fold_phi_in (PhiNum phi) phi_sym) nwl = Ok (repeat row nwl) /\
    length (g_av g) = (2 * length row)%nat /\ (k < length row)%nat /\
    forall k', nth k' row 0 = if Nat.eqb k' k then 1 else 0.
Proof.
  intros Hv Hg Hm Ht Hp Hne. pose proof Hv as [Hn [Hc Hs]].
  assert (Hq : exists q, fold_phi_in (PhiNum phi) phi_sym = PhiNum (phi + IZR q * phi_sym) /\ 0 <= phi + IZR q * phi_sym < phi_sym).
  { simpl. destruct (Rltb phi_sym phi) eqn:E.
    - destruct (C02_all m phi_sym phi Hm) as [A [[q B] _]]. exists q. rewrite B in *. auto.
    - apply Rltb_false in E. exists 0%Z. replace (phi + 0 * phi_sym) with phi by ring. split; auto. lra. }
  destruct Hq as [q [-> Hr]].
  destruct (v0_numeric n phi_sym c sp g Hv Hg theta _ nwl Ht Hr) as [k [i [j [row [A [B [C [D [E [F G]]]]]]]]]].
  exists k, i, j, q, row. rewrite (g_len n phi_sym c sp g Hv Hg), F. auto 10.
Qed.

Lemma C07_every n phi_sym c sp g theta nwl :
  valid_request n phi_sym c -> make_angle_vector n phi_sym c sp = Ok g -> 0 <= theta < PI / 2 ->
  exists i row, in_bin_left (g_theta_intv g) i theta /\
    make_v0 g theta PhiAll nwl = Ok (repeat row nwl) /\ length (g_av g) = (2 * length row)%nat /\ rsum row = 1 /\
    forall k r, (k < length row)%nat -> nth_error (g_av g) k = Some r ->
      nth k row 0 = if Nat.eqb (a_ring r) i then 1 / INR (length (phi_edges_of g i) - 1) else 0.
Proof.
  intros Hv Hg Ht. destruct (v0_all n phi_sym c sp g Hv Hg theta nwl Ht) as [i [row [A [B [C [D E]]]]]].
  exists i, row. rewrite (g_len n phi_sym c sp g Hv Hg), C. auto 10.
Qed.

Lemma C07_sym n phi_sym c sp g i theta nwl :
  valid_request n phi_sym c -> make_angle_vector n phi_sym c sp = Ok g -> (S i < n)%nat ->
  in_bin_left (g_theta_intv g) i theta ->
  exists k r row, nth_error (g_av g) k = Some r /\ a_ring r = S i /\
    make_v0 g theta (fold_phi_in (PhiNum phi_sym) phi_sym) nwl = Ok (repeat row nwl) /\
    nth k row 0 = 1 /\ rsum row = 1.
Proof.
  intros Hv Hg Hi Ht. destruct (v0_at_sym n phi_sym c sp g Hv Hg i theta nwl Hi Ht) as [k [r [row [_ [A [B [C [D E]]]]]]]].
  exists k, r, row. auto.
Qed.

Lemma C07_graze n phi_sym c sp g nwl :
  valid_request n phi_sym c -> make_angle_vector n phi_sym c sp = Ok g ->
  exists row, make_v0 g (PI / 2) PhiAll nwl = Ok (repeat row nwl) /\ rsum row = 0.
Proof.
  intros Hv Hg. destruct (v0_grazing n phi_sym c sp g Hv Hg nwl) as [row [A [_ B]]]. eauto.
Qed.

(* ---------- C14 ---------- *)

Lemma C14_ex alphas thick thetas w k : (w < length alphas)%nat -> (k < length thetas)%nat ->
  let alpha := nth w alphas 0 in let theta := nth k thetas 0 in
  let att := fun t => nth k (nth w (make_D alphas t thetas) []) 0 in
  0 <= alpha -> 0 <= thick -> cos theta <> 0 ->
  att thick = exp (- (alpha * (thick / Rabs (cos theta)))) /\
  0 < att thick <= 1 /\ (alpha = 0 -> att thick = 1) /\
  (forall t1 t2, att (t1 + t2) = att t1 * att t2) /\
  (forall thick', thick <= thick' -> att thick' <= att thick) /\
  (forall alphas', (w < length alphas')%nat -> alpha <= nth w alphas' 0 ->
     nth k (nth w (make_D alphas' thick thetas) []) 0 <= att thick).
Proof.
  intros Hw Hk alpha theta att Ha Ht Hc.
  assert (HR : 0 < Rabs (cos theta)) by (apply Rabs_pos_lt; auto).
  split; [unfold att; rewrite make_D_nth by auto; f_equal; unfold alpha, theta, Rdiv; ring|].
  split; [apply beer_range; auto; apply Rmult_le_pos; auto|].
  split; [intros H; apply beer_zero; auto|].
  split; [intros t1 t2; apply beer_add; auto|].
  split.
  - intros t' H. apply beer_mono; auto; fold alpha; fold theta; lra.
  - intros alphas' Hw' H. apply beer_mono; auto; fold alpha; fold theta; lra.
Qed.

Lemma skipn_half {A} (l : list A) h : length l = h -> skipn h (l ++ l) = l.
Proof. intros <-. rewrite skipn_app, skipn_all, Nat.sub_diag. auto. Qed.
