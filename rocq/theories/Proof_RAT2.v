(* Proofs of C13, C14, C15, C16, C17, C73 *)
From Coq Require Import Reals List ZArith Bool Lia Lra Psatz.
From Verif Require Import Base Lib Model_Angles Proof_Angles Spec_Angles Proof_AnglesProps
  Model_Ideal Model_MatMul Spec_Matrix Spec_MatMul Proof_Ideal Proof_IdealProps Proof_MatMul Proof_OutIn
  Proof_OutInProps Proof_RAT.
Import ListNotations.
Open Scope R_scope.

(* ---------- C13 ---------- *)

Section Same.
  Variables (nwl nwl' h w w' : nat) (S S' : mm_setup).
  Hypothesis HP : passive_structure nwl h S.
  Hypothesis HP' : passive_structure nwl' h S'.
  Hypothesis Hsame : same_at w w' S S'.
  Hypothesis Hw : (w < nwl)%nat.
  Hypothesis Hw' : (w' < nwl')%nat.
  Let HS := pa_shaped nwl h S HP.
  Let HS' := pa_shaped nwl' h S' HP'.

  Lemma dot_same m m' v : stored_for m nwl h h -> stored_for m' nwl' h h -> at_wl m w = at_wl m' w' ->
    dot_w m w v = dot_w m' w' v.
  Proof. intros A B E. rewrite (dot_w_square m nwl h), (dot_w_square m' nwl' h) by auto. rewrite E. auto. Qed.

  Lemma abs_same m m' v : abs_stored m nwl h -> abs_stored m' nwl' h -> at_wl m w = at_wl m' w' -> length v = h ->
    rsum (dot_w m w v) = rsum (dot_w m' w' v).
  Proof. intros A B E L. rewrite (dot_w_abs_sum m nwl h), (dot_w_abs_sum m' nwl' h) by auto. rewrite E. auto. Qed.

  Lemma mid_same x : wlen h x -> w_f1 S w x = w_f1 S' w' x /\ w_b1 S w x = w_b1 S' w' x /\
    w_b2 S w x = w_b2 S' w' x /\ w_f2 S w x = w_f2 S' w' x /\ w_f2' S w x = w_f2' S' w' x.
  Proof.
    intros Hx. destruct Hsame as [_ U V D [R1 [R2 R3]] _ _].
    assert (E1 : w_f1 S w x = w_f1 S' w' x) by (unfold w_f1; rewrite V; auto).
    assert (E2 : w_b1 S w x = w_b1 S' w' x) by (unfold w_b1; rewrite D, E1; auto).
    assert (E3 : w_b2 S w x = w_b2 S' w' x).
    { unfold w_b2. rewrite E2. apply dot_same; auto; [destruct (sh_back _ _ _ HS)|destruct (sh_back _ _ _ HS')]; auto. }
    assert (E4 : w_f2 S w x = w_f2 S' w' x) by (unfold w_f2; rewrite D, E3; auto).
    assert (E5 : w_f2' S w x = w_f2' S' w' x) by (unfold w_f2'; rewrite U, E4; auto). auto.
  Qed.

  Lemma pass_same prof x : wlen h x -> wpass prof S w x = wpass prof S' w' x.
  Proof.
    intros Hx. destruct (mid_same x Hx) as [E1 [E2 [E3 [E4 E5]]]].
    destruct Hsame as [_ _ _ _ [R1 [R2 R3]] [T1 [T2 T3]] [A1 [A2 A3]]].
    destruct (sh_rear _ _ _ HS) as [r1 [r2 r3]]. destruct (sh_rear _ _ _ HS') as [r1' [r2' r3']].
    destruct (sh_back _ _ _ HS) as [b1 [b2 b3]]. destruct (sh_back _ _ _ HS') as [b1' [b2' b3']].
    destruct (w_lens nwl' h S' HS' w' x Hw' Hx) as [_ [L2 [_ [_ L5]]]].
    unfold wpass. rewrite E1, E2, E3, E4, E5.
    rewrite (dot_same (m_Rb S) (m_Rb S')), (dot_same (m_Tb S) (m_Tb S')), (dot_same (m_Tf2 S) (m_Tf2 S')),
      (abs_same (m_Ab S) (m_Ab S')), (abs_same (m_Af2 S) (m_Af2 S')); auto.
  Qed.

  Lemma iter_same prof k : forall x, wlen h x -> witer S prof w k x = witer S' prof w' k x.
  Proof.
    induction k; intros x Hx; simpl; auto. rewrite pass_same by auto. apply IHk.
    apply (wlen_pass nwl' h S' HS'); auto.
  Qed.

  Lemma init_same v : length v = h -> winit S w v = winit S' w' v.
  Proof.
    intros Hv. destruct Hsame as [_ _ _ _ [R1 _] [T1 _] [A1 _]].
    destruct (sh_front _ _ _ HS) as [f1 [f2 f3]]. destruct (sh_front _ _ _ HS') as [f1' [f2' f3']].
    unfold winit. rewrite (dot_same (m_Tf S) (m_Tf S')), (dot_same (m_Rf S) (m_Rf S')), (abs_same (m_Af S) (m_Af S')); auto.
  Qed.
End Same.

Definition close (e : R) (x y : wstate) : Prop :=
  Rabs (x_r x - x_r y) <= e /\ Rabs (x_t x - x_t y) <= e /\ Rabs (x_a0 x - x_a0 y) <= e /\
  Rabs (x_a1 x - x_a1 y) <= e /\ Rabs (x_A x - x_A y) <= e.

Lemma close_sym e x y : close e x y -> close e y x.
Proof. unfold close. intros [A [B [C [D E]]]]. 
  repeat split; rewrite Rabs_minus_sym; auto. Qed.

Lemma extra_close nwl h S prof w k x : passive_structure nwl h S -> (w < nwl)%nat -> wlen h x -> vpos (x_v x) ->
  close (rsum (x_v x)) x (witer S prof w k x).
Proof.
  intros HP Hw Hx Hp. destruct (iter_grows nwl h S HP prof w k Hw x Hx Hp) as [G0 [G1 [G2 [G3 [G4 [G5 G6]]]]]].
  cbv zeta in *. unfold total in G6.
  assert (0 <= rsum (x_v (witer S prof w k x))) by (apply rsum_nonneg; auto).
  unfold close. repeat split; apply Rabs_le; lra.
Qed.

Lemma loop_close nwl nwl' h w w' S S' prof v0 v0' fuel fuel' st st' :
  passive_structure nwl h S -> passive_structure nwl' h S' -> same_at w w' S S' ->
  (w < nwl)%nat -> (w' < nwl')%nat ->
  incident nwl h v0 -> incident nwl' h v0' -> nonneg_power v0 -> nth w v0 [] = nth w' v0' [] ->
  mm_loop prof S fuel (mm_init S v0) = Some st -> mm_loop prof S' fuel' (mm_init S' v0') = Some st' ->
  close (m_thresh S) (view w st) (view w' st').
Proof.
  intros HP HP' Hsame Hw Hw' HI HI' Hnn Ev HL HL'.
  pose proof (pa_shaped _ _ _ HP) as HS. pose proof (pa_shaped _ _ _ HP') as HS'.
  destruct (mm_loop_iter S prof fuel _ _ HL) as [n [_ [E1 [E2 _]]]].
  destruct (mm_loop_iter S' prof fuel' _ _ HL') as [n' [_ [E1' [E2' _]]]].
  pose proof (init_len nwl h S HS v0 HI) as Hl. pose proof (init_len nwl' h S' HS' v0' HI') as Hl'.
  assert (Hin : In (nth w v0 []) v0) by (apply nth_In; destruct HI; lia).
  assert (Hlen : length (nth w v0 []) = h) by (destruct HI; auto).
  set (x0 := winit S w (nth w v0 [])).
  assert (V : view w st = witer S prof w n x0).
  { rewrite E1, (view_iter nwl h S HS) by auto. rewrite (view_init nwl h S HS v0 w HI Hw). auto. }
  assert (V' : view w' st' = witer S prof w n' x0).
  { rewrite E1', (view_iter nwl' h S' HS') by auto. rewrite (view_init nwl' h S' HS' v0' w' HI' Hw').
    rewrite <- Ev. unfold x0. rewrite (init_same nwl nwl' h w w' S S' HP HP' Hsame Hw Hw') by auto.
    symmetry. apply (iter_same nwl nwl' h w w' S S' HP HP' Hsame Hw Hw').
    apply (wlen_init nwl' h S' HS' w' _ Hw'). }
  assert (Wl : wlen h x0) by (apply (wlen_init nwl h S HS w _ Hw)).
  destruct (init_pos nwl h S HP w (nth w v0 []) Hw Hlen (fun x Hx => Hnn _ x Hin Hx)) as [[P0 _] _].
  assert (St : rsum (x_v (view w st)) <= m_thresh S).
  { unfold view. cbn [x_v]. apply (go_on_false S); auto. rewrite E1, (miter_len nwl h S HS); auto. }
  assert (St' : rsum (x_v (view w' st')) <= m_thresh S).
  { rewrite (sa_thresh _ _ _ _ Hsame). unfold view. cbn [x_v]. apply (go_on_false S'); auto.
    rewrite E1', (miter_len nwl' h S' HS'); auto. }
  assert (Hpos : forall k, vpos (x_v (witer S prof w k x0))).
  { intros k. exact (proj1 (iter_grows nwl h S HP prof w k Hw x0 Wl P0)). }
  assert (Mono : forall e e' x y, e <= e' -> close e x y -> close e' x y).
  { unfold close. intros e e' x y H [A [B [C [D E]]]]. repeat split; lra. }
  rewrite V in *. rewrite V' in *.
  destruct (Nat.le_ge_cases n n') as [H|H].
  - replace n' with (n + (n' - n))%nat by lia. rewrite witer_add.
    apply (Mono _ _ _ _ St). apply (extra_close nwl h); auto. apply (wlen_iter nwl h S HS); auto.
  - replace n with (n' + (n - n'))%nat by lia. rewrite witer_add.
    apply close_sym. apply (Mono _ _ _ _ St'). apply (extra_close nwl h); auto. apply (wlen_iter nwl h S HS); auto.
Qed.

Lemma C13_ex n phi_sym c sp g h m theta phi_in alphas alphas' thick f0 b0 f1 f0' b0' f1' thresh prof fuel fuel' st o st' o' w w' :
  valid_request n phi_sym c -> make_angle_vector n phi_sym c sp = Ok g -> length (g_av g) = (2 * h)%nat ->
  m_fold m phi_sym -> relabel_ok n m g -> good_direction phi_sym theta phi_in ->
  (forall a, In a (alphas ++ alphas') -> 0 <= a * thick) ->
  file_passive (length alphas) h f0 -> file_passive (length alphas) h b0 -> file_passive (length alphas) h f1 ->
  file_passive (length alphas') h f0' -> file_passive (length alphas') h b0' -> file_passive (length alphas') h f1' ->
  (w < length alphas)%nat -> (w' < length alphas')%nat -> nth w alphas 0 = nth w' alphas' 0 ->
  same_file_at w w' f0 f0' -> same_file_at w w' b0 b0' -> same_file_at w w' f1 f1' ->
  calculate_RAT n phi_sym c sp theta phi_in alphas thick f0 b0 f1 thresh prof fuel = Ok (Some (st, o)) ->
  calculate_RAT n phi_sym c sp theta phi_in alphas' thick f0' b0' f1' thresh prof fuel' = Ok (Some (st', o')) ->
  Rabs (R_at o w - R_at o' w') <= thresh /\ Rabs (T_at o w - T_at o' w') <= thresh /\
  Rabs (A_bulk_at o w - A_bulk_at o' w') <= thresh /\ Rabs (A_front_at st w - A_front_at st' w') <= thresh /\
  Rabs (A_back_at st w - A_back_at st' w') <= thresh.
Proof.
  intros Hv Hg Hh Hm Hok Hd Ha F0 F1 F2 F0' F1' F2' Hw Hw' Eal [X1 X2] [Y1 Y2] [Z1 Z2] HR HR'.
  destruct (calc_unfold n phi_sym c sp g h Hv Hg Hh m theta phi_in alphas thick f0 b0 f1 thresh Hm Hok Hd)
    as [S [row [ES [Er [E [L1 [L2 L3]]]]]]].
  destruct (calc_unfold n phi_sym c sp g h Hv Hg Hh m theta phi_in alphas' thick f0' b0' f1' thresh Hm Hok Hd)
    as [S' [row' [ES' [Er' [E' [L1' [L2' L3']]]]]]].
  assert (row' = row) by congruence. subst row'.
  assert (Ha1 : forall a, In a alphas -> 0 <= a * thick) by (intros; apply Ha, in_or_app; auto).
  assert (Ha2 : forall a, In a alphas' -> 0 <= a * thick) by (intros; apply Ha, in_or_app; auto).
  destruct (build_pa n phi_sym c sp g h Hv Hg Hh m alphas thick f0 b0 f1 thresh S Hm Hok Ha1 F0 F1 F2 ES) as [P T].
  destruct (build_pa n phi_sym c sp g h Hv Hg Hh m alphas' thick f0' b0' f1' thresh S' Hm Hok Ha2 F0' F1' F2' ES') as [P' T'].
  rewrite E in HR. inversion HR as [HR2]. destruct (mm_inv _ _ _ _ _ _ HR2) as [HL ->].
  rewrite E' in HR'. inversion HR' as [HR2']. destruct (mm_inv _ _ _ _ _ _ HR2') as [HL' ->].
  assert (Hsame : same_at w w' S S').
  { destruct (build_ok n phi_sym c sp g h Hv Hg Hh m alphas thick f0 b0 f1 thresh Hm Hok) as [u [d [Eo [_ [_ EB]]]]].
    destruct (build_ok n phi_sym c sp g h Hv Hg Hh m alphas' thick f0' b0' f1' thresh Hm Hok) as [u' [d' [Eo' [_ [_ EB']]]]].
    rewrite Eo in Eo'. inversion Eo'. subst u' d'. rewrite EB in ES. inversion ES. rewrite EB' in ES'. inversion ES'.
    constructor; cbn; rewrite ?at_split_R, ?at_split_T, ?X1, ?X2, ?Y1, ?Y2, ?Z1, ?Z2; auto.
    unfold make_D. rewrite nth_map_lt with (da := 0) by auto. rewrite nth_map_lt with (da := 0) by auto. rewrite Eal. auto. }
  assert (Hnn : nonneg_power (repeat row (length alphas))).
  { intros v x Hv' Hx. apply repeat_spec in Hv'. subst. auto. }
  assert (Ev : nth w (repeat row (length alphas)) [] = nth w' (repeat row (length alphas')) []).
  { rewrite !nth_repeat_row; auto. }
  destruct (loop_close (length alphas) (length alphas') h w w' S S' prof _ _ fuel fuel' st st' P P' Hsame Hw Hw'
    (incident_repeat h row _ L1) (incident_repeat h row _ L1) Hnn Ev HL HL') as [C1 [C2 [C3 [C4 C5]]]].
  rewrite T in *.
  destruct (result_view prof S fuel _ st w HL ltac:(rewrite repeat_length; auto)) as [V1 [V2 [V3 [V4 [V5 _]]]]].
  destruct (result_view prof S' fuel' _ st' w' HL' ltac:(rewrite repeat_length; auto)) as [V1' [V2' [V3' [V4' [V5' _]]]]].
  rewrite V1, V2, V3, V4, V5, V1', V2', V3', V4', V5'. auto.
Qed.

(* ---------- C14 ---------- *)

Definition D_at (D : list (list R)) (w k : nat) : R := nth k (nth w D []) 0.

Lemma make_D_nth alphas thick thetas w k : (w < length alphas)%nat -> (k < length thetas)%nat ->
  nth k (nth w (make_D alphas thick thetas) []) 0 = exp (- nth w alphas 0 * thick / Rabs (cos (nth k thetas 0))).
Proof.
  intros Hw Hk. unfold make_D. rewrite nth_map_lt with (da := 0) by auto. rewrite nth_map_lt with (da := 0) by auto. auto.
Qed.

Lemma exp_le x y : x <= y -> exp x <= exp y.
Proof. intros [H| ->]; [apply Rlt_le, exp_increasing; auto|lra]. Qed.

Lemma quot_le a b c : 0 < c -> a <= b -> a / c <= b / c.
Proof. intros Hc H. unfold Rdiv. apply Rmult_le_compat_r; auto. apply Rlt_le, Rinv_0_lt_compat. auto. Qed.

Section Beer.
  Variables (alphas : list R) (thetas : list R) (w k : nat).
  Hypothesis Hw : (w < length alphas)%nat.
  Hypothesis Hk : (k < length thetas)%nat.
  Let a := nth w alphas 0.
  Let t := nth k thetas 0.
  Hypothesis Hc : cos t <> 0.

  Lemma abs_cos_pos : 0 < Rabs (cos t).
  Proof. apply Rabs_pos_lt. auto. Qed.

  Lemma beer_range thick : 0 <= a * thick -> 0 < nth k (nth w (make_D alphas thick thetas) []) 0 <= 1.
  Proof.
    intros H. rewrite make_D_nth by auto. fold a t. split; [apply exp_pos|]. apply exp_le_1.
    pose proof abs_cos_pos as Hp. replace 0 with (0 / Rabs (cos t)) by (unfold Rdiv; ring). apply quot_le; auto. lra.
  Qed.
  Lemma beer_zero thick : a = 0 -> nth k (nth w (make_D alphas thick thetas) []) 0 = 1.
  Proof. intros H. rewrite make_D_nth by auto. fold a t. rewrite H. unfold Rdiv. rewrite Ropp_0, !Rmult_0_l. apply exp_0. Qed.
  Lemma beer_add t1 t2 : nth k (nth w (make_D alphas (t1 + t2) thetas) []) 0 =
    nth k (nth w (make_D alphas t1 thetas) []) 0 * nth k (nth w (make_D alphas t2 thetas) []) 0.
  Proof. rewrite !make_D_nth by auto. fold a t. rewrite <- exp_plus. f_equal. field. apply Rgt_not_eq, abs_cos_pos. Qed.
End Beer.

Lemma beer_mono alphas alphas' thick thick' thetas thetas' w k :
  (w < length alphas)%nat -> (w < length alphas')%nat -> (k < length thetas)%nat -> (k < length thetas')%nat ->
  0 <= nth w alphas 0 <= nth w alphas' 0 -> 0 <= thick <= thick' ->
  0 < Rabs (cos (nth k thetas' 0)) <= Rabs (cos (nth k thetas 0)) ->
  nth k (nth w (make_D alphas' thick' thetas') []) 0 <= nth k (nth w (make_D alphas thick thetas) []) 0.
Proof.
  intros H1 H2 H3 H4 [A1 A2] [B1 B2] [C1 C2]. rewrite !make_D_nth by auto. apply exp_le.
  set (x := nth w alphas 0) in *. set (x' := nth w alphas' 0) in *. set (p := Rabs (cos (nth k thetas 0))) in *.
  set (p' := Rabs (cos (nth k thetas' 0))) in *.
  assert (x * thick <= x' * thick') by (apply Rmult_le_compat; auto).
  assert (0 <= x * thick) by (apply Rmult_le_pos; auto).
  assert (/ p <= / p') by (apply Rinv_le_contravar; auto).
  assert (0 < / p) by (apply Rinv_0_lt_compat; lra).
  unfold Rdiv. rewrite <- !Ropp_mult_distr_l. apply Ropp_le_contravar.
  apply Rmult_le_compat; lra.
Qed.

(* ---------- C17 ---------- *)

Lemma split_entries s h full nc : has_shape full (2 * h) nc ->
  forall k q, (k < h)%nat ->
    entry (fst (split_rows s h full)) k q = entry full (match s with Front => k | Rear => (h + k)%nat end) q /\
    entry (snd (split_rows s h full)) k q = entry full (match s with Front => (h + k)%nat | Rear => k end) q.
Proof.
  intros [H1 _] k q Hk. unfold entry. destruct s; simpl; rewrite nth_firstn_lt by auto; rewrite nth_skipn_add; auto.
Qed.

Lemma C17_ex n phi_sym c sp g h s full : valid_request n phi_sym c -> make_angle_vector n phi_sym c sp = Ok g ->
  length (g_av g) = (2 * h)%nat -> has_shape full (2 * h) h ->
  let RT := split_rows s (length (g_av g) / 2) full in
  has_shape (fst RT) h h /\ has_shape (snd RT) h h /\
  (forall k, (k < h)%nat -> exists r r', (* direction of reflection row k and of transmission row k *)
     nth_error (g_av g) r = Some r' /\ (match s with Front => a_theta r' < PI / 2 | Rear => PI / 2 < a_theta r' end) /\
     forall q, entry (fst RT) k q = entry full r q) /\
  (forall k, (k < h)%nat -> exists r r',
     nth_error (g_av g) r = Some r' /\ (match s with Front => PI / 2 < a_theta r' | Rear => a_theta r' < PI / 2 end) /\
     forall q, entry (snd RT) k q = entry full r q) /\
  (forall q, col_total (fst RT) q + col_total (snd RT) q = col_total full q).
Proof.
  intros Hv Hg Hh Hs. cbv zeta. rewrite (h_div n phi_sym c sp g h Hv Hg Hh).
  destruct (split_shape s h full h Hs) as [S1 S2]. split; auto. split; auto.
  assert (Dir : forall k, (k < 2 * h)%nat -> exists r', nth_error (g_av g) k = Some r' /\
     ((k < h)%nat -> a_theta r' < PI / 2) /\ ((h <= k)%nat -> PI / 2 < a_theta r')).
  { intros k Hk. pose proof Hv as [Hn [Hc Hsy]].
    pose proof (h_off n phi_sym c sp g h Hv Hg Hh) as Ho.
    destruct (oi_rows n phi_sym c sp g Hv Hg k ltac:(rewrite Ho; lia)) as [i [j [Hi [Hj [E1 [E2 _]]]]]].
    exists (nth k (g_av g) default_row). split; [apply nth_error_nth'; lia|]. rewrite E2. cbn [a_theta].
    destruct (Nat.lt_ge_cases i n) as [L|L].
    - split; [intros; apply theta_mid_low; auto|]. intros Hk'. exfalso.
      pose proof (off_low n phi_sym c Hv i L). rewrite Ho in *. lia.
    - split; [|intros; apply theta_mid_high; auto; lia]. intros Hk'. exfalso.
      pose proof (off_high n phi_sym c Hv i ltac:(lia)). rewrite Ho in *. lia. }
  split; [|split; [|apply col_total_split]].
  - intros k Hk. destruct s.
    + destruct (Dir k ltac:(lia)) as [r' [A [B C]]]. exists k, r'. split; auto. split; auto.
      intros q. apply (split_entries Front h full h Hs k q Hk).
    + destruct (Dir (h + k)%nat ltac:(lia)) as [r' [A [B C]]]. exists (h + k)%nat, r'. split; auto. split; [apply C; lia|].
      intros q. apply (split_entries Rear h full h Hs k q Hk).
  - intros k Hk. destruct s.
    + destruct (Dir (h + k)%nat ltac:(lia)) as [r' [A [B C]]]. exists (h + k)%nat, r'. split; auto. split; [apply C; lia|].
      intros q. apply (split_entries Front h full h Hs k q Hk).
    + destruct (Dir k ltac:(lia)) as [r' [A [B C]]]. exists k, r'. split; auto. split; auto.
      intros q. apply (split_entries Rear h full h Hs k q Hk).
Qed.
