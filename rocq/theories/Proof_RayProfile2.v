(* C30: the profile of a ray integrates to the absorption of each layer. *)
From Coq Require Import Reals List Bool ZArith Lra Lia.
From Verif Require Import Base Lib Proof_Profile Model_RayIface Model_RayStack Spec_RayIface Spec_RayStack
  Proof_RayStack Proof_RayEnergy Proof_RayProfile.
Import ListNotations.
Open Scope R_scope.

Lemma trapz_plus : forall a b x, length a = length b ->
  trapz (map2 Rplus a b) x = trapz a x + trapz b x.
Proof.
  induction a as [|a0 a IH]; intros [|b0 b] x L; try discriminate L; [simpl; lra|].
  destruct a as [|a1 a], b as [|b1 b]; try discriminate L; [simpl; lra|].
  destruct x as [|x0 [|x1 x]]; [simpl; lra|simpl; lra|].
  specialize (IH (b1 :: b) (x1 :: x) ltac:(simpl in *; lia)).
  cbn [map2] in *.
  change (trapz (a0 + b0 :: a1 + b1 :: map2 Rplus a b) (x0 :: x1 :: x)) with
    ((x1 - x0) * (a0 + b0 + (a1 + b1)) / 2 + trapz (a1 + b1 :: map2 Rplus a b) (x1 :: x)).
  change (trapz (a0 :: a1 :: a) (x0 :: x1 :: x)) with ((x1 - x0) * (a0 + a1) / 2 + trapz (a1 :: a) (x1 :: x)).
  change (trapz (b0 :: b1 :: b) (x0 :: x1 :: x)) with ((x1 - x0) * (b0 + b1) / 2 + trapz (b1 :: b) (x1 :: x)).
  rewrite IH. lra.
Qed.

Lemma depths_length widths z_pos i prof : length prof = length z_pos ->
  length (depths_of widths z_pos i) = length (select (depth_mask widths z_pos i) prof).
Proof. intros L. unfold depths_of. rewrite map_length. apply select_length. auto. Qed.

Lemma mask_length widths z_pos i : length (depth_mask widths z_pos i) = length z_pos.
Proof. apply map_length. Qed.

(* a layer in which the profile is a meaningful integral *)
Definition sampled (ws z_pos : list R) : Prop :=
  forall i, (1 <= i <= length ws)%nat -> (2 <= length (layer_depths ws z_pos i))%nat.

Section Prof.
Variables (K : stack) (ws : list R) (m0 d0 : Z) (outs : nat -> outcome).
Hypothesis HK : stack_of K ws.
Hypothesis HS : good_start ws m0 d0.
Hypothesis HP : proper_path d0 outs.
Hypothesis Hinc : forall j, (S j < length (k_zpos K))%nat -> nth j (k_zpos K) 0 < nth (S j) (k_zpos K) 0.

Definition integral (st : sstate) (i : nat) : R :=
  trapz (select (depth_mask (padded ws) (k_zpos K) i) (s_profile st)) (layer_depths ws (k_zpos K) i).

Lemma cross_profile k st i : inv K ws m0 d0 outs k st -> (forall A, outs k <> OAbsorbed A) ->
  outside ws m0 d0 outs (S k) = false ->
  (1 <= i <= length ws)%nat -> (2 <= length (layer_depths ws (k_zpos K) i))%nat ->
  let st' := cross_state K st (heading d0 outs (S k)) (medium m0 d0 outs (S k)) (ahead m0 d0 outs (S k))
               (angle outs k) in
  integral st' i - nth i (s_A st') 0 = integral st i - nth i (s_A st) 0.
Proof.
  intros H Ha Ho Hi Hl st'.
  destruct (loc_next ws m0 d0 outs k (iv_loc _ _ _ _ _ _ _ H) Ha Ho) as [_ B].
  pose proof (widths_len K ws HK) as WL.
  set (m := Z.to_nat (medium m0 d0 outs (S k))) in *.
  assert (Hm : (1 <= m <= length ws)%nat) by (subst m; lia).
  assert (HA : nth i (s_A st') 0 = if Nat.eqb i m then nth m (s_A st) 0 + s_I st - s_I st' else nth i (s_A st) 0).
  { subst st'. cbn [cross_state s_A]. unfold set_A. fold m.
    rewrite set_nth_nth by (rewrite (iv_len _ _ _ _ _ _ _ H); lia). reflexivity. }
  rewrite HA. unfold integral. subst st'. cbn [cross_state s_profile s_I]. fold m.
  rewrite (so_widths _ _ HK). rewrite depths_layer by auto.
  destruct (Nat.eqb_spec i m) as [->|Ne].
  - assert (Hcos : cos (angle outs k) <> 0).
    { specialize (HP k). pose proof (proper_cos (heading d0 outs k) (outs k)) as Hx. unfold angle.
      destruct (outs k) as [th|th|A]; auto. exfalso; eapply Ha; eauto. }
    assert (Hw : 0 <= nth m (padded ws) 0).
    { rewrite <- (so_widths _ _ HK), (nth_bulk K ws m HK) by auto.
      apply Rlt_le, (so_pos _ _ HK), nth_In. lia. }
    assert (Hal : 0 <= nth m (k_alphas K) 0).
    { apply (so_alpha_pos _ _ HK), nth_In. rewrite (so_alphas _ _ HK). lia. }
    assert (HI : 0 < s_I st) by (rewrite (iv_I _ _ _ _ _ _ _ H); apply power_pos).
    destruct (traverse_profile (nth m (padded ws) 0) (angle outs k) (nth m (k_alphas K) 0) (s_I st)
      (layer_depths ws (k_zpos K) m) (k_thresh K) (heading d0 outs (S k)) Hw Hal HI Hcos Hl) as [_ [_ T]].
    { unfold layer_depths. apply increasing_filter_map. exact Hinc. }
    destruct (traverse_power (nth m (padded ws) 0) (angle outs k) (nth m (k_alphas K) 0) (s_I st)
      (layer_depths ws (k_zpos K) m) (k_thresh K) (heading d0 outs (S k))) as [_ [_ [_ TL]]].
    assert (SL : length (select (depth_mask (padded ws) (k_zpos K) m) (s_profile st)) =
                 length (layer_depths ws (k_zpos K) m)).
    { rewrite <- depths_layer by auto. symmetry. apply depths_length. apply (iv_prof _ _ _ _ _ _ _ H). }
    rewrite select_add_same; [|rewrite mask_length; symmetry; apply (iv_prof _ _ _ _ _ _ _ H)|congruence].
    rewrite trapz_plus by congruence. rewrite T. lra.
  - rewrite select_add_other; auto.
    + rewrite mask_length. symmetry. apply (iv_prof _ _ _ _ _ _ _ H).
    + rewrite mask_length. symmetry. apply (iv_prof _ _ _ _ _ _ _ H).
    + intros j. rewrite !mask_layer by auto.
      destruct (le_lt_dec (length (k_zpos K)) j) as [Hj|Hj].
      { rewrite nth_overflow by (rewrite map_length; auto). discriminate. }
      rewrite !nth_map_lt with (da := 0) by auto. intros H1.
      destruct (in_layer ws i (nth j (k_zpos K) 0)) eqn:E; auto. exfalso. apply Ne.
      eapply layers_disjoint; eauto. apply (so_pos _ _ HK).
Qed.

Lemma integral_start i : integral (sstart K m0 d0) i - nth i (s_A (sstart K m0 d0)) 0 = 0.
Proof.
  unfold integral. cbn [sstart s_profile s_A].
  replace (nth i (repeat 0 (length (k_widths K))) 0) with 0.
  2:{ destruct (le_lt_dec (length (k_widths K)) i); [rewrite nth_overflow by (rewrite repeat_length; auto); auto|].
      rewrite nth_repeat_any; auto. }
  assert (G : forall m n, select m (repeat 0 n) = map (fun v => 0 * v) (select m (repeat 0 n))).
  { induction m as [|b m IH]; intros [|n]; auto; destruct b; auto; cbn [repeat select map].
    - rewrite (IH n) at 1. f_equal. lra.
    - apply IH. }
  rewrite G, trapz_scale. lra.
Qed.

Lemma reach_profile k st i : reach K m0 d0 outs k st ->
  (1 <= i <= length ws)%nat -> (2 <= length (layer_depths ws (k_zpos K) i))%nat ->
  integral st i = nth i (s_A st) 0.
Proof.
  intros Hr Hi Hl. apply Rminus_diag_uniq. induction Hr as [|k st st' Hr IH E].
  - apply integral_start.
  - pose proof (reach_inv K ws m0 d0 outs HK HS k st Hr) as H.
    destruct (step_inl K ws m0 d0 outs HK k st st' H E) as [_ [_ [Ha [Ho ->]]]].
    rewrite cross_profile; auto.
Qed.

Lemma run_reach fuel : forall k st st', reach K m0 d0 outs k st ->
  srun fuel K st outs k = Some (Ok st') ->
  exists k0 st0, reach K m0 d0 outs k0 st0 /\ sstep K st0 (outs k0) = Ok (inr st').
Proof.
  induction fuel as [|f IH]; intros k st st' Hr E; [discriminate|]. cbn [srun] in E.
  destruct (sstep K st (outs k)) as [[s1|s1]|] eqn:Es; try discriminate.
  - apply (IH (S k) s1 st'); auto. eapply reach_S; eauto.
  - injection E as <-. exists k, st. auto.
Qed.

Lemma end_cases k st st' : inv K ws m0 d0 outs k st -> sstep K st (outs k) = Ok (inr st') ->
  (s_profile st' = s_profile st /\ s_A st' = s_A st) \/
  (st' = cross_state K st (heading d0 outs (S k)) (medium m0 d0 outs (S k)) (ahead m0 d0 outs (S k))
               (angle outs k) /\ (forall A, outs k <> OAbsorbed A) /\ outside ws m0 d0 outs (S k) = false).
Proof.
  intros H. rewrite (sstep_eq K ws m0 d0 outs HK k st H).
  destruct (outs k) as [th|th|A] eqn:Eo; intros E.
  1,2: destruct (outside ws m0 d0 outs (S k)) eqn:Eb; [injection E as <-; left; auto|];
    cbv zeta in E; destruct (Rltb _ _) in E; [|discriminate]; injection E as <-; right;
    split; [reflexivity|split; [congruence|reflexivity]].
  injection E as <-. left. auto.
Qed.

Lemma ray_profile fuel st i : single_ray_stack fuel K m0 d0 outs = Some (Ok st) ->
  (1 <= i <= length ws)%nat -> (2 <= length (layer_depths ws (k_zpos K) i))%nat ->
  trapz (layer_values ws (k_zpos K) (s_profile st) i) (layer_depths ws (k_zpos K) i) = nth i (s_A st) 0.
Proof.
  intros E Hi Hl.
  destruct (run_reach fuel 0 _ st (reach_0 _ _ _ _) E) as [k [st0 [Hr Es]]].
  pose proof (reach_inv K ws m0 d0 outs HK HS k st0 Hr) as H.
  destruct (ending_step K ws m0 d0 outs HK k st0 st H Es) as [_ [_ [PL _]]].
  rewrite <- values_layer by auto. fold (integral st i).
  pose proof (reach_profile k st0 i Hr Hi Hl) as R0.
  destruct (end_cases k st0 st H Es) as [[E1 E2]|[E1 [E2 E3]]].
  - unfold integral in *. rewrite E1, E2. exact R0.
  - pose proof (cross_profile k st0 i H E2 E3 Hi Hl) as C. cbv zeta in C. rewrite <- E1 in C. lra.
Qed.

(* entries are never negative (all layers sampled) *)
Definition nn (st : sstate) : Prop := forall x, In x (s_profile st) -> 0 <= x.

Lemma DA_nonneg width theta alpha I0 pos th d : 0 <= alpha -> 0 < I0 -> 0 <= width -> cos theta <> 0 ->
  forall x, In x (tr_DA (traverse width theta alpha I0 pos th d)) -> 0 <= x.
Proof.
  intros Ha HI Hw Hc x Hx. unfold traverse in Hx. cbn [tr_DA] in Hx.
  apply in_map_iff in Hx. destruct Hx as [v [<- Hv]].
  set (ratio := alpha / Rabs (cos theta)) in *.
  assert (Hr : 0 <= ratio).
  { apply Rmult_le_pos; [auto|]. apply Rlt_le, Rinv_0_lt_compat, Rabs_pos_lt; auto. }
  assert (Hv0 : 0 <= v).
  { assert (Hu : In v (map (fun z => I0 * ratio * exp (- ratio * z)) pos)).
    { destruct (Z.eqb d (-1)); [apply in_rev|]; auto. }
    apply in_map_iff in Hu. destruct Hu as [z [<- _]]. pose proof (exp_pos (- ratio * z)).
    apply Rmult_le_pos; [apply Rmult_le_pos|]; lra. }
  destruct (Rltb 0 _) eqn:E; [|lra]. apply Rltb_true in E.
  assert (exp (- ratio * width) <= 1).
  { rewrite <- exp_0. destruct (Req_dec (ratio * width) 0) as [Z|Z].
    - replace (- ratio * width) with 0 by lra. lra.
    - left. apply exp_increasing. assert (0 <= ratio * width) by nra. lra. }
  apply Rmult_le_pos; [|apply Rlt_le, Rinv_0_lt_compat; auto]. apply Rmult_le_pos; nra.
Qed.

Lemma cross_nn k st : inv K ws m0 d0 outs k st -> (forall A, outs k <> OAbsorbed A) ->
  outside ws m0 d0 outs (S k) = false -> nn st ->
  nn (cross_state K st (heading d0 outs (S k)) (medium m0 d0 outs (S k)) (ahead m0 d0 outs (S k))
               (angle outs k)).
Proof.
  intros H Ha Ho Hn x Hx. cbn [cross_state s_profile] in Hx.
  eapply add_masked_nonneg; [exact Hn| |exact Hx].
  apply DA_nonneg.
  - destruct (nth_in_or_default (Z.to_nat (medium m0 d0 outs (S k))) (k_alphas K) 0) as [G| ->]; [|lra].
    apply (so_alpha_pos _ _ HK); auto.
  - rewrite (iv_I _ _ _ _ _ _ _ H). apply power_pos.
  - destruct (loc_next ws m0 d0 outs k (iv_loc _ _ _ _ _ _ _ H) Ha Ho) as [_ B].
    rewrite (nth_bulk K ws _ HK) by lia. apply Rlt_le, (so_pos _ _ HK), nth_In. lia.
  - specialize (HP k). pose proof (proper_cos (heading d0 outs k) (outs k)) as Hc. unfold angle.
    destruct (outs k) as [th|th|A]; auto. exfalso; eapply Ha; eauto.
Qed.

Lemma reach_nn k st : reach K m0 d0 outs k st -> nn st.
Proof.
  induction 1 as [|k st st' Hr IH E].
  - intros x Hx. cbn [sstart s_profile] in Hx. apply repeat_spec in Hx. lra.
  - pose proof (reach_inv K ws m0 d0 outs HK HS k st Hr) as H.
    destruct (step_inl K ws m0 d0 outs HK k st st' H E) as [_ [_ [Ha [Ho ->]]]].
    apply cross_nn; auto.
Qed.

Lemma ray_nn fuel st : single_ray_stack fuel K m0 d0 outs = Some (Ok st) ->
  nn st /\ length (s_profile st) = length (k_zpos K).
Proof.
  intros E. destruct (run_reach fuel 0 _ st (reach_0 _ _ _ _) E) as [k [st0 [Hr Es]]].
  pose proof (reach_inv K ws m0 d0 outs HK HS k st0 Hr) as H.
  destruct (ending_step K ws m0 d0 outs HK k st0 st H Es) as [_ [_ [PL _]]]. split; [|exact PL].
  pose proof (reach_nn k st0 Hr) as Hn.
  destruct (end_cases k st0 st H Es) as [[E1 E2]|[E1 [E2 E3]]].
  - unfold nn. rewrite E1. exact Hn.
  - rewrite E1. apply cross_nn; auto.
Qed.
End Prof.

(* ---------- totals ---------- *)

Section Lin.
Variables (mask : list bool) (d : list R) (s : list nat).
Definition F (f : nat -> R) : R := trapz (select mask (map f s)) d.
Lemma select_map2 (f g : nat -> R) : forall m s, select m (map (fun j => f j + g j) s) =
  map2 Rplus (select m (map f s)) (select m (map g s)).
Proof.
  induction m as [|b m IH]; intros [|j s']; auto; destruct b; auto; cbn [map select map2]; rewrite IH; auto.
Qed.
Lemma select_mapc c (f : nat -> R) : forall m s, select m (map (fun j => c * f j) s) =
  map (fun v => c * v) (select m (map f s)).
Proof.
  induction m as [|b m IH]; intros [|j s']; auto; destruct b; auto; cbn [map select]; rewrite IH; auto.
Qed.
Lemma F_plus f g : F (fun j => f j + g j) = F f + F g.
Proof.
  unfold F. rewrite select_map2. apply trapz_plus. apply select_length. now rewrite !map_length.
Qed.
Lemma F_scal c f : F (fun j => c * f j) = c * F f.
Proof. unfold F. rewrite select_mapc. apply trapz_scale. Qed.
Lemma F_ext f g : (forall j, In j s -> f j = g j) -> F f = F g.
Proof. intros H. unfold F. f_equal. f_equal. apply map_ext_in. auto. Qed.
Lemma F_sum {A} (f : A -> nat -> R) (l : list A) :
  F (fun j => rsum (map (fun r => f r j) l)) = rsum (map (fun r => F (f r)) l).
Proof.
  induction l as [|r l IH]; cbn [map rsum].
  - rewrite (F_ext _ (fun j => 0 * 0)) by (intros; lra). rewrite F_scal. lra.
  - rewrite F_plus, IH. reflexivity.
Qed.
End Lin.

Lemma trapz_scale_x c y : forall x, trapz y (map (fun v => c * v) x) = c * trapz y x.
Proof.
  induction y as [|y0 y IH]; intros x; [simpl; lra|]. destruct y as [|y1 y]; [destruct x; simpl; lra|].
  destruct x as [|x0 [|x1 x]]; [simpl; lra|simpl; lra|].
  specialize (IH (x1 :: x)). cbn [map] in *.
  change (trapz (y0 :: y1 :: y) (c * x0 :: c * x1 :: map (fun v => c * v) x)) with
    ((c * x1 - c * x0) * (y0 + y1) / 2 + trapz (y1 :: y) (c * x1 :: map (fun v => c * v) x)).
  change (trapz (y0 :: y1 :: y) (x0 :: x1 :: x)) with ((x1 - x0) * (y0 + y1) / 2 + trapz (y1 :: y) (x1 :: x)).
  rewrite IH. lra.
Qed.

Lemma totals_profile K ws rays i : stack_of K ws ->
  (forall j, (S j < length (k_zpos K))%nat -> nth j (k_zpos K) 0 < nth (S j) (k_zpos K) 0) ->
  (forall r, In r rays -> traced K ws r) ->
  (1 <= i <= length ws)%nat -> (2 <= length (layer_depths ws (k_zpos K) i))%nat ->
  let t := calculate_totals K rays in
  trapz (layer_values ws (k_zpos K) (t_profile t) i)
        (map (fun z => 1000 * z) (layer_depths ws (k_zpos K) i)) = nth (i - 1) (t_A t) 0.
Proof.
  intros HK Hinc HT Hi Hl. cbv zeta.
  set (N := INR (length rays)).
  assert (HTA : nth (i - 1) (t_A (calculate_totals K rays)) 0 = rsum (map (fun r => nth i (s_A r) 0 / N) rays)).
  { cbn [t_A calculate_totals]. fold N. rewrite (widths_len K ws HK), removelast_tl_map.
    rewrite nth_map_lt with (da := 0%nat) by (rewrite seq_length; lia).
    rewrite seq_nth by lia. replace (1 + (i - 1))%nat with i by lia. reflexivity. }
  rewrite HTA. clear HTA.
  rewrite trapz_scale_x. rewrite <- values_layer; auto.
  2:{ cbn [t_profile calculate_totals]. now rewrite map_length, seq_length. }
  cbn [t_profile calculate_totals]. fold N.
  set (mask := depth_mask (padded ws) (k_zpos K) i). set (dd := layer_depths ws (k_zpos K) i).
  set (s := seq 0 (length (k_zpos K))).
  change (trapz (select mask (map ?f s)) dd) with (F mask dd s f).
  assert (HiN : 0 <= / N).
  { destruct rays as [|r0 rs].
    - subst N. simpl. rewrite Rinv_0. lra.
    - apply Rlt_le, Rinv_0_lt_compat. subst N. apply lt_0_INR. simpl. lia. }
  rewrite (F_ext mask dd s _ (fun j => / 1000 * rsum (map (fun r => / N * nth j (s_profile r) 0) rays))).
  2:{ intros j Hj. rewrite rsum_map_ext with (g := fun r => / N * nth j (s_profile r) 0)
        by (intros; unfold Rdiv; ring).
      set (p := rsum _). assert (0 <= p).
      { apply rsum_nonneg. intros x Hx. apply in_map_iff in Hx. destruct Hx as [r [<- Hr]].
        destruct (HT r Hr) as [m0 [d0 [outs [fuel [H1 [H2 H3]]]]]].
        destruct (ray_nn K ws m0 d0 outs HK H1 H2 fuel r H3) as [Hn HL].
        apply Rmult_le_pos; auto. apply Hn, nth_In. rewrite HL. apply in_seq in Hj. lia. }
      rewrite (proj2 (Rltb_false _ _)) by lra. unfold Rdiv. ring. }
  rewrite F_scal, F_sum.
  rewrite <- Rmult_assoc, Rinv_r, Rmult_1_l by lra.
  apply rsum_map_ext. intros r Hr. rewrite F_scal. unfold Rdiv. rewrite Rmult_comm. f_equal.
  destruct (HT r Hr) as [m0 [d0 [outs [fuel [H1 [H2 H3]]]]]].
  destruct (ray_nn K ws m0 d0 outs HK H1 H2 fuel r H3) as [_ HL].
  unfold F. subst s. rewrite <- HL, map_nth_seq. subst mask dd. rewrite values_layer by auto.
  apply (ray_profile K ws m0 d0 outs HK H1 H2 Hinc fuel r i H3 Hi Hl).
Qed.

(* ---------- a layer with fewer than two grid points ---------- *)
Lemma traverse_thin width theta alpha I0 pos th d : (length pos < 2)%nat ->
  forall x, In x (tr_DA (traverse width theta alpha I0 pos th d)) -> x = 0.
Proof.
  intros Hl x Hx. unfold traverse in Hx. cbn [tr_DA] in Hx. apply in_map_iff in Hx.
  destruct Hx as [v [<- _]].
  destruct pos as [|p [|q pos]]; [| |simpl in Hl; lia];
    destruct (Z.eqb d (-1)); cbn [map rev app trapz]; rewrite (proj2 (Rltb_false _ _)) by lra; auto.
Qed.
