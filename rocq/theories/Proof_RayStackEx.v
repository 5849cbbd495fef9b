(* Witnesses and remaining lemmas for Prop_RayStack. *)
From Coq Require Import Reals List Bool ZArith Lra Lia.
From Verif Require Import Base Lib Model_RayIface Model_RayStack Spec_RayIface Spec_RayStack
  Proof_OpticsEx Proof_RayStack Proof_RayEnergy Proof_RayProfile Proof_RayProfile2.
Import ListNotations.
Open Scope R_scope.

(* the profile decays along the direction of travel *)
Lemma traverse_shape width theta alpha I0 pos th d :
  0 <= alpha -> 0 < I0 -> 0 <= width -> cos theta <> 0 ->
  exists c, 0 <= c /\ forall j, (j < length pos)%nat ->
    nth j (tr_DA (traverse width theta alpha I0 pos th d)) 0 =
    c * exp (- (alpha / Rabs (cos theta)) * nth (if Z.eqb d (-1) then length pos - 1 - j else j) pos 0).
Proof.
  intros Ha HI Hw Hc. unfold traverse. cbn [tr_DA].
  set (ratio := alpha / Rabs (cos theta)).
  set (u := map (fun z => I0 * ratio * exp (- ratio * z)) pos).
  set (v := if Z.eqb d (-1) then rev u else u).
  set (dI := I0 - I0 * exp (- ratio * width)).
  assert (Lu : length u = length pos) by apply map_length.
  assert (Lv : length v = length pos).
  { subst v. destruct (Z.eqb d (-1)); [rewrite rev_length|]; auto. }
  assert (Hr : 0 <= ratio).
  { apply Rmult_le_pos; [auto|]. apply Rlt_le, Rinv_0_lt_compat, Rabs_pos_lt; auto. }
  assert (Hd : 0 <= dI).
  { assert (exp (- ratio * width) <= 1).
    { rewrite <- exp_0. destruct (Req_dec (ratio * width) 0) as [Z|Z].
      - replace (- ratio * width) with 0 by lra. lra.
      - left. apply exp_increasing. assert (0 <= ratio * width) by nra. lra. }
    subst dI. nra. }
  assert (Hv : forall j, (j < length pos)%nat -> nth j v 0 =
     I0 * ratio * exp (- ratio * nth (if Z.eqb d (-1) then length pos - 1 - j else j) pos 0)).
  { intros j Hj. subst v. destruct (Z.eqb d (-1)).
    - rewrite rev_nth by lia. rewrite Lu. replace (length pos - S j)%nat with (length pos - 1 - j)%nat by lia.
      subst u. rewrite nth_map_lt with (da := 0) by lia. reflexivity.
    - subst u. rewrite nth_map_lt with (da := 0) by lia. reflexivity. }
  destruct (Rltb 0 (trapz v pos)) eqn:E.
  - apply Rltb_true in E. exists (dI / trapz v pos * (I0 * ratio)). split.
    + apply Rmult_le_pos; [|nra]. apply Rmult_le_pos; [auto|apply Rlt_le, Rinv_0_lt_compat; auto].
    + intros j Hj. rewrite nth_map_lt with (da := 0) by lia. rewrite Hv by auto. unfold Rdiv. ring.
  - exists 0. split; [lra|]. intros j Hj. rewrite nth_map_lt with (da := 0) by lia. lra.
Qed.

(* one layer of width 1 um and alpha 1/um; the ray goes straight through *)
Definition ex_K : stack :=
  {| k_widths := padded [1]; k_alphas := [0; 1; 0]; k_surfaces := 2;
     k_zpos := [0; 1 / 4; 1 / 2; 3 / 4]; k_thresh := 1 / 100 |}.
Definition ex_outs : nat -> outcome := fun _ => OTransmitted PI.

Lemma ex_stack : stack_of ex_K [1].
Proof.
  constructor; auto.
  - intros w [<-|[]]. lra.
  - intros a H. cbn in H. lra.
  - cbn. lra.
Qed.
Lemma ex_start : good_start [1] 0 1.
Proof. left. cbn. lia. Qed.
Lemma ex_heading k : heading 1 ex_outs k = 1%Z.
Proof. induction k as [|k IH]; auto. Qed.
Lemma ex_proper : proper_path 1 ex_outs.
Proof. intros k. rewrite ex_heading. cbn. unfold downwards. pose proof PI_RGT_0. lra. Qed.

Lemma exp_m1 : 1 / 100 < exp (-1) < 1.
Proof.
  split.
  - replace (-1) with (- (1)) by lra. rewrite exp_Ropp. pose proof exp_le_3. pose proof (exp_pos 1).
    apply Rlt_le_trans with (/ 3); [lra|]. apply Rinv_le_contravar; lra.
  - rewrite <- exp_0. apply exp_increasing. lra.
Qed.

Lemma abs_cos_PI : Rabs (cos PI) = 1.
Proof. rewrite cos_PI, Rabs_left; lra. Qed.

Lemma ex_medium : medium 0 1 ex_outs 1 = 1%Z /\ medium 0 1 ex_outs 2 = 2%Z.
Proof. split; reflexivity. Qed.

Lemma ex_power1 : power 0 1 ex_outs ex_K 1 = exp (-1).
Proof.
  rewrite power_S, power_0. unfold crossing. change (medium 0 1 ex_outs 1) with 1%Z.
  change (angle ex_outs 0) with PI. rewrite abs_cos_PI.
  change (nth (Z.to_nat 1) (k_alphas ex_K) 0) with 1. change (nth (Z.to_nat 1) (k_widths ex_K) 0) with 1.
  rewrite Rmult_1_l. f_equal. lra.
Qed.

Lemma ex_run : exists st, single_ray_stack 2 ex_K 0 1 ex_outs = Some (Ok st) /\ s_I st = exp (-1) /\
  s_theta st = Some PI /\ nth 1 (s_A st) 0 = 1 - exp (-1).
Proof.
  pose proof (inv_0 ex_K [1] 0 1 ex_outs ex_start) as H0.
  pose proof (sstep_eq ex_K [1] 0 1 ex_outs ex_stack 0 _ H0) as S0.
  cbn [ex_outs] in S0. change (outside [1] 0 1 ex_outs 1) with false in S0. cbv iota zeta in S0.
  rewrite (cross_I ex_K [1] 0 1 ex_outs 0 _ H0), ex_power1 in S0.
  rewrite (proj2 (Rltb_false _ _)) in S0 by (cbn; pose proof exp_m1; lra).
  destruct (step_inl ex_K [1] 0 1 ex_outs ex_stack 0 _ _ H0 S0) as [H1 _].
  pose proof (sstep_eq ex_K [1] 0 1 ex_outs ex_stack 1 _ H1) as S1.
  cbn [ex_outs] in S1. change (outside [1] 0 1 ex_outs 2) with true in S1. cbv iota zeta in S1.
  eexists. split; [|split; [|split]].
  - unfold single_ray_stack. cbn [srun].
    rewrite S0. cbn [srun]. rewrite S1. reflexivity.
  - cbn [moved s_I]. rewrite (iv_I _ _ _ _ _ _ _ H1). apply ex_power1.
  - reflexivity.
  - cbn [moved s_A]. rewrite (iv_A _ _ _ _ _ _ _ H1) by (cbn; lia).
    rewrite lost_S. unfold lost_in. cbn [seq map rsum].
    change (medium 0 1 ex_outs 1) with 1%Z. cbn [Z.of_nat Pos.of_succ_nat Z.eqb Pos.eqb].
    rewrite power_0, ex_power1. lra.
Qed.

Lemma ex_traced : exists r, traced ex_K [1] r.
Proof.
  destruct ex_run as [st [H _]]. exists st, 0%Z, 1%Z, ex_outs, 2%nat.
  split; [apply ex_start|split; [apply ex_proper|exact H]].
Qed.

Lemma ex_increasing : forall j, (S j < length (k_zpos ex_K))%nat ->
  nth j (k_zpos ex_K) 0 < nth (S j) (k_zpos ex_K) 0.
Proof. intros j Hj. cbn in Hj. destruct j as [|[|[|j]]]; cbn; try lra. lia. Qed.

Lemma ex_depths : layer_depths [1] (k_zpos ex_K) 1 = [0; 1 / 4; 1 / 2; 3 / 4].
Proof.
  unfold layer_depths, top_of. cbn [k_zpos ex_K Nat.sub firstn rsum nth filter].
  rewrite !(proj2 (Rleb_true _ _)) by lra. rewrite !(proj2 (Rltb_true _ _)) by lra.
  cbn [andb map]. repeat (f_equal; [lra|]). f_equal. lra.
Qed.

(* ---------- C78: a ray trapped in a transparent layer ---------- *)
Definition trap_K : stack :=
  {| k_widths := padded [1]; k_alphas := [0; 0; 0]; k_surfaces := 2; k_zpos := []; k_thresh := 1 / 100 |}.
(* enters, then is totally reflected at both faces *)
Definition trap_outs (k : nat) : outcome :=
  match k with
  | O => OTransmitted (3 * PI / 4)
  | S j => if Nat.even j then OReflected (PI / 4) else OReflected (3 * PI / 4)
  end.

Lemma trap_stack : stack_of trap_K [1].
Proof.
  constructor; auto.
  - intros w [<-|[]]. lra.
  - intros a H. cbn in H. lra.
  - cbn. lra.
Qed.
Lemma trap_heading k : heading 1 trap_outs (S k) = if Nat.even k then 1%Z else (-1)%Z.
Proof.
  induction k as [|k IH]; [reflexivity|].
  change (heading 1 trap_outs (S (S k))) with
    (match trap_outs (S k) with OReflected _ => (- heading 1 trap_outs (S k))%Z
     | _ => heading 1 trap_outs (S k) end).
  rewrite IH. cbn [trap_outs]. rewrite Nat.even_succ, <- Nat.negb_even.
  destruct (Nat.even k); reflexivity.
Qed.
Lemma trap_medium k : medium 0 1 trap_outs (S k) = 1%Z.
Proof.
  induction k as [|k IH]; [reflexivity|].
  change (medium 0 1 trap_outs (S (S k))) with
    (match trap_outs (S k) with OTransmitted _ => (medium 0 1 trap_outs (S k) + heading 1 trap_outs (S k))%Z
     | _ => medium 0 1 trap_outs (S k) end).
  rewrite IH. cbn [trap_outs]. destruct (Nat.even k); reflexivity.
Qed.
Lemma trap_proper : proper_path 1 trap_outs.
Proof.
  intros [|k].
  - cbn. unfold downwards. pose proof PI_RGT_0. lra.
  - rewrite trap_heading. cbn [trap_outs]. destruct (Nat.even k); cbn; unfold upwards, downwards;
      pose proof PI_RGT_0; lra.
Qed.
Lemma trap_power k : power 0 1 trap_outs trap_K k = 1.
Proof.
  induction k as [|k IH]; [apply power_0|]. rewrite power_S, IH. unfold crossing.
  rewrite trap_medium. change (nth (Z.to_nat 1) (k_alphas trap_K) 0) with 0.
  unfold Rdiv. rewrite !Rmult_0_l.
  rewrite Ropp_0, exp_0. lra.
Qed.
Lemma trap_reach k : exists st, reach trap_K 0 1 trap_outs k st /\ inv trap_K [1] 0 1 trap_outs k st.
Proof.
  induction k as [|k IH].
  - eexists. split; [apply reach_0|apply inv_0]. left. cbn. lia.
  - destruct IH as [st [Hr Hi]].
    pose proof (sstep_eq trap_K [1] 0 1 trap_outs trap_stack k st Hi) as E.
    assert (Ho : outside [1] 0 1 trap_outs (S k) = false).
    { unfold outside. rewrite trap_heading, trap_medium. destruct (Nat.even k); reflexivity. }
    rewrite Ho in E. cbv zeta in E. rewrite (cross_I trap_K [1] 0 1 trap_outs k st Hi), trap_power in E.
    rewrite (proj2 (Rltb_false _ _)) in E by (cbn; lra).
    assert (E' : exists st', sstep trap_K st (trap_outs k) = Ok (inl st')).
    { destruct (trap_outs k) as [th|th|A] eqn:Et; [eexists; exact E|eexists; exact E|].
      destruct k; [discriminate|]. cbn [trap_outs] in Et. destruct (Nat.even k); discriminate. }
    destruct E' as [st' E']. exists st'. split; [eapply reach_S; eauto|].
    apply (step_inl trap_K [1] 0 1 trap_outs trap_stack k st st' Hi E').
Qed.
Lemma reach_det K m0 d0 outs k st st' : reach K m0 d0 outs k st -> reach K m0 d0 outs k st' -> st = st'.
Proof.
  revert st st'. induction k as [|k IH]; intros st st' H H';
    inversion H as [|k1 a a' Ha Ea]; inversion H' as [|k2 b b' Hb Eb]; subst; auto.
  rewrite (IH a b Ha Hb) in Ea. congruence.
Qed.
Lemma reach_run K m0 d0 outs fuel : forall k st, reach K m0 d0 outs k st ->
  (forall j, exists st', reach K m0 d0 outs j st') -> srun fuel K st outs k = None.
Proof.
  induction fuel as [|f IH]; intros k st Hr Hall; auto. cbn [srun].
  destruct (Hall (S k)) as [st' Hr']. inversion Hr' as [|k' s0 s1 Hr0 Es]; subst.
  rewrite (reach_det _ _ _ _ _ _ _ Hr Hr0), Es. apply IH; auto.
Qed.
Lemma trapped : stack_of trap_K [1] /\ good_start [1] 0 1 /\ proper_path 1 trap_outs /\
  forall fuel, single_ray_stack fuel trap_K 0 1 trap_outs = None.
Proof.
  split; [apply trap_stack|]. split; [left; cbn; lia|]. split; [apply trap_proper|].
  intros fuel. unfold single_ray_stack. eapply reach_run; [apply reach_0|].
  intros j. destruct (trap_reach j) as [st [H _]]. eauto.
Qed.

(* ---------- C79: a ray started inside the layer ---------- *)
Lemma inside_start : exists st,
  stack_of ex_K [1] /\ good_start [1] 1 1 /\ proper_path 1 ex_outs /\
  single_ray_stack 1 ex_K 1 1 ex_outs = Some (Ok st) /\
  s_I st = 1 /\ rsum (s_A st) = 0 /\ exp (- (1 * 1 / Rabs (cos PI))) < 1.
Proof.
  assert (HS : good_start [1] 1 1) by (left; cbn; lia).
  pose proof (inv_0 ex_K [1] 1 1 ex_outs HS) as H0.
  pose proof (sstep_eq ex_K [1] 1 1 ex_outs ex_stack 0 _ H0) as S0.
  cbn [ex_outs] in S0. change (outside [1] 1 1 ex_outs 1) with true in S0. cbv iota zeta in S0.
  eexists. split; [apply ex_stack|]. split; [exact HS|]. split; [apply ex_proper|].
  split; [|split; [|split]].
  - unfold single_ray_stack. cbn [srun]. rewrite S0. reflexivity.
  - reflexivity.
  - cbn [moved s_A sstart repeat ex_K k_widths padded length app rsum]. lra.
  - rewrite abs_cos_PI. replace (- (1 * 1 / 1)) with (-1) by lra. apply exp_m1.
Qed.

(* ---------- C30: one grid point in the layer ---------- *)
Lemma thin_traverse : exists t, t = traverse 1 PI 1 1 [0] (1 / 100) 1 /\
  tr_I t < 1 /\ tr_DA t = [0].
Proof.
  eexists. split; [reflexivity|]. split.
  - destruct (traverse_power 1 PI 1 1 [0] (1 / 100) 1) as [-> _].
    rewrite abs_cos_PI. replace (- (1 * 1 / 1)) with (-1) by lra. pose proof exp_m1. lra.
  - unfold traverse. cbn. rewrite (proj2 (Rltb_false _ _)) by lra. reflexivity.
Qed.
