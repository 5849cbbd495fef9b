(* Remaining statements of Prop_RayStack. *)
From Coq Require Import Reals List Bool ZArith Lra Lia.
From Verif Require Import Base Lib Model_RayIface Model_RayStack Spec_RayIface Spec_RayStack
  Proof_RayStack Proof_RayEnergy Proof_RayProfile Proof_RayProfile2 Proof_RayStackEx.
Import ListNotations.
Open Scope R_scope.

Lemma ray_energy_full K ws m0 d0 outs fuel st :
  stack_of K ws -> good_start ws m0 d0 -> proper_path d0 outs ->
  single_ray_stack fuel K m0 d0 outs = Some (Ok st) ->
  s_I st + rsum (s_A st) + rsum (s_Aint st) = 1 /\
  0 <= s_I st <= 1 /\ (forall i, 0 <= nth i (s_A st) 0) /\ (forall a, In a (s_Aint st) -> 0 <= a) /\
  (s_theta st = None -> s_I st < k_thresh K /\ (s_Aint st <> [] -> s_I st = 0)).
Proof.
  intros HK HS HP E. destruct (ray_finished K ws m0 d0 outs fuel st HK HS HP E) as [F1 F2 F3 F4 F5 F6 F7 F8 F9].
  split; [exact F1|]. split; [exact F2|]. split; [exact F4|]. split; [exact F7|].
  intros Ht. split; [auto|]. intros Hne.
  destruct (path_end K ws m0 d0 outs HK HS fuel _ E) as [k [st' [E1 [_ [E2 _]]]]]. injection E1 as <-.
  inversion E2; congruence.
Qed.

Lemma ex_energy : stack_of ex_K [1] /\ good_start [1] 0 1 /\ proper_path 1 ex_outs /\
  exists st, single_ray_stack 2 ex_K 0 1 ex_outs = Some (Ok st) /\ s_I st = exp (-1).
Proof.
  split; [apply ex_stack|]. split; [apply ex_start|]. split; [apply ex_proper|].
  destruct ex_run as [st [H1 [H2 _]]]. eauto.
Qed.

Lemma bookkeeping K ws m0 d0 outs k st :
  stack_of K ws -> good_start ws m0 d0 -> reach K m0 d0 outs k st ->
  s_dir st = heading d0 outs k /\ s_mat st = medium m0 d0 outs k /\ s_surf st = ahead m0 d0 outs k /\
  (0 <= ahead m0 d0 outs k <= Z.of_nat (length ws))%Z /\ pm1 (heading d0 outs k) /\
  ((1 <= k)%nat -> (1 <= medium m0 d0 outs k <= Z.of_nat (length ws))%Z).
Proof.
  intros HK HS Hr. pose proof (reach_inv K ws m0 d0 outs HK HS k st Hr) as H.
  split; [apply (iv_dir _ _ _ _ _ _ _ H)|]. split; [apply (iv_mat _ _ _ _ _ _ _ H)|].
  split; [apply (iv_surf _ _ _ _ _ _ _ H)|].
  pose proof (iv_loc _ _ _ _ _ _ _ H) as L. pose proof (iv_bulk _ _ _ _ _ _ _ H) as B.
  unfold ahead, pm1. destruct L as [[E L]|[E L]]; rewrite E; cbn [Z.eqb Pos.eqb];
    (split; [lia|split; [lia|exact B]]).
Qed.

Lemma ex_bookkeeping : exists st, reach trap_K 0 1 trap_outs 7 st /\ s_dir st = 1%Z /\ s_mat st = 1%Z.
Proof.
  destruct (trap_reach 7) as [st [Hr Hi]]. exists st. split; [exact Hr|]. split.
  - rewrite (iv_dir _ _ _ _ _ _ _ Hi). reflexivity.
  - rewrite (iv_mat _ _ _ _ _ _ _ Hi). reflexivity.
Qed.

Lemma ending_full K ws m0 d0 outs fuel o :
  stack_of K ws -> good_start ws m0 d0 -> proper_path d0 outs ->
  single_ray_stack fuel K m0 d0 outs = Some o ->
  exists k st, o = Ok st /\ (k < fuel)%nat /\ ending K ws m0 d0 outs k st /\
    (forall j, (1 <= j <= k)%nat -> (1 <= medium m0 d0 outs j <= Z.of_nat (length ws))%Z) /\
    nth 0 (s_A st) 0 = 0 /\ nth (S (length ws)) (s_A st) 0 = 0.
Proof.
  intros HK HS HP E. destruct (path_end K ws m0 d0 outs HK HS fuel o E) as [k [st [E1 [E2 [E3 [E4 _]]]]]].
  exists k, st. split; [exact E1|]. split; [exact E2|]. split; [exact E3|]. split; [exact E4|].
  subst o. destruct (ray_finished K ws m0 d0 outs fuel st HK HS HP E) as [F1 F2 F3 F4 F5 F6 F7 F8 F9].
  split; auto.
Qed.

Lemma ex_end : exists st, single_ray_stack 2 ex_K 0 1 ex_outs = Some (Ok st) /\
  ending ex_K [1] 0 1 ex_outs 1 st /\ s_theta st = Some PI.
Proof.
  destruct ex_run as [st [H1 [H2 [H3 _]]]]. exists st. split; [exact H1|]. split; [|exact H3].
  destruct (path_end ex_K [1] 0 1 ex_outs ex_stack ex_start 2 _ H1) as [k [st' [E1 [E2 [E3 _]]]]].
  injection E1 as <-. destruct k as [|[|k]]; [|exact E3|lia].
  inversion E3 as [F0 F1 F2 F3 F4 F5 F6|F0 F1 F2 F3 F4 F5 F6|A F1 F2 F3 F4 F5 F6 F7|F0 F1 F2 F3 F4 F5 F6];
    try congruence; cbn in F1; discriminate.
Qed.
Definition ex_ending := ex_end.

Lemma ex_sides : exists st, ending ex_K [1] 0 1 ex_outs 1 st /\ trns st = true /\ refl st = false.
Proof.
  destruct ex_end as [st [_ [H2 H3]]]. exists st. split; [exact H2|]. unfold trns, refl. rewrite H3.
  pose proof PI_RGT_0. split; [apply Rltb_true; lra|apply Rleb_false; lra].
Qed.

Lemma totals_means K ws rays : stack_of K ws ->
  let t := calculate_totals K rays in
  let mean f := rsum (map f rays) / INR (length rays) in
  t_R t = mean (fun r => if refl r then s_I r else 0) /\
  t_T t = mean (fun r => if trns r then s_I r else 0) /\
  t_R0 t = mean (fun r => if refl r then (if Nat.eqb (s_passes r) 0 then s_I r else 0) else 0) /\
  (forall i, (i < length ws)%nat -> nth i (t_A t) 0 = mean (fun r => nth (S i) (s_A r) 0)) /\
  length (t_Aint t) = S (length ws) /\
  (forall i, (i <= length ws)%nat ->
     nth i (t_Aint t) 0 = mean (fun r => if Z.eqb (s_Aidx r) (Z.of_nat i + 1) then rsum (s_Aint r) else 0)).
Proof.
  intros HK. cbv zeta.
  assert (G : forall f : sstate -> R, rsum (map (fun r => f r / INR (length rays)) rays) =
                rsum (map f rays) / INR (length rays)).
  { intros f. rewrite <- (map_map f (fun x => x / INR (length rays))). apply rsum_map_div. }
  split; [|split; [|split; [|split; [|split]]]].
  - cbn [t_R calculate_totals]. rewrite G. reflexivity.
  - cbn [t_T calculate_totals]. rewrite G. reflexivity.
  - cbn [t_R0 calculate_totals]. rewrite G. f_equal. apply rsum_map_ext. intros r _. unfold pick.
    destruct (refl r); reflexivity.
  - intros i Hi. cbn [t_A calculate_totals]. rewrite (widths_len K ws HK), removelast_tl_map.
    rewrite nth_map_lt with (da := 0%nat) by (rewrite seq_length; lia). rewrite seq_nth by lia.
    apply (G (fun r => nth (1 + i) (s_A r) 0)).
  - cbn [t_Aint calculate_totals]. rewrite map_length, seq_length. apply (so_surf _ _ HK).
  - intros i Hi. cbn [t_Aint calculate_totals].
    rewrite nth_map_lt with (da := 0%nat) by (rewrite seq_length, (so_surf _ _ HK); lia).
    rewrite seq_nth by (rewrite (so_surf _ _ HK); lia). cbn [Nat.add].
    rewrite <- G. apply rsum_map_ext. intros r _. unfold pick. destruct (Z.eqb _ _); lra.
Qed.

Lemma ex_grid : (3 < length (depth_grid [1%R; (1 / 2)%R] (1 / 4)%R))%nat.
Proof.
  unfold depth_grid, arange0. rewrite map_length, seq_length, padded_sum.
  replace (rsum [1; 1 / 2] / (1 / 4)) with (IZR 6) by (simpl; lra).
  rewrite (Zceil_unique (IZR 6) 6) by lra. cbn. lia.
Qed.

Lemma ex_traverse : cos PI <> 0 /\ tr_I (traverse 1 PI 1 1 [0; 1 / 2] (1 / 100) 1) = exp (-1).
Proof.
  split; [rewrite cos_PI; lra|]. destruct (traverse_power 1 PI 1 1 [0; 1 / 2] (1 / 100) 1) as [-> _].
  rewrite abs_cos_PI, Rmult_1_l. f_equal. lra.
Qed.

Lemma path_attenuation K ws m0 d0 outs k st :
  stack_of K ws -> good_start ws m0 d0 -> reach K m0 d0 outs k st ->
  s_I st = power m0 d0 outs K k /\ s_passes st = k /\
  forall i, (i <= S (length ws))%nat -> nth i (s_A st) 0 = lost_in m0 d0 outs K i k.
Proof.
  intros HK HS Hr. pose proof (reach_inv K ws m0 d0 outs HK HS k st Hr) as H.
  split; [apply (iv_I _ _ _ _ _ _ _ H)|]. split; [apply (iv_pass _ _ _ _ _ _ _ H)|].
  intros i Hi. apply (iv_A _ _ _ _ _ _ _ H). rewrite (widths_len K ws HK). lia.
Qed.

Lemma final_absorption K ws m0 d0 outs fuel st :
  stack_of K ws -> good_start ws m0 d0 -> proper_path d0 outs ->
  single_ray_stack fuel K m0 d0 outs = Some (Ok st) ->
  forall i, (i <= S (length ws))%nat -> nth i (s_A st) 0 = lost_in m0 d0 outs K i (s_passes st).
Proof.
  intros HK HS _ E i Hi. destruct (path_end K ws m0 d0 outs HK HS fuel _ E) as [k [st' [E1 [_ [_ [_ [_ E5]]]]]]].
  injection E1 as <-. apply E5. rewrite (widths_len K ws HK). lia.
Qed.

Lemma ex_attenuation : power 0 1 ex_outs ex_K 1 = exp (-1) /\
  exists st, single_ray_stack 2 ex_K 0 1 ex_outs = Some (Ok st) /\ nth 1 (s_A st) 0 = 1 - exp (-1).
Proof. split; [apply ex_power1|]. destruct ex_run as [st [H1 [_ [_ H2]]]]. eauto. Qed.

Lemma ex_absorbing : forall i, (i < length [1])%nat -> 1 <= nth (S i) (k_alphas ex_K) 0 * nth i [1] 0.
Proof. intros i Hi. simpl in Hi. destruct i; [|lia]. cbn. lra. Qed.

Lemma after_first_surface K ws m0 d0 outs k st :
  stack_of K ws -> good_start ws m0 d0 -> reach K m0 d0 outs (S k) st ->
  s_I st = exp (- rsum (map (crossing m0 d0 outs K) (seq 0 (S k)))).
Proof. intros HK HS Hr. apply (path_attenuation K ws m0 d0 outs (S k) st HK HS Hr). Qed.
