(* C27, C28, C29, C77, C78: energy, endings and totals of rays through a stack. *)
From Coq Require Import Reals List Bool ZArith Lra Lia.
From Verif Require Import Base Lib Model_RayIface Model_RayStack Spec_RayIface Spec_RayStack
  Proof_RayStack.
Import ListNotations.
Open Scope R_scope.

Lemma rsum_share p (A : list R) : rsum A <> 0 -> rsum (map (fun a => p * a / rsum A) A) = p.
Proof.
  intros H. rewrite rsum_map_ext with (g := fun a => p / rsum A * a) by (intros; unfold Rdiv; ring).
  rewrite rsum_map_mult. field. auto.
Qed.

(* energy *)
Lemma ray_energy K ws m0 d0 outs fuel st :
  stack_of K ws -> good_start ws m0 d0 ->
  (forall k A, outs k = OAbsorbed A -> rsum A <> 0) ->
  single_ray_stack fuel K m0 d0 outs = Some (Ok st) ->
  s_I st + rsum (s_A st) + rsum (s_Aint st) = 1.
Proof.
  intros HK HS HA E. destruct (path_end K ws m0 d0 outs HK HS fuel _ E) as [k [st' [E1 [_ [E2 [E3 [E4 E5]]]]]]].
  injection E1 as <-.
  pose proof (ending_passes K ws m0 d0 outs k st E2 E3) as B.
  rewrite (sA_total K ws m0 d0 outs HK st _ E4 E5 B).
  inversion E2 as [F0 F1 F2 F3 F4 F5 F6|F0 F1 F2 F3 F4 F5 F6|A F1 F2 F3 F4 F5 F6 F7|F0 F1 F2 F3 F4 F5 F6].
  - rewrite F6, F4, F5. simpl. lra.
  - rewrite F6, F4, F5. simpl. lra.
  - rewrite F5, F3, F4. rewrite rsum_share by (eapply HA; eauto). lra.
  - rewrite F6, F3, F5. simpl. lra.
Qed.

Lemma proper_cos d o : match o with OAbsorbed _ => True | _ => proper d o -> cos (match o with OReflected th | OTransmitted th => th | OAbsorbed _ => 0 end) <> 0 end.
Proof.
  assert (Hu : forall th, upwards th -> cos th <> 0).
  { intros th [H1 H2]. pose proof (cos_gt_0 th ltac:(lra) ltac:(lra)). lra. }
  assert (Hd : forall th, downwards th -> cos th <> 0).
  { intros th [H1 H2]. pose proof (cos_lt_0 th ltac:(lra) ltac:(lra)). lra. }
  destruct o; cbn [proper]; auto; destruct (Z.eqb d 1); auto.
Qed.

Lemma crossing_nonneg K ws m0 d0 outs k : stack_of K ws ->
  0 <= crossing m0 d0 outs K k.
Proof.
  intros HK. unfold crossing.
  assert (Ha : forall i, 0 <= nth i (k_alphas K) 0).
  { intros i. destruct (nth_in_or_default i (k_alphas K) 0) as [H| ->]; [|lra]. apply (so_alpha_pos _ _ HK); auto. }
  assert (Hw : forall i, 0 <= nth i (k_widths K) 0).
  { intros i. destruct (nth_in_or_default i (k_widths K) 0) as [H| ->]; [|lra].
    revert H. generalize (nth i (k_widths K) 0). intros x H.
    rewrite (so_widths _ _ HK) in H. unfold padded in H. destruct H as [H|H]; [lra|].
    apply in_app_or in H. destruct H as [H|[H|[]]]; [|lra]. apply Rlt_le, (so_pos _ _ HK); auto. }
  specialize (Ha (Z.to_nat (medium m0 d0 outs (S k)))). specialize (Hw (Z.to_nat (medium m0 d0 outs (S k)))).
  destruct (Req_dec (cos (angle outs k)) 0) as [E|E].
  - rewrite E, Rabs_R0. unfold Rdiv. rewrite Rinv_0. lra.
  - apply Rmult_le_pos; [nra|]. apply Rlt_le, Rinv_0_lt_compat, Rabs_pos_lt, E.
Qed.

Lemma power_le_1 K ws m0 d0 outs k : stack_of K ws -> 0 < power m0 d0 outs K k <= 1.
Proof.
  intros HK. split; [apply power_pos|]. induction k as [|k IH].
  - rewrite power_0. lra.
  - rewrite power_S. pose proof (crossing_nonneg K ws m0 d0 outs k HK).
    assert (exp (- crossing m0 d0 outs K k) <= 1).
    { rewrite <- exp_0. destruct H; [left; apply exp_increasing; lra|rewrite <- H, Ropp_0; lra]. }
    pose proof (exp_pos (- crossing m0 d0 outs K k)).
    pose proof (power_pos K m0 d0 outs k). nra.
Qed.

Lemma power_decr K ws m0 d0 outs k : stack_of K ws -> power m0 d0 outs K (S k) <= power m0 d0 outs K k.
Proof.
  intros HK. rewrite power_S. pose proof (crossing_nonneg K ws m0 d0 outs k HK).
  assert (exp (- crossing m0 d0 outs K k) <= 1).
  { rewrite <- exp_0. destruct H; [left; apply exp_increasing; lra|rewrite <- H, Ropp_0; lra]. }
  pose proof (power_pos K m0 d0 outs k). nra.
Qed.

Lemma lost_nonneg K ws m0 d0 outs i k : stack_of K ws -> 0 <= lost_in m0 d0 outs K i k.
Proof.
  intros HK. unfold lost_in. apply rsum_nonneg. intros x Hx. apply in_map_iff in Hx.
  destruct Hx as [j [<- _]]. destruct (Z.eqb _ _); [|lra].
  pose proof (power_decr K ws m0 d0 outs j HK). lra.
Qed.

(* what a finished ray looks like *)
Record finished (K : stack) (ws : list R) (st : sstate) : Prop := {
  fi_energy : s_I st + rsum (s_A st) + rsum (s_Aint st) = 1;
  fi_I : 0 <= s_I st <= 1;
  fi_len : length (s_A st) = S (S (length ws));
  fi_A : forall i, 0 <= nth i (s_A st) 0;
  fi_first : nth 0 (s_A st) 0 = 0;
  fi_last : nth (S (length ws)) (s_A st) 0 = 0;
  fi_Aint : forall a, In a (s_Aint st) -> 0 <= a;
  fi_idx : s_Aint st = [] \/ (1 <= s_Aidx st <= Z.of_nat (length ws) + 1)%Z;
  fi_lost : s_theta st = None -> s_I st < k_thresh K }.

Lemma ray_finished K ws m0 d0 outs fuel st :
  stack_of K ws -> good_start ws m0 d0 -> proper_path d0 outs ->
  single_ray_stack fuel K m0 d0 outs = Some (Ok st) -> finished K ws st.
Proof.
  intros HK HS HP E.
  assert (HA : forall k A, outs k = OAbsorbed A -> (forall a, In a A -> 0 <= a) /\ 0 < rsum A).
  { intros k A Ho. specialize (HP k). rewrite Ho in HP. exact HP. }
  assert (HE := ray_energy K ws m0 d0 outs fuel st HK HS
     (fun k A Ho => Rgt_not_eq _ _ (proj2 (HA k A Ho))) E).
  destruct (path_end K ws m0 d0 outs HK HS fuel _ E) as [k [st' [E1 [_ [E2 [E3 [E4 E5]]]]]]].
  injection E1 as <-.
  pose proof (ending_passes K ws m0 d0 outs k st E2 E3) as B.
  pose proof (widths_len K ws HK) as WL.
  assert (HAn : forall i, 0 <= nth i (s_A st) 0).
  { intros i. destruct (le_lt_dec (length (s_A st)) i) as [Hl|Hl].
    - rewrite nth_overflow by auto. lra.
    - rewrite E5 by lia. apply lost_nonneg with ws; auto. }
  constructor; auto.
  - inversion E2 as [F0 F1 F2 F3 F4 F5 F6|F0 F1 F2 F3 F4 F5 F6|A F1 F2 F3 F4 F5 F6 F7|F0 F1 F2 F3 F4 F5 F6].
    + rewrite F4. pose proof (power_le_1 K ws m0 d0 outs k HK). lra.
    + rewrite F4. pose proof (power_le_1 K ws m0 d0 outs k HK). lra.
    + rewrite F3. lra.
    + rewrite F3. pose proof (power_le_1 K ws m0 d0 outs (S k) HK). lra.
  - lia.
  - rewrite E5 by lia. apply lost_outside with ws; auto.
  - rewrite E5 by lia. apply lost_outside with ws; auto.
  - intros a Ha.
    inversion E2 as [F0 F1 F2 F3 F4 F5 F6|F0 F1 F2 F3 F4 F5 F6|A F1 F2 F3 F4 F5 F6 F7|F0 F1 F2 F3 F4 F5 F6];
      try (rewrite F6 in Ha; destruct Ha).
    rewrite F5 in Ha. apply in_map_iff in Ha. destruct Ha as [x [<- Hx]].
    destruct (HA k A F1) as [G1 G2]. specialize (G1 x Hx).
    pose proof (power_pos K m0 d0 outs k). apply Rmult_le_pos; [nra|].
    apply Rlt_le, Rinv_0_lt_compat. lra.
  - inversion E2 as [F0 F1 F2 F3 F4 F5 F6|F0 F1 F2 F3 F4 F5 F6|A F1 F2 F3 F4 F5 F6 F7|F0 F1 F2 F3 F4 F5 F6]; auto.
    right. rewrite F7. lia.
  - intros Ht. inversion E2 as [F0 F1 F2 F3 F4 F5 F6|F0 F1 F2 F3 F4 F5 F6|A F1 F2 F3 F4 F5 F6 F7|F0 F1 F2 F3 F4 F5 F6];
      [congruence|congruence| |auto].
    rewrite F3. apply (so_thresh _ _ HK).
Qed.

(* the angle tells the side on which the ray left *)
Lemma exit_side_angle K ws m0 d0 outs k st :
  good_start ws m0 d0 -> proper_path d0 outs -> ending K ws m0 d0 outs k st ->
  (refl st = true <-> (medium m0 d0 outs (S k) = 0%Z /\ heading d0 outs (S k) = (-1)%Z /\
                       s_theta st <> None)) /\
  (trns st = true <-> (medium m0 d0 outs (S k) = (Z.of_nat (length ws) + 1)%Z /\
                       heading d0 outs (S k) = 1%Z /\ s_theta st <> None)).
Proof.
  intros HS HP E2. assert (Hpm : pm1 (heading d0 outs k)).
  { clear - HS. induction k as [|k IH]; cbn [heading]; [unfold pm1; destruct HS as [[-> _]|[-> _]]; auto|].
    destruct (outs k); auto. unfold pm1 in *. lia. }
  assert (Hr : forall th, s_theta st = Some th -> refl st = Rleb th (PI / 2) /\ trns st = Rltb (PI / 2) th).
  { intros th Ht. unfold refl, trns. now rewrite Ht. }
  assert (Hn : s_theta st = None -> refl st = false /\ trns st = false).
  { intros Ht. unfold refl, trns. now rewrite Ht. }
  specialize (HP k).
  inversion E2 as [F0 F1 F2 F3 F4 F5 F6|F0 F1 F2 F3 F4 F5 F6|A F1 F2 F3 F4 F5 F6 F7|F0 F1 F2 F3 F4 F5 F6].
  - assert (U : upwards (angle outs k)).
    { clear - HP F0 F2 Hpm. cbn [heading] in F2. unfold angle, pm1 in *.
      destruct (outs k) as [th|th|A]; [| |exfalso; eapply F0; eauto]; cbn [proper] in HP;
        destruct Hpm as [P|P]; rewrite P in *; cbn in HP; auto; lia. }
    destruct U as [U1 U2]. destruct (Hr _ F3) as [-> ->].
    rewrite (proj2 (Rleb_true _ _)) by lra. rewrite (proj2 (Rltb_false _ _)) by lra.
    split; split; intros G; auto; try discriminate.
    + rewrite F3. split; [auto|split; [auto|discriminate]].
    + destruct G as [_ [G _]]. lia.
  - assert (U : downwards (angle outs k)).
    { clear - HP F0 F2 Hpm. cbn [heading] in F2. unfold angle, pm1 in *.
      destruct (outs k) as [th|th|A]; [| |exfalso; eapply F0; eauto]; cbn [proper] in HP;
        destruct Hpm as [P|P]; rewrite P in *; cbn in HP; auto; lia. }
    destruct U as [U1 U2]. destruct (Hr _ F3) as [-> ->].
    rewrite (proj2 (Rleb_false _ _)) by lra. rewrite (proj2 (Rltb_true _ _)) by lra.
    split; split; intros G; auto; try discriminate.
    + destruct G as [_ [G _]]. lia.
    + rewrite F3. split; [auto|split; [auto|discriminate]].
  - destruct (Hn F2) as [-> ->]. split; split; intros G; try discriminate; destruct G as [_ [_ G]]; congruence.
  - destruct (Hn F2) as [-> ->]. split; split; intros G; try discriminate; destruct G as [_ [_ G]]; congruence.
Qed.

(* ---------- C29 ---------- *)

Lemma removelast_tl_map {A} (f : nat -> A) n :
  removelast (tl (map f (seq 0 (S (S n))))) = map f (seq 1 n).
Proof.
  change (removelast (tl (map f (seq 0 (S (S n)))))) with (removelast (map f (seq 1 (S n)))).
  rewrite seq_S, map_app. cbn [map].
  rewrite removelast_app by discriminate. cbn [removelast]. apply app_nil_r.
Qed.

Lemma nth_sum_inner (l : list R) n : length l = S (S n) -> nth 0 l 0 = 0 -> nth (S n) l 0 = 0 ->
  rsum (map (fun i => nth i l 0) (seq 1 n)) = rsum l.
Proof.
  intros L H0 H1. transitivity (rsum (map (fun i => nth i l 0) (seq 0 (length l))));
    [|now rewrite map_nth_seq]. rewrite L.
  change (seq 0 (S (S n))) with (0%nat :: seq 1 (S n)). rewrite seq_S.
  cbn [map rsum]. rewrite H0, map_app, rsum_app. cbn [map rsum Nat.add]. rewrite H1. lra.
Qed.

Lemma totals_energy K ws rays : stack_of K ws -> rays <> [] ->
  (forall r, In r rays -> traced K ws r) ->
  let t := calculate_totals K rays in
  let total := t_R t + t_T t + rsum (t_A t) + rsum (t_Aint t) in
  1 - k_thresh K <= total <= 1 /\ 0 <= t_R0 t <= t_R t /\ 0 <= t_T t /\
  length (t_A t) = length ws /\ (forall a, In a (t_A t) -> 0 <= a) /\
  (forall a, In a (t_Aint t) -> 0 <= a) /\
  (total < 1 -> exists r, In r rays /\ s_theta r = None /\ s_Aint r = []).
Proof.
  intros HK Hne HT. cbv zeta.
  assert (HF : forall r, In r rays -> finished K ws r).
  { intros r Hr. destruct (HT r Hr) as [m0 [d0 [outs [fuel [H1 [H2 H3]]]]]].
    eapply ray_finished; eauto. }
  assert (HN : 0 < INR (length rays)).
  { apply lt_0_INR. destruct rays; [congruence|simpl; lia]. }
  set (N := INR (length rays)) in *.
  assert (EA : rsum (t_A (calculate_totals K rays)) = rsum (map (fun r => rsum (s_A r) / N) rays)).
  { cbn [t_A calculate_totals]. fold N. rewrite (widths_len K ws HK), removelast_tl_map, rsum_swap.
    apply rsum_map_ext. intros r Hr. rewrite rsum_map_ext with (g := fun i => / N * nth i (s_A r) 0)
      by (intros; unfold Rdiv; ring).
    rewrite rsum_map_scal. rewrite nth_sum_inner; [unfold Rdiv; ring|apply (fi_len _ _ _ (HF r Hr))
      |apply (fi_first _ _ _ (HF r Hr))|apply (fi_last _ _ _ (HF r Hr))]. }
  assert (EI : rsum (t_Aint (calculate_totals K rays)) = rsum (map (fun r => rsum (s_Aint r) / N) rays)).
  { cbn [t_Aint calculate_totals]. fold N. rewrite (so_surf _ _ HK), rsum_swap.
    apply rsum_map_ext. intros r Hr. destruct (fi_idx _ _ _ (HF r Hr)) as [Hi|Hi].
    - rewrite Hi. rewrite rsum_map_0; [simpl; lra|]. intros i _. unfold pick.
      destruct (Z.eqb _ _); simpl; lra.
    - rewrite rsum_map_single with (i := Z.to_nat (s_Aidx r - 1)).
      + rewrite (proj2 (Z.eqb_eq _ _)) by lia. reflexivity.
      + lia.
      + intros j Hj Nj. rewrite (proj2 (Z.eqb_neq _ _)) by lia. reflexivity. }
  assert (ET : t_R (calculate_totals K rays) + t_T (calculate_totals K rays) =
     rsum (map (fun r => match s_theta r with None => 0 | Some _ => s_I r end / N) rays)).
  { cbn [t_R t_T calculate_totals]. fold N. rewrite <- rsum_map_plus. apply rsum_map_ext.
    intros r Hr. unfold refl, trns. destruct (s_theta r) as [th|]; unfold pick.
    - destruct (Rleb th (PI / 2)) eqn:E1.
      + apply Rleb_true in E1. rewrite (proj2 (Rltb_false _ _)) by lra. lra.
      + apply Rleb_false in E1. rewrite (proj2 (Rltb_true _ _)) by lra. lra.
    - lra. }
  set (lost := fun r => match s_theta r with None => s_I r | Some _ => 0 end).
  assert (Etot : t_R (calculate_totals K rays) + t_T (calculate_totals K rays)
     + rsum (t_A (calculate_totals K rays)) + rsum (t_Aint (calculate_totals K rays)) =
     rsum (map (fun r => (1 - lost r) / N) rays)).
  { rewrite ET, EA, EI, <- !rsum_map_plus. apply rsum_map_ext. intros r Hr.
    pose proof (fi_energy _ _ _ (HF r Hr)) as En. unfold lost. destruct (s_theta r).
    - replace (1 - 0) with (s_I r + rsum (s_A r) + rsum (s_Aint r)) by lra. unfold Rdiv. ring.
    - replace (1 - s_I r) with (rsum (s_A r) + rsum (s_Aint r)) by lra. unfold Rdiv. ring. }
  assert (Hone : rsum (map (fun _ : sstate => 1 / N) rays) = 1).
  { rewrite rsum_map_const. fold N. field. lra. }
  assert (HiN : 0 < / N) by (apply Rinv_0_lt_compat; auto).
  assert (Hlost : forall r, In r rays -> 0 <= lost r <= k_thresh K).
  { intros r Hr. unfold lost. destruct (s_theta r) eqn:Et; [pose proof (so_thresh _ _ HK); lra|].
    pose proof (fi_lost _ _ _ (HF r Hr) Et). pose proof (fi_I _ _ _ (HF r Hr)). lra. }
  rewrite Etot.
  split; [split|split; [split|split; [|split; [|split; [|split]]]]].
  - apply Rle_trans with (rsum (map (fun _ : sstate => (1 - k_thresh K) / N) rays)).
    + rewrite rsum_map_const. fold N. right. field. lra.
    + apply rsum_map_le. intros r Hr. specialize (Hlost r Hr). unfold Rdiv. nra.
  - rewrite <- Hone. apply rsum_map_le. intros r Hr. specialize (Hlost r Hr). unfold Rdiv. nra.
  - cbn [t_R0 calculate_totals]. apply rsum_nonneg. intros x Hx. apply in_map_iff in Hx.
    destruct Hx as [r [<- Hr]]. pose proof (fi_I _ _ _ (HF r Hr)). fold N. unfold pick.
    destruct (_ && _); unfold Rdiv; nra.
  - cbn [t_R t_R0 calculate_totals]. apply rsum_map_le. intros r Hr. fold N.
    pose proof (fi_I _ _ _ (HF r Hr)). unfold pick, Rdiv. destruct (refl r); cbn [andb]; [|lra].
    destruct (Nat.eqb _ _); nra.
  - cbn [t_T calculate_totals]. apply rsum_nonneg. intros x Hx. apply in_map_iff in Hx.
    destruct Hx as [r [<- Hr]]. pose proof (fi_I _ _ _ (HF r Hr)). fold N. unfold pick.
    destruct (trns r); unfold Rdiv; nra.
  - cbn [t_A calculate_totals]. rewrite (widths_len K ws HK), removelast_tl_map, map_length, seq_length. auto.
  - cbn [t_A calculate_totals]. rewrite (widths_len K ws HK), removelast_tl_map. intros a Ha.
    apply in_map_iff in Ha. destruct Ha as [i [<- _]]. apply rsum_nonneg. intros x Hx.
    apply in_map_iff in Hx. destruct Hx as [r [<- Hr]]. pose proof (fi_A _ _ _ (HF r Hr) i). fold N.
    unfold Rdiv. nra.
  - cbn [t_Aint calculate_totals]. intros a Ha.
    apply in_map_iff in Ha. destruct Ha as [i [<- _]]. apply rsum_nonneg. intros x Hx.
    apply in_map_iff in Hx. destruct Hx as [r [<- Hr]]. fold N. unfold pick. destruct (Z.eqb _ _); [|lra].
    pose proof (rsum_nonneg _ (fi_Aint _ _ _ (HF r Hr))). unfold Rdiv. nra.
  - intros Hlt.
    destruct (Exists_dec (fun r => s_theta r = None /\ s_Aint r = []) rays) as [Hex|Hno].
    { intros r. destruct (s_theta r); [right; intros [? _]; discriminate|].
      destruct (s_Aint r); [left; auto|right; intros [_ ?]; discriminate]. }
    + apply Exists_exists in Hex. destruct Hex as [r [H1 [H2 H3]]]. exists r. auto.
    + exfalso. assert (Hz : forall r, In r rays -> lost r = 0).
      { intros r Hr. unfold lost. destruct (s_theta r) eqn:Et; auto.
        destruct (HT r Hr) as [m0 [d0 [outs [fuel [H1 [H2 H3]]]]]].
        destruct (path_end K ws m0 d0 outs HK H1 fuel _ H3) as [k [st' [E1 [_ [E2 _]]]]].
        injection E1 as <-.
        inversion E2 as [F0 F1 F2 F3 F4 F5 F6|F0 F1 F2 F3 F4 F5 F6|A F1 F2 F3 F4 F5 F6 F7|F0 F1 F2 F3 F4 F5 F6];
          try congruence.
        exfalso. apply Hno. apply Exists_exists. exists r. auto. }
      rewrite rsum_map_ext with (g := fun _ => 1 / N) in Hlt
        by (intros r Hr; rewrite (Hz r Hr); unfold Rdiv; ring). lra.
Qed.

(* ---------- C78 ---------- *)

Lemma none_reach K m0 d0 outs fuel : forall k st, reach K m0 d0 outs k st ->
  srun fuel K st outs k = None -> exists st', reach K m0 d0 outs (k + fuel) st'.
Proof.
  induction fuel as [|f IH]; intros k st Hr E.
  - exists st. now rewrite Nat.add_0_r.
  - cbn [srun] in E. destruct (sstep K st (outs k)) as [[st'|st']|] eqn:Es; try discriminate.
    destruct (IH (S k) st' (reach_S _ _ _ _ _ _ _ Hr Es) E) as [st2 H2].
    exists st2. replace (k + S f)%nat with (S k + f)%nat by lia. exact H2.
Qed.

Lemma reach_thresh K ws m0 d0 outs k st : stack_of K ws -> good_start ws m0 d0 ->
  reach K m0 d0 outs (S k) st -> k_thresh K <= power m0 d0 outs K (S k) /\
  (forall j, (j <= k)%nat -> (1 <= medium m0 d0 outs (S j) <= Z.of_nat (length ws))%Z /\
                             forall A, outs j <> OAbsorbed A).
Proof.
  intros HK HS. revert st. induction k as [|k IH]; intros st Hr; inversion Hr as [|k' st0 st1 Hr' Es].
  - subst. pose proof (reach_inv K ws m0 d0 outs HK HS _ _ Hr') as Hi.
    destruct (step_inl K ws m0 d0 outs HK _ _ _ Hi Es) as [H1 [H2 [H3 [H4 _]]]].
    split; [rewrite <- (iv_I _ _ _ _ _ _ _ H1); auto|].
    intros j Hj. replace j with 0%nat by lia. split; [apply (iv_bulk _ _ _ _ _ _ _ H1); lia|auto].
  - subst. pose proof (reach_inv K ws m0 d0 outs HK HS _ _ Hr') as Hi.
    destruct (step_inl K ws m0 d0 outs HK _ _ _ Hi Es) as [H1 [H2 [H3 [H4 _]]]].
    split; [rewrite <- (iv_I _ _ _ _ _ _ _ H1); auto|].
    intros j Hj. destruct (Nat.eq_dec j (S k)) as [->|Ne].
    + split; [apply (iv_bulk _ _ _ _ _ _ _ H1); lia|auto].
    + apply (IH st0 Hr'). lia.
Qed.

Lemma nth_bulk (K : stack) ws i : stack_of K ws -> (1 <= i <= length ws)%nat ->
  nth i (k_widths K) 0 = nth (i - 1) ws 0.
Proof.
  intros HK Hi. rewrite (so_widths _ _ HK). unfold padded. destruct i as [|i]; [lia|].
  cbn [nth]. rewrite app_nth1 by lia. f_equal. lia.
Qed.

Lemma absorbing_terminates K ws m0 d0 outs c fuel :
  stack_of K ws -> good_start ws m0 d0 -> proper_path d0 outs ->
  0 < c -> (forall i, (i < length ws)%nat -> c <= nth (S i) (k_alphas K) 0 * nth i ws 0) ->
  (1 <= fuel)%nat -> - ln (k_thresh K) < INR fuel * c ->
  exists st, single_ray_stack fuel K m0 d0 outs = Some (Ok st).
Proof.
  intros HK HS HP Hc Hcw Hf Hln.
  destruct (single_ray_stack fuel K m0 d0 outs) as [o|] eqn:E.
  - destruct (path_end K ws m0 d0 outs HK HS fuel o E) as [k [st [-> _]]]. exists st. reflexivity.
  - exfalso. unfold single_ray_stack in E.
    destruct (none_reach K m0 d0 outs fuel 0 _ (reach_0 _ _ _ _) E) as [st Hr].
    cbn [Nat.add] in Hr. destruct fuel as [|f]; [lia|].
    destruct (reach_thresh K ws m0 d0 outs f st HK HS Hr) as [H1 H2].
    assert (Hs : forall j, (j <= S f)%nat -> INR j * c <= rsum (map (crossing m0 d0 outs K) (seq 0 j))).
    { induction j as [|j IH]; intros Hj; [simpl; lra|].
      rewrite seq_S, map_app, rsum_app. cbn [map rsum Nat.add]. rewrite S_INR.
      specialize (IH ltac:(lia)). destruct (H2 j ltac:(lia)) as [B Ha].
      assert (c <= crossing m0 d0 outs K j).
      { unfold crossing. set (i := Z.to_nat (medium m0 d0 outs (S j))).
        rewrite (nth_bulk K ws i HK) by (subst i; lia).
        specialize (Hcw (i - 1)%nat ltac:(subst i; lia)).
        replace (S (i - 1)) with i in Hcw by (subst i; lia).
        assert (Hcos : 0 < Rabs (cos (angle outs j)) <= 1).
        { split.
          - apply Rabs_pos_lt. specialize (HP j).
            pose proof (proper_cos (heading d0 outs j) (outs j)) as Hx. unfold angle.
            destruct (outs j) as [th|th|A]; auto. exfalso; eapply Ha; eauto.
          - apply Rabs_le. pose proof (COS_bound (angle outs j)). lra. }
        apply Rle_trans with (1 := Hcw).
        set (p := nth i (k_alphas K) 0 * nth (i - 1) ws 0) in *.
        unfold Rdiv. assert (1 <= / Rabs (cos (angle outs j))).
        { rewrite <- Rinv_1. apply Rinv_le_contravar; lra. }
        nra. }
      lra. }
    specialize (Hs (S f) ltac:(lia)).
    assert (ln (k_thresh K) <= - rsum (map (crossing m0 d0 outs K) (seq 0 (S f)))).
    { rewrite <- (ln_exp (- rsum _)). fold (power m0 d0 outs K (S f)).
      destruct H1 as [H1|H1]; [left; apply ln_increasing; auto; apply (so_thresh _ _ HK)|right; now rewrite H1]. }
    lra.
Qed.
