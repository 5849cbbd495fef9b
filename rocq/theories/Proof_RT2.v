(* Proofs of the properties of RT_wl. *)
From Coq Require Import Reals List ZArith Bool Lia Lra.
From Verif Require Import Base Lib Model_Angles Model_Ideal Model_MatMul Model_Optics Model_RayIface
  Model_RT Spec_Angles Spec_Matrix Spec_RT Proof_Angles Proof_AnglesProps Proof_RT.
Import ListNotations.
Open Scope R_scope.

Lemma col_total_sum m nr nc c : has_shape m nr nc -> col_total m c = rsum (map (fun r => entry m r c) (seq 0 nr)).
Proof. apply col_sum_entries. Qed.

Lemma in_column_sum col k (W : nat -> ray -> R) l n :
  rsum (map (fun r => in_column col k (W r) l) (seq 0 n)) =
  in_column col k (fun y => rsum (map (fun r => W r y) (seq 0 n))) l.
Proof.
  unfold in_column. rewrite rsum_swap. apply rsum_map_ext. intros p _.
  destruct (Nat.eqb (col (fst p)) k); auto. apply rsum_map_0. auto.
Qed.

Lemma in_column_ext col k W W' l : (forall b y, In (b, y) l -> col b = k -> W y = W' y) ->
  in_column col k W l = in_column col k W' l.
Proof.
  intros H. unfold in_column. apply rsum_map_ext. intros [b y] Hp. cbn [fst snd].
  destruct (Nat.eqb_spec (col b) k); auto. eapply H; eauto.
Qed.

Lemma in_column_plus col k W W' l : in_column col k (fun y => W y + W' y) l = in_column col k W l + in_column col k W' l.
Proof.
  unfold in_column. rewrite <- rsum_map_plus. apply rsum_map_ext. intros p _. destruct (Nat.eqb (col (fst p)) k); lra.
Qed.

Lemma in_column_scal col k a W l : in_column col k (fun y => a * W y) l = a * in_column col k W l.
Proof.
  unfold in_column. rewrite <- rsum_map_scal. apply rsum_map_ext. intros p _. destruct (Nat.eqb (col (fst p)) k); lra.
Qed.

Lemma in_column_nonneg col k W l : (forall b y, In (b, y) l -> 0 <= W y) -> 0 <= in_column col k W l.
Proof.
  intros H. unfold in_column. apply rsum_nonneg. intros x Hx. apply in_map_iff in Hx. destruct Hx as [[b y] [<- Hp]].
  cbn [fst snd]. destruct (Nat.eqb (col b) k); [eapply H; eauto|lra].
Qed.

(* a sum of non-negative weights is zero only if every ray of the column has weight zero *)
Lemma in_column_zero col k W l : (forall b y, In (b, y) l -> 0 <= W y) -> in_column col k W l = 0 ->
  forall b y, In (b, y) l -> col b = k -> W y = 0.
Proof.
  intros H. unfold in_column. induction l as [|[b y] l IH]; intros E b' y' [].
  - injection H0 as -> ->. intros Hk. cbn [map rsum fst snd] in E. rewrite Hk, Nat.eqb_refl in E.
    pose proof (H b' y' (or_introl eq_refl)).
    assert (0 <= rsum (map (fun p => if Nat.eqb (col (fst p)) k then W (snd p) else 0) l)).
    { apply in_column_nonneg. intros b0 y0 H1. apply (H b0). right. auto. }
    lra.
  - intros Hk. cbn [map rsum fst snd] in E. apply (IH (fun b y H1 => H b y (or_intror H1))) with (b := b'); auto.
    assert (0 <= rsum (map (fun p => if Nat.eqb (col (fst p)) k then W (snd p) else 0) l)).
    { apply in_column_nonneg. intros b0 y0 H1. apply (H b0). right. auto. }
    pose proof (H b y (or_introl eq_refl)). destruct (Nat.eqb (col b) k); lra.
Qed.

Lemma in_column_none col k W l : (forall b y, In (b, y) l -> col b <> k) -> in_column col k W l = 0.
Proof.
  intros H. unfold in_column. apply rsum_map_0. intros [b y] Hp. cbn [fst snd].
  destruct (Nat.eqb_spec (col b) k); auto. exfalso. eapply H; eauto.
Qed.

Section Main.
  Variables (n : nat) (phi_sym c : R) (sp : spacing) (g : grid) (h : nat) (s : side) (tmm : bool) (n_abs : nat)
            (beams : list beam) (G : garbage).
  Hypothesis Hv : valid_request n phi_sym c.
  Hypothesis Hg : make_angle_vector n phi_sym c sp = Ok g.
  Hypothesis Hh : length (g_av g) = (2 * h)%nat.
  Hypothesis Hb : forall b, In b beams -> good_beam phi_sym b /\
    forall y, In y (b_rays b) -> good_ray tmm phi_sym n_abs y.

  Lemma good_in b y : In (b, y) (pairs beams) -> good_ray tmm phi_sym n_abs y.
  Proof. intros H. apply in_pairs in H. destruct H as [H1 H2]. destruct (Hb b H1). auto. Qed.

  Lemma rsum_absorption b y : In (b, y) (pairs beams) ->
    rsum (map (fun l => nth l (absorption y) 0) (seq 0 n_abs)) = rsum (absorption y).
  Proof.
    intros H. apply good_in in H. unfold good_ray, absorption in *. destruct (ro_A (y_out y)) as [A|].
    - destruct H as [_ [_ [HA _]]]. rewrite <- HA. rewrite map_nth_seq. auto.
    - apply rsum_map_0. intros l _. destruct l; auto.
  Qed.

  Lemma absorption_pos b y : In (b, y) (pairs beams) -> 0 <= rsum (absorption y) /\
    (leaves y = false -> 0 < rsum (absorption y)) /\ (leaves y = true -> rsum (absorption y) = 0).
  Proof.
    intros H. apply good_in in H. unfold good_ray, absorption, leaves in *. destruct (ro_A (y_out y)) as [A|].
    - destruct H as [_ [_ [_ [H _]]]]. split; [lra|]. split; auto. discriminate.
    - simpl. split; [lra|]. split; [discriminate|auto].
  Qed.

  Lemma rt_main : exists res, RT_wl s tmm phi_sym g n_abs beams G = Ok res /\
    has_shape (o_mat res) (2 * h) h /\ has_shape (o_Amat res) n_abs h /\ length (o_intgr res) = h /\
    has_shape (o_local res) n h /\
    forall col row, bins_of_rays s phi_sym g h beams col row -> forall k, (k < h)%nat ->
      (forall r, (r < 2 * h)%nat -> entry (o_mat res) r k = unnan (fdiv_where
         (in_column col k (fun y => if leaves y && Nat.eqb (row y) r then 1 else 0) (pairs beams))
         (n_rays_in col k beams) (gb_out G r k))) /\
      (forall l, (l < n_abs)%nat -> n_rays_in col k beams <> 0 -> entry (o_Amat res) l k =
         n_absorbed_in col k beams / n_rays_in col k beams *
         (in_column col k (fun y => nth l (absorption y) 0) (pairs beams) /
          in_column col k (fun y => rsum (absorption y)) (pairs beams))) /\
      (forall l, (l < n_abs)%nat -> n_rays_in col k beams = 0 -> entry (o_Amat res) l k = 0) /\
      nth k (o_intgr res) 0 = in_column col k (fun y => rsum (absorption y)) (pairs beams) / n_absorbed_in col k beams /\
      (forall l, (l < n)%nat -> entry (o_local res) l k =
         in_column col k (fun y => if negb (leaves y) && Nat.eqb (loc_row n g tmm y) l then 1 else 0) (pairs beams) /
         n_absorbed_in col k beams).
  Proof.
    destruct (bins_exist _ _ _ _ _ h s tmm n_abs beams Hv Hg Hh Hb) as [col0 [row0 Hbins0]].
    destruct (counted _ _ _ _ _ h s tmm n_abs beams Hv Hg Hh Hb col0 row0 Hbins0) as [K [EK [SK _]]].
    exists (normalise_counts K G). unfold RT_wl.
    rewrite (events_eq _ _ _ _ _ h s tmm n_abs beams Hv Hg Hh Hb col0 row0 Hbins0). cbn [rbind].
    rewrite EK. cbn [rbind]. split; auto.
    destruct (norm_shape K G h (2 * h) n_abs n SK) as [N1 [N2 [N3 N4]]].
    split; auto. split; auto. split; auto. split; auto.
    intros col row Hbins k Hk.
    destruct (counted _ _ _ _ _ h s tmm n_abs beams Hv Hg Hh Hb col row Hbins) as [K' [EK' [_ [C1 [C2 [C3 [C4 C5]]]]]]].
    (* the events are the same *)
    assert (K' = K).
    { pose proof (events_eq _ _ _ _ _ h s tmm n_abs beams Hv Hg Hh Hb col0 row0 Hbins0) as E0.
      pose proof (events_eq _ _ _ _ _ h s tmm n_abs beams Hv Hg Hh Hb col row Hbins) as E1.
      rewrite E0 in E1. injection E1 as E1. rewrite E1 in EK. rewrite EK in EK'. injection EK' as ->. auto. }
    subst K'.
    pose proof SK as [S1 [S2 [S3 [S4 S5]]]].
    assert (CA : col_sum (k_A K) k = in_column col k (fun y => rsum (absorption y)) (pairs beams)).
    { rewrite (col_sum_entries _ _ _ _ S2).
      rewrite (rsum_map_ext _ (fun l => in_column col k (fun y => nth l (absorption y) 0) (pairs beams))).
      - rewrite in_column_sum. apply in_column_ext. intros b y Hp _. apply (rsum_absorption b y Hp).
      - intros l Hl. apply in_seq in Hl. apply C4. lia. }
    assert (CN : n_absorbed_in col k beams = nth k (k_abs K) 0) by (rewrite C2 by auto; auto).
    assert (Cn : n_rays_in col k beams = nth k (k_n K) 0) by (rewrite C1 by auto; auto).
    (* nothing absorbed iff no absorption *)
    assert (Z0 : col_sum (k_A K) k = 0 -> nth k (k_abs K) 0 = 0).
    { rewrite CA, C2 by auto. intros E.
      rewrite (in_column_ext col k _ (fun _ => 0 * 1)); [rewrite in_column_scal; lra|].
      intros b y Hp Hcol. assert (rsum (absorption y) = 0).
      { apply (in_column_zero col k (fun y => rsum (absorption y)) (pairs beams)) with (b := b); auto.
        intros b0 y0 H0. apply (absorption_pos b0 y0 H0). }
      destruct (absorption_pos b y Hp) as [_ [Hq _]]. destruct (leaves y); [lra|]. specialize (Hq eq_refl). lra. }
    assert (CL : col_sum (k_loc K) k = nth k (k_abs K) 0).
    { rewrite (col_sum_entries _ _ _ _ S5), C2 by auto.
      rewrite (rsum_map_ext _ (fun l => in_column col k (fun y => if negb (leaves y) && Nat.eqb (loc_row n g tmm y) l then 1 else 0) (pairs beams)))
        by (intros; apply C5).
      rewrite in_column_sum. apply in_column_ext. intros b y Hp _. destruct (leaves y) eqn:El; cbn [negb andb].
      - apply rsum_map_0. auto.
      - rewrite rsum_map_single with (i := loc_row n g tmm y); [rewrite Nat.eqb_refl; auto| |].
        + apply good_in in Hp. unfold good_ray in Hp. unfold leaves in El. destruct (ro_A (y_out y)); try discriminate.
          destruct Hp as [_ [_ [_ [_ Hp]]]]. destruct (local_bin _ _ _ _ _ Hv Hg tmm _ Hp) as [l' [E [Hl _]]].
          unfold loc_row. rewrite E. auto.
        + intros j _ Hj. destruct (Nat.eqb_spec (loc_row n g tmm y) j); auto. congruence. }
    split; [|split; [|split; [|split]]].
    - intros r Hr. rewrite (norm_out K G h (2 * h) n_abs n SK) by auto. rewrite C3, Cn. auto.
    - intros l Hl HN. rewrite (norm_A K G h (2 * h) n_abs n SK) by auto. rewrite C4 by auto. rewrite CN, <- CA, Cn in *.
      destruct (Reqb (col_sum (k_A K) k) 0) eqn:E.
      + apply Reqb_true in E. rewrite (Z0 E). rewrite CA in E.
        assert (E' : in_column col k (fun y => nth l (absorption y) 0) (pairs beams) = 0).
        { rewrite (in_column_ext col k _ (fun _ => 0 * 1)); [rewrite in_column_scal; lra|].
          intros b y Hp Hcol. assert (rsum (absorption y) = 0).
          { apply (in_column_zero col k (fun y => rsum (absorption y)) (pairs beams)) with (b := b); auto.
            intros b0 y0 H0. apply (absorption_pos b0 y0 H0). }
          destruct (absorption_pos b y Hp) as [_ [Hq _]]. unfold leaves, absorption in *.
          destruct (ro_A (y_out y)); [specialize (Hq eq_refl); lra|]. destruct l; simpl; lra. }
        rewrite E'. destruct (gb_scale G k); cbn [fmul unnan]; unfold Rdiv; lra.
      + unfold fdiv_where. destruct (Reqb (nth k (k_n K) 0) 0) eqn:E0; [apply Reqb_true in E0; congruence|].
        cbn [fmul unnan]. unfold Rdiv. ring.
    - intros l Hl HN. rewrite (norm_A K G h (2 * h) n_abs n SK) by auto. rewrite C4 by auto.
      assert (E : forall W, in_column col k W (pairs beams) = 0).
      { intros W. apply in_column_none. intros b y Hp Hcol.
        assert (1 = 0); [|lra]. apply (in_column_zero col k (fun _ => 1) (pairs beams)) with (b := b) (y := y); auto.
        intros; lra. }
      rewrite CA, !E. replace (Reqb 0 0) with true by (symmetry; apply Reqb_true; auto).
      destruct (gb_scale G k); cbn [fmul unnan]; lra.
    - rewrite (norm_intgr K G h (2 * h) n_abs n SK) by auto. rewrite CN, CA.
      destruct (Reqb (nth k (k_abs K) 0) 0) eqn:E; auto. apply Reqb_true in E. rewrite E. unfold Rdiv. rewrite Rinv_0. lra.
    - intros l Hl. rewrite (norm_loc K G h (2 * h) n_abs n SK) by auto. rewrite CL, C5, CN.
      destruct (Reqb (nth k (k_abs K) 0) 0) eqn:E; auto. apply Reqb_true in E. rewrite E. unfold Rdiv. rewrite Rinv_0. lra.
  Qed.
End Main.

Definition valid_rays (phi_sym : R) (tmm : bool) (n_abs : nat) (beams : list beam) : Prop :=
  forall b, In b beams -> good_beam phi_sym b /\ forall y, In y (b_rays b) -> good_ray tmm phi_sym n_abs y.

Lemma rt_sum n phi_sym c sp g h s tmm n_abs beams col row k :
  valid_request n phi_sym c -> make_angle_vector n phi_sym c sp = Ok g -> length (g_av g) = (2 * h)%nat ->
  valid_rays phi_sym tmm n_abs beams -> bins_of_rays s phi_sym g h beams col row ->
  rsum (map (fun r => in_column col k (fun y => if leaves y && Nat.eqb (row y) r then 1 else 0) (pairs beams)) (seq 0 (2 * h)))
  + n_absorbed_in col k beams = n_rays_in col k beams.
Proof.
  intros Hv Hg Hh Hb Hbins. rewrite in_column_sum. unfold n_absorbed_in, n_rays_in. rewrite <- in_column_plus.
  apply in_column_ext. intros b y Hp _. apply in_pairs in Hp. destruct Hp as [H1 H2].
  destruct (leaves y) eqn:El; cbn [andb].
  - rewrite rsum_map_single with (i := row y).
    + rewrite Nat.eqb_refl. lra.
    + apply (proj2 Hbins b y H1 H2 El).
    + intros j _ Hj. destruct (Nat.eqb_spec (row y) j); auto. congruence.
  - rewrite rsum_map_0 by auto. lra.
Qed.

Lemma rt_fractions n phi_sym c sp g h s tmm n_abs beams G :
  valid_request n phi_sym c -> make_angle_vector n phi_sym c sp = Ok g -> length (g_av g) = (2 * h)%nat ->
  (forall b, In b beams -> good_beam phi_sym b /\ forall y, In y (b_rays b) -> good_ray tmm phi_sym n_abs y) ->
  (exists col row, bins_of_rays s phi_sym g h beams col row) /\
  exists res, RT_wl s tmm phi_sym g n_abs beams G = Ok res /\
    has_shape (o_mat res) (2 * h) h /\ has_shape (o_Amat res) n_abs h /\
    forall col row, bins_of_rays s phi_sym g h beams col row ->
    forall k, (k < h)%nat -> 0 < n_rays_in col k beams ->
      (forall r, (r < 2 * h)%nat -> entry (o_mat res) r k =
         in_column col k (fun y => if leaves y && Nat.eqb (row y) r then 1 else 0) (pairs beams) / n_rays_in col k beams) /\
      col_total (o_Amat res) k = n_absorbed_in col k beams / n_rays_in col k beams /\
      col_total (o_mat res) k + col_total (o_Amat res) k = 1.
Proof.
  intros Hv Hg Hh Hb. split; [apply (bins_exist n _ c sp _ _ _ tmm n_abs _ Hv Hg Hh Hb)|].
  destruct (rt_main n phi_sym c sp g h s tmm n_abs beams G Hv Hg Hh Hb) as [res [E [S1 [S2 [_ [_ H]]]]]].
  exists res. split; auto. split; auto. split; auto.
  intros col row Hbins k Hk HN. destruct (H col row Hbins k Hk) as [H1 [H2 _]].
  assert (E1 : forall r, (r < 2 * h)%nat -> entry (o_mat res) r k =
         in_column col k (fun y => if leaves y && Nat.eqb (row y) r then 1 else 0) (pairs beams) / n_rays_in col k beams).
  { intros r Hr. rewrite H1 by auto. unfold fdiv_where.
    destruct (Reqb (n_rays_in col k beams) 0) eqn:E0; [apply Reqb_true in E0; lra|]. reflexivity. }
  assert (E2 : col_total (o_Amat res) k = n_absorbed_in col k beams / n_rays_in col k beams).
  { rewrite (col_total_sum _ _ _ _ S2).
    rewrite (rsum_map_ext _ (fun l => n_absorbed_in col k beams / n_rays_in col k beams *
         / in_column col k (fun y => rsum (absorption y)) (pairs beams) *
         in_column col k (fun y => nth l (absorption y) 0) (pairs beams))).
    2:{ intros l Hl. apply in_seq in Hl. rewrite H2; [unfold Rdiv; ring | lia | lra]. }
    rewrite rsum_map_scal, in_column_sum.
    rewrite (in_column_ext col k (fun y => rsum (map (fun r => nth r (absorption y) 0) (seq 0 n_abs))) (fun y => rsum (absorption y))).
    2:{ intros b y Hp _. apply (rsum_absorption phi_sym tmm n_abs beams Hb b y Hp). }
    destruct (Req_dec (in_column col k (fun y => rsum (absorption y)) (pairs beams)) 0) as [Z|NZ]; [|field; split; lra].
    rewrite Z. replace (n_absorbed_in col k beams) with 0; [unfold Rdiv; ring|].
    symmetry. unfold n_absorbed_in. rewrite (in_column_ext col k _ (fun _ => 0 * 1)); [rewrite in_column_scal; lra|].
    intros b y Hp Hcol. pose proof (absorption_pos phi_sym tmm n_abs beams Hb b y Hp) as [_ [Hq _]].
    assert (rsum (absorption y) = 0).
    { apply (in_column_zero col k (fun y => rsum (absorption y)) (pairs beams)) with (b := b); auto.
      intros b0 y0 H0. apply (absorption_pos phi_sym tmm n_abs beams Hb b0 y0 H0). }
    destruct (leaves y); [lra|]. specialize (Hq eq_refl). lra. }
  split; auto. split; auto. rewrite E2, (col_total_sum _ _ _ _ S1).
  rewrite (rsum_map_ext _ (fun r => / n_rays_in col k beams *
     in_column col k (fun y => if leaves y && Nat.eqb (row y) r then 1 else 0) (pairs beams))).
  2:{ intros r Hr. apply in_seq in Hr. rewrite E1 by lia. unfold Rdiv. ring. }
  rewrite rsum_map_scal. pose proof (rt_sum n phi_sym c sp g h s tmm n_abs beams col row k Hv Hg Hh Hb Hbins) as HS.
  replace (rsum _) with (n_rays_in col k beams - n_absorbed_in col k beams) by lra. field. lra.
Qed.

Lemma rt_empty n phi_sym c sp g h s tmm n_abs beams G :
  valid_request n phi_sym c -> make_angle_vector n phi_sym c sp = Ok g -> length (g_av g) = (2 * h)%nat ->
  (forall b, In b beams -> good_beam phi_sym b /\ forall y, In y (b_rays b) -> good_ray tmm phi_sym n_abs y) ->
  exists res, RT_wl s tmm phi_sym g n_abs beams G = Ok res /\
    forall col row, bins_of_rays s phi_sym g h beams col row ->
    forall k, (k < h)%nat -> n_rays_in col k beams = 0 ->
      (forall l, (l < n_abs)%nat -> entry (o_Amat res) l k = 0) /\
      forall r, (r < 2 * h)%nat -> entry (o_mat res) r k = unnan (gb_out G r k).
Proof.
  intros Hv Hg Hh Hb.
  destruct (rt_main n phi_sym c sp g h s tmm n_abs beams G Hv Hg Hh Hb) as [res [E [S1 [S2 [_ [_ H]]]]]].
  exists res. split; auto. intros col row Hbins k Hk HN. destruct (H col row Hbins k Hk) as [H1 [_ [H3 _]]].
  split; [intros; apply H3; auto|]. intros r Hr. rewrite H1 by auto. rewrite HN. unfold fdiv_where.
  replace (Reqb 0 0) with true by (symmetry; apply Reqb_true; auto). auto.
Qed.

Lemma rt_empty_garbage n phi_sym c sp g h s tmm n_abs b x :
  valid_request n phi_sym c -> make_angle_vector n phi_sym c sp = Ok g -> length (g_av g) = (2 * h)%nat -> (2 <= h)%nat ->
  good_beam phi_sym b -> (forall y, In y (b_rays b) -> good_ray tmm phi_sym n_abs y) ->
  exists G res k, RT_wl s tmm phi_sym g n_abs [b] G = Ok res /\ (k < h)%nat /\
    (forall col row, bins_of_rays s phi_sym g h [b] col row -> n_rays_in col k [b] = 0) /\
    forall r, (r < 2 * h)%nat -> entry (o_mat res) r k = x.
Proof.
  intros Hv Hg Hh H2 Hb1 Hb2.
  assert (Hb : forall b', In b' [b] -> good_beam phi_sym b' /\ forall y, In y (b_rays b') -> good_ray tmm phi_sym n_abs y).
  { intros b' [<-|[]]. auto. }
  destruct (bins_exist n _ c sp _ h s tmm n_abs _ Hv Hg Hh Hb) as [col [row Hbins]].
  pose (G := {| gb_out := fun _ _ => Some x; gb_frac := fun _ => Some 0; gb_scale := fun _ => Some 0 |}).
  destruct (rt_empty n phi_sym c sp g h s tmm n_abs [b] G Hv Hg Hh Hb) as [res [E H]].
  pose (k := if Nat.eqb (col b) 0 then 1%nat else 0%nat).
  assert (Hk : (k < h)%nat) by (unfold k; destruct (Nat.eqb (col b) 0); lia).
  assert (Hne : forall col row, bins_of_rays s phi_sym g h [b] col row -> n_rays_in col k [b] = 0).
  { intros col' row' Hb'. unfold n_rays_in. apply in_column_none. intros b' y Hp.
    apply in_pairs in Hp. destruct Hp as [[<-|[]] _].
    assert (col' b = col b).
    { pose proof (beam_bin n phi_sym c sp g h s tmm n_abs [b] Hv Hg Hh Hb col row Hbins b (or_introl eq_refl)).
      pose proof (beam_bin n phi_sym c sp g h s tmm n_abs [b] Hv Hg Hh Hb col' row' Hb' b (or_introl eq_refl)).
      rewrite H0 in H1. injection H1 as H1. lia. }
    unfold k. destruct (Nat.eqb_spec (col b) 0); lia. }
  exists G, res, k. split; auto. split; auto. split; auto.
  intros r Hr. destruct (H col row Hbins k Hk (Hne _ _ Hbins)) as [_ ->]; auto.
Qed.

(* ---------- hemispheres ---------- *)

Lemma rt_halves n phi_sym c sp g h s tmm n_abs beams G :
  valid_request n phi_sym c -> make_angle_vector n phi_sym c sp = Ok g -> length (g_av g) = (2 * h)%nat ->
  (forall b, In b beams -> good_beam phi_sym b /\ forall y, In y (b_rays b) -> good_ray tmm phi_sym n_abs y /\
     (leaves y = true -> ro_theta (y_out y) <> PI / 2)) ->
  exists res, RT_wl s tmm phi_sym g n_abs beams G = Ok res /\
    forall col row, bins_of_rays s phi_sym g h beams col row ->
    forall k, (k < h)%nat -> 0 < n_rays_in col k beams ->
      rsum (map (fun r => entry (o_mat res) r k) (reflection_rows s h)) =
        in_column col k (fun y => if upwards y then 1 else 0) (pairs beams) / n_rays_in col k beams /\
      rsum (map (fun r => entry (o_mat res) r k) (transmission_rows s h)) =
        in_column col k (fun y => if downwards y then 1 else 0) (pairs beams) / n_rays_in col k beams.
Proof.
  intros Hv Hg Hh Hb'.
  assert (Hb : forall b, In b beams -> good_beam phi_sym b /\ forall y, In y (b_rays b) -> good_ray tmm phi_sym n_abs y).
  { intros b H. destruct (Hb' b H) as [H1 H2]. split; auto. intros y Hy. apply (H2 y Hy). }
  destruct (rt_fractions n phi_sym c sp g h s tmm n_abs beams G Hv Hg Hh Hb) as [_ [res [E [S1 [_ H]]]]].
  exists res. split; auto. intros col row Hbins k Hk HN. destruct (H col row Hbins k Hk HN) as [H1 _].
  (* which half a row lies in *)
  assert (Hrow : forall b y, In (b, y) (pairs beams) -> leaves y = true ->
    (row y < 2 * h)%nat /\ ((row y < h)%nat <-> (match s with Front => upwards y | Rear => downwards y end) = true) /\
    ((h <= row y)%nat <-> (match s with Front => downwards y | Rear => upwards y end) = true)).
  { intros b y Hp El. apply in_pairs in Hp. destruct Hp as [P1 P2].
    destruct (proj2 Hbins b y P1 P2 El) as [Hr Hc]. split; auto.
    pose proof (bin_half _ _ _ _ _ Hv Hg h _ _ _ Hh Hc) as HH.
    pose proof (proj2 (proj2 (Hb' b P1) y P2) El) as Hne.
    unfold upwards, downwards. rewrite El. cbn [andb].
    assert (HH2 : (h <= row y)%nat <-> ~ as_seen s (ro_theta (y_out y)) <= PI / 2) by (rewrite <- HH; lia).
    rewrite HH, HH2. destruct s; cbn [as_seen]; rewrite !Rltb_true; split; split; intros; lra. }
  (* sum over a range of rows *)
  assert (Hsum : forall a w, (a = 0 \/ a = h)%nat ->
     (forall b y, In (b, y) (pairs beams) -> (if leaves y && (Nat.leb a (row y) && Nat.ltb (row y) (a + h)) then 1 else 0) = w y) ->
     rsum (map (fun r => entry (o_mat res) r k) (seq a h)) = in_column col k w (pairs beams) / n_rays_in col k beams).
  { intros a w Ha Hw.
    replace (seq a h) with (map (fun i => (a + i)%nat) (seq 0 h)).
    2:{ clear. revert a. induction h as [|m IH]; intros a; auto. cbn [seq map]. f_equal; [lia|].
        rewrite <- (IH (S a)). rewrite <- seq_shift, map_map. apply map_ext. intros; lia. }
    rewrite map_map.
    rewrite (rsum_map_ext _ (fun i => / n_rays_in col k beams *
       in_column col k (fun y => if leaves y && Nat.eqb (row y) (a + i) then 1 else 0) (pairs beams))).
    2:{ intros i Hi. apply in_seq in Hi. rewrite H1 by lia. unfold Rdiv. ring. }
    rewrite rsum_map_scal.
    rewrite (in_column_sum col k (fun i y => if leaves y && Nat.eqb (row y) (a + i) then 1 else 0)).
    rewrite (in_column_ext col k _ w); [unfold Rdiv; ring|].
    intros b y Hp _. rewrite <- (Hw b y Hp). destruct (leaves y); cbn [andb]; [|apply rsum_map_0; auto].
    destruct (Nat.leb_spec a (row y)); cbn [andb].
    - destruct (Nat.ltb_spec (row y) (a + h)).
      + rewrite rsum_map_single with (i := (row y - a)%nat); [|lia|].
        * replace (a + (row y - a))%nat with (row y) by lia. rewrite Nat.eqb_refl. auto.
        * intros j _ Hj. destruct (Nat.eqb_spec (row y) (a + j)); auto. lia.
      + apply rsum_map_0. intros i Hi. apply in_seq in Hi. destruct (Nat.eqb_spec (row y) (a + i)); auto. lia.
    - apply rsum_map_0. intros i Hi. destruct (Nat.eqb_spec (row y) (a + i)); auto. lia. }
  assert (Hif : forall (p q : bool), (p = true <-> q = true) -> (if p then 1 else 0) = (if q then 1 else 0)).
  { intros [] [] Hpq; auto; destruct Hpq as [A B]; [discriminate (A eq_refl)|discriminate (B eq_refl)]. }
  destruct s; cbn [reflection_rows transmission_rows]; split; apply Hsum; auto; intros b y Hp; apply Hif;
    (destruct (leaves y) eqn:El; [|unfold upwards, downwards; rewrite El; cbn [andb]; tauto]);
    destruct (Hrow b y Hp El) as [R0 [R1 R2]]; rewrite <- ?R1, <- ?R2; cbn [andb];
    rewrite andb_true_iff, Nat.leb_le, Nat.ltb_lt; lia.
Qed.

Lemma first_row n phi_sym c sp g : valid_request n phi_sym c -> make_angle_vector n phi_sym c sp = Ok g ->
  exists r l, g_av g = r :: l /\ a_ring r = 0%nat.
Proof.
  intros Hv Hg. destruct (C01_rows _ _ _ _ _ Hv Hg) as [_ [R1 [R2 R3]]].
  pose proof (av_nonempty _ _ _ _ _ Hv Hg) as Hne.
  assert (H0 : (0 < length (g_av g))%nat) by (destruct (g_av g); [congruence|simpl; lia]).
  destruct (R1 0%nat H0) as [i [j Hij]].
  destruct (proj2 (C01_rings _ _ _ _ _ Hv Hg) 0%nat) as [_ [Inc [E0 [E1 _]]]]; [destruct Hv; lia|].
  assert (HL : (1 < length (phi_edges_of g 0))%nat).
  { destruct (Nat.lt_ge_cases 1 (length (phi_edges_of g 0))) as [|Hle]; auto. exfalso.
    replace (length (phi_edges_of g 0) - 1)%nat with 0%nat in E1 by lia. destruct Hv as [_ [_ Hs]]. lra. }
  destruct (R2 0%nat 0%nat) as [k [Hk _]]; [destruct Hv; lia | auto |].
  destruct Hij as [r [Hr [Hi Hx]]]. exists r, (tl (g_av g)).
  destruct (g_av g) as [|r' l] eqn:Eav; [discriminate|]. cbn [nth_error] in Hr. injection Hr as ->. split; auto.
  destruct (Nat.eq_dec k 0) as [->|Hk0].
  - destruct Hk as [r'' [E [H _]]]. rewrite Eav in E. cbn [nth_error] in E. injection E as ->. auto.
  - assert (Hrow : row_is g 0 i j). { exists r. rewrite Eav. cbn [nth_error]. auto. }
    destruct (R3 0%nat k i j 0%nat 0%nat Hrow Hk ltac:(lia)) as [H|[H H']]; [lia|lia].
Qed.

(* a vertical reflected ray with azimuth 0 is put in the last row *)
Lemma vertical_bin n phi_sym c sp g tmm : valid_request n phi_sym c -> make_angle_vector n phi_sym c sp = Ok g ->
  polar_bin tmm g 0 = (-1)%Z /\ full_bin tmm g 0 0 = Ok (-1)%Z.
Proof.
  intros Hv Hg.
  assert (P : polar_bin tmm g 0 = (-1)%Z).
  { unfold polar_bin. pose proof PI_RGT_0. rewrite theta_bin_ext by lra. unfold theta_bin. rewrite digitize_right_below; auto.
    destruct (C01_edges _ _ _ _ _ Hv Hg) as [L [Inc [E0 _]]].
    intros y Hy. apply In_nth with (d := 0) in Hy. destruct Hy as [k [Hk <-]].
    destruct k; [lra|]. pose proof (Inc 0%nat (S k) ltac:(lia)). lra. }
  split; auto. unfold full_bin. rewrite P. unfold overall_bin.
  destruct (first_row _ _ _ _ _ Hv Hg) as [r [l [Eav Er]]].
  assert (Ea : argmin Z.ltb (map (fun r => Z.abs (Z.of_nat (a_ring r) - -1)) (g_av g)) = Ok 0%nat).
  { rewrite Eav. cbn [map argmin]. rewrite argmin_go_min; auto. intros x Hx. apply in_map_iff in Hx.
    destruct Hx as [r' [<- _]]. rewrite Er. apply Z.ltb_ge. lia. }
  assert (Ep : exists e, py_index (phi_intv_of tmm g) (-1) = Ok e /\ forall y, In y e -> 0 <= y).
  { unfold py_index. replace (-1 <? 0)%Z with true by reflexivity.
    assert (LN : length (phi_intv_of tmm g) <> 0%nat).
    { unfold phi_intv_of. destruct tmm; [rewrite app_length; simpl; lia|].
      rewrite (proj1 (C01_rings _ _ _ _ _ Hv Hg)). destruct Hv. lia. }
    replace (-1 + Z.of_nat (length (phi_intv_of tmm g)) <? 0)%Z with false by (symmetry; apply Z.ltb_ge; lia).
    replace (Z.to_nat (-1 + Z.of_nat (length (phi_intv_of tmm g)))) with (length (phi_intv_of tmm g) - 1)%nat by lia.
    rewrite (nth_error_nth' _ []) by lia. eexists. split; [reflexivity|].
    unfold phi_intv_of. destruct tmm.
    - rewrite app_length. cbn [length]. rewrite app_nth2 by lia.
      replace (length (g_phi_intv g) + 1 - 1 - length (g_phi_intv g))%nat with 0%nat by lia.
      cbn [nth]. intros y [<-|[]]. lra.
    - destruct (C01_rings _ _ _ _ _ Hv Hg) as [L HR]. rewrite L. assert (1 <= n)%nat by (destruct Hv; auto).
      destruct (HR (2 * n - 1)%nat) as [_ [Inc [E0 _]]]; [lia|]. unfold phi_edges_of in *.
      intros y Hy. apply In_nth with (d := 0) in Hy. destruct Hy as [k [Hk <-]].
      destruct k; [lra|]. pose proof (Inc 0%nat (S k) ltac:(lia)). lra. }
  destruct Ep as [e [-> He]]. cbn [rbind]. rewrite Ea. cbn [rbind]. rewrite digitize_right_below by auto. auto.
Qed.

Definition one_ray (b_th b_ph th ph : R) : list beam :=
  [{| b_theta := b_th; b_phi := b_ph;
      b_rays := [{| y_out := {| ro_theta := th; ro_A := None; ro_loc := 10; ro_dir := mkv 0 0 1; ro_checks := 1 |};
                    y_phi := ph |}] |}].

Lemma vertical_refuted n phi_sym c sp g h tmm n_abs b_th b_ph G :
  valid_request n phi_sym c -> make_angle_vector n phi_sym c sp = Ok g -> length (g_av g) = (2 * h)%nat ->
  0 < b_th < PI / 2 -> fold_phi b_ph phi_sym <> 0 ->
  exists res k, RT_wl Front tmm phi_sym g n_abs (one_ray b_th b_ph 0 0) G = Ok res /\ (k < h)%nat /\
    rsum (map (fun r => entry (o_mat res) r k) (reflection_rows Front h)) = 0 /\
    entry (o_mat res) (2 * h - 1) k = 1.
Proof.
  intros Hv Hg Hh Hth Hph.
  assert (Hb : forall b, In b (one_ray b_th b_ph 1 (PI / 4)) -> good_beam phi_sym b /\ forall y, In y [] -> good_ray tmm phi_sym n_abs y).
  { intros b [<-|[]]. split; [split; auto|]. intros y []. }
  assert (Hbeam : good_beam phi_sym (hd (Build_beam 0 0 []) (one_ray b_th b_ph 0 0))) by (split; auto).
  assert (Hhalf : (length (g_av g) / 2)%nat = h) by (apply half_len; auto).
  assert (Hs : 0 < phi_sym) by (destruct Hv; tauto).
  destruct (C03_unique _ _ _ _ _ Hv Hg b_th (fold_phi b_ph phi_sym)) as [k [E [Hk [Hc _]]]].
  { lra. } { apply (folded n phi_sym c); auto. }
  assert (Hkh : (k < h)%nat). { apply (bin_half _ _ _ _ _ Hv Hg h _ _ _ Hh Hc). lra. }
  assert (F0 : fold_phi 0 phi_sym = 0).
  { unfold fold_phi, pyfloordiv, pymod.
    replace (0 / PI) with 0 by (unfold Rdiv; ring). replace (Zfloor 0) with 0%Z by (symmetry; apply (Zfloor_unique 0 0); simpl; lra).
    rewrite Rabs_R0. replace (0 * 2 * PI + 0) with 0 by ring.
    replace (0 / phi_sym) with 0 by (unfold Rdiv; ring). replace (Zfloor 0) with 0%Z by (symmetry; apply (Zfloor_unique 0 0); simpl; lra). ring. }
  destruct (vertical_bin n phi_sym c sp g tmm Hv Hg) as [P1 P2].
  unfold RT_wl, one_ray. cbn [map rconcat]. unfold bin_beam. cbn [b_theta b_phi b_rays seen_in].
  rewrite (full_bin_ext _ _ _ _ _ Hv Hg tmm b_th _ _ ltac:(lra) E). cbn [rbind rmap].
  unfold bin_ray, layer_A, theta_out, phi_out, seen_out. cbn [y_out y_phi ro_theta ro_A ro_loc rbind].
  replace (Rltb 0 0) with false by (symmetry; apply Rltb_false; lra).
  rewrite F0, P1, P2. cbn [rbind app count_all]. unfold count_ray. cbn [v_in v_out v_ring v_A v_loc].
  assert (LI : length (g_theta_intv g) = (2 * n + 1)%nat) by apply (C01_edges _ _ _ _ _ Hv Hg).
  unfold count_start. cbn [k_n k_out k_A k_abs k_loc]. rewrite Hhalf, repeat_length.
  unfold Model_RT.offset. rewrite py_pos_ok by lia. cbn [rbind].
  replace (-1 <=? Z.of_nat (length (g_theta_intv g) - 1) - 1)%Z with true by (symmetry; apply Z.leb_le; lia).
  unfold zeros at 1. rewrite repeat_length, Hh. unfold py_pos. replace (-1 <? 0)%Z with true by reflexivity.
  replace (-1 + Z.of_nat (2 * h) <? 0)%Z with false by (symmetry; apply Z.ltb_ge; lia).
  replace (Z.of_nat (2 * h) <=? -1 + Z.of_nat (2 * h))%Z with false by (symmetry; apply Z.leb_gt; lia).
  cbn [rbind]. eexists. exists k. split; [reflexivity|]. split; auto.
  replace (Z.to_nat (Z.of_nat k - Z.of_nat 0)) with k by lia.
  replace (Z.to_nat (-1 + Z.of_nat (2 * h))) with (2 * h - 1)%nat by lia.
  set (K := {| k_out := _ |}).
  assert (SK : shape_ok h (2 * h) n_abs ((length (theta_intv_of tmm g) - 1) / 2) K).
  { unfold K, shape_ok. cbn [k_out k_A k_n k_abs k_loc]. rewrite add_at_len, !repeat_length.
    split; [apply mat_add_shape, zeros_shape|]. split; [apply zeros_shape|]. split; auto. split; auto. apply zeros_shape. }
  assert (EN : nth k (k_n K) 0 = 1).
  { unfold K. cbn [k_n]. rewrite add_at_nth by (rewrite repeat_length; auto). rewrite Nat.eqb_refl, (nth_repeat_any _ _ h) by auto. lra. }
  assert (EO : forall r, (r < 2 * h)%nat -> entry (o_mat (normalise_counts K G)) r k = if Nat.eqb (2 * h - 1) r then 1 else 0).
  { intros r Hr. rewrite (norm_out K G h (2 * h) n_abs _ SK) by auto. rewrite EN. unfold fdiv_where.
    replace (Reqb 1 0) with false by (symmetry; apply Reqb_false; lra). unfold K. cbn [k_out unnan].
    rewrite (mat_add_entry _ (2 * h) h) by (try apply zeros_shape; lia). rewrite zeros_entry, Nat.eqb_refl, andb_true_r.
    destruct (Nat.eqb (2 * h - 1) r); field. }
  split.
  - cbn [reflection_rows]. apply rsum_map_0. intros r Hr. apply in_seq in Hr. rewrite EO by lia.
    destruct (Nat.eqb_spec (2 * h - 1) r); auto. lia.
  - rewrite EO by lia. rewrite Nat.eqb_refl. auto.
Qed.

(* ---------- layers ---------- *)

Lemma rt_layers n phi_sym c sp g h s tmm n_abs beams G (p : nat -> nat -> R) :
  valid_request n phi_sym c -> make_angle_vector n phi_sym c sp = Ok g -> length (g_av g) = (2 * h)%nat ->
  (forall b, In b beams -> good_beam phi_sym b /\ forall y, In y (b_rays b) -> good_ray tmm phi_sym n_abs y) ->
  exists res, RT_wl s tmm phi_sym g n_abs beams G = Ok res /\
    forall col row, bins_of_rays s phi_sym g h beams col row ->
    forall k, (k < h)%nat -> 0 < n_rays_in col k beams ->
    (forall b y l, In b beams -> In y (b_rays b) -> leaves y = false -> col b = k ->
       nth l (absorption y) 0 / rsum (absorption y) = p k l) ->
    forall l, (l < n_abs)%nat -> entry (o_Amat res) l k =
      in_column col k (fun y => nth l (absorption y) 0 / rsum (absorption y)) (pairs beams) / n_rays_in col k beams.
Proof.
  intros Hv Hg Hh Hb.
  destruct (rt_main n phi_sym c sp g h s tmm n_abs beams G Hv Hg Hh Hb) as [res [E [S1 [S2 [_ [_ H]]]]]].
  exists res. split; auto. intros col row Hbins k Hk HN Hp l Hl. destruct (H col row Hbins k Hk) as [_ [H2 _]].
  rewrite H2 by (auto; lra).
  rewrite (in_column_ext col k (fun y => nth l (absorption y) 0) (fun y => p k l * rsum (absorption y))).
  2:{ intros b y Hy Hcol. pose proof (absorption_pos phi_sym tmm n_abs beams Hb b y Hy) as [_ [Q1 Q2]].
      apply in_pairs in Hy. destruct (leaves y) eqn:El.
      - rewrite (Q2 eq_refl). unfold leaves in El. unfold absorption. destruct (ro_A (y_out y)); [discriminate|]. destruct l; cbn [nth]; lra.
      - rewrite <- (Hp b y l (proj1 Hy) (proj2 Hy) El Hcol). specialize (Q1 eq_refl). field. lra. }
  rewrite in_column_scal.
  rewrite (in_column_ext col k (fun y => nth l (absorption y) 0 / rsum (absorption y)) (fun y => p k l * if leaves y then 0 else 1)).
  2:{ intros b y Hy Hcol. apply in_pairs in Hy. destruct (leaves y) eqn:El.
      - unfold leaves in El. unfold absorption. destruct (ro_A (y_out y)); [discriminate|]. cbn [rsum]. unfold Rdiv. rewrite Rinv_0. lra.
      - rewrite (Hp b y l (proj1 Hy) (proj2 Hy) El Hcol). lra. }
  rewrite in_column_scal. fold (n_absorbed_in col k beams).
  destruct (Req_dec (in_column col k (fun y => rsum (absorption y)) (pairs beams)) 0) as [Z|NZ]; [|field; split; lra].
  replace (n_absorbed_in col k beams) with 0; [unfold Rdiv; ring|].
  symmetry. unfold n_absorbed_in. rewrite (in_column_ext col k _ (fun _ => 0 * 1)); [rewrite in_column_scal; lra|].
  intros b y Hy Hcol. pose proof (absorption_pos phi_sym tmm n_abs beams Hb b y Hy) as [_ [Hq _]].
  assert (rsum (absorption y) = 0).
  { apply (in_column_zero col k (fun y => rsum (absorption y)) (pairs beams)) with (b := b); auto.
    intros b0 y0 H0. apply (absorption_pos phi_sym tmm n_abs beams Hb b0 y0 H0). }
  destruct (leaves y); [lra|]. specialize (Hq eq_refl). lra.
Qed.

Definition absorbed_ray (A : list R) (loc : R) : ray :=
  {| y_out := {| ro_theta := 10; ro_A := Some A; ro_loc := loc; ro_dir := mkv 0 0 (-1); ro_checks := 1 |}; y_phi := 1 |}.

Definition two_absorbed (th ph : R) : list beam :=
  [{| b_theta := th; b_phi := ph; b_rays := [absorbed_ray [4/10; 1/10] 1; absorbed_ray [0; 5/100] (3/2)] |}].

Lemma layers_refuted n phi_sym c sp g h s th ph G :
  valid_request n phi_sym c -> make_angle_vector n phi_sym c sp = Ok g -> length (g_av g) = (2 * h)%nat ->
  0 < th < PI / 2 -> fold_phi ph phi_sym <> 0 ->
  exists res col row k, RT_wl s true phi_sym g 2 (two_absorbed th ph) G = Ok res /\
    bins_of_rays s phi_sym g h (two_absorbed th ph) col row /\ (k < h)%nat /\
    entry (o_Amat res) 0 k = 8 / 11 /\
    in_column col k (fun y => nth 0 (absorption y) 0 / rsum (absorption y)) (pairs (two_absorbed th ph)) /
      n_rays_in col k (two_absorbed th ph) = 4 / 10.
Proof.
  intros Hv Hg Hh Hth Hph. pose proof PI2_3_2.
  assert (Hb : forall b, In b (two_absorbed th ph) -> good_beam phi_sym b /\ forall y, In y (b_rays b) -> good_ray true phi_sym 2 y).
  { intros b [<-|[]]. split; [split; auto|]. intros y [<-|[<-|[]]]; unfold good_ray, absorbed_ray;
      cbn [y_out ro_A ro_theta ro_loc length rsum]; (split; [auto|]; split; [auto|]; split; [auto|]; split; [lra|]);
      rewrite Rabs_pos_eq; lra. }
  destruct (bins_exist n _ c sp _ h s true 2%nat _ Hv Hg Hh Hb) as [col [row Hbins]].
  destruct (rt_main n phi_sym c sp g h s true 2%nat (two_absorbed th ph) G Hv Hg Hh Hb) as [res [E [S1 [S2 [_ [_ H0]]]]]].
  set (b0 := hd (Build_beam 0 0 []) (two_absorbed th ph)).
  assert (Hk : (col b0 < h)%nat) by (apply (proj1 Hbins b0); left; auto).
  exists res, col, row, (col b0). split; auto. split; auto. split; auto.
  destruct (H0 col row Hbins (col b0) Hk) as [_ [H2 _]].
  assert (C : forall W, in_column col (col b0) W (pairs (two_absorbed th ph)) = W (absorbed_ray [4/10; 1/10] 1) + W (absorbed_ray [0; 5/100] (3/2))).
  { intros W. unfold in_column, pairs, two_absorbed. cbn [flat_map b_rays map app fst snd rsum].
    change {| b_theta := th; b_phi := ph; b_rays := [absorbed_ray [4/10; 1/10] 1; absorbed_ray [0; 5/100] (3/2)] |} with b0.
    rewrite Nat.eqb_refl. lra. }
  assert (EN : n_rays_in col (col b0) (two_absorbed th ph) = 2) by (unfold n_rays_in; rewrite C; lra).
  split.
  - rewrite H2 by (try lia; lra). unfold n_absorbed_in. rewrite EN, !C. cbn [leaves absorption absorbed_ray y_out ro_A rsum nth]. field.
  - rewrite EN, C. cbn [leaves absorption absorbed_ray y_out ro_A rsum nth]. field.
Qed.

(* ---------- local angles ---------- *)

Lemma loc_row_spec n phi_sym c sp g tmm y : valid_request n phi_sym c -> make_angle_vector n phi_sym c sp = Ok g ->
  Rabs (ro_loc (y_out y)) <= PI / 2 -> (loc_row n g tmm y < n)%nat /\
  (ro_loc (y_out y) <> 0 -> in_bin (g_theta_intv g) (loc_row n g tmm y) (Rabs (ro_loc (y_out y)))) /\
  (ro_loc (y_out y) = 0 -> loc_row n g tmm y = (n - 1)%nat).
Proof.
  intros Hv Hg Hl. destruct (local_bin _ _ _ _ _ Hv Hg tmm _ Hl) as [l [E H]]. unfold loc_row. rewrite E. auto.
Qed.

Lemma in_bin_unique n phi_sym c sp g i j x : valid_request n phi_sym c -> make_angle_vector n phi_sym c sp = Ok g ->
  in_bin (g_theta_intv g) i x -> in_bin (g_theta_intv g) j x -> i = j.
Proof.
  intros Hv Hg [H1 H2] [H3 H4]. destruct (C01_edges _ _ _ _ _ Hv Hg) as [_ [Inc _]].
  assert (A : forall a b, (S b < length (g_theta_intv g))%nat -> (a < b)%nat -> nth (S a) (g_theta_intv g) 0 <= nth b (g_theta_intv g) 0).
  { intros a b Hb Hab. destruct (Nat.eq_dec (S a) b) as [->|]; [lra|]. pose proof (Inc (S a) b ltac:(lia)). lra. }
  destruct (Nat.lt_trichotomy i j) as [L|[L|L]]; auto.
  - specialize (A i j H3 L). lra.
  - specialize (A j i H1 L). lra.
Qed.

Lemma rt_local n phi_sym c sp g h s tmm n_abs beams G :
  valid_request n phi_sym c -> make_angle_vector n phi_sym c sp = Ok g -> length (g_av g) = (2 * h)%nat ->
  (forall b, In b beams -> good_beam phi_sym b /\ forall y, In y (b_rays b) -> good_ray tmm phi_sym n_abs y) ->
  exists res, RT_wl s tmm phi_sym g n_abs beams G = Ok res /\ has_shape (o_local res) n h /\
    forall col row, bins_of_rays s phi_sym g h beams col row ->
    forall k, (k < h)%nat ->
      (n_absorbed_in col k beams <> 0 -> col_total (o_local res) k = 1) /\
      (n_absorbed_in col k beams = 0 -> forall l, (l < n)%nat -> entry (o_local res) l k = 0) /\
      nth k (o_intgr res) 0 = in_column col k (fun y => rsum (absorption y)) (pairs beams) / n_absorbed_in col k beams /\
      forall lrow, local_rings g beams lrow -> forall l, (l < n)%nat ->
        entry (o_local res) l k =
        in_column col k (fun y => if negb (leaves y) && Nat.eqb (lrow y) l then 1 else 0) (pairs beams) / n_absorbed_in col k beams.
Proof.
  intros Hv Hg Hh Hb.
  destruct (rt_main n phi_sym c sp g h s tmm n_abs beams G Hv Hg Hh Hb) as [res [E [S1 [S2 [_ [S3 H]]]]]].
  exists res. split; auto. split; auto. intros col row Hbins k Hk. destruct (H col row Hbins k Hk) as [_ [_ [_ [H4 H5]]]].
  assert (HL : forall b y, In (b, y) (pairs beams) -> leaves y = false -> Rabs (ro_loc (y_out y)) <= PI / 2).
  { intros b y Hy El. apply (good_in phi_sym tmm n_abs beams Hb) in Hy. unfold good_ray in Hy. unfold leaves in El.
    destruct (ro_A (y_out y)); [tauto|discriminate]. }
  split; [|split; [|split]].
  - intros HN. rewrite (col_total_sum _ _ _ _ S3).
    rewrite (rsum_map_ext _ (fun l => / n_absorbed_in col k beams *
      in_column col k (fun y => if negb (leaves y) && Nat.eqb (loc_row n g tmm y) l then 1 else 0) (pairs beams))).
    2:{ intros l Hl. apply in_seq in Hl. rewrite H5 by lia. unfold Rdiv. ring. }
    rewrite rsum_map_scal, in_column_sum.
    rewrite (in_column_ext col k _ (fun y => if leaves y then 0 else 1)).
    + fold (n_absorbed_in col k beams). field. auto.
    + intros b y Hy _. destruct (leaves y) eqn:El; cbn [negb andb].
      * apply rsum_map_0. auto.
      * destruct (loc_row_spec n phi_sym c sp g tmm y Hv Hg (HL b y Hy El)) as [L _].
        rewrite rsum_map_single with (i := loc_row n g tmm y); auto.
        -- rewrite Nat.eqb_refl. auto.
        -- intros j _ Hj. destruct (Nat.eqb_spec (loc_row n g tmm y) j); auto. congruence.
  - intros HN l Hl. rewrite H5 by auto. rewrite HN. unfold Rdiv. rewrite Rinv_0. lra.
  - exact H4.
  - intros lrow Hlr l Hl. rewrite H5 by auto. f_equal. apply in_column_ext. intros b y Hy _.
    destruct (leaves y) eqn:El; auto. cbn [negb andb]. pose proof Hy as Hy'. apply in_pairs in Hy'.
    specialize (Hlr b y (proj1 Hy') (proj2 Hy') El).
    destruct (loc_row_spec n phi_sym c sp g tmm y Hv Hg (HL b y Hy El)) as [_ [L _]].
    replace (lrow y) with (loc_row n g tmm y); auto.
    apply (in_bin_unique n phi_sym c sp g _ _ (Rabs (ro_loc (y_out y))) Hv Hg); [apply L| exact Hlr].
    intros Z. rewrite Z, Rabs_R0 in Hlr. destruct Hlr as [Q1 [Q2 _]].
    destruct (C01_edges _ _ _ _ _ Hv Hg) as [_ [Inc [E0 _]]]. destruct (lrow y); [lra|].
    pose proof (Inc 0%nat (S n0) ltac:(lia)). lra.
Qed.

Lemma local_zero_refuted n phi_sym c sp g h s th ph G :
  valid_request n phi_sym c -> make_angle_vector n phi_sym c sp = Ok g -> length (g_av g) = (2 * h)%nat -> (2 <= n)%nat ->
  0 < th < PI / 2 -> fold_phi ph phi_sym <> 0 ->
  exists res k, RT_wl s true phi_sym g 1 [{| b_theta := th; b_phi := ph; b_rays := [absorbed_ray [1/2] 0] |}] G = Ok res /\ (k < h)%nat /\
    entry (o_local res) (n - 1) k = 1 /\ entry (o_local res) 0 k = 0 /\ 0 < nth (n - 1) (g_theta_intv g) 0.
Proof.
  intros Hv Hg Hh Hn Hth Hph. set (b0 := {| b_theta := th; b_phi := ph; b_rays := _ |}). pose proof PI_RGT_0.
  assert (Hb : forall b, In b [b0] -> good_beam phi_sym b /\ forall y, In y (b_rays b) -> good_ray true phi_sym 1 y).
  { intros b [<-|[]]. split; [split; auto|]. intros y [<-|[]]. unfold good_ray, absorbed_ray.
      cbn [y_out ro_A ro_theta ro_loc length rsum]. (split; [auto|]; split; [auto|]; split; [auto|]; split; [lra|]).
      rewrite Rabs_R0. lra. }
  destruct (bins_exist n _ c sp _ h s true 1%nat _ Hv Hg Hh Hb) as [col [row Hbins]].
  destruct (rt_main n phi_sym c sp g h s true 1%nat [b0] G Hv Hg Hh Hb) as [res [E [S1 [S2 [_ [_ H0]]]]]].
  assert (Hk : (col b0 < h)%nat) by (apply (proj1 Hbins b0); left; auto).
  exists res, (col b0). split; auto. split; auto.
  destruct (H0 col row Hbins (col b0) Hk) as [_ [_ [_ [_ H5]]]].
  assert (C : forall W, in_column col (col b0) W (pairs [b0]) = W (absorbed_ray [1/2] 0)).
  { intros W. unfold in_column, pairs. cbn [flat_map]. change (b_rays b0) with [absorbed_ray [1/2] 0]. cbn [map app fst snd rsum].
    rewrite Nat.eqb_refl. lra. }
  assert (L : loc_row n g true (absorbed_ray [1/2] 0) = (n - 1)%nat).
  { apply (loc_row_spec n phi_sym c sp g true (absorbed_ray [1/2] 0) Hv Hg); [|reflexivity].
    cbn [absorbed_ray y_out ro_loc]. rewrite Rabs_R0. lra. }
  unfold n_absorbed_in in H5.
  split; [|split].
  - rewrite H5 by lia. rewrite !C. rewrite L. cbn [leaves absorbed_ray y_out ro_A negb andb]. rewrite Nat.eqb_refl. field.
  - rewrite H5 by lia. rewrite !C. rewrite L. cbn [leaves absorbed_ray y_out ro_A negb andb].
    destruct (Nat.eqb_spec (n - 1) 0); [lia|]. field.
  - destruct (C01_edges _ _ _ _ _ Hv Hg) as [LL [Inc [E0 _]]]. pose proof (Inc 0%nat (n - 1)%nat ltac:(lia)). lra.
Qed.

(* ---------- regular ray directions ---------- *)

Section Regular.
  Variables (n m : nat) (phi_sym c : R) (sp : spacing) (g : grid) (h : nat).
  Hypothesis Hv : valid_request n phi_sym c.
  Hypothesis Hm : m_fold m phi_sym.
  Hypothesis Hg : make_angle_vector n phi_sym c sp = Ok g.
  Hypothesis Hh : length (g_av g) = (2 * h)%nat.

  Lemma phi_edges_mirror i : (i < 2 * n)%nat -> phi_edges_of g (2 * n - 1 - i) = phi_edges_of g i.
  Proof.
    intros Hi. destruct Hv as [Hn [Hc Hs]]. rewrite (Hgeq n phi_sym c sp g Hg). unfold phi_edges_of.
    rewrite (phi_intv_nth sp n phi_sym c Hn Hc (2 * n - 1 - i)) by lia.
    rewrite (phi_intv_nth sp n phi_sym c Hn Hc i) by lia. rewrite ring_count_sym by auto. auto.
  Qed.

  Lemma h_pos : (1 <= h)%nat.
  Proof. pose proof (av_nonempty _ _ _ _ _ Hv Hg). destruct (g_av g); [congruence|simpl in *; lia]. Qed.

  Lemma row_direction k r i j : nth_error (g_av g) k = Some r -> (k < h)%nat -> row_is g k i j ->
    0 < a_theta r < PI / 2 /\ 0 < a_phi r < phi_sym /\ fold_phi (a_phi r) phi_sym = a_phi r.
  Proof.
    intros Hr Hk Hij. destruct (C01_rows _ _ _ _ _ Hv Hg) as [[h' [L Hrow]] _]. assert (h' = h) by lia. subst h'.
    assert (P : 0 < a_phi r < phi_sym).
    { destruct Hij as [r' [E [Ei [[I1 I2] [J1 J2]]]]]. rewrite Hr in E. injection E as <-.
      assert (Hi : (i < 2 * n)%nat). { rewrite (proj1 (C01_edges _ _ _ _ _ Hv Hg)) in I1. lia. }
      destruct (proj2 (C01_rings _ _ _ _ _ Hv Hg) i Hi) as [_ [Inc [E0 [E1 _]]]].
      assert (0 <= nth j (phi_edges_of g i) 0). { destruct j; [lra|]. pose proof (Inc 0%nat (S j) ltac:(lia)). lra. }
      assert (nth (S j) (phi_edges_of g i) 0 <= phi_sym).
      { rewrite <- E1. destruct (Nat.eq_dec (S j) (length (phi_edges_of g i) - 1)) as [->|]; [lra|].
        pose proof (Inc (S j) (length (phi_edges_of g i) - 1)%nat ltac:(lia)). lra. }
      lra. }
    split; [apply (Hrow k r Hr); auto|]. split; auto.
    apply (C02_all m phi_sym (a_phi r) Hm). lra.
  Qed.

  Lemma regular_in n_angles d : In d (regular_directions g n_angles) ->
    exists k r, (k < h)%nat /\ nth_error (g_av g) k = Some r /\ d = (a_theta r, a_phi r).
  Proof.
    intros H. unfold regular_directions, tile in H.
    assert (H' : In d (concat (repeat (map (fun r => (a_theta r, a_phi r)) (firstn (length (g_av g) / 2) (g_av g)))
      (Z.to_nat (Zceil (INR n_angles / INR (length (firstn (length (g_av g) / 2) (g_av g))))))))).
    { rewrite <- (firstn_skipn n_angles). apply in_or_app. left. exact H. }
    apply in_concat in H'. destruct H' as [x [Hx Hd]]. apply repeat_spec in Hx. subst x.
    apply in_map_iff in Hd. destruct Hd as [r [<- Hr]]. rewrite (half_len g h Hh) in Hr.
    apply In_nth_error in Hr. destruct Hr as [k Hk].
    assert (Hkh : (k < h)%nat).
    { assert (k < length (firstn h (g_av g)))%nat by (apply nth_error_Some; congruence). rewrite firstn_length in H0. lia. }
    exists k, r. split; auto. split; auto. rewrite <- Hk.
    rewrite <- (firstn_skipn h (g_av g)) at 1. apply nth_error_app1. rewrite firstn_length. lia.
  Qed.

  Lemma regular_all n_angles k r : (h <= n_angles)%nat -> (k < h)%nat -> nth_error (g_av g) k = Some r ->
    In (a_theta r, a_phi r) (regular_directions g n_angles).
  Proof.
    intros Hn Hk Hr. unfold regular_directions, tile. rewrite (half_len g h Hh).
    assert (Hl : length (firstn h (g_av g)) = h) by (rewrite firstn_length; lia). rewrite Hl.
    pose proof h_pos.
    assert (HR : exists q, Z.to_nat (Zceil (INR n_angles / INR h)) = S q).
    { assert (1 <= INR n_angles / INR h).
      { apply Rmult_le_reg_r with (INR h); [apply lt_0_INR; lia|]. unfold Rdiv. rewrite Rmult_assoc, Rinv_l, Rmult_1_l, Rmult_1_r.
        - apply le_INR. auto.
        - apply not_0_INR. lia. }
      pose proof (Zceil_bounds (INR n_angles / INR h)) as HB.
      assert (1 <= Zceil (INR n_angles / INR h))%Z. { apply le_IZR. lra. }
      exists (Z.to_nat (Zceil (INR n_angles / INR h)) - 1)%nat. lia. }
    destruct HR as [q ->]. cbn [repeat concat].
    rewrite firstn_app, map_length, Hl. apply in_or_app. left.
    rewrite firstn_all2 by (rewrite map_length; lia).
    apply (in_map (fun r => (a_theta r, a_phi r))). apply nth_error_In with k.
    rewrite <- Hr. rewrite <- (firstn_skipn h (g_av g)) at 2. symmetry. apply nth_error_app1. lia.
  Qed.

  Lemma regular_covers s n_angles beams col row : (h <= n_angles)%nat ->
    map (fun b => (b_theta b, b_phi b)) beams = regular_directions g n_angles ->
    (forall b, In b beams -> b_rays b <> []) ->
    bins_of_rays s phi_sym g h beams col row -> forall k, (k < h)%nat -> 0 < n_rays_in col k beams.
  Proof.
    intros Hn Hd Hne [Hcol _] k Hk.
    destruct (C01_rows _ _ _ _ _ Hv Hg) as [[h' [L Hrow]] [R1 [R2 R3]]]. assert (h' = h) by lia. subst h'.
    assert (Hex : exists b, In b beams /\ col b = k).
    { (* the row whose mirror image, seen from this side, is column k *)
      assert (HR : exists k' r, (k' < h)%nat /\ nth_error (g_av g) k' = Some r /\
        bin_contains g (match s with Front => k | Rear => (h + k)%nat end) (as_seen s (a_theta r)) (a_phi r) /\
        0 < as_seen s (a_theta r) <= PI /\ 0 < a_phi r <= phi_sym /\ fold_phi (a_phi r) phi_sym = a_phi r).
      { destruct s.
        - destruct (R1 k ltac:(lia)) as [i [j Hij]]. pose proof Hij as [r [Hr [Hi [T P]]]].
          exists k, r. split; auto. split; auto.
          destruct (row_direction k r i j Hr Hk Hij) as [D1 [D2 D3]]. cbn [as_seen].
          split; [|split; [lra|split; [lra|auto]]].
          exists i, j. split; auto. unfold in_bin, strictly_in_bin in *. split; split; try tauto; lra.
        - destruct (R1 (h + k)%nat ltac:(lia)) as [i [j Hij]]. pose proof Hij as [r0 [Hr0 [Hi0 [[T1 T2] [P1 P2]]]]].
          destruct (C01_edges _ _ _ _ _ Hv Hg) as [LE [Inc [_ [_ [_ [Sym _]]]]]].
          assert (Hi : (i < 2 * n)%nat) by lia.
          assert (Hin : (n <= i)%nat).
          { destruct (Nat.lt_ge_cases i n) as [Hlt|]; auto. rewrite <- Hi0 in Hlt. apply (Hrow _ _ Hr0) in Hlt. lia. }
          destruct (R2 (2 * n - 1 - i)%nat j) as [k' [Hk' _]]; [lia | rewrite phi_edges_mirror by auto; auto |].
          pose proof Hk' as [r [Hr [Hi' [[T3 T4] [P3 P4]]]]].
          assert (Hk'h : (k' < h)%nat) by (apply (Hrow _ _ Hr); lia).
          exists k', r. split; auto. split; auto.
          destruct (row_direction k' r _ _ Hr Hk'h Hk') as [D1 [D2 D3]]. cbn [as_seen].
          split; [|split; [lra|split; [lra|auto]]].
          exists i, j. split; auto. rewrite phi_edges_mirror in P3, P4 by auto.
          pose proof (Sym (S i) ltac:(lia)) as Y1. pose proof (Sym i ltac:(lia)) as Y2.
          replace (2 * n - S i)%nat with (2 * n - 1 - i)%nat in Y1 by lia.
          replace (S (2 * n - 1 - i)) with (2 * n - i)%nat in T4 by lia.
          split; split; try lia; try lra. }
      destruct HR as [k' [r [Hk' [Hr [Hc [A1 [A2 A3]]]]]]].
      pose proof (regular_all n_angles k' r Hn Hk' Hr) as Hin. rewrite <- Hd in Hin. apply in_map_iff in Hin.
      destruct Hin as [b [Eb Hb]]. injection Eb as E1 E2. exists b. split; auto.
      destruct (Hcol b Hb) as [C1 C2]. rewrite E1, E2, A3 in C2.
      destruct (C03_unique _ _ _ _ _ Hv Hg _ _ A1 A2) as [kk [_ [_ [_ Hu]]]].
      pose proof (Hu _ Hc). pose proof (Hu _ C2). destruct s; lia. }
    destruct Hex as [b [Hb Hk']].
    assert (Hy : exists y, In y (b_rays b)). { specialize (Hne b Hb). destruct (b_rays b) as [|y l]; [congruence|]. exists y. left. auto. }
    destruct Hy as [y Hy].
    assert (Hp : In (b, y) (pairs beams)) by (apply in_pairs; auto).
    assert (H0 : 0 <= n_rays_in col k beams) by (apply in_column_nonneg; intros; lra).
    destruct (Req_dec (n_rays_in col k beams) 0) as [Z|]; [|lra].
    exfalso. assert (1 = 0); [|lra].
    apply (in_column_zero col k (fun _ => 1) (pairs beams)) with (b := b) (y := y); auto. intros; lra.
  Qed.
End Regular.

Lemma n_angles_enough n_rays nx ny h : (1 <= nx * ny)%nat -> (h * (nx * ny) <= n_rays)%nat -> (h <= n_angles_of n_rays nx ny)%nat.
Proof.
  intros H1 H2. unfold n_angles_of. set (p := (nx * ny)%nat) in *.
  pose proof (Zceil_bounds (INR n_rays / INR p)) as HB.
  assert (INR h <= INR n_rays / INR p).
  { apply Rmult_le_reg_r with (INR p); [apply lt_0_INR; lia|]. unfold Rdiv. rewrite Rmult_assoc, Rinv_l, Rmult_1_r.
    - rewrite <- mult_INR. apply le_INR. auto.
    - apply not_0_INR. lia. }
  assert (Z.of_nat h <= Zceil (INR n_rays / INR p))%Z. { apply le_IZR. rewrite <- INR_IZR_INZ. lra. }
  lia.
Qed.

Lemma rt_regular n m phi_sym c sp g h s tmm n_abs n_rays nx ny beams G :
  valid_request n phi_sym c -> m_fold m phi_sym -> make_angle_vector n phi_sym c sp = Ok g -> length (g_av g) = (2 * h)%nat ->
  (1 <= nx * ny)%nat -> (h * (nx * ny) <= n_rays)%nat ->
  map (fun b => (b_theta b, b_phi b)) beams = regular_directions g (n_angles_of n_rays nx ny) ->
  (forall b, In b beams -> length (b_rays b) = (nx * ny)%nat /\ forall y, In y (b_rays b) -> good_ray tmm phi_sym n_abs y) ->
  exists res, RT_wl s tmm phi_sym g n_abs beams G = Ok res /\
    forall k, (k < h)%nat -> col_total (o_mat res) k + col_total (o_Amat res) k = 1.
Proof.
  intros Hv Hm Hg Hh Hp Hn Hd Hr.
  assert (Hb : forall b, In b beams -> good_beam phi_sym b /\ forall y, In y (b_rays b) -> good_ray tmm phi_sym n_abs y).
  { intros b Hin. split; [|apply (Hr b Hin)].
    assert (In (b_theta b, b_phi b) (regular_directions g (n_angles_of n_rays nx ny))).
    { rewrite <- Hd. apply (in_map (fun b => (b_theta b, b_phi b))). auto. }
    destruct (regular_in g h Hh _ _ H) as [k [r [Hk [Er E]]]]. injection E as E1 E2.
    destruct (C01_rows _ _ _ _ _ Hv Hg) as [_ [R1 _]]. destruct (R1 k ltac:(lia)) as [i [j Hij]].
    destruct (row_direction n m phi_sym c sp g h Hv Hm Hg Hh k r i j Er Hk Hij) as [D1 [D2 D3]].
    unfold good_beam. rewrite E1, E2, D3. split; lra. }
  destruct (rt_fractions n phi_sym c sp g h s tmm n_abs beams G Hv Hg Hh Hb) as [[col [row Hbins]] [res [E [_ [_ H]]]]].
  exists res. split; auto. intros k Hk. apply (H col row Hbins k Hk).
  apply (regular_covers n m phi_sym c sp g h Hv Hm Hg Hh s (n_angles_of n_rays nx ny) beams col row); auto.
  - apply n_angles_enough; auto.
  - intros b Hin E0. destruct (Hr b Hin) as [L _]. rewrite E0 in L. simpl in L. lia.
Qed.
