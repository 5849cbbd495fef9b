(* C30, C31, C32: the depth profile of a ray. *)
From Coq Require Import Reals List Bool ZArith Lra Lia.
From Verif Require Import Base Lib Proof_Profile Model_RayIface Model_RayStack Spec_RayIface Spec_RayStack
  Proof_RayStack Proof_RayEnergy.
Import ListNotations.
Open Scope R_scope.

(* ---------- masks ---------- *)

Lemma select_map_filter (p : R -> bool) z : forall v, length v = length z ->
  select (map p z) v = map snd (filter (fun zv => p (fst zv)) (combine z v)).
Proof.
  induction z as [|a z IH]; intros [|b v] H; try discriminate H; auto.
  cbn [map select combine filter fst]. destruct (p a); cbn [map snd]; rewrite IH by (simpl in H; lia); auto.
Qed.

Lemma select_self (p : R -> bool) z : select (map p z) z = filter p z.
Proof. induction z as [|a z IH]; auto. cbn [map select filter]. destruct (p a); rewrite IH; auto. Qed.

Lemma select_length m : forall u v : list R, length u = length v ->
  length (select m u) = length (select m v).
Proof.
  induction m as [|b m IH]; intros [|x u] [|y v] H; try discriminate H; auto; destruct b; cbn [select length]; auto.
Qed.

Lemma select_add_same m : forall l v, length m = length l -> length v = length (select m l) ->
  select m (add_masked m l v) = map2 Rplus (select m l) v.
Proof.
  induction m as [|b m IH]; intros [|x l] v Hl Hv; try discriminate Hl; auto.
  destruct b; cbn [select add_masked] in *.
  - destruct v as [|y v]; [discriminate Hv|]. cbn [select map2]. f_equal. apply IH; simpl in *; lia.
  - apply IH; simpl in *; lia.
Qed.

Lemma select_add_other m : forall m' l v, length m = length l -> length m' = length l ->
  (forall j, nth j m false = true -> nth j m' false = false) ->
  select m' (add_masked m l v) = select m' l.
Proof.
  induction m as [|b m IH]; intros [|b' m'] [|x l] v Hl Hl' Hd; try discriminate; auto.
  assert (Ht : forall j, nth j m false = true -> nth j m' false = false) by (intros j; apply (Hd (S j))).
  specialize (Hd 0%nat). cbn [nth] in Hd. simpl in Hl, Hl'.
  destruct b; cbn [add_masked].
  - rewrite Hd by auto. destruct v as [|y v]; cbn [select]; auto.
  - destruct b'; cbn [select]; [f_equal|]; apply IH; auto; lia.
Qed.

Lemma add_masked_nonneg m : forall l v, (forall x, In x l -> 0 <= x) -> (forall x, In x v -> 0 <= x) ->
  forall x, In x (add_masked m l v) -> 0 <= x.
Proof.
  induction m as [|b m IH]; intros l v Hl Hv x Hx; [exact (Hl x Hx)|].
  destruct l as [|a l]; [destruct b; destruct Hx|]. destruct b; cbn [add_masked] in Hx.
  - destruct v as [|y v]; auto. destruct Hx as [<-|Hx].
    + assert (0 <= a) by (apply Hl; simpl; auto). assert (0 <= y) by (apply Hv; simpl; auto). lra.
    + eapply IH; [| |apply Hx]; intros z Hz; [apply Hl|apply Hv]; simpl; auto.
  - destruct Hx as [<-|Hx]; [apply Hl; simpl; auto|]. eapply IH; [| |apply Hx]; auto.
    intros z Hz. apply Hl; simpl; auto.
Qed.

(* ---------- where the layers lie ---------- *)

Lemma cumsum_go_nth l : forall acc i, (i < length l)%nat ->
  nth i (cumsum_go acc l) 0 = acc + rsum (firstn (S i) l).
Proof.
  induction l as [|a l IH]; intros acc i H; simpl in H; [lia|].
  destruct i as [|i]; cbn [cumsum_go firstn rsum nth]; [simpl; lra|].
  rewrite IH by lia. cbn [firstn rsum]. lra.
Qed.
Lemma cumsum_go_length l : forall acc, length (cumsum_go acc l) = length l.
Proof. induction l; intros; simpl; auto. Qed.

Lemma cum_at_nat ws i : (i <= S (length ws))%nat ->
  cum_at (padded ws) (Z.of_nat i) = rsum (firstn i ws).
Proof.
  intros Hi. unfold cum_at, cumsum. rewrite (py_index_ok _ _ 0)
    by (rewrite cumsum_go_length, padded_length; lia).
  rewrite Nat2Z.id, cumsum_go_nth by (rewrite padded_length; lia).
  unfold padded. rewrite firstn_cons. change (rsum (0 :: firstn i (ws ++ [0]))) with (0 + rsum (firstn i (ws ++ [0]))).
  rewrite firstn_app, rsum_app.
  replace (rsum (firstn (i - length ws) [0])) with 0 by (destruct (i - length ws)%nat as [|[|]]; simpl; lra).
  lra.
Qed.

Lemma cum_at_last ws : cum_at (padded ws) (-1) = rsum ws.
Proof.
  unfold cum_at, py_index, cumsum. rewrite cumsum_go_length, padded_length. cbn [Z.ltb Z.compare].
  replace (-1 + Z.of_nat (S (S (length ws))))%Z with (Z.of_nat (S (length ws))) by lia.
  replace (Z.of_nat (S (length ws)) <? 0)%Z with false by (symmetry; apply Z.ltb_ge; lia).
  rewrite Nat2Z.id.
  rewrite (nth_error_nth' _ 0) by (rewrite cumsum_go_length, padded_length; lia).
  rewrite cumsum_go_nth by (rewrite padded_length; lia).
  unfold padded. rewrite firstn_cons. change (rsum (0 :: firstn (S (length ws)) (ws ++ [0])))
    with (0 + rsum (firstn (S (length ws)) (ws ++ [0]))). rewrite firstn_app, rsum_app.
  rewrite firstn_all2 by lia. replace (S (length ws) - length ws)%nat with 1%nat by lia. simpl. lra.
Qed.

Lemma firstn_S_sum ws i : (i < length ws)%nat ->
  rsum (firstn (S i) ws) = rsum (firstn i ws) + nth i ws 0.
Proof.
  revert i; induction ws as [|a ws IH]; intros i H; simpl in H; [lia|].
  destruct i as [|i]; [simpl; lra|]. cbn [firstn rsum nth] in *. rewrite IH by lia. lra.
Qed.

Definition in_layer (ws : list R) (i : nat) (z : R) : bool :=
  Rltb z (top_of ws i + nth (i - 1) ws 0) && Rleb (top_of ws i) z.

Lemma mask_layer ws z_pos i : (1 <= i <= length ws)%nat ->
  depth_mask (padded ws) z_pos i = map (in_layer ws i) z_pos.
Proof.
  intros Hi. unfold depth_mask. apply map_ext. intros z. unfold in_layer, top_of.
  rewrite cum_at_nat by lia.
  replace (Z.of_nat i - 1)%Z with (Z.of_nat (i - 1)) by lia. rewrite cum_at_nat by lia.
  replace i with (S (i - 1)) at 1 by lia. rewrite firstn_S_sum by lia. reflexivity.
Qed.

Lemma depths_layer ws z_pos i : (1 <= i <= length ws)%nat ->
  depths_of (padded ws) z_pos i = layer_depths ws z_pos i.
Proof.
  intros Hi. unfold depths_of, layer_depths. rewrite mask_layer, select_self by auto.
  replace (Z.of_nat i - 1)%Z with (Z.of_nat (i - 1)) by lia. rewrite cum_at_nat by lia.
  unfold top_of. f_equal. apply filter_ext. intros z. unfold in_layer, top_of. apply andb_comm.
Qed.

Lemma values_layer ws z_pos v i : (1 <= i <= length ws)%nat -> length v = length z_pos ->
  select (depth_mask (padded ws) z_pos i) v = layer_values ws z_pos v i.
Proof.
  intros Hi L. rewrite mask_layer, select_map_filter by auto. unfold layer_values. f_equal.
  apply filter_ext. intros z. unfold in_layer. apply andb_comm.
Qed.

Lemma top_mono ws : (forall w, In w ws -> 0 < w) -> forall i j, (i <= j)%nat ->
  rsum (firstn i ws) <= rsum (firstn j ws).
Proof.
  intros Hp i j Hij. induction Hij as [|j Hij IH]; [lra|].
  destruct (le_lt_dec (length ws) j) as [Hl|Hl].
  - rewrite (firstn_all2 (n := S j)) by lia. rewrite (firstn_all2 (n := j)) in IH by lia. lra.
  - rewrite firstn_S_sum by auto. assert (0 < nth j ws 0) by (apply Hp, nth_In; auto). lra.
Qed.

Lemma layers_disjoint ws i i' z : (forall w, In w ws -> 0 < w) ->
  (1 <= i <= length ws)%nat -> (1 <= i' <= length ws)%nat ->
  in_layer ws i z = true -> in_layer ws i' z = true -> i = i'.
Proof.
  intros Hp Hi Hi'. unfold in_layer, top_of. intros H1 H2.
  apply andb_true_iff in H1. apply andb_true_iff in H2. destruct H1 as [A1 A2]. destruct H2 as [B1 B2].
  apply Rltb_true in A1. apply Rltb_true in B1. apply Rleb_true in A2. apply Rleb_true in B2.
  rewrite <- firstn_S_sum in A1, B1 by lia.
  destruct (lt_eq_lt_dec i i') as [[L|E]|L]; auto; exfalso.
  - pose proof (top_mono ws Hp (S (i - 1)) (i' - 1) ltac:(lia)). lra.
  - pose proof (top_mono ws Hp (S (i' - 1)) (i - 1) ltac:(lia)). lra.
Qed.

Lemma layers_cover ws z : (forall w, In w ws -> 0 < w) -> 0 <= z < rsum ws ->
  exists i, (1 <= i <= length ws)%nat /\ in_layer ws i z = true.
Proof.
  intros Hp [H0 H1].
  assert (G : forall k, (k <= length ws)%nat -> z < rsum (firstn k ws) ->
    exists i, (1 <= i <= length ws)%nat /\ in_layer ws i z = true).
  { induction k as [|k IH]; intros Hk Hz; [simpl in Hz; lra|].
    destruct (Rle_lt_dec (rsum (firstn k ws)) z) as [Hle|Hlt].
    - exists (S k). split; [lia|]. unfold in_layer, top_of. replace (S k - 1)%nat with k by lia.
      rewrite <- firstn_S_sum by lia. apply andb_true_iff. split; [apply Rltb_true|apply Rleb_true]; auto.
    - apply IH; [lia|auto]. }
  apply (G (length ws)); auto. now rewrite firstn_all.
Qed.

Lemma outer_masks ws z_pos i : (i = 0 \/ i = S (length ws))%nat ->
  (forall z, In z z_pos -> 0 <= z) -> depth_mask (padded ws) z_pos i = map (fun _ => false) z_pos.
Proof.
  intros Hi Hz. unfold depth_mask. apply map_ext_in. intros z Hin. specialize (Hz z Hin).
  destruct Hi as [-> | ->].
  - change (Z.of_nat 0) with (Z.of_nat 0%nat). rewrite (cum_at_nat ws 0) by lia. simpl rsum.
    rewrite (proj2 (Rltb_false _ _)) by lra. reflexivity.
  - rewrite cum_at_nat by lia. replace (Z.of_nat (S (length ws)) - 1)%Z with (Z.of_nat (length ws)) by lia.
    rewrite cum_at_nat by lia. rewrite (firstn_all2 (n := S (length ws))), (firstn_all2 (n := length ws)) by lia.
    destruct (Rltb z (rsum ws)) eqn:E; auto. apply Rltb_true in E.
    rewrite (proj2 (Rleb_false _ _)) by lra. reflexivity.
Qed.

(* ---------- C31 ---------- *)
Lemma arange0_in stop step z : 0 < step -> In z (arange0 stop step) -> 0 <= z /\ z < stop.
Proof.
  intros Hs H. unfold arange0 in H. apply in_map_iff in H. destruct H as [i [<- Hi]].
  apply in_seq in Hi. pose proof (pos_INR i).
  assert (INR i < stop / step).
  { destruct (Zceil_bounds (stop / step)) as [L _]. apply Rle_lt_trans with (2 := L).
    rewrite INR_IZR_INZ. rewrite <- minus_IZR. apply IZR_le. lia. }
  split; [nra|]. apply (Rmult_lt_compat_r step) in H0; auto. unfold Rdiv in H0.
  rewrite Rmult_assoc, Rinv_l, Rmult_1_r in H0 by lra. exact H0.
Qed.

Lemma padded_sum ws : rsum (padded ws) = rsum ws.
Proof. unfold padded. cbn [rsum]. rewrite rsum_app. simpl. lra. Qed.

Lemma grid_partition ws sp : (forall w, In w ws -> 0 < w) -> 0 < sp ->
  let z_pos := depth_grid ws sp in
  (forall j, (j < length z_pos)%nat ->
     exists i, (1 <= i <= length ws)%nat /\
       top_of ws i <= nth j z_pos 0 < top_of ws i + nth (i - 1) ws 0 /\
       forall i', (i' < length (padded ws))%nat ->
         (nth j (depth_mask (padded ws) z_pos i') false = true <-> i' = i)) /\
  (forall i, (1 <= i <= length ws)%nat ->
     depths_of (padded ws) z_pos i = layer_depths ws z_pos i).
Proof.
  intros Hp Hs z_pos. split; [|intros i Hi; apply depths_layer; auto].
  intros j Hj.
  assert (Hz : forall z, In z z_pos -> 0 <= z < rsum ws).
  { intros z Hin. destruct (arange0_in _ _ _ Hs Hin) as [A B]. rewrite padded_sum in B. lra. }
  assert (Hin : In (nth j z_pos 0) z_pos) by (apply nth_In; auto).
  destruct (layers_cover ws (nth j z_pos 0) Hp (Hz _ Hin)) as [i [Hi Hl]].
  exists i. split; [auto|]. split.
  { unfold in_layer in Hl. apply andb_true_iff in Hl. destruct Hl as [A B].
    apply Rltb_true in A. apply Rleb_true in B. lra. }
  intros i' Hi'. rewrite padded_length in Hi'.
  destruct (Nat.eq_dec i' 0) as [E0|N0]; [|destruct (Nat.eq_dec i' (S (length ws))) as [E1|N1]].
  - rewrite outer_masks by (auto; intros z Hz'; apply Hz; auto).
    rewrite nth_map_lt with (da := 0) by auto. split; [discriminate|lia].
  - rewrite outer_masks by (auto; intros z Hz'; apply Hz; auto).
    rewrite nth_map_lt with (da := 0) by auto. split; [discriminate|lia].
  - rewrite mask_layer by lia. rewrite nth_map_lt with (da := 0) by auto. split.
    + intros H. eapply layers_disjoint; eauto; lia.
    + intros ->. exact Hl.
Qed.

(* ---------- C32 ---------- *)

Lemma increasing_filter_map (p : R -> bool) (c : R) l :
  (forall i, (S i < length l)%nat -> nth i l 0 < nth (S i) l 0) ->
  forall i, (S i < length (map (fun z => (z - c)%R) (filter p l)))%nat ->
  nth i (map (fun z => z - c) (filter p l)) 0 < nth (S i) (map (fun z => z - c) (filter p l)) 0.
Proof.
  intros H. apply increasing_step in H.
  assert (G : increasing (map (fun z => z - c) (filter p l))).
  { induction l as [|a l IH].
    - intros i j Hij. simpl in Hij. lia.
    - apply increasing_cons in H. destruct H as [H1 H2]. specialize (IH H1).
      cbn [filter]. destruct (p a); auto. cbn [map].
      intros i j [Hij Hj]. cbn [length] in Hj. destruct j as [|j]; [lia|]. destruct i as [|i]; cbn [nth].
      + assert (Hin : In (nth j (map (fun z => z - c) (filter p l)) 0) (map (fun z => z - c) (filter p l)))
          by (apply nth_In; lia).
        apply in_map_iff in Hin. destruct Hin as [z [E Hz]]. rewrite <- E.
        apply filter_In in Hz. specialize (H2 z (proj1 Hz)). lra.
      + apply IH. lia. }
  intros i Hi. apply G. lia.
Qed.

Lemma traverse_power width theta alpha I0 pos th d :
  let t := traverse width theta alpha I0 pos th d in
  tr_I t = I0 * exp (- (alpha * width / Rabs (cos theta))) /\
  (tr_stop t = true <-> tr_I t < th) /\
  tr_theta t = (if Rltb (tr_I t) th then None else Some theta) /\
  length (tr_DA t) = length pos.
Proof.
  cbv zeta. unfold traverse. cbn [tr_I tr_stop tr_theta tr_DA].
  split; [f_equal; f_equal; unfold Rdiv; ring|].
  split; [apply Rltb_true|]. split; [auto|].
  rewrite map_length. destruct (Z.eqb d (-1)); [rewrite rev_length|]; apply map_length.
Qed.

Lemma traverse_profile width theta alpha I0 pos th d :
  0 <= width -> 0 <= alpha -> 0 < I0 -> cos theta <> 0 ->
  (2 <= length pos)%nat -> (forall i, (S i < length pos)%nat -> nth i pos 0 < nth (S i) pos 0) ->
  let t := traverse width theta alpha I0 pos th d in
  0 < tr_I t <= I0 /\ (forall x, In x (tr_DA t) -> 0 <= x) /\ trapz (tr_DA t) pos = I0 - tr_I t.
Proof.
  intros Hw Ha HI Hc Hl Hinc. cbv zeta.
  destruct (traverse_power width theta alpha I0 pos th d) as [E [_ [_ L]]].
  assert (HA : 0 < Rabs (cos theta)) by (apply Rabs_pos_lt; auto).
  assert (Hr : 0 <= alpha / Rabs (cos theta)).
  { apply Rmult_le_pos; [auto|]. apply Rlt_le, Rinv_0_lt_compat; auto. }
  assert (Hx : exp (- (alpha * width / Rabs (cos theta))) <= 1).
  { assert (0 <= alpha * width / Rabs (cos theta)).
    { replace (alpha * width / Rabs (cos theta)) with (alpha / Rabs (cos theta) * width) by (unfold Rdiv; ring). nra. }
    rewrite <- exp_0. destruct H as [H|H]; [left; apply exp_increasing; lra|rewrite <- H, Ropp_0; lra]. }
  pose proof (exp_pos (- (alpha * width / Rabs (cos theta)))) as Hxp.
  assert (HIb : 0 < tr_I (traverse width theta alpha I0 pos th d) <= I0) by (rewrite E; nra).
  split; [exact HIb|].
  set (ratio := alpha / Rabs (cos theta)) in *.
  set (u := map (fun z => I0 * ratio * exp (- ratio * z)) pos).
  set (v := if Z.eqb d (-1) then rev u else u).
  set (Ib := tr_I (traverse width theta alpha I0 pos th d)) in *.
  assert (ED : tr_DA (traverse width theta alpha I0 pos th d) =
     map (fun x => if Rltb 0 (trapz v pos) then (I0 - Ib) * x / trapz v pos else 0) v) by reflexivity.
  assert (Lv : length v = length pos).
  { subst v. destruct (Z.eqb d (-1)); [rewrite rev_length|]; apply map_length. }
  rewrite ED. destruct Ha as [Ha|Ha].
  - assert (Hrp : 0 < ratio) by (subst ratio; apply Rmult_lt_0_compat; [auto|apply Rinv_0_lt_compat; auto]).
    assert (Hv : forall x, In x v -> 0 < x).
    { intros x Hx'. assert (Hu : In x u) by (subst v; destruct (Z.eqb d (-1)); [apply in_rev; auto|auto]).
      apply in_map_iff in Hu. destruct Hu as [z [<- _]]. pose proof (exp_pos (- ratio * z)).
      apply Rmult_lt_0_compat; auto. apply Rmult_lt_0_compat; auto. }
    assert (Ht : 0 < trapz v pos) by (apply trapz_pos; auto).
    rewrite (proj2 (Rltb_true _ _)) by auto. split.
    + intros x Hx'. apply in_map_iff in Hx'. destruct Hx' as [y [<- Hy]]. specialize (Hv y Hy).
      apply Rmult_le_pos; [nra|]. apply Rlt_le, Rinv_0_lt_compat; auto.
    + rewrite map_ext with (g := fun x => (I0 - Ib) / trapz v pos * x) by (intros; unfold Rdiv; ring).
      rewrite trapz_scale. field. lra.
  - assert (Hz : ratio = 0) by (subst ratio; rewrite <- Ha; unfold Rdiv; ring).
    assert (EI : Ib = I0).
    { rewrite E, <- Ha. replace (0 * width / Rabs (cos theta)) with 0 by (unfold Rdiv; ring).
      rewrite Ropp_0, exp_0. ring. }
    rewrite EI. assert (Hall : forall x, (if Rltb 0 (trapz v pos) then (I0 - I0) * x / trapz v pos else 0) = 0).
    { intros x. destruct (Rltb _ _); unfold Rdiv; ring. }
    rewrite map_ext with (g := fun x => 0 * x) by (intros x; rewrite Hall; ring). split.
    + intros x Hx'. apply in_map_iff in Hx'. destruct Hx' as [y [<- _]]. lra.
    + rewrite trapz_scale. ring.
Qed.
