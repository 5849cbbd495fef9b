(* Lemmas about the angular grid and binning (model: Model_Angles.v) *)
From Coq Require Import Reals List ZArith Bool Lia Lra Psatz.
From Verif Require Import Base Lib Model_Angles.
Import ListNotations.
Open Scope R_scope.

(* ---------- edges ---------- *)

Definition half_edge (sp : spacing) (n i : nat) : R :=
  match sp with
  | SpSin => asin (INR i / INR n)
  | _ => INR i / INR n * (PI / 2)
  end.

Lemma half_edges_length sp n : length (half_edges sp n) = (n + 1)%nat.
Proof. destruct sp; simpl; rewrite ?map_length, linspace_length; auto. Qed.

Lemma half_edges_nth sp n i : (1 <= n)%nat -> (i <= n)%nat ->
  nth i (half_edges sp n) 0 = half_edge sp n i.
Proof.
  intros Hn Hi. assert (0 < INR n) by (apply lt_0_INR; lia).
  destruct sp; simpl.
  - rewrite nth_map_lt with (da := 0) by (rewrite linspace_length; lia).
    rewrite linspace_nth by lia. f_equal. replace (n + 1 - 1)%nat with n by lia. field. lra.
  - rewrite linspace_nth by lia. replace (n + 1 - 1)%nat with n by lia. field. lra.
  - rewrite linspace_nth by lia. replace (n + 1 - 1)%nat with n by lia. field. lra.
Qed.

Lemma asin_lt x y : -1 <= x -> x < y -> y <= 1 -> asin x < asin y.
Proof.
  intros H1 H2 H3.
  assert (Hx := asin_bound x). assert (Hy := asin_bound y).
  apply sin_increasing_0; try lra.
  rewrite !sin_asin; lra.
Qed.

Lemma ratio_bounds n i : (1 <= n)%nat -> (i <= n)%nat -> 0 <= INR i / INR n <= 1.
Proof.
  intros Hn Hi. assert (0 < INR n) by (apply lt_0_INR; lia).
  split.
  - apply Rmult_le_pos; [apply pos_INR | left; apply Rinv_0_lt_compat; auto].
  - apply Rmult_le_reg_r with (INR n); auto. unfold Rdiv. rewrite Rmult_assoc, Rinv_l by lra.
    rewrite Rmult_1_r, Rmult_1_l. apply le_INR. auto.
Qed.

Lemma ratio_lt n i j : (1 <= n)%nat -> (i < j)%nat -> INR i / INR n < INR j / INR n.
Proof.
  intros Hn Hij. apply Rmult_lt_compat_r.
  - apply Rinv_0_lt_compat, lt_0_INR; lia.
  - apply lt_INR; auto.
Qed.

Lemma half_edge_lt sp n i j : (1 <= n)%nat -> (i < j)%nat -> (j <= n)%nat ->
  half_edge sp n i < half_edge sp n j.
Proof.
  intros Hn Hij Hj.
  pose proof (ratio_lt n i j Hn Hij). pose proof (ratio_bounds n i Hn ltac:(lia)).
  pose proof (ratio_bounds n j Hn Hj).
  pose proof PI_RGT_0.
  destruct sp; simpl; [apply asin_lt; lra | nra | nra].
Qed.

Lemma half_edge_0 sp n : (1 <= n)%nat -> half_edge sp n 0 = 0.
Proof.
  intros Hn. assert (0 < INR n) by (apply lt_0_INR; lia).
  destruct sp; unfold half_edge; replace (INR 0 / INR n) with 0 by (simpl; field; lra);
    rewrite ?asin_0; lra.
Qed.

Lemma half_edge_n sp n : (1 <= n)%nat -> half_edge sp n n = PI / 2.
Proof.
  intros Hn. assert (0 < INR n) by (apply lt_0_INR; lia).
  destruct sp; unfold half_edge; replace (INR n / INR n) with 1 by (field; lra);
    rewrite ?asin_1; lra.
Qed.

Lemma theta_edges_length sp n : length (theta_edges sp n) = (2 * n + 1)%nat.
Proof.
  unfold theta_edges. rewrite app_length, map_length, rev_length, removelast_length, half_edges_length.
  lia.
Qed.

Lemma theta_edges_nth_low sp n i : (1 <= n)%nat -> (i <= n)%nat ->
  nth i (theta_edges sp n) 0 = half_edge sp n i.
Proof.
  intros. unfold theta_edges. rewrite app_nth1 by (rewrite half_edges_length; lia).
  apply half_edges_nth; auto.
Qed.

Lemma theta_edges_nth_high sp n i : (1 <= n)%nat -> (n < i <= 2 * n)%nat ->
  nth i (theta_edges sp n) 0 = PI - half_edge sp n (2 * n - i).
Proof.
  intros Hn Hi. unfold theta_edges. rewrite app_nth2 by (rewrite half_edges_length; lia).
  rewrite half_edges_length.
  rewrite nth_map_lt with (da := 0) by (rewrite rev_length, removelast_length, half_edges_length; lia).
  rewrite rev_nth by (rewrite removelast_length, half_edges_length; lia).
  rewrite removelast_length, half_edges_length.
  rewrite nth_removelast by (rewrite half_edges_length; lia).
  f_equal. rewrite half_edges_nth by lia. f_equal. lia.
Qed.

Lemma theta_edges_sym sp n i : (1 <= n)%nat -> (i <= 2 * n)%nat ->
  nth i (theta_edges sp n) 0 + nth (2 * n - i) (theta_edges sp n) 0 = PI.
Proof.
  intros Hn Hi.
  destruct (Nat.lt_trichotomy i n) as [H|[H|H]].
  - rewrite theta_edges_nth_low by lia. rewrite theta_edges_nth_high by lia.
    replace (2 * n - (2 * n - i))%nat with i by lia. lra.
  - subst i. replace (2 * n - n)%nat with n by lia.
    rewrite theta_edges_nth_low by lia. rewrite half_edge_n by lia. lra.
  - rewrite theta_edges_nth_high by lia. rewrite (theta_edges_nth_low sp n (2 * n - i)) by lia. lra.
Qed.

Lemma theta_edges_increasing sp n : (1 <= n)%nat -> increasing (theta_edges sp n).
Proof.
  intros Hn. apply increasing_step. rewrite theta_edges_length. intros i Hi.
  destruct (Nat.lt_ge_cases i n) as [H|H].
  - rewrite !theta_edges_nth_low by lia. apply half_edge_lt; lia.
  - destruct (Nat.eq_dec i n) as [->|Hne].
    + rewrite theta_edges_nth_low by lia. rewrite theta_edges_nth_high by lia.
      assert (half_edge sp n (2 * n - S n) < half_edge sp n n) by (apply half_edge_lt; lia).
      rewrite half_edge_n in * by lia. lra.
    + rewrite !theta_edges_nth_high by lia.
      assert (half_edge sp n (2 * n - S i) < half_edge sp n (2 * n - i)) by (apply half_edge_lt; lia).
      lra.
Qed.

Lemma theta_edges_0 sp n : (1 <= n)%nat -> nth 0 (theta_edges sp n) 0 = 0.
Proof. intros. rewrite theta_edges_nth_low by lia. apply half_edge_0; auto. Qed.

Lemma theta_edges_n sp n : (1 <= n)%nat -> nth n (theta_edges sp n) 0 = PI / 2.
Proof. intros. rewrite theta_edges_nth_low by lia. apply half_edge_n; auto. Qed.

Lemma theta_edges_2n sp n : (1 <= n)%nat -> nth (2 * n) (theta_edges sp n) 0 = PI.
Proof.
  intros. pose proof (theta_edges_sym sp n 0 ltac:(lia) ltac:(lia)) as E.
  rewrite theta_edges_0 in E by lia. replace (2 * n - 0)%nat with (2 * n)%nat in E by lia. lra.
Qed.

Lemma theta_edges_le sp n i j : (1 <= n)%nat -> (i <= j <= 2 * n)%nat ->
  nth i (theta_edges sp n) 0 <= nth j (theta_edges sp n) 0.
Proof.
  intros Hn Hij. destruct (Nat.eq_dec i j) as [->|Hne]; [lra|]. left.
  apply theta_edges_increasing; auto. rewrite theta_edges_length. lia.
Qed.

(* ---------- rings ---------- *)

(* number of azimuth bins in ring i *)
Definition ring_count (n : nat) (c : R) (i : nat) : nat :=
  Z.to_nat (Zceil (c * INR (if (i <? n)%nat then i + 1 else 2 * n - i))).

Section Grid.
  Variables (sp : spacing) (n : nat) (phi_sym c : R).
  Hypothesis Hn : (1 <= n)%nat.
  Hypothesis Hc : 0 < c.
  Hypothesis Hs : 0 < phi_sym.

  Let E := theta_edges sp n.
  Let G := grid_of_edges E phi_sym c.
  Let K := ring_count n c.

  Lemma ring_count_pos i : (i < 2 * n)%nat -> (1 <= K i)%nat.
  Proof.
    intros Hi. unfold K, ring_count.
    assert (H : (1 <= Zceil (c * INR (if (i <? n)%nat then i + 1 else 2 * n - i)))%Z).
    { apply Zceil_pos. apply Rmult_lt_0_compat; auto. apply lt_0_INR.
      destruct (i <? n)%nat; lia. }
    lia.
  Qed.

  Lemma ring_count_sym i : (i < 2 * n)%nat -> K (2 * n - 1 - i) = K i.
  Proof.
    intros Hi. unfold K, ring_count.
    destruct (Nat.ltb_spec (2 * n - 1 - i) n), (Nat.ltb_spec i n); try lia.
    - replace (2 * n - 1 - i + 1)%nat with (2 * n - i)%nat by lia. auto.
    - replace (2 * n - (2 * n - 1 - i))%nat with (i + 1)%nat by lia. auto.
  Qed.

  Definition theta_mid (i : nat) : R := (nth i E 0 + nth (S i) E 0) / 2.

  Lemma theta_mid_inside i : (i < 2 * n)%nat -> nth i E 0 < theta_mid i < nth (S i) E 0.
  Proof.
    intros Hi. assert (nth i E 0 < nth (S i) E 0).
    { apply theta_edges_increasing; auto. rewrite theta_edges_length. lia. }
    unfold theta_mid. lra.
  Qed.

  Lemma theta_mid_low i : (i < n)%nat -> 0 < theta_mid i < PI / 2.
  Proof.
    intros Hi. destruct (theta_mid_inside i ltac:(lia)).
    assert (nth 0 E 0 <= nth i E 0) by (apply theta_edges_le; auto; lia).
    assert (nth (S i) E 0 <= nth n E 0) by (apply theta_edges_le; auto; lia).
    unfold E in *. rewrite theta_edges_0 in * by auto. rewrite theta_edges_n in * by auto. lra.
  Qed.

  Lemma theta_mid_high i : (n <= i < 2 * n)%nat -> PI / 2 < theta_mid i < PI.
  Proof.
    intros Hi. destruct (theta_mid_inside i ltac:(lia)).
    assert (nth n E 0 <= nth i E 0) by (apply theta_edges_le; auto; lia).
    assert (nth (S i) E 0 <= nth (2 * n) E 0) by (apply theta_edges_le; auto; lia).
    unfold E in *. rewrite theta_edges_n in * by auto. rewrite theta_edges_2n in * by auto. lra.
  Qed.

  Lemma theta_mid_sym i : (i < 2 * n)%nat -> theta_mid (2 * n - 1 - i) = PI - theta_mid i.
  Proof.
    intros Hi. unfold theta_mid.
    pose proof (theta_edges_sym sp n i Hn ltac:(lia)) as H1.
    pose proof (theta_edges_sym sp n (S i) Hn ltac:(lia)) as H2.
    replace (S (2 * n - 1 - i)) with (2 * n - i)%nat by lia.
    replace (2 * n - 1 - i)%nat with (2 * n - S i)%nat by lia.
    unfold E. lra.
  Qed.

  Let tm := middles E.

  Lemma tm_length : length tm = (2 * n)%nat.
  Proof. unfold tm, E. rewrite middles_length, theta_edges_length. lia. Qed.

  Lemma tm_nth i : (i < 2 * n)%nat -> nth i tm 0 = theta_mid i.
  Proof.
    intros Hi. unfold tm. rewrite middles_nth by (unfold E; rewrite theta_edges_length; lia). auto.
  Qed.

  Lemma ring_ind_eq i : (i < 2 * n)%nat ->
    ring_ind (length E) i (theta_mid i) = (if (i <? n)%nat then i + 1 else 2 * n - i)%nat.
  Proof.
    intros Hi. unfold ring_ind. unfold E at 1. rewrite theta_edges_length.
    destruct (Nat.ltb_spec i n).
    - pose proof (theta_mid_low i H). rcases. auto.
    - pose proof (theta_mid_high i ltac:(lia)). rcases. lia.
  Qed.

  Lemma phi_edges_length ind : length (phi_edges phi_sym c ind) = Z.to_nat (Zceil (c * INR ind) + 1).
  Proof. apply linspace_length. Qed.

  Lemma phi_intv_length : length (g_phi_intv G) = (2 * n)%nat.
  Proof. unfold G; simpl. rewrite map_length, enumerate_length. apply tm_length. Qed.

  Lemma phi_intv_nth i : (i < 2 * n)%nat ->
    nth i (g_phi_intv G) [] = linspace 0 phi_sym (K i + 1).
  Proof.
    intros Hi. unfold G; simpl.
    rewrite nth_map_lt with (da := (0%nat, 0)) by (rewrite enumerate_length; fold tm; rewrite tm_length; auto).
    rewrite nth_enumerate by (fold tm; rewrite tm_length; auto). simpl. fold tm. rewrite tm_nth by auto.
    fold E. rewrite ring_ind_eq by auto.
    unfold phi_edges. f_equal. pose proof (ring_count_pos i Hi) as Hp.
    unfold K, ring_count in *. rewrite Z2Nat.inj_add; try lia.
  Qed.

  Definition phi_edge (i j : nat) : R := INR j * (phi_sym / INR (K i)).
  Definition phi_mid (i j : nat) : R := (phi_edge i j + phi_edge i (S j)) / 2.

  Lemma phi_intv_nth_nth i j : (i < 2 * n)%nat -> (j <= K i)%nat ->
    nth j (nth i (g_phi_intv G) []) 0 = phi_edge i j.
  Proof.
    intros Hi Hj. rewrite phi_intv_nth by auto. rewrite linspace_nth by lia.
    replace (K i + 1 - 1)%nat with (K i) by lia. unfold phi_edge. rewrite Rminus_0_r. lra.
  Qed.

  Lemma phi_intv_inc i : (i < 2 * n)%nat -> increasing (nth i (g_phi_intv G) []).
  Proof.
    intros Hi. rewrite phi_intv_nth by auto. apply increasing_linspace; auto.
    pose proof (ring_count_pos i Hi). lia.
  Qed.

  Lemma phi_step_pos i : (i < 2 * n)%nat -> 0 < phi_sym / INR (K i).
  Proof.
    intros Hi. apply Rdiv_lt_0_compat; auto. apply lt_0_INR. pose proof (ring_count_pos i Hi). lia.
  Qed.

  Lemma phi_edge_lt i j : (i < 2 * n)%nat -> phi_edge i j < phi_edge i (S j).
  Proof. intros Hi. unfold phi_edge. rewrite S_INR. pose proof (phi_step_pos i Hi). lra. Qed.

  Lemma phi_mid_inside i j : (i < 2 * n)%nat -> phi_edge i j < phi_mid i j < phi_edge i (S j).
  Proof. intros Hi. pose proof (phi_edge_lt i j Hi). unfold phi_mid. lra. Qed.

  Lemma phi_edge_0 i : phi_edge i 0 = 0.
  Proof. unfold phi_edge. simpl. lra. Qed.

  Lemma phi_edge_K i : (i < 2 * n)%nat -> phi_edge i (K i) = phi_sym.
  Proof.
    intros Hi. unfold phi_edge. field. apply Rgt_not_eq, lt_0_INR.
    pose proof (ring_count_pos i Hi). lia.
  Qed.

  (* rows *)
  Let F := fun it : nat * R =>
     map (mk_arow (fst it) (snd it))
         (middles (phi_edges phi_sym c (ring_ind (length E) (fst it) (snd it)))).

  Lemma F_nth i : (i < 2 * n)%nat ->
    F (nth i (enumerate tm) (0%nat, 0)) =
    map (mk_arow i (theta_mid i)) (middles (linspace 0 phi_sym (K i + 1))).
  Proof.
    intros Hi. rewrite nth_enumerate by (rewrite tm_length; auto). unfold F. simpl.
    rewrite tm_nth by auto. rewrite ring_ind_eq by auto.
    f_equal. f_equal. unfold phi_edges. f_equal. pose proof (ring_count_pos i Hi) as Hp.
    unfold K, ring_count in *. rewrite Z2Nat.inj_add; try lia.
  Qed.

  Lemma F_length i : (i < 2 * n)%nat -> length (F (nth i (enumerate tm) (0%nat, 0))) = K i.
  Proof.
    intros Hi. rewrite F_nth by auto. rewrite map_length, middles_length, linspace_length. lia.
  Qed.

  Definition off (i : nat) : nat := nsum (map K (seq 0 i)).

  Lemma off_offset i : (i <= 2 * n)%nat -> offset F (enumerate tm) i = off i.
  Proof.
    intros Hi. induction i.
    - reflexivity.
    - rewrite offset_S with (da := (0%nat, 0)) by (rewrite enumerate_length, tm_length; lia).
      rewrite IHi by lia. rewrite F_length by lia. unfold off. rewrite seq_S, map_app, nsum_app. simpl. lia.
  Qed.

  Lemma off_S i : off (S i) = (off i + K i)%nat.
  Proof. unfold off. rewrite seq_S, map_app, nsum_app. simpl. lia. Qed.

  Lemma av_flat : g_av G = flat_map F (enumerate tm).
  Proof. reflexivity. Qed.

  Lemma av_length : length (g_av G) = off (2 * n).
  Proof.
    rewrite av_flat, <- offset_length, enumerate_length, tm_length. apply off_offset. lia.
  Qed.

  Definition default_row := mk_arow 0 0 0.

  Lemma av_row i j : (i < 2 * n)%nat -> (j < K i)%nat ->
    nth (off i + j) (g_av G) default_row = mk_arow i (theta_mid i) (phi_mid i j).
  Proof.
    intros Hi Hj. rewrite av_flat, <- off_offset by lia.
    rewrite flat_map_nth with (da := (0%nat, 0)).
    - rewrite F_nth by auto.
      rewrite nth_map_lt with (da := 0) by (rewrite middles_length, linspace_length; lia).
      f_equal. rewrite middles_nth by (rewrite linspace_length; lia).
      rewrite !linspace_nth by lia. unfold phi_mid, phi_edge.
      replace (K i + 1 - 1)%nat with (K i) by lia. rewrite Rminus_0_r. lra.
    - rewrite enumerate_length, tm_length. auto.
    - rewrite F_length; auto.
  Qed.

  Lemma av_decompose k : (k < length (g_av G))%nat ->
    exists i j, (i < 2 * n)%nat /\ (j < K i)%nat /\ k = (off i + j)%nat.
  Proof.
    intros Hk. rewrite av_flat in Hk.
    destruct (flat_map_decompose F (enumerate tm) k (0%nat, 0) Hk) as [i [j [H1 [H2 H3]]]].
    rewrite enumerate_length, tm_length in H1.
    rewrite F_length in H2 by auto. rewrite off_offset in H3 by lia.
    exists i, j. auto.
  Qed.

  Lemma off_inj i j i' j' : (i < 2 * n)%nat -> (j < K i)%nat -> (i' < 2 * n)%nat -> (j' < K i')%nat ->
    (off i + j = off i' + j')%nat -> i = i' /\ j = j'.
  Proof.
    intros Hi Hj Hi' Hj' Heq.
    apply (offset_inj F (enumerate tm) i j i' j' (0%nat, 0));
      rewrite ?enumerate_length, ?tm_length, ?F_length by auto; auto.
    rewrite !off_offset by lia. auto.
  Qed.

  Lemma off_le i i' : (i <= i')%nat -> (off i <= off i')%nat.
  Proof.
    intros H. induction H; auto. rewrite off_S. lia.
  Qed.

  Lemma off_bound i j : (i < 2 * n)%nat -> (j < K i)%nat -> (off i + j < length (g_av G))%nat.
  Proof.
    intros Hi Hj. rewrite av_length. pose proof (off_le (S i) (2 * n) ltac:(lia)). rewrite off_S in H. lia.
  Qed.

  Lemma av_half : length (g_av G) = (2 * off n)%nat.
  Proof.
    rewrite av_length. unfold off.
    replace (2 * n)%nat with (n + n)%nat by lia.
    rewrite seq_app, map_app, nsum_app. simpl.
    enough (nsum (map K (seq n n)) = nsum (map K (seq 0 n))) by lia.
    rewrite <- (nsum_rev (map K (seq 0 n))). f_equal.
    apply list_ext with (d := 0%nat).
    - rewrite rev_length, !map_length, !seq_length. auto.
    - intros i Hi. rewrite map_length, seq_length in Hi.
      rewrite rev_nth by (rewrite map_length, seq_length; auto).
      rewrite map_length, seq_length.
      rewrite !nth_map_lt with (da := 0%nat) by (rewrite seq_length; lia).
      rewrite !seq_nth by lia. rewrite <- ring_count_sym by lia. f_equal. lia.
  Qed.

  (* ---------- binning ---------- *)

  Lemma theta_bin_eq i theta : (i < 2 * n)%nat -> nth i E 0 < theta <= nth (S i) E 0 ->
    theta_bin (g_theta_intv G) theta = Z.of_nat i.
  Proof.
    intros Hi Ht. unfold theta_bin. simpl.
    rewrite digitize_right_spec with (i := i); try lia; auto.
    - apply theta_edges_increasing; auto.
    - fold E. unfold E. rewrite theta_edges_length. lia.
  Qed.

  Lemma ring_start i : (i < 2 * n)%nat ->
    argmin Z.ltb (map (fun r => Z.abs (Z.of_nat (a_ring r) - Z.of_nat i)) (g_av G)) = Ok (off i).
  Proof.
    intros Hi. pose proof (ring_count_pos i Hi) as Hp.
    assert (Hoff := off_bound i 0 Hi ltac:(lia)). rewrite Nat.add_0_r in Hoff.
    assert (Hrow : forall k i' j', k = (off i' + j')%nat -> (i' < 2 * n)%nat -> (j' < K i')%nat ->
      nth k (map (fun r => Z.abs (Z.of_nat (a_ring r) - Z.of_nat i)) (g_av G)) 0%Z =
      Z.abs (Z.of_nat i' - Z.of_nat i)).
    { intros k i' j' -> Hi' Hj'.
      rewrite nth_map_lt with (da := default_row) by (apply off_bound; auto).
      rewrite av_row by auto. auto. }
    apply argminZ_first.
    - intros x Hx. apply in_map_iff in Hx. destruct Hx as [r [<- _]]. lia.
    - rewrite map_length. auto.
    - rewrite (Hrow (off i) i 0%nat); auto; lia.
    - intros q Hq.
      destruct (av_decompose q ltac:(lia)) as [i' [j' [H1 [H2 H3]]]].
      rewrite (Hrow q i' j'); auto.
      assert (i' < i)%nat.
      { destruct (Nat.lt_ge_cases i' i); auto. pose proof (off_le i i' ltac:(lia)). lia. }
      lia.
  Qed.

  Lemma overall_bin_gen i phi d : (i < 2 * n)%nat ->
    digitize_right phi (nth i (g_phi_intv G) []) = d ->
    overall_bin (g_phi_intv G) (g_av G) (Z.of_nat i) phi = Ok (Z.of_nat (off i) + (Z.of_nat d - 1))%Z.
  Proof.
    intros Hi Hd. unfold overall_bin.
    rewrite py_index_ok with (d := []) by (rewrite phi_intv_length; lia).
    rewrite Nat2Z.id. cbn [rbind]. rewrite ring_start by auto. cbn [rbind]. rewrite Hd. auto.
  Qed.

  Lemma overall_bin_eq i j phi : (i < 2 * n)%nat -> (j < K i)%nat ->
    phi_edge i j < phi <= phi_edge i (S j) ->
    overall_bin (g_phi_intv G) (g_av G) (Z.of_nat i) phi = Ok (Z.of_nat (off i + j)).
  Proof.
    intros Hi Hj Hphi. rewrite overall_bin_gen with (d := S j); auto.
    - f_equal. lia.
    - apply digitize_right_spec.
      + apply phi_intv_inc; auto.
      + rewrite phi_intv_nth by auto. rewrite linspace_length. lia.
      + rewrite !phi_intv_nth_nth by lia. auto.
  Qed.

  (* azimuth exactly 0: the index of the previous row *)
  Lemma overall_bin_zero i : (i < 2 * n)%nat ->
    overall_bin (g_phi_intv G) (g_av G) (Z.of_nat i) 0 = Ok (Z.of_nat (off i) - 1)%Z.
  Proof.
    intros Hi. rewrite overall_bin_gen with (d := 0%nat); auto.
    apply digitize_right_below. intros y Hy.
    apply In_nth with (d := 0) in Hy. destruct Hy as [k [Hk <-]].
    rewrite phi_intv_nth, linspace_length in Hk by auto.
    rewrite phi_intv_nth_nth by lia. unfold phi_edge.
    apply Rmult_le_pos; [apply pos_INR|]. left. apply phi_step_pos; auto.
  Qed.

  Lemma bin_of_eq i j theta phi : (i < 2 * n)%nat -> (j < K i)%nat ->
    nth i E 0 < theta <= nth (S i) E 0 -> phi_edge i j < phi <= phi_edge i (S j) ->
    bin_of G theta phi = Ok (Z.of_nat (off i + j)).
  Proof.
    intros Hi Hj Ht Hp. unfold bin_of. rewrite (theta_bin_eq i) by auto. apply overall_bin_eq; auto.
  Qed.

  Lemma find_theta theta : 0 < theta <= PI ->
    exists i, (i < 2 * n)%nat /\ nth i E 0 < theta <= nth (S i) E 0.
  Proof.
    intros Ht. destruct (find_interval_right E theta) as [i [H1 H2]].
    - apply theta_edges_increasing; auto.
    - unfold E. rewrite theta_edges_length. lia.
    - unfold E. rewrite theta_edges_length.
      replace (2 * n + 1 - 1)%nat with (2 * n)%nat by lia.
      rewrite theta_edges_0, theta_edges_2n by auto. auto.
    - exists i. split; auto. unfold E in H1. rewrite theta_edges_length in H1. lia.
  Qed.

  Lemma find_phi i phi : (i < 2 * n)%nat -> 0 < phi <= phi_sym ->
    exists j, (j < K i)%nat /\ phi_edge i j < phi <= phi_edge i (S j).
  Proof.
    intros Hi Hp. pose proof (ring_count_pos i Hi).
    destruct (find_interval_right (nth i (g_phi_intv G) []) phi) as [j [H1 H2]].
    - apply phi_intv_inc; auto.
    - rewrite phi_intv_nth, linspace_length by auto. lia.
    - rewrite phi_intv_nth by auto. rewrite linspace_length.
      rewrite linspace_first, linspace_last by lia. auto.
    - rewrite phi_intv_nth, linspace_length in H1 by auto.
      exists j. split; [lia|]. rewrite !phi_intv_nth_nth in H2 by lia. auto.
  Qed.

  Lemma find_phi_left i phi : (i < 2 * n)%nat -> 0 <= phi < phi_sym ->
    exists j, (j < K i)%nat /\ phi_edge i j <= phi < phi_edge i (S j).
  Proof.
    intros Hi Hp. pose proof (ring_count_pos i Hi).
    destruct (find_interval_left (nth i (g_phi_intv G) []) phi) as [j [H1 H2]].
    - apply phi_intv_inc; auto.
    - rewrite phi_intv_nth, linspace_length by auto. lia.
    - rewrite phi_intv_nth by auto. rewrite linspace_length.
      rewrite linspace_first, linspace_last by lia. auto.
    - rewrite phi_intv_nth, linspace_length in H1 by auto.
      exists j. split; [lia|]. rewrite !phi_intv_nth_nth in H2 by lia. auto.
  Qed.

  Lemma find_theta_left theta : 0 <= theta < PI ->
    exists i, (i < 2 * n)%nat /\ nth i E 0 <= theta < nth (S i) E 0.
  Proof.
    intros Ht. destruct (find_interval_left E theta) as [i [H1 H2]].
    - apply theta_edges_increasing; auto.
    - unfold E. rewrite theta_edges_length. lia.
    - unfold E. rewrite theta_edges_length.
      replace (2 * n + 1 - 1)%nat with (2 * n)%nat by lia.
      rewrite theta_edges_0, theta_edges_2n by auto. auto.
    - exists i. split; auto. unfold E in H1. rewrite theta_edges_length in H1. lia.
  Qed.
End Grid.

(* ---------- folding ---------- *)

Lemma fold_phi_range phi s : 0 < s -> 0 <= fold_phi phi s < s.
Proof. intros. apply pymod_range. auto. Qed.

Lemma fold_phi_congr phi s (m : Z) : 0 < s -> IZR m * s = 2 * PI ->
  exists k : Z, fold_phi phi s = phi + IZR k * s.
Proof.
  intros Hs Hm. unfold fold_phi.
  destruct (pymod_congr (Rabs (pyfloordiv phi PI) * 2 * PI + phi) s) as [k ->].
  unfold pyfloordiv. rewrite <- abs_IZR.
  exists (Z.abs (Zfloor (phi / PI)) * m + k)%Z.
  rewrite plus_IZR, mult_IZR. rewrite Rmult_assoc, <- Hm. ring.
Qed.

Lemma fold_phi_unique phi s r (m k : Z) : 0 < s -> IZR m * s = 2 * PI ->
  0 <= r < s -> phi = r + IZR k * s -> fold_phi phi s = r.
Proof.
  intros Hs Hm Hr ->. unfold fold_phi. unfold pyfloordiv. rewrite <- abs_IZR.
  set (a := Z.abs _).
  apply pymod_unique with (k := (a * m + k)%Z); auto.
  rewrite plus_IZR, mult_IZR. rewrite (Rmult_assoc (IZR a) 2 PI), <- Hm. ring.
Qed.

Lemma fold_phi_periodic phi s (m k : Z) : 0 < s -> IZR m * s = 2 * PI ->
  fold_phi (phi + IZR k * s) s = fold_phi phi s.
Proof.
  intros Hs Hm. destruct (fold_phi_congr phi s m Hs Hm) as [j Hj].
  apply fold_phi_unique with (m := m) (k := (k - j)%Z); auto.
  - apply fold_phi_range; auto.
  - rewrite Hj, minus_IZR. ring.
Qed.

Lemma fold_phi_idem phi s (m : Z) : 0 < s -> IZR m * s = 2 * PI ->
  fold_phi (fold_phi phi s) s = fold_phi phi s.
Proof.
  intros Hs Hm. apply fold_phi_unique with (m := m) (k := 0%Z); auto.
  - apply fold_phi_range; auto.
  - lra.
Qed.
