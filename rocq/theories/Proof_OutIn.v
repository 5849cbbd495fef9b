(* Proofs about the incident power vector (C07) and the outgoing -> incoming relabelling (C08) *)
From Coq Require Import Reals List ZArith Bool Lia Lra Psatz FinFun.
From Verif Require Import Base Lib Model_Angles Proof_Angles Spec_Angles Proof_AnglesProps
  Model_Ideal Model_MatMul Spec_Matrix Spec_MatMul Proof_Ideal Proof_IdealProps.
Import ListNotations.
Open Scope R_scope.

Lemma nth_nil {A} i (d : A) : nth i [] d = d.
Proof. destruct i; auto. Qed.

Lemma sub_entry m r0 nr c0 nc r c : (r < nr)%nat -> (c < nc)%nat ->
  entry (submatrix m r0 nr c0 nc) r c = entry m (r0 + r) (c0 + c).
Proof.
  intros Hr Hc. unfold entry, submatrix.
  destruct (Nat.lt_ge_cases (r0 + r) (length m)) as [H|H].
  - rewrite nth_map_lt with (da := []).
    + rewrite nth_firstn_lt, nth_skipn_add by auto. rewrite nth_firstn_lt, nth_skipn_add by auto. auto.
    + rewrite firstn_length, skipn_length. lia.
  - rewrite (nth_overflow m) by auto. rewrite (nth_overflow (map _ _)), !nth_nil; auto.
    rewrite map_length, firstn_length, skipn_length. lia.
Qed.

Lemma sub_shape m NR NC r0 nr c0 nc : has_shape m NR NC -> (r0 + nr <= NR)%nat -> (c0 + nc <= NC)%nat ->
  has_shape (submatrix m r0 nr c0 nc) nr nc.
Proof.
  intros [H1 H2] Hr Hc. split.
  - unfold submatrix. rewrite map_length, firstn_length, skipn_length. lia.
  - intros row Hrow. unfold submatrix in Hrow. apply in_map_iff in Hrow. destruct Hrow as [x [<- Hx]].
    rewrite firstn_length, skipn_length. rewrite H2; [lia|].
    apply In_nth with (d := []) in Hx. destruct Hx as [k [Hk <-]].
    rewrite firstn_length, skipn_length in Hk. rewrite nth_firstn_lt by lia. rewrite nth_skipn_add.
    apply nth_In. lia.
Qed.

(* a one-hot matrix whose positions are an injection of [0,h) is a permutation matrix *)
Lemma unit_perm M h p : has_shape M h h -> (forall c, (c < h)%nat -> (p c < h)%nat) ->
  (forall c c', (c < h)%nat -> (c' < h)%nat -> p c = p c' -> c = c') ->
  (forall r c, (r < h)%nat -> (c < h)%nat -> entry M r c = if Nat.eqb r (p c) then 1 else 0) ->
  permutation_matrix M h /\ forall c, (c < h)%nat -> column_is_unit M h c (p c).
Proof.
  intros Hs Hp Hinj HM.
  assert (HC : forall c, (c < h)%nat -> column_is_unit M h c (p c)).
  { intros c Hc. split; auto. }
  split; auto. split; auto. split.
  - intros c Hc. eauto.
  - intros r Hr.
    assert (HS : bSurjective h p).
    { apply bInjective_bSurjective; [exact Hp|]. intros x y Hx Hy E. auto. }
    destruct (HS r Hr) as [c [Hc E]]. exists c. split; auto. split.
    + rewrite HM by auto. rewrite E, Nat.eqb_refl. auto.
    + intros c' Hc' E'. rewrite HM in E' by auto.
      destruct (Nat.eqb_spec r (p c')) as [E2|]; [|lra]. apply Hinj; auto. lia.
Qed.

Lemma perm_keeps_power M h : permutation_matrix M h -> keeps_power h M.
Proof.
  intros [Hs [Hc Hr]]. split; auto.
  assert (HE : forall r c, (r < h)%nat -> (c < h)%nat -> 0 <= entry M r c).
  { intros r c Hr' Hc'. destruct (Hc c Hc') as [r0 [_ E]]. rewrite E by auto. destruct (Nat.eqb r r0); lra. }
  destruct Hs as [Hs1 Hs2]. split.
  - intros row x Hrow Hx. apply In_nth with (d := []) in Hrow. destruct Hrow as [r [Hr' E1]].
    assert (Hl : length row = h) by (apply Hs2; rewrite <- E1; apply nth_In; auto).
    apply In_nth with (d := 0) in Hx. destruct Hx as [c [Hc' E2]].
    rewrite <- E2, <- E1. apply HE; lia.
  - intros k Hk. destruct (Hc k Hk) as [r0 [Hr0 E]].
    rewrite (col_total_tab M h) by auto.
    rewrite (rsum_map_single _ h r0); auto.
    + rewrite E by auto. rewrite Nat.eqb_refl. auto.
    + intros j Hj Hne. rewrite E by auto. destruct (Nat.eqb_spec j r0); [congruence|auto].
Qed.

Section OutIn.
  Variables (n : nat) (phi_sym c : R) (sp : spacing) (g : grid).
  Hypothesis Hv : valid_request n phi_sym c.
  Hypothesis Hg : make_angle_vector n phi_sym c sp = Ok g.
  Let h := off n c n.
  Let K := ring_count n c.

  Variable tau : nat -> nat -> nat.
  Hypothesis Htau : forall i j, (i < 2 * n)%nat -> (j < K i)%nat -> (tau i j < K i)%nat.
  Hypothesis Hinj : forall i j j', (i < 2 * n)%nat -> (j < K i)%nat -> (j' < K i)%nat ->
    tau i j = tau i j' -> j = j'.
  Hypothesis Hbin : forall i j, (i < 2 * n)%nat -> (j < K i)%nat ->
    phi_edge n phi_sym c i (tau i j) <
      fold_phi (phi_mid n phi_sym c i j + PI) (nudge_sym phi_sym) <= phi_edge n phi_sym c i (S (tau i j)).

  Lemma oi_rows k : (k < 2 * h)%nat -> exists i j, (i < 2 * n)%nat /\ (j < K i)%nat /\ k = (off n c i + j)%nat /\
    nth k (g_av g) default_row = mk_arow i (theta_mid sp n i) (phi_mid n phi_sym c i j) /\
    ((k < h)%nat -> (i < n)%nat) /\ ((h <= k)%nat -> (n <= i)%nat).
  Proof.
    intros Hk. pose proof Hv as [Hn [Hc Hs]]. pose proof (Hgeq _ _ _ _ _ Hg) as Hgq.
    assert (Hk' : (k < length (g_av g))%nat) by (rewrite (g_len n phi_sym c sp g Hv Hg); auto).
    rewrite Hgq in Hk'.
    destruct (av_decompose sp n phi_sym c Hn Hc k Hk') as [i [j [Hi [Hj E]]]].
    exists i, j. repeat split; auto.
    - rewrite Hgq, E. apply av_row; auto.
    - intros H. destruct (Nat.lt_ge_cases i n) as [|G]; auto. pose proof (off_le n c Hn n i G). unfold h in H. lia.
    - intros H. destruct (Nat.lt_ge_cases i n) as [G|]; auto.
      pose proof (off_le n c Hn (S i) n ltac:(lia)) as H1. rewrite off_S in H1 by auto. unfold h in H. unfold K in Hj. lia.
  Qed.

  Lemma phi_edge_mirror i j : (i < 2 * n)%nat ->
    phi_edge n phi_sym c (2 * n - 1 - i) j = phi_edge n phi_sym c i j.
  Proof. pose proof Hv as [Hn _]. intros Hi. unfold phi_edge. rewrite ring_count_sym by auto. auto. Qed.

  Definition dest (k : nat) : nat :=
    match overall_bin (g_phi_intv g) (g_av g) (theta_bin (g_theta_intv g) (PI - a_theta (nth k (g_av g) default_row)))
            (fold_phi (a_phi (nth k (g_av g) default_row) + PI) (nudge_sym phi_sym)) with
    | Ok z => Z.to_nat z | Err _ => 0%nat end.

  Lemma dest_bin i j k : (i < 2 * n)%nat -> (j < K i)%nat -> k = (off n c i + j)%nat ->
    overall_bin (g_phi_intv g) (g_av g) (theta_bin (g_theta_intv g) (PI - a_theta (nth k (g_av g) default_row)))
            (fold_phi (a_phi (nth k (g_av g) default_row) + PI) (nudge_sym phi_sym)) =
    Ok (Z.of_nat (off n c (2 * n - 1 - i) + tau i j)).
  Proof.
    intros Hi Hj ->. pose proof Hv as [Hn [Hc Hs]]. pose proof (Hgeq _ _ _ _ _ Hg) as Hgq.
    rewrite Hgq. rewrite (av_row sp n phi_sym c Hn Hc i j Hi Hj). cbn [a_theta a_phi].
    rewrite <- (theta_mid_sym sp n Hn i Hi).
    rewrite (theta_bin_eq sp n phi_sym c Hn (2 * n - 1 - i)); [|lia|].
    2:{ destruct (theta_mid_inside sp n Hn (2 * n - 1 - i) ltac:(lia)). lra. }
    apply overall_bin_eq; auto; [lia| |].
    - rewrite ring_count_sym by auto. apply Htau; auto.
    - rewrite !phi_edge_mirror by auto. apply Hbin; auto.
  Qed.

  Lemma dest_eq i j k : (i < 2 * n)%nat -> (j < K i)%nat -> k = (off n c i + j)%nat ->
    dest k = (off n c (2 * n - 1 - i) + tau i j)%nat.
  Proof. intros Hi Hj E. unfold dest. rewrite (dest_bin i j k Hi Hj E). apply Nat2Z.id. Qed.

  Lemma off_high i : (n <= i < 2 * n)%nat -> (h <= off n c i)%nat.
  Proof. pose proof Hv as [Hn _]. intros H. unfold h. apply off_le; auto; lia. Qed.
  Lemma off_low i : (i < n)%nat -> (off n c i + K i <= h)%nat.
  Proof.
    pose proof Hv as [Hn _]. intros H. unfold h. pose proof (off_le n c Hn (S i) n ltac:(lia)) as H1.
    rewrite off_S in H1 by auto. auto.
  Qed.
  Lemma off_top i j : (i < 2 * n)%nat -> (j < K i)%nat -> (off n c i + j < 2 * h)%nat.
  Proof.
    pose proof Hv as [Hn [Hc Hs]]. intros Hi Hj.
    unfold h. rewrite <- (g_len n phi_sym c sp g Hv Hg). rewrite (Hgeq _ _ _ _ _ Hg). apply off_bound; auto.
  Qed.

  Lemma dest_up k : (k < h)%nat -> (h <= dest k < 2 * h)%nat.
  Proof.
    pose proof Hv as [Hn [Hc Hs]].
    intros Hk. destruct (oi_rows k ltac:(lia)) as [i [j [Hi [Hj [E [_ [H1 _]]]]]]].
    rewrite (dest_eq i j k Hi Hj E). specialize (H1 Hk).
    split; [pose proof (off_high (2 * n - 1 - i) ltac:(lia)); lia|].
    apply off_top; [lia|]. unfold K. rewrite ring_count_sym by auto. apply Htau; auto.
  Qed.
  Lemma dest_down k : (h <= k < 2 * h)%nat -> (dest k < h)%nat.
  Proof.
    pose proof Hv as [Hn [Hc Hs]].
    intros Hk. destruct (oi_rows k ltac:(lia)) as [i [j [Hi [Hj [E [_ [_ H1]]]]]]].
    rewrite (dest_eq i j k Hi Hj E). specialize (H1 (proj1 Hk)).
    pose proof (off_low (2 * n - 1 - i) ltac:(lia)) as H2.
    assert (tau i j < K (2 * n - 1 - i))%nat by (unfold K; rewrite ring_count_sym by auto; apply Htau; auto). lia.
  Qed.
  Lemma dest_inj k k' : (k < 2 * h)%nat -> (k' < 2 * h)%nat -> dest k = dest k' -> k = k'.
  Proof.
    pose proof Hv as [Hn [Hc Hs]].
    intros Hk Hk' E.
    destruct (oi_rows k Hk) as [i [j [Hi [Hj [E1 _]]]]].
    destruct (oi_rows k' Hk') as [i' [j' [Hi' [Hj' [E1' _]]]]].
    rewrite (dest_eq i j k Hi Hj E1), (dest_eq i' j' k' Hi' Hj' E1') in E.
    assert (L : forall i j, (i < 2 * n)%nat -> (j < K i)%nat -> (tau i j < ring_count n c (2 * n - 1 - i))%nat).
    { intros a b Ha Hb. rewrite ring_count_sym by auto. apply Htau; auto. }
    destruct (off_inj sp n phi_sym c Hn Hc (2 * n - 1 - i) (tau i j) (2 * n - 1 - i') (tau i' j')) as [A B]; auto; try lia.
    assert (i = i') by lia. subst i'. assert (j = j') by (eapply Hinj; eauto). lia.
  Qed.

  Lemma oi_pos : out_to_in_pos g phi_sym = Ok (map dest (seq 0 (2 * h))).
  Proof.
    pose proof Hv as [Hn [Hc Hs]].
    pose proof (g_len n phi_sym c sp g Hv Hg) as HL. fold h in HL.
    unfold out_to_in_pos.
    assert (E1 : rmap (fun r => overall_bin (g_phi_intv g) (g_av g)
                          (theta_bin (g_theta_intv g) (PI - a_theta r))
                          (fold_phi (a_phi r + PI) (nudge_sym phi_sym))) (g_av g) =
                 Ok (map (fun k => Z.of_nat (dest k)) (seq 0 (2 * h)))).
    { match goal with |- rmap ?f _ = _ => transitivity (rmap f (map (fun i => nth i (g_av g) default_row) (seq 0 (2 * h)))) end;
        [rewrite <- HL, map_nth_seq; auto|].
      assert (Gen : forall l, (forall k, In k l -> (k < 2 * h)%nat) ->
        rmap (fun r => overall_bin (g_phi_intv g) (g_av g)
                          (theta_bin (g_theta_intv g) (PI - a_theta r))
                          (fold_phi (a_phi r + PI) (nudge_sym phi_sym)))
             (map (fun i => nth i (g_av g) default_row) l) = Ok (map (fun k => Z.of_nat (dest k)) l)).
      { induction l as [|k l IH]; intros H; [reflexivity|].
        simpl map. cbn [rmap].
        destruct (oi_rows k ltac:(apply H; simpl; auto)) as [i [j [Hi [Hj [E _]]]]].
        rewrite (dest_bin i j k Hi Hj E). cbn [rbind].
        rewrite IH by (intros; apply H; simpl; auto). cbn [rbind].
        rewrite (dest_eq i j k Hi Hj E). auto. }
      apply Gen. intros k Hk. apply in_seq in Hk. lia. }
    rewrite E1. cbn [rbind]. rewrite (rmap_ok _ Z.to_nat).
    - rewrite map_map. f_equal. apply map_ext. intros. apply Nat2Z.id.
    - intros z Hz. apply in_map_iff in Hz. destruct Hz as [k [<- Hk]]. apply in_seq in Hk.
      apply py_pos_ok. rewrite HL. destruct (Nat.lt_ge_cases k h) as [H|H].
      + pose proof (dest_up k H). lia.
      + pose proof (dest_down k ltac:(lia)). lia.
  Qed.

  Lemma oi_matrices : exists u d, out_to_in_matrix g phi_sym = Ok (u, d) /\
    permutation_matrix u h /\ permutation_matrix d h /\
    (forall k, (k < h)%nat -> column_is_unit u h k (dest k - h)) /\
    (forall k, (k < h)%nat -> column_is_unit d h k (dest (h + k))).
  Proof.
    pose proof (g_len n phi_sym c sp g Hv Hg) as HL. fold h in HL.
    unfold out_to_in_matrix. rewrite oi_pos. cbn [rbind].
    rewrite (g_half n phi_sym c sp g Hv Hg). fold h. rewrite HL.
    replace (2 * h - h)%nat with h by lia.
    set (pos := map dest (seq 0 (2 * h))).
    assert (Lp : length pos = (2 * h)%nat) by (unfold pos; rewrite map_length, seq_length; auto).
    assert (Hsh : has_shape (onehot (2 * h) pos) (2 * h) (2 * h)) by (rewrite <- Lp at 3; apply onehot_shape).
    assert (Ep : forall k, (k < 2 * h)%nat -> nth k pos 0%nat = dest k).
    { intros k Hk. unfold pos. rewrite nth_map_lt with (da := 0%nat) by (rewrite seq_length; auto).
      rewrite nth_seq0 by auto. auto. }
    eexists. eexists. split; [reflexivity|].
    destruct (unit_perm (submatrix (onehot (2 * h) pos) h h 0 h) h (fun k => dest k - h)%nat) as [U1 U2].
    { apply sub_shape with (NR := (2 * h)%nat) (NC := (2 * h)%nat); auto; lia. }
    { intros k Hk. pose proof (dest_up k Hk). lia. }
    { intros k k' Hk Hk' E. apply dest_inj; try lia. pose proof (dest_up k Hk). pose proof (dest_up k' Hk'). lia. }
    { intros r k Hr Hk. rewrite sub_entry by auto. rewrite onehot_entry by lia. rewrite Ep by lia. simpl.
      pose proof (dest_up k Hk). destruct (Nat.eqb_spec (h + r) (dest k)), (Nat.eqb_spec r (dest k - h)); auto; lia. }
    destruct (unit_perm (submatrix (onehot (2 * h) pos) 0 h h h) h (fun k => dest (h + k))) as [D1 D2].
    { apply sub_shape with (NR := (2 * h)%nat) (NC := (2 * h)%nat); auto; lia. }
    { intros k Hk. apply dest_down. lia. }
    { intros k k' Hk Hk' E. apply dest_inj in E; lia. }
    { intros r k Hr Hk. rewrite sub_entry by auto. rewrite onehot_entry by lia. rewrite Ep by lia. auto. }
    auto.
  Qed.

  Lemma dest_row k r0 : (k < 2 * h)%nat -> nth_error (g_av g) k = Some r0 ->
    exists i j, (i < 2 * n)%nat /\ (j < K i)%nat /\
      r0 = mk_arow i (theta_mid sp n i) (phi_mid n phi_sym c i j) /\
      nth_error (g_av g) (dest k) = Some (mk_arow (2 * n - 1 - i) (PI - theta_mid sp n i)
                                            (phi_mid n phi_sym c i (tau i j))).
  Proof.
    pose proof Hv as [Hn [Hc Hs]].
    intros Hk Hr. destruct (oi_rows k Hk) as [i [j [Hi [Hj [E [E2 _]]]]]].
    exists i, j. split; auto. split; auto.
    apply nth_error_nth with (d := default_row) in Hr. rewrite E2 in Hr. split; auto.
    rewrite (dest_eq i j k Hi Hj E). rewrite (Hgeq _ _ _ _ _ Hg).
    assert (Ht : (tau i j < ring_count n c (2 * n - 1 - i))%nat) by (rewrite ring_count_sym by auto; apply Htau; auto).
    rewrite nth_error_nth' with (d := default_row) by (apply off_bound; auto; lia).
    rewrite av_row by (auto; lia). rewrite theta_mid_sym by auto.
    unfold phi_mid. rewrite !phi_edge_mirror by auto. auto.
  Qed.
End OutIn.

(* ---------- the three regimes ---------- *)

Lemma nudge_other phi_sym : phi_sym <> 2 * PI -> nudge_sym phi_sym = phi_sym.
Proof. intros H. unfold nudge_sym. destruct (Reqb phi_sym (2 * PI)) eqn:E; auto. apply Reqb_true in E. tauto. Qed.
Lemma nudge_full : nudge_sym (2 * PI) = 2 * PI - 1 / 10000.
Proof. unfold nudge_sym. rewrite Reqb_refl. auto. Qed.

Lemma m_fold_not_full m s : m_fold m s -> (2 <= m)%nat -> s <> 2 * PI.
Proof.
  intros [Hm ->] H E. pose proof PI_RGT_0.
  assert (2 <= INR m) by (change 2 with (INR 2); apply le_INR; auto).
  apply Rmult_eq_compat_r with (r := INR m) in E. unfold Rdiv in E. rewrite Rmult_assoc, Rinv_l, Rmult_1_r in E by lra. nra.
Qed.

Lemma half_shift k : (2 * ((k + 1) / 2) = k + Nat.b2n (Nat.odd k))%nat.
Proof.
  pose proof (Nat.div_mod (k + 1) 2 ltac:(lia)). pose proof (Nat.mod_upper_bound (k + 1) 2 ltac:(lia)).
  destruct (Nat.odd k) eqn:E; cbn [Nat.b2n].
  - apply Nat.odd_spec in E. destruct E as [q ->]. 
    assert ((2 * q + 1 + 1) mod 2 = 0)%nat.
    { replace (2 * q + 1 + 1)%nat with (0 + (q + 1) * 2)%nat by lia. rewrite Nat.mod_add by lia. auto. }
    lia.
  - assert (Ev : Nat.even k = true) by (rewrite <- Nat.negb_odd, E; auto).
    apply Nat.even_spec in Ev. destruct Ev as [q ->].
    assert ((2 * q + 1) mod 2 = 1)%nat.
    { replace (2 * q + 1)%nat with (1 + q * 2)%nat by lia. rewrite Nat.mod_add by lia. auto. }
    lia.
Qed.

Lemma b2n_le_1 b : (Nat.b2n b <= 1)%nat.
Proof. destruct b; simpl; lia. Qed.

Section Regimes.
  Variables (n : nat) (phi_sym c : R).
  Hypothesis Hn : (1 <= n)%nat.
  Hypothesis Hc : 0 < c.
  Hypothesis Hs : 0 < phi_sym.
  Let K := ring_count n c.

  Lemma phi_mid_val i j : phi_mid n phi_sym c i j = INR (2 * j + 1) * (phi_sym / (2 * INR (K i))).
  Proof.
    unfold phi_mid, phi_edge. fold K. rewrite S_INR, plus_INR, mult_INR. simpl (INR 2). simpl (INR 1).
    unfold Rdiv. rewrite Rinv_mult. lra.
  Qed.
  Lemma phi_edge_val i j : phi_edge n phi_sym c i j = INR (2 * j) * (phi_sym / (2 * INR (K i))).
  Proof. unfold phi_edge. fold K. rewrite mult_INR. simpl (INR 2). unfold Rdiv. rewrite Rinv_mult. lra. Qed.

  Lemma unit_pos i : (i < 2 * n)%nat -> 0 < phi_sym / (2 * INR (K i)).
  Proof.
    intros Hi. apply Rdiv_lt_0_compat; auto. pose proof (ring_count_pos n c Hn Hc i Hi). fold K in H.
    assert (0 < INR (K i)) by (apply lt_0_INR; lia). lra.
  Qed.
  Lemma sym_val i : (i < 2 * n)%nat -> phi_sym = INR (2 * K i) * (phi_sym / (2 * INR (K i))).
  Proof.
    intros Hi. pose proof (ring_count_pos n c Hn Hc i Hi). fold K in H.
    assert (0 < INR (K i)) by (apply lt_0_INR; lia). rewrite mult_INR. simpl (INR 2). field. lra.
  Qed.
  Lemma phi_mid_range i j : (i < 2 * n)%nat -> (j < K i)%nat -> 0 < phi_mid n phi_sym c i j < phi_sym.
  Proof.
    intros Hi Hj. rewrite phi_mid_val. rewrite (sym_val i Hi) at 3.
    pose proof (unit_pos i Hi). split.
    - apply Rmult_lt_0_compat; auto. apply lt_0_INR. lia.
    - apply Rmult_lt_compat_r; auto. apply lt_INR. lia.
  Qed.

  (* the fold of phi + PI, in half-bin units *)
  Lemma fold_half m i j e q : m_fold m phi_sym -> (i < 2 * n)%nat ->
    (2 * j + 1 + m * K i = e + q * (2 * K i))%nat -> (e < 2 * K i)%nat ->
    fold_phi (phi_mid n phi_sym c i j + PI) phi_sym = INR e * (phi_sym / (2 * INR (K i))).
  Proof.
    intros Hm Hi E He. destruct (m_fold_Z m phi_sym Hm) as [_ HE].
    pose proof (unit_pos i Hi) as Hu. pose proof (sym_val i Hi) as HS.
    set (u := phi_sym / (2 * INR (K i))) in *.
    apply fold_phi_unique with (m := Z.of_nat m) (k := Z.of_nat q); auto.
    - split; [apply Rmult_le_pos; [apply pos_INR|lra]|]. rewrite HS. apply Rmult_lt_compat_r; auto. apply lt_INR. auto.
    - rewrite phi_mid_val. fold u. rewrite <- !INR_IZR_INZ in *.
      assert (HP : PI = INR (m * K i) * u).
      { rewrite mult_INR. assert (INR m * (INR (2 * K i) * u) = 2 * PI) by (rewrite <- HS; auto).
        rewrite mult_INR in H. simpl (INR 2) in H. lra. }
      rewrite HP. rewrite HS at 1. rewrite <- Rmult_assoc, <- mult_INR, <- !Rmult_plus_distr_r, <- !plus_INR.
      f_equal. f_equal. auto.
  Qed.

  Definition turn (i j : nat) : nat := ((j + (K i + 1) / 2) mod K i)%nat.

  Lemma turn_lt i j : (i < 2 * n)%nat -> (turn i j < K i)%nat.
  Proof. intros Hi. pose proof (ring_count_pos n c Hn Hc i Hi). apply Nat.mod_upper_bound. fold K in H. lia. Qed.

  Lemma turn_cases i j : (i < 2 * n)%nat -> (j < K i)%nat ->
    (turn i j = j + (K i + 1) / 2 /\ j + (K i + 1) / 2 < K i)%nat \/
    (turn i j + K i = j + (K i + 1) / 2)%nat.
  Proof.
    intros Hi Hj. pose proof (ring_count_pos n c Hn Hc i Hi) as HK. fold K in HK.
    pose proof (half_shift (K i)) as H2. pose proof (b2n_le_1 (Nat.odd (K i))) as H3. unfold turn.
    destruct (Nat.lt_ge_cases (j + (K i + 1) / 2) (K i)) as [H|H].
    - left. rewrite Nat.mod_small by auto. auto.
    - right.
      replace ((j + (K i + 1) / 2) mod K i)%nat with (j + (K i + 1) / 2 - K i)%nat; [lia|].
      symmetry. replace (j + (K i + 1) / 2)%nat with (j + (K i + 1) / 2 - K i + 1 * K i)%nat at 1 by lia.
      rewrite Nat.mod_add by lia. apply Nat.mod_small. lia.
  Qed.

  Lemma turn_inj i j j' : (i < 2 * n)%nat -> (j < K i)%nat -> (j' < K i)%nat -> turn i j = turn i j' -> j = j'.
  Proof.
    intros Hi Hj Hj' E. destruct (turn_cases i j Hi Hj) as [[A1 A2]|A], (turn_cases i j' Hi Hj') as [[B1 B2]|B]; lia.
  Qed.

  (* even m *)
  Lemma bin_even m i j : m_fold m phi_sym -> Nat.even m = true -> (i < 2 * n)%nat -> (j < K i)%nat ->
    fold_phi (phi_mid n phi_sym c i j + PI) (nudge_sym phi_sym) = phi_mid n phi_sym c i j.
  Proof.
    intros Hm He Hi Hj. apply Nat.even_spec in He. destruct He as [p Hp].
    rewrite nudge_other by (apply (m_fold_not_full m); auto; destruct Hm; lia).
    rewrite (fold_half m i j (2 * j + 1) p Hm Hi); [|subst m; nia|lia].
    symmetry. apply phi_mid_val.
  Qed.

  (* odd m, even number of bins *)
  Lemma bin_odd m i j : m_fold m phi_sym -> Nat.odd m = true -> (3 <= m)%nat -> (i < 2 * n)%nat -> (j < K i)%nat ->
    Nat.even (K i) = true ->
    fold_phi (phi_mid n phi_sym c i j + PI) (nudge_sym phi_sym) = phi_mid n phi_sym c i (turn i j).
  Proof.
    intros Hm Ho H3 Hi Hj He. apply Nat.odd_spec in Ho. destruct Ho as [p Hp].
    rewrite nudge_other by (apply (m_fold_not_full m); auto; lia).
    pose proof (half_shift (K i)) as H2. rewrite <- Nat.negb_even, He in H2. cbn [negb Nat.b2n] in H2.
    rewrite (phi_mid_val i (turn i j)). destruct (turn_cases i j Hi Hj) as [[A1 A2]|A].
    - apply fold_half with (m := m) (q := p); auto; [|lia]. subst m. rewrite A1. nia.
    - pose proof (turn_lt i j Hi).
      apply fold_half with (m := m) (q := (p + 1)%nat); auto; [|lia]. subst m. nia.
  Qed.
End Regimes.

(* m = 1: the symmetry angle is nudged to 2 pi - 1e-4 *)
Lemma bin_full n c i j : (1 <= n)%nat -> 0 < c -> (i < 2 * n)%nat -> (j < ring_count n c i)%nat ->
  INR (ring_count n c i) * (3 / 10000) < PI ->
  phi_edge n (2 * PI) c i (turn n c i j) <
    fold_phi (phi_mid n (2 * PI) c i j + PI) (nudge_sym (2 * PI)) <= phi_edge n (2 * PI) c i (S (turn n c i j)).
Proof.
  intros Hn Hc Hi Hj Hw. pose proof PI_RGT_0 as HP. pose proof PI2_3_2 as HP3.
  assert (Hs : 0 < 2 * PI) by lra.
  rewrite nudge_full.
  pose proof (half_shift (ring_count n c i)) as H2.
  pose proof (ring_count_pos n c Hn Hc i Hi) as HKp.
  pose proof (turn_cases n c Hn Hc i j Hi Hj) as HT.
  rewrite !phi_edge_val, !phi_mid_val.
  set (K := ring_count n c i) in *.
  set (u := 2 * PI / (2 * INR K)).
  assert (HKR : 0 < INR K) by (apply lt_0_INR; lia).
  assert (Hu : INR K * u = PI) by (unfold u; field; lra).
  assert (Hu0 : 3 / 10000 < u).
  { apply Rmult_lt_reg_l with (INR K); auto. lra. }
  assert (EN : forall a, INR (2 * a) = 2 * INR a) by (intros; rewrite mult_INR; simpl (INR 2); auto).
  assert (EN1 : forall a, INR (2 * a + 1) = 2 * INR a + 1) by (intros; rewrite plus_INR, mult_INR; simpl; lra).
  rewrite !EN, !EN1.
  set (x := (2 * INR j + 1) * u).
  assert (Hx0 : 0 < x) by (unfold x; pose proof (pos_INR j); nra).
  set (t := turn n c i j) in *.
  (* half-bin arithmetic: 2((K+1)/2) = K + b *)
  set (b := Nat.b2n (Nat.odd K)) in *.
  set (hf := ((K + 1) / 2)%nat) in *.
  assert (Hb : (b = 0 \/ b = 1)%nat) by (unfold b; destruct (Nat.odd K); auto).
  assert (HbR : 2 * INR hf = INR K + INR b).
  { rewrite <- EN, H2, plus_INR. auto. }
  assert (Hpar : forall q : nat, (2 * q + 1 = K)%nat -> b = 1%nat).
  { intros q Hq. unfold b. replace (Nat.odd K) with true; auto. symmetry. apply Nat.odd_spec. exists q. lia. }
  rewrite S_INR.
  destruct (Nat.lt_ge_cases (2 * j + 1) K) as [HL|HG].
  - (* phi < pi *)
    assert (HLR : 2 * INR j + 1 + 1 <= INR K).
    { replace (2 * INR j + 1 + 1) with (INR (2 * j + 2)) by (rewrite plus_INR, mult_INR; simpl; lra). apply le_INR. lia. }
    assert (Hxle : x <= PI - u) by (unfold x; rewrite <- Hu; nra).
    assert (HF : fold_phi (x + PI) (2 * PI - 1 / 10000) = x + PI + 1 / 10000).
    { unfold fold_phi, pyfloordiv. replace (Zfloor ((x + PI) / PI)) with 1%Z.
      - rewrite Rabs_R1. apply pymod_unique with (k := 1%Z); lra.
      - symmetry. apply Zfloor_unique.
        replace ((x + PI) / PI) with (x / PI + 1) by (field; lra).
        assert (0 < x / PI) by (apply Rdiv_lt_0_compat; auto).
        assert (x / PI < 1) by (apply Rmult_lt_reg_r with PI; auto; unfold Rdiv; rewrite Rmult_assoc, Rinv_l; lra).
        simpl (IZR 1). lra. }
    rewrite HF.
    assert (HTl : (t = j + hf)%nat).
    { destruct HT as [[A1 A2]|A]; auto. exfalso.
      assert (Nat.b2n (Nat.odd K) <= 1)%nat by apply b2n_le_1. fold b in H.
      assert (2 * (j + hf) = 2 * j + K + b)%nat by lia.
      assert (2 * j + b >= K)%nat by lia. assert (2 * j + 1 = K -> False)%nat by lia. lia. }
    rewrite HTl, plus_INR.
    assert (E1 : x + PI = (2 * (INR j + INR hf) + 1 - INR b) * u).
    { unfold x. rewrite <- Hu. replace (2 * (INR j + INR hf)) with (2 * INR j + (INR K + INR b)) by lra. ring. }
    rewrite E1. destruct Hb as [-> | ->]; simpl INR; split; nra.
  - (* phi >= pi *)
    assert (HGR : INR K <= 2 * INR j + 1).
    { replace (2 * INR j + 1) with (INR (2 * j + 1)) by (rewrite plus_INR, mult_INR; simpl; lra). apply le_INR. lia. }
    assert (HjR : 2 * INR j + 1 + 1 <= 2 * INR K).
    { replace (2 * INR j + 1 + 1) with (INR (2 * j + 2)) by (rewrite plus_INR, mult_INR; simpl; lra).
      rewrite <- EN. apply le_INR. lia. }
    assert (Hxge : PI <= x) by (unfold x; rewrite <- Hu; nra).
    assert (Hxlt : x <= 2 * PI - u) by (unfold x; rewrite <- Hu; nra).
    assert (HF : fold_phi (x + PI) (2 * PI - 1 / 10000) = x - PI + 3 / 10000).
    { unfold fold_phi, pyfloordiv. replace (Zfloor ((x + PI) / PI)) with 2%Z.
      - rewrite Rabs_pos_eq by (simpl; lra). apply pymod_unique with (k := 3%Z); lra.
      - symmetry. apply Zfloor_unique.
        replace ((x + PI) / PI) with (x / PI + 1) by (field; lra).
        assert (1 <= x / PI) by (apply Rmult_le_reg_r with PI; auto; unfold Rdiv; rewrite Rmult_assoc, Rinv_l; lra).
        assert (x / PI < 2) by (apply Rmult_lt_reg_r with PI; auto; unfold Rdiv; rewrite Rmult_assoc, Rinv_l; lra).
        simpl (IZR 2). lra. }
    rewrite HF.
    assert (HTl : (t + K = j + hf)%nat).
    { destruct HT as [[A1 A2]|A]; auto. exfalso.
      assert (2 * (j + hf) = 2 * j + K + b)%nat by lia.
      assert (2 * j + b < K)%nat by lia.
      assert (2 * j + 1 = K)%nat by lia. pose proof (Hpar j H1). lia. }
    assert (HtR : INR t = INR j + INR hf - INR K).
    { rewrite <- plus_INR, <- HTl, plus_INR. lra. }
    rewrite HtR.
    assert (E1 : x - PI = (2 * (INR j + INR hf - INR K) + 1 - INR b) * u).
    { unfold x. rewrite <- Hu. replace (2 * (INR j + INR hf - INR K)) with (2 * INR j + (INR K + INR b) - 2 * INR K) by lra. ring. }
    rewrite E1. destruct Hb as [-> | ->]; simpl INR; split; nra.
Qed.
