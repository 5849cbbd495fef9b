(* Proofs of the grid, folding and binning properties C01-C03 *)
From Coq Require Import Reals List ZArith Bool Lia Lra Psatz.
From Verif Require Import Base Lib Model_Angles Proof_Angles Spec_Angles.
Import ListNotations.
Open Scope R_scope.

Lemma make_ok n phi_sym c sp g : make_angle_vector n phi_sym c sp = Ok g ->
  g = grid_of_edges (theta_edges sp n) phi_sym c /\ (sp = SpSin \/ sp = SpLinear).
Proof. destruct sp; simpl; intros H; inversion H; auto. Qed.

Lemma g_theta_intv_eq sp n s c : g_theta_intv (grid_of_edges (theta_edges sp n) s c) = theta_edges sp n.
Proof. reflexivity. Qed.

Section Props.
  Variables (n : nat) (phi_sym c : R) (sp : spacing) (g : grid).
  Hypothesis Hv : valid_request n phi_sym c.
  Hypothesis Hg : make_angle_vector n phi_sym c sp = Ok g.

  Lemma Hgeq : g = grid_of_edges (theta_edges sp n) phi_sym c.
  Proof. apply (make_ok _ _ _ _ _ Hg). Qed.

  Lemma C01_edges :
    length (g_theta_intv g) = (2 * n + 1)%nat /\
    strictly_increasing (g_theta_intv g) /\
    nth 0 (g_theta_intv g) 0 = 0 /\ nth n (g_theta_intv g) 0 = PI / 2 /\
    nth (2 * n) (g_theta_intv g) 0 = PI /\
    (forall i, (i <= 2 * n)%nat ->
       nth i (g_theta_intv g) 0 + nth (2 * n - i) (g_theta_intv g) 0 = PI) /\
    (forall i, (i <= n)%nat ->
       match sp with
       | SpSin => sin (nth i (g_theta_intv g) 0) = INR i / INR n
       | _ => nth i (g_theta_intv g) 0 = INR i / INR n * (PI / 2)
       end).
  Proof.
    destruct Hv as [Hn [Hc Hs]]. rewrite Hgeq. rewrite g_theta_intv_eq.
    split; [apply theta_edges_length|].
    split; [exact (theta_edges_increasing sp n Hn)|].
    split; [apply theta_edges_0; auto|].
    split; [apply theta_edges_n; auto|].
    split; [apply theta_edges_2n; auto|].
    split; [intros; apply theta_edges_sym; auto|].
    intros i Hi. rewrite theta_edges_nth_low by auto.
    pose proof (ratio_bounds n i Hn Hi).
    destruct sp; simpl; auto. apply sin_asin. lra.
  Qed.

  Lemma C01_rings :
    length (g_phi_intv g) = (2 * n)%nat /\
    forall i, (i < 2 * n)%nat ->
      length (phi_edges_of g (2 * n - 1 - i)) = length (phi_edges_of g i) /\
      strictly_increasing (phi_edges_of g i) /\
      nth 0 (phi_edges_of g i) 0 = 0 /\
      nth (length (phi_edges_of g i) - 1) (phi_edges_of g i) 0 = phi_sym /\
      ((i < n)%nat -> c * INR (i + 1) <= INR (length (phi_edges_of g i) - 1) < c * INR (i + 1) + 1).
  Proof.
    destruct Hv as [Hn [Hc Hs]]. rewrite Hgeq. unfold phi_edges_of.
    split; [apply phi_intv_length; auto|].
    intros i Hi. rewrite (phi_intv_nth sp n phi_sym c Hn Hc (2 * n - 1 - i)) by lia.
    rewrite ring_count_sym by auto.
    rewrite (phi_intv_nth sp n phi_sym c Hn Hc i) by lia.
    pose proof (ring_count_pos n c Hn Hc i Hi) as Hk.
    rewrite linspace_length.
    split; [auto|].
    split; [apply increasing_linspace; auto; lia|].
    split; [apply linspace_first; lia|].
    split; [apply linspace_last; lia|].
    intros Hin. replace (ring_count n c i + 1 - 1)%nat with (ring_count n c i) by lia.
    unfold ring_count. destruct (Nat.ltb_spec i n); [|lia].
    assert (Hp : (1 <= Zceil (c * INR (i + 1)))%Z).
    { apply Zceil_pos. apply Rmult_lt_0_compat; auto. apply lt_0_INR. lia. }
    rewrite (INR_IZR_INZ (Z.to_nat _)), Z2Nat.id by lia.
    destruct (Zceil_bounds (c * INR (i + 1))). lra.
  Qed.

  Lemma row_is_intro i j : (i < 2 * n)%nat -> (j < ring_count n c i)%nat ->
    row_is g (off n c i + j) i j.
  Proof.
    destruct Hv as [Hn [Hc Hs]]. rewrite Hgeq. intros Hi Hj.
    exists (mk_arow i (theta_mid sp n i) (phi_mid n phi_sym c i j)).
    split; [|split; [reflexivity|split]].
    - rewrite <- (av_row sp n phi_sym c Hn Hc i j Hi Hj).
      apply nth_error_nth'. apply off_bound; auto.
    - split; [rewrite g_theta_intv_eq, theta_edges_length; lia|]. simpl.
      apply (theta_mid_inside sp n Hn i Hi).
    - unfold phi_edges_of. split.
      + rewrite phi_intv_nth by auto. rewrite linspace_length. lia.
      + rewrite !phi_intv_nth_nth by (auto; lia). simpl. apply phi_mid_inside; auto.
  Qed.

  Lemma row_is_elim k i j : row_is g k i j ->
    (i < 2 * n)%nat /\ (j < ring_count n c i)%nat /\ k = (off n c i + j)%nat.
  Proof.
    intros [r [Hr [Hi [Hth Hphi]]]].
    destruct Hv as [Hn [Hc Hs]]. rewrite Hgeq in *.
    assert (Hk : (k < length (g_av (grid_of_edges (theta_edges sp n) phi_sym c)))%nat).
    { apply nth_error_Some. rewrite Hr. discriminate. }
    destruct (av_decompose sp n phi_sym c Hn Hc k Hk) as [i' [j' [Hi' [Hj' Hk']]]].
    pose proof (av_row sp n phi_sym c Hn Hc i' j' Hi' Hj') as Hrow. rewrite <- Hk' in Hrow.
    apply nth_error_nth with (d := default_row) in Hr. rewrite Hrow in Hr. subst r. simpl in *. subst i'.
    split; auto.
    destruct Hphi as [Hj1 Hj2].
    unfold phi_edges_of in *.
    pose proof (phi_mid_inside n phi_sym c Hn Hc Hs i j' Hi') as Hin.
    assert (j = j').
    { apply (increasing_inj_interval (nth i (g_phi_intv (grid_of_edges (theta_edges sp n) phi_sym c)) [])
               (phi_mid n phi_sym c i j')).
      - apply phi_intv_inc; auto.
      - auto.
      - rewrite phi_intv_nth by auto. rewrite linspace_length. lia.
      - lra.
      - rewrite !phi_intv_nth_nth by (auto; lia). lra. }
    subst j'. auto.
  Qed.

  Lemma C01_rows :
    (exists h, length (g_av g) = (2 * h)%nat /\
       forall k r, nth_error (g_av g) k = Some r ->
         ((k < h)%nat <-> 0 < a_theta r < PI / 2) /\
         ((h <= k)%nat <-> PI / 2 < a_theta r < PI) /\
         ((k < h)%nat <-> (a_ring r < n)%nat)) /\
    (forall k, (k < length (g_av g))%nat -> exists i j, row_is g k i j) /\
    (forall i j, (i < 2 * n)%nat -> (S j < length (phi_edges_of g i))%nat ->
       exists k, row_is g k i j /\ forall k', row_is g k' i j -> k' = k) /\
    (forall k k' i j i' j', row_is g k i j -> row_is g k' i' j' -> (k < k')%nat ->
       (i < i')%nat \/ (i = i' /\ (j < j')%nat)).
  Proof.
    pose proof Hgeq as Hgq.
    destruct Hv as [Hn [Hc Hs]].
    split; [|split; [|split]].
    - exists (off n c n). rewrite Hgq. split; [apply av_half; auto|].
      intros k r Hr.
      assert (Hk : (k < length (g_av (grid_of_edges (theta_edges sp n) phi_sym c)))%nat).
      { apply nth_error_Some. rewrite Hr. discriminate. }
      destruct (av_decompose sp n phi_sym c Hn Hc k Hk) as [i [j [Hi [Hj Hkk]]]].
      pose proof (av_row sp n phi_sym c Hn Hc i j Hi Hj) as Hrow. rewrite <- Hkk in Hrow.
      apply nth_error_nth with (d := default_row) in Hr. rewrite Hrow in Hr. subst r. simpl.
      destruct (Nat.lt_ge_cases i n) as [H|H].
      + pose proof (theta_mid_low sp n Hn i H).
        assert (k < off n c n)%nat.
        { pose proof (off_le n c Hn (S i) n ltac:(lia)). rewrite off_S in H1 by auto. lia. }
        repeat split; intros; try lia; try lra.
      + pose proof (theta_mid_high sp n Hn i ltac:(lia)).
        assert (off n c n <= k)%nat.
        { pose proof (off_le n c Hn n i ltac:(lia)). lia. }
        repeat split; intros; try lia; try lra.
    - intros k Hk. rewrite Hgq in Hk.
      destruct (av_decompose sp n phi_sym c Hn Hc k Hk) as [i [j [Hi [Hj ->]]]].
      exists i, j. apply row_is_intro; auto.
    - intros i j Hi Hj. unfold phi_edges_of in Hj. rewrite Hgq in Hj.
      rewrite phi_intv_nth, linspace_length in Hj by auto.
      exists (off n c i + j)%nat. split.
      + apply row_is_intro; auto; lia.
      + intros k' Hk'. apply row_is_elim in Hk'. lia.
    - intros k k' i j i' j' H H' Hlt. apply row_is_elim in H. apply row_is_elim in H'.
      destruct H as [Hi [Hj Hk]]. destruct H' as [Hi' [Hj' Hk']].
      destruct (Nat.lt_trichotomy i i') as [?|[?|?]]; auto.
      + subst i'. right. lia.
      + exfalso. pose proof (off_le n c Hn (S i') i ltac:(lia)). rewrite off_S in H0 by auto. lia.
  Qed.

  Lemma C03_unique theta phi : 0 < theta <= PI -> 0 < phi <= phi_sym ->
    exists k, bin_of g theta phi = Ok (Z.of_nat k) /\ (k < length (g_av g))%nat /\
              bin_contains g k theta phi /\
              forall k', bin_contains g k' theta phi -> k' = k.
  Proof.
    intros Ht Hp. pose proof Hgeq as Hgq. destruct Hv as [Hn [Hc Hs]].
    destruct (find_theta sp n Hn theta Ht) as [i [Hi Hti]].
    destruct (find_phi sp n phi_sym c Hn Hc Hs i phi Hi Hp) as [j [Hj Hpj]].
    exists (off n c i + j)%nat.
    split; [|split; [|split]].
    - rewrite Hgq. apply bin_of_eq; auto.
    - rewrite Hgq. apply off_bound; auto.
    - exists i, j. split; [apply row_is_intro; auto|].
      rewrite Hgq. rewrite g_theta_intv_eq. split.
      + split; [rewrite theta_edges_length; lia|auto].
      + unfold phi_edges_of. split; [rewrite phi_intv_nth, linspace_length by auto; lia|].
        rewrite !phi_intv_nth_nth by (auto; lia). auto.
    - intros k' [i' [j' [Hrow [Hth' Hphi']]]].
      apply row_is_elim in Hrow. destruct Hrow as [Hi' [Hj' ->]].
      assert (i' = i).
      { destruct Hth' as [H1 H2].
        apply (increasing_inj_interval (theta_edges sp n) theta); auto.
        - apply theta_edges_increasing; auto.
        - rewrite theta_edges_length. lia.
        - rewrite theta_edges_length. lia.
        - rewrite Hgq in H2. apply H2. }
      subst i'. f_equal.
      destruct Hphi' as [H1 H2]. unfold phi_edges_of in *. rewrite Hgq in *.
      apply (increasing_inj_interval (nth i (g_phi_intv (grid_of_edges (theta_edges sp n) phi_sym c)) []) phi); auto.
      + apply phi_intv_inc; auto.
      + rewrite phi_intv_nth, linspace_length by auto. lia.
      + rewrite !phi_intv_nth_nth by (auto; lia). auto.
  Qed.

  Lemma C03_center k r : nth_error (g_av g) k = Some r ->
    bin_of g (a_theta r) (a_phi r) = Ok (Z.of_nat k).
  Proof.
    intros Hr. pose proof Hgeq as Hgq. destruct Hv as [Hn [Hc Hs]].
    assert (Hk : (k < length (g_av g))%nat).
    { apply nth_error_Some. rewrite Hr. discriminate. }
    rewrite Hgq in Hk.
    destruct (av_decompose sp n phi_sym c Hn Hc k Hk) as [i [j [Hi [Hj Hkk]]]].
    rewrite Hgq in Hr.
    pose proof (av_row sp n phi_sym c Hn Hc i j Hi Hj) as Hrow. rewrite <- Hkk in Hrow.
    apply nth_error_nth with (d := default_row) in Hr. rewrite Hrow in Hr. subst r. simpl. subst k.
    rewrite Hgq. apply bin_of_eq; auto.
    - destruct (theta_mid_inside sp n Hn i Hi). split; lra.
    - destruct (phi_mid_inside n phi_sym c Hn Hc Hs i j Hi). split; lra.
  Qed.

  (* an azimuth of exactly 0 is never put in its own ring *)
  Lemma C03_zero theta : 0 < theta <= PI ->
    exists z, bin_of g theta 0 = Ok z /\ ((z = -1)%Z \/ ~ ring_contains g (Z.to_nat z) theta).
  Proof.
    intros Ht. pose proof Hgeq as Hgq. destruct Hv as [Hn [Hc Hs]].
    destruct (find_theta sp n Hn theta Ht) as [i [Hi Hti]].
    exists (Z.of_nat (off n c i) - 1)%Z. split.
    - rewrite Hgq. unfold bin_of. rewrite (theta_bin_eq sp n phi_sym c Hn i) by auto.
      apply overall_bin_zero; auto.
    - destruct (Nat.eq_dec (off n c i) 0) as [->|Hne]; [left; auto|]. right.
      intros [r [Hr Hin]].
      rewrite Hgq in Hr, Hin.
      assert (Hk := nth_error_Some (g_av (grid_of_edges (theta_edges sp n) phi_sym c)) (Z.to_nat (Z.of_nat (off n c i) - 1))).
      rewrite Hr in Hk. assert (Hk' := proj1 Hk ltac:(discriminate)).
      destruct (av_decompose sp n phi_sym c Hn Hc _ Hk') as [i' [j' [Hi' [Hj' Hkk]]]].
      pose proof (av_row sp n phi_sym c Hn Hc i' j' Hi' Hj') as Hrow. rewrite <- Hkk in Hrow.
      apply nth_error_nth with (d := default_row) in Hr. rewrite Hrow in Hr. subst r. simpl in Hin.
      assert (i' = i).
      { destruct Hin as [H1 H2].
        apply (increasing_inj_interval (theta_edges sp n) theta); auto.
        - apply theta_edges_increasing; auto.
        - rewrite theta_edges_length. lia. }
      subst i'. lia.
  Qed.
End Props.

Lemma m_fold_Z m s : m_fold m s -> 0 < s /\ IZR (Z.of_nat m) * s = 2 * PI.
Proof.
  intros [Hm ->]. pose proof PI_RGT_0.
  assert (0 < INR m) by (apply lt_0_INR; lia).
  rewrite <- INR_IZR_INZ. split; [apply Rdiv_lt_0_compat; lra|]. field. lra.
Qed.

Lemma C02_all m s phi : m_fold m s ->
  0 <= fold_phi phi s < s /\
  (exists k : Z, fold_phi phi s = phi + IZR k * s) /\
  (forall k : Z, fold_phi (phi + IZR k * s) s = fold_phi phi s) /\
  (forall k : Z, fold_phi (phi + IZR k * (2 * PI)) s = fold_phi phi s) /\
  (0 <= phi < s -> fold_phi phi s = phi).
Proof.
  intros Hm. destruct (m_fold_Z m s Hm) as [Hs E].
  split; [apply fold_phi_range; auto|].
  split; [eapply fold_phi_congr; eauto|].
  split; [intros; eapply fold_phi_periodic; eauto|].
  split.
  - intros k. rewrite <- E.
    replace (phi + IZR k * (IZR (Z.of_nat m) * s)) with (phi + IZR (k * Z.of_nat m) * s)
      by (rewrite mult_IZR; ring).
    eapply fold_phi_periodic; eauto.
  - intros Hr. eapply fold_phi_unique with (k := 0%Z); eauto. lra.
Qed.

(* not a symmetry of the circle: a full turn changes the folded azimuth *)
Lemma C02_nondivisor : fold_phi (0 + 2 * PI) (4 * PI / 3) <> fold_phi 0 (4 * PI / 3).
Proof.
  pose proof PI_RGT_0 as HP.
  assert (E1 : fold_phi 0 (4 * PI / 3) = 0).
  { unfold fold_phi, pyfloordiv. replace (0 / PI) with (IZR 0) by (simpl; field; lra).
    rewrite Zfloor_IZR. rewrite Rabs_R0. apply pymod_unique with (k := 0%Z); lra. }
  assert (E2 : fold_phi (0 + 2 * PI) (4 * PI / 3) = 2 * PI / 3).
  { unfold fold_phi, pyfloordiv. replace ((0 + 2 * PI) / PI) with (IZR 2) by (field; lra).
    rewrite Zfloor_IZR. rewrite Rabs_pos_eq by lra. apply pymod_unique with (k := 4%Z); lra. }
  rewrite E1, E2. lra.
Qed.

Lemma C02_nondivisor_ex : exists phi s, 0 < s /\ fold_phi (phi + 2 * PI) s <> fold_phi phi s.
Proof.
  exists 0, (4 * PI / 3). split; [pose proof PI_RGT_0; lra|apply C02_nondivisor].
Qed.
