(* The columns of the transfer-matrix redistribution matrices. *)
From Coq Require Import Reals List ZArith Bool Lia Lra String.
From Verif Require Import Base Lib Model_Angles Proof_Angles Spec_Angles Proof_AnglesProps Model_Ideal
  Model_TMM Spec_TMM Proof_RT.
Import ListNotations.
Local Notation length := List.length.
Open Scope R_scope.

Lemma clip_max x : clip x = Rmax 0 x.
Proof.
  unfold clip, Rmax. destruct (Rltb x 0) eqn:E; destruct (Rle_dec 0 x); auto.
  - apply Rltb_true in E. lra.
  - apply Rltb_false in E. lra.
Qed.

Lemma put_ok col k x : (k < length col)%nat -> put col (Z.of_nat k) x = Ok (set_nth k x col).
Proof. intros H. unfold put, rlift. rewrite py_pos_ok by lia. cbn [rbind]. rewrite Nat2Z.id. auto. Qed.

Section Grid.
  Variables (n : nat) (phi_sym c : R) (sp : spacing) (g : grid) (h : nat).
  Hypothesis Hv : valid_request n phi_sym c.
  Hypothesis Hg : make_angle_vector n phi_sym c sp = Ok g.
  Hypothesis Hh : length (g_av g) = (2 * h)%nat.

  Lemma off_mirror i : (i <= 2 * n)%nat -> (off n c (2 * n - i) + off n c i = off n c (2 * n))%nat.
  Proof.
    pose proof Hv as [Hn [Hc Hs]]. induction i; intros Hi.
    - rewrite Nat.sub_0_r. unfold off at 2. simpl. lia.
    - specialize (IHi ltac:(lia)). rewrite off_S by auto.
      replace (2 * n - i)%nat with (S (2 * n - S i)) in IHi by lia. rewrite off_S in IHi by auto.
      replace (2 * n - S i)%nat with (2 * n - 1 - i)%nat in * by lia.
      rewrite ring_count_sym in IHi by (auto; lia). lia.
  Qed.

  Lemma row_mirror k r : nth_error (g_av g) k = Some r ->
    exists r', nth_error (g_av g) (2 * h - 1 - k) = Some r' /\ a_theta r' = PI - a_theta r.
  Proof.
    intros Hr. pose proof Hv as [Hn [Hc Hs]]. pose proof (Hgeq _ _ _ _ _ Hg) as Hgq.
    assert (Hk : (k < length (g_av g))%nat) by (apply nth_error_Some; congruence).
    pose proof Hk as Hk'. rewrite Hgq in Hk'.
    destruct (av_decompose sp n phi_sym c Hn Hc k Hk') as [i [j [Hi [Hj E]]]].
    pose proof (av_row sp n phi_sym c Hn Hc i j Hi Hj) as Er.
    assert (HL : (2 * h = off n c (2 * n))%nat).
    { rewrite <- Hh, Hgq. apply av_length; auto. }
    pose proof (off_mirror i ltac:(lia)) as Om. replace (2 * n - i)%nat with (S (2 * n - 1 - i)) in Om by lia.
    rewrite off_S in Om by auto.
    assert (Hj' : (ring_count n c i - 1 - j < ring_count n c (2 * n - 1 - i))%nat).
    { rewrite ring_count_sym by (auto; lia). lia. }
    pose proof (av_row sp n phi_sym c Hn Hc (2 * n - 1 - i) (ring_count n c i - 1 - j) ltac:(lia) Hj') as Er'.
    rewrite ring_count_sym in Om by (auto; lia).
    assert (E' : (2 * h - 1 - k = off n c (2 * n - 1 - i) + (ring_count n c i - 1 - j))%nat) by lia.
    exists (mk_arow (2 * n - 1 - i) (theta_mid sp n (2 * n - 1 - i)) (phi_mid n phi_sym c (2 * n - 1 - i) (ring_count n c i - 1 - j))).
    split.
    - rewrite E', Hgq. rewrite (nth_error_nth' _ default_row); [rewrite Er'; auto|].
      rewrite <- Hgq. lia.
    - cbn [a_theta]. rewrite theta_mid_sym by (auto; lia). f_equal. f_equal.
      rewrite E, Hgq in Hr. apply nth_error_nth with (d := default_row) in Hr. rewrite Er in Hr.
      rewrite <- Hr. auto.
  Qed.

  Lemma half_rows_nth s i r : (i < h)%nat -> nth_error (g_av g) (channel_row s h i) = Some r ->
    length (half_rows s g) = h /\ py_index (half_rows s g) (Z.of_nat i) = Ok r.
  Proof.
    intros Hi Hr. unfold half_rows. rewrite Hh.
    replace (2 * h / 2)%nat with h by (rewrite Nat.mul_comm, Nat.div_mul; lia).
    destruct s; cbn [channel_row] in Hr.
    - assert (L : length (firstn h (g_av g)) = h) by (rewrite firstn_length; lia).
      split; auto. rewrite py_index_ok with (d := r) by lia. rewrite Nat2Z.id. f_equal.
      apply nth_error_nth with (d := r) in Hr. rewrite <- (firstn_skipn h (g_av g)) in Hr.
      rewrite app_nth1 in Hr by lia. auto.
    - assert (L : length (skipn h (g_av g)) = h) by (rewrite skipn_length; lia).
      split; auto. rewrite py_index_ok with (d := r) by lia. rewrite Nat2Z.id. f_equal.
      apply nth_error_nth with (d := r) in Hr. rewrite <- (firstn_skipn h (g_av g)) in Hr.
      rewrite app_nth2 in Hr by (rewrite firstn_length; lia). rewrite firstn_length in Hr.
      replace (h + i - Nat.min h (length (g_av g)))%nat with i in Hr by lia. auto.
  Qed.

  Lemma theta_lookup_nth s i r : (i < h)%nat -> nth_error (g_av g) (channel_row s h i) = Some r ->
    py_index (theta_lookup s g) (Z.of_nat i) = Ok (incoming s (a_theta r)).
  Proof.
    intros Hi Hr. unfold theta_lookup. rewrite Hh.
    replace (2 * h / 2)%nat with h by (rewrite Nat.mul_comm, Nat.div_mul; lia).
    assert (L : length (map a_theta (firstn h (g_av g))) = h) by (rewrite map_length, firstn_length; lia).
    assert (N : forall k q, (k < h)%nat -> nth_error (g_av g) k = Some q ->
                nth k (map a_theta (firstn h (g_av g))) 0 = a_theta q).
    { intros k q Hk Hq. rewrite nth_map_lt with (da := q) by (rewrite firstn_length; lia). f_equal.
      apply nth_error_nth with (d := q) in Hq. rewrite <- (firstn_skipn h (g_av g)) in Hq.
      rewrite app_nth1 in Hq by (rewrite firstn_length; lia). auto. }
    destruct s; cbn [channel_row incoming] in *.
    - rewrite py_index_ok with (d := 0) by lia. rewrite Nat2Z.id. rewrite (N i r) by auto. auto.
    - rewrite py_index_ok with (d := 0) by (rewrite rev_length; lia). rewrite Nat2Z.id.
      rewrite rev_nth by lia. rewrite L.
      destruct (row_mirror _ _ Hr) as [r' [Hr' Et]]. replace (2 * h - 1 - (h + i))%nat with (h - S i)%nat in Hr' by lia.
      rewrite (N _ r') by (auto; lia). rewrite Et. auto.
  Qed.

  (* incidence channels: direction strictly inside its half *)
  Lemma channel_theta s i r : (i < h)%nat -> nth_error (g_av g) (channel_row s h i) = Some r ->
    0 < a_theta r < PI /\ 0 < incoming s (a_theta r) < PI / 2.
  Proof.
    intros Hi Hr. pose proof PI_RGT_0.
    destruct (C01_rows _ _ _ _ _ Hv Hg) as [[h' [L Hrow]] _]. assert (h' = h) by lia. subst h'.
    destruct (Hrow _ _ Hr) as [H1 [H2 _]]. destruct s; cbn [channel_row incoming] in *.
    - apply H1 in Hi. lra.
    - assert (h <= h + i)%nat as Hle by lia. apply H2 in Hle. lra.
  Qed.

  Lemma phi_back_spec phi : turned phi phi_sym (phi_back phi phi_sym) /\
    (1 / 10 ^ 10 <= phi_sym -> 0 < phi_back phi phi_sym <= phi_sym).
  Proof.
    destruct Hv as [_ [_ Hs]]. unfold phi_back, turned. pose proof (fold_phi_range (phi + PI) phi_sym Hs).
    destruct (Reqb (fold_phi (phi + PI) phi_sym) 0) eqn:E.
    - apply Reqb_true in E. split; auto. intros. split; [|auto]. lra.
    - apply Reqb_false in E. split; auto. intros. lra.
  Qed.

  Lemma bin_in_half k theta phi : bin_contains g k theta phi -> (k < 2 * h)%nat ->
    (theta <= PI / 2 -> (k < h)%nat) /\ (PI / 2 < theta -> (h <= k < 2 * h)%nat).
  Proof.
    intros Hb Hk. pose proof (bin_half n phi_sym c sp g Hv Hg h k theta phi Hh Hb) as E.
    split; intros Ht; [apply E; auto|]. split; auto.
    destruct (Nat.lt_ge_cases k h) as [H|H]; auto. apply E in H. lra.
  Qed.

  Section Col.
    Variables (s : side) (i : nat) (r : arow) (n1 n2 Rp Tp : R).
    Hypothesis Hi : (i < h)%nat.
    Hypothesis Hr : nth_error (g_av g) (channel_row s h i) = Some r.
    Hypothesis Hphi : 1 / 10 ^ 10 <= phi_sym.
    Let f := phi_back (a_phi r) phi_sym.
    Let theta := incoming s (a_theta r).

    Lemma refl_bin : exists kr, bin_of g (a_theta r) f = Ok (Z.of_nat kr) /\ (kr < 2 * h)%nat /\
      bin_contains g kr (a_theta r) f /\ same_half s h kr.
    Proof.
      destruct (channel_theta s i r Hi Hr) as [T1 T2].
      destruct (C03_unique n phi_sym c sp g Hv Hg (a_theta r) f) as [k [K1 [K2 [K3 _]]]]; [lra|apply phi_back_spec; auto|].
      exists k. rewrite Hh in K2. split; auto. split; auto. split; auto.
      destruct (bin_in_half k _ _ K3 K2) as [B1 B2]. destruct s; cbn [same_half incoming] in *; [apply B1|apply B2]; lra.
    Qed.

    Lemma out_bin th : 0 < th <= PI -> exists kt, bin_of g th f = Ok (Z.of_nat kt) /\ (kt < 2 * h)%nat /\
      bin_contains g kt th f.
    Proof.
      intros Ht. destruct (C03_unique n phi_sym c sp g Hv Hg th f) as [k [K1 [K2 [K3 _]]]]; auto; [apply phi_back_spec; auto|].
      exists k. rewrite Hh in K2. auto.
    Qed.

    Lemma column_none : theta_trans s n1 n2 theta Tp = None ->
      exists col kr, tmm_column s g phi_sym n1 n2 r theta Rp Tp = Ok col /\ length col = (2 * h)%nat /\
        bin_contains g kr (a_theta r) f /\ same_half s h kr /\ holds_one col kr Rp.
    Proof.
      intros Ht. destruct refl_bin as [kr [B1 [B2 [B3 B4]]]].
      destruct (half_rows_nth s i r Hi Hr) as [L _].
      exists (set_nth kr Rp (repeat 0 (2 * h))), kr. split.
      - unfold tmm_column. rewrite Ht, L. unfold bin_of in B1. fold f. rewrite B1. cbn [rbind].
        rewrite put_ok by (rewrite repeat_length; auto). reflexivity.
      - split; [rewrite set_nth_length, repeat_length; auto|]. split; auto. split; auto.
        intros k. rewrite set_nth_nth by (rewrite repeat_length; auto). destruct (Nat.eqb k kr); auto. apply nth_repeat.
    Qed.

    Lemma column_some th : theta_trans s n1 n2 theta Tp = Some th -> 0 < th <= PI ->
      exists col kr kt, tmm_column s g phi_sym n1 n2 r theta Rp Tp = Ok col /\ length col = (2 * h)%nat /\
        bin_contains g kr (a_theta r) f /\ same_half s h kr /\ bin_contains g kt th f /\ (kt < 2 * h)%nat /\
        (forall k, nth k col 0 = if Nat.eqb k kt then Tp else if Nat.eqb k kr then Rp else 0).
    Proof.
      intros Ht Hth. destruct refl_bin as [kr [B1 [B2 [B3 B4]]]]. destruct (out_bin th Hth) as [kt [D1 [D2 D3]]].
      destruct (half_rows_nth s i r Hi Hr) as [L _].
      exists (set_nth kt Tp (set_nth kr Rp (repeat 0 (2 * h)))), kr, kt. split.
      - unfold tmm_column. rewrite Ht, L. unfold bin_of in B1, D1. fold f. rewrite B1. cbn [rbind].
        rewrite put_ok by (rewrite repeat_length; auto). cbn [rbind]. rewrite D1. cbn [rbind].
        rewrite put_ok by (rewrite set_nth_length, repeat_length; auto). reflexivity.
      - split; [rewrite !set_nth_length, repeat_length; auto|]. split; auto. split; auto. split; auto. split; auto.
        intros k. rewrite set_nth_nth by (rewrite set_nth_length, repeat_length; auto).
        destruct (Nat.eqb k kt); auto. rewrite set_nth_nth by (rewrite repeat_length; auto).
        destruct (Nat.eqb k kr); auto. apply nth_repeat.
    Qed.
  End Col.
End Grid.

(* ---------- the transmission angle ---------- *)

Lemma trans_below s n1 n2 theta T : 0 < n1 -> 0 < n2 -> 0 < theta < PI / 2 -> n1 * sin theta < n2 ->
  exists psi, refracts n1 n2 theta psi /\ 0 < psi < PI / 2 /\ theta_trans s n1 n2 theta T = Some (onward s psi).
Proof.
  intros H1 H2 Ht Hlt. pose proof PI_RGT_0.
  assert (Hs : 0 < sin theta) by (apply sin_gt_0; lra).
  assert (Hx : 0 < n1 / n2 * sin theta < 1).
  { split; [apply Rmult_lt_0_compat; auto; apply Rdiv_lt_0_compat; auto|].
    apply Rmult_lt_reg_l with n2; auto. replace (n2 * (n1 / n2 * sin theta)) with (n1 * sin theta) by (field; lra). lra. }
  set (x := n1 / n2 * sin theta) in *.
  assert (Ha : 0 < asin x < PI / 2).
  { split; [rewrite <- asin_0; apply asin_lt; lra|rewrite <- asin_1; apply asin_lt; lra]. }
  exists (asin x). split; [|split; auto].
  - split; [lra|]. rewrite sin_asin by lra. unfold x. field. lra.
  - unfold theta_trans, arcsin_nan. fold x. rewrite (proj2 (Rleb_true _ _)) by (rewrite Rabs_right; lra).
    f_equal. destruct s; cbn [quadrant onward].
    + rewrite Rabs_right; lra.
    + rewrite Rabs_left; lra.
Qed.

Lemma trans_critical s n1 n2 theta T : 0 < n2 -> n1 * sin theta = n2 ->
  theta_trans s n1 n2 theta T = Some (PI / 2).
Proof.
  intros H2 Heq. pose proof PI_RGT_0. unfold theta_trans, arcsin_nan.
  replace (n1 / n2 * sin theta) with ((n1 * sin theta) / n2) by (field; lra).
  rewrite Heq. replace (n2 / n2) with 1 by (field; lra).
  rewrite Rabs_R1. rewrite (proj2 (Rleb_true _ _)) by lra. rewrite asin_1. f_equal.
  destruct s; cbn [quadrant]; [rewrite Rabs_right; lra|rewrite Rabs_left; lra].
Qed.

Lemma trans_beyond s n1 n2 theta T : 0 < n2 -> n2 < n1 * sin theta ->
  theta_trans s n1 n2 theta T = if Rltb (1 / 10 ^ 8) T then Some (onward s (PI / 2 - 1 / 10 ^ 5)) else None.
Proof.
  intros H2 Hlt. pose proof PI_RGT_0. pose proof PI2_3_2. unfold theta_trans, arcsin_nan.
  assert (Hx : 1 < n1 / n2 * sin theta).
  { apply Rmult_lt_reg_l with n2; auto. replace (n2 * (n1 / n2 * sin theta)) with (n1 * sin theta) by (field; lra). lra. }
  destruct (Rleb (Rabs (n1 / n2 * sin theta)) 1) eqn:E.
  - apply Rleb_true in E. rewrite Rabs_right in E by lra. lra.
  - destruct (Rltb (1 / 10 ^ 8) T); auto. f_equal. destruct s; cbn [quadrant onward].
    + rewrite Rabs_left; lra.
    + rewrite Rabs_right; lra.
Qed.

(* ---------- sums of columns ---------- *)

Lemma holds_one_sum col k x : (k < length col)%nat -> holds_one col k x -> rsum col = x.
Proof.
  intros Hk H. rewrite <- (map_nth_seq col 0). rewrite (rsum_map_single _ _ k Hk).
  - rewrite H, Nat.eqb_refl. auto.
  - intros j _ Hj. rewrite H. destruct (Nat.eqb_spec j k); congruence.
Qed.

Lemma holds_two_sum col k x k' x' : (k < length col)%nat -> (k' < length col)%nat -> holds_two col k x k' x' ->
  rsum col = x + x'.
Proof.
  intros Hk Hk' [Hne H]. rewrite <- (map_nth_seq col 0).
  rewrite (rsum_map_ext _ (fun j => (if Nat.eqb j k then x else 0) + (if Nat.eqb j k' then x' else 0))).
  - rewrite rsum_map_plus.
    rewrite (rsum_map_single _ _ k Hk), (rsum_map_single _ _ k' Hk'), !Nat.eqb_refl; auto.
    + intros j _ Hj. destruct (Nat.eqb_spec j k'); congruence.
    + intros j _ Hj. destruct (Nat.eqb_spec j k); congruence.
  - intros j _. rewrite H. destruct (Nat.eqb_spec j k), (Nat.eqb_spec j k'); try congruence; lra.
Qed.

Section Main.
  Variables (n : nat) (phi_sym c : R) (sp : spacing) (g : grid) (h : nat).
  Hypothesis Hv : valid_request n phi_sym c.
  Hypothesis Hg : make_angle_vector n phi_sym c sp = Ok g.
  Hypothesis Hh : length (g_av g) = (2 * h)%nat.
  Hypothesis Hphi : 1 / 10 ^ 10 <= phi_sym.

  Variables (M : Type) (SV : solver M) (mem : list R) (idx : M -> R) (a : tmm_args M) (s : side) (i : nat) (r : arow)
    (Rp Tp : R) (Al : list R).
  Let n1 := idx (fst (snell_media a s)).
  Let n2 := idx (snd (snell_media a s)).
  Let theta := incoming s (a_theta r).
  Hypothesis Hn1 : 0 < n1.
  Hypothesis Hn2 : 0 < n2.
  Hypothesis Hi : (i < h)%nat.
  Hypothesis Hr : nth_error (g_av g) (channel_row s h i) = Some r.
  Hypothesis He : tmm_entry SV mem a s theta = Ok (Rp, Tp, Al).

  Lemma matrix_column : tmm_matrix_column SV mem idx a s g phi_sym i =
    rlift (fun col => (col, Al)) (tmm_column s g phi_sym n1 n2 r theta Rp Tp).
  Proof.
    unfold tmm_matrix_column. rewrite (proj2 (half_rows_nth g h Hh s i r Hi Hr)). cbn [rbind].
    rewrite (theta_lookup_nth n phi_sym c sp g h Hv Hg Hh s i r Hi Hr). cbn [rbind]. fold theta.
    rewrite He. reflexivity.
  Qed.

  Lemma column_below : n1 * sin theta < n2 ->
    exists col f psi kr kt, tmm_matrix_column SV mem idx a s g phi_sym i = Ok (col, Al) /\ length col = (2 * h)%nat /\
      turned (a_phi r) phi_sym f /\ refracts n1 n2 theta psi /\
      bin_contains g kr (a_theta r) f /\ same_half s h kr /\
      bin_contains g kt (onward s psi) f /\ other_half s h kt /\
      holds_two col kr Rp kt Tp /\ rsum col = Rp + Tp.
  Proof.
    intros Hlt. destruct (channel_theta n phi_sym c sp g h Hv Hg Hh s i r Hi Hr) as [T1 T2].
    destruct (trans_below s n1 n2 theta Tp Hn1 Hn2 T2 Hlt) as [psi [P1 [P2 P3]]].
    pose proof PI_RGT_0.
    destruct (column_some n phi_sym c sp g h Hv Hg Hh s i r n1 n2 Rp Tp Hi Hr Hphi (onward s psi) P3)
      as [col [kr [kt [C1 [C2 [C3 [C4 [C5 [C6 C7]]]]]]]]].
    { destruct s; cbn [onward]; lra. }
    assert (Ho : other_half s h kt).
    { destruct (bin_in_half n phi_sym c sp g h Hv Hg Hh kt _ _ C5 C6) as [B1 B2].
      destruct s; cbn [other_half onward] in *; [apply B2|apply B1]; lra. }
    assert (Hne : kr <> kt) by (destruct s; cbn [same_half other_half] in *; lia).
    assert (Hkr : (kr < 2 * h)%nat) by (destruct s; cbn [same_half] in *; lia).
    assert (H2 : holds_two col kr Rp kt Tp).
    { split; auto. intros k. rewrite C7. destruct (Nat.eqb_spec k kr), (Nat.eqb_spec k kt); congruence. }
    exists col, (phi_back (a_phi r) phi_sym), psi, kr, kt. rewrite matrix_column. unfold theta. rewrite C1.
    split; [reflexivity|]. split; auto. split; [apply (proj1 (phi_back_spec n phi_sym c Hv (a_phi r)))|]. split; auto. split; auto. split; auto.
    split; auto. split; auto. split; auto. apply (holds_two_sum col kr Rp kt Tp); auto; lia.
  Qed.

  Lemma column_beyond : n2 < n1 * sin theta -> 1 / 10 ^ 8 < Tp ->
    exists col f kr kt, tmm_matrix_column SV mem idx a s g phi_sym i = Ok (col, Al) /\ length col = (2 * h)%nat /\
      turned (a_phi r) phi_sym f /\
      bin_contains g kr (a_theta r) f /\ same_half s h kr /\
      bin_contains g kt (onward s (PI / 2 - 1 / 10 ^ 5)) f /\ other_half s h kt /\
      holds_two col kr Rp kt Tp /\ rsum col = Rp + Tp.
  Proof.
    intros Hlt HT. pose proof (trans_beyond s n1 n2 theta Tp Hn2 Hlt) as P3.
    rewrite (proj2 (Rltb_true _ _) HT) in P3. pose proof PI_RGT_0. pose proof PI2_3_2.
    destruct (column_some n phi_sym c sp g h Hv Hg Hh s i r n1 n2 Rp Tp Hi Hr Hphi _ P3)
      as [col [kr [kt [C1 [C2 [C3 [C4 [C5 [C6 C7]]]]]]]]].
    { destruct s; cbn [onward]; lra. }
    assert (Ho : other_half s h kt).
    { destruct (bin_in_half n phi_sym c sp g h Hv Hg Hh kt _ _ C5 C6) as [B1 B2].
      destruct s; cbn [other_half onward] in *; [apply B2|apply B1]; lra. }
    assert (Hne : kr <> kt) by (destruct s; cbn [same_half other_half] in *; lia).
    assert (Hkr : (kr < 2 * h)%nat) by (destruct s; cbn [same_half] in *; lia).
    assert (H2 : holds_two col kr Rp kt Tp).
    { split; auto. intros k. rewrite C7. destruct (Nat.eqb_spec k kr), (Nat.eqb_spec k kt); congruence. }
    exists col, (phi_back (a_phi r) phi_sym), kr, kt. rewrite matrix_column. unfold theta. rewrite C1.
    split; [reflexivity|]. split; auto. split; [apply (proj1 (phi_back_spec n phi_sym c Hv (a_phi r)))|]. split; auto. split; auto.
    split; auto. split; auto. split; auto. apply (holds_two_sum col kr Rp kt Tp); auto; lia.
  Qed.

  Lemma column_dropped : n2 < n1 * sin theta -> Tp <= 1 / 10 ^ 8 ->
    exists col f kr, tmm_matrix_column SV mem idx a s g phi_sym i = Ok (col, Al) /\ length col = (2 * h)%nat /\
      turned (a_phi r) phi_sym f /\
      bin_contains g kr (a_theta r) f /\ same_half s h kr /\
      holds_one col kr Rp /\ rsum col = Rp.
  Proof.
    intros Hlt HT. pose proof (trans_beyond s n1 n2 theta Tp Hn2 Hlt) as P3.
    rewrite (proj2 (Rltb_false _ _) HT) in P3.
    destruct (column_none n phi_sym c sp g h Hv Hg Hh s i r n1 n2 Rp Tp Hi Hr Hphi P3) as [col [kr [C1 [C2 [C3 [C4 C5]]]]]].
    exists col, (phi_back (a_phi r) phi_sym), kr. rewrite matrix_column. unfold theta. rewrite C1.
    split; [reflexivity|]. split; auto. split; [apply (proj1 (phi_back_spec n phi_sym c Hv (a_phi r)))|]. split; auto. split; auto. split; auto.
    apply (holds_one_sum col kr Rp); auto. destruct s; cbn [same_half] in *; lia.
  Qed.

  Lemma column_critical : n1 * sin theta = n2 ->
    exists col f kr kt, tmm_matrix_column SV mem idx a s g phi_sym i = Ok (col, Al) /\ length col = (2 * h)%nat /\
      turned (a_phi r) phi_sym f /\
      bin_contains g kr (a_theta r) f /\ same_half s h kr /\
      bin_contains g kt (PI / 2) f /\ (kt < h)%nat /\
      (forall k, nth k col 0 = if Nat.eqb k kt then Tp else if Nat.eqb k kr then Rp else 0).
  Proof.
    intros Heq. pose proof (trans_critical s n1 n2 theta Tp Hn2 Heq) as P3. pose proof PI_RGT_0.
    destruct (column_some n phi_sym c sp g h Hv Hg Hh s i r n1 n2 Rp Tp Hi Hr Hphi _ P3)
      as [col [kr [kt [C1 [C2 [C3 [C4 [C5 [C6 C7]]]]]]]]].
    { lra. }
    exists col, (phi_back (a_phi r) phi_sym), kr, kt. rewrite matrix_column. unfold theta. rewrite C1.
    split; [reflexivity|]. split; auto. split; [apply (proj1 (phi_back_spec n phi_sym c Hv (a_phi r)))|]. split; auto. split; auto. split; auto.
    split; auto. apply (proj1 (bin_in_half n phi_sym c sp g h Hv Hg Hh kt _ _ C5 C6)). lra.
  Qed.

  (* at the critical angle from the rear the transmitted light stays on the right side *)
  Lemma critical_rear : s = Rear -> n1 * sin theta = n2 ->
    exists col f kr kt, tmm_matrix_column SV mem idx a s g phi_sym i = Ok (col, Al) /\
      bin_contains g kr (a_theta r) f /\ same_half s h kr /\ bin_contains g kt (onward s (PI / 2)) f /\ other_half s h kt /\
      holds_two col kr Rp kt Tp /\ rsum col = Rp + Tp.
  Proof.
    intros Hs Heq. destruct (column_critical Heq) as [col [f [kr [kt [C1 [C2 [C3 [C4 [C5 [C6 [C7 C8]]]]]]]]]]].
    rewrite Hs in C5. cbn [same_half] in C5.
    assert (H2 : holds_two col kr Rp kt Tp).
    { split; [lia|]. intros k. rewrite C8. destruct (Nat.eqb_spec k kr), (Nat.eqb_spec k kt); auto; lia. }
    exists col, f, kr, kt. rewrite Hs. cbn [same_half onward other_half]. rewrite <- Hs.
    split; auto. split; auto. split; auto. split; auto. split; auto. split; auto.
    apply (holds_two_sum col kr Rp kt Tp); auto; lia.
  Qed.

  (* from the front it is put among the reflected light, and overwrites it in the last ring *)
  Lemma critical_front : s = Front -> n1 * sin theta = n2 ->
    exists col, tmm_matrix_column SV mem idx a s g phi_sym i = Ok (col, Al) /\
      (forall k, (h <= k)%nat -> nth k col 0 = 0) /\
      (a_ring r = (n - 1)%nat -> rsum col = Tp).
  Proof.
    intros Hs Heq. destruct (column_critical Heq) as [col [f [kr [kt [C1 [C2 [C3 [C4 [C5 [C6 [C7 C8]]]]]]]]]]].
    exists col. split; auto. rewrite Hs in C5. cbn [same_half] in C5. split.
    - intros k Hk. rewrite C8. destruct (Nat.eqb_spec k kt), (Nat.eqb_spec k kr); auto; lia.
    - intros Hring. assert (E : kt = kr).
      { destruct (channel_theta n phi_sym c sp g h Hv Hg Hh s i r Hi Hr) as [T1 T2].
        rewrite Hs in T2. cbn [incoming] in T2. pose proof PI_RGT_0.
        assert (Hf : 0 < f <= phi_sym).
        { destruct Hv as [_ [_ Hp]]. pose proof (fold_phi_range (a_phi r + PI) phi_sym Hp). destruct C3 as [[? ->]|[? ->]]; lra. }
        destruct (C01_edges _ _ _ _ _ Hv Hg) as [L [Inc [E0 [En [E2 _]]]]].
        destruct (C03_unique n phi_sym c sp g Hv Hg (PI / 2) f ltac:(lra) Hf) as [k [K1 [K2 [K3 K4]]]].
        rewrite (K4 kt C6). symmetry. apply K4.
        destruct C4 as [i0 [j0 [Rw [I1 I2]]]]. exists i0, j0. split; auto. split; auto.
        assert (i0 = (n - 1)%nat).
        { destruct (proj1 (proj2 (C01_rows _ _ _ _ _ Hv Hg)) (channel_row s h i)) as [i' [j' [q [Q1 [Q2 [Q3 Q4]]]]]].
          { rewrite Hs. cbn [channel_row]. lia. }
          assert (q = r) by congruence. subst q.
          assert (Hd : digitize_right (a_theta r) (g_theta_intv g) = S i').
          { destruct Q3. apply digitize_right_spec; auto; lra. }
          assert (Hd' : digitize_right (a_theta r) (g_theta_intv g) = S i0).
          { destruct I1. apply digitize_right_spec; auto; lra. }
          lia. }
        subst i0. assert (1 <= n)%nat by (destruct Hv; auto).
        destruct I1 as [J1 J2]. replace (S (n - 1)) with n in * by lia. split; [lia|]. replace (S (n - 1)) with n by lia.
        rewrite En in *. split; [|lra].
        apply Rlt_le_trans with (a_theta r); lra. }
      subst kt. apply (holds_one_sum col kr Tp); [lia|]. intros k. rewrite C8. destruct (Nat.eqb k kr); auto.
  Qed.
End Main.
