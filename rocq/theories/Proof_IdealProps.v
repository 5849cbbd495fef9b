(* Proofs of C04-C06 *)
From Coq Require Import Reals List ZArith Bool Lia Lra Psatz.
From Verif Require Import Base Lib Model_Angles Proof_Angles Spec_Angles Proof_AnglesProps
  Model_Ideal Spec_Matrix Proof_Ideal.
Import ListNotations.
Open Scope R_scope.

Lemma nth_firstn_lt {A} (l : list A) n i d : (i < n)%nat -> nth i (firstn n l) d = nth i l d.
Proof.
  revert n i. induction l; intros n i H; [rewrite firstn_nil; destruct i; auto|].
  destruct n; [lia|]. destruct i; simpl; auto. apply IHl. lia.
Qed.

Lemma nth_skipn_add {A} (l : list A) n i d : nth i (skipn n l) d = nth (n + i) l d.
Proof.
  revert n. induction l; intros n; [rewrite skipn_nil; destruct n, i; auto|].
  destruct n; simpl; auto.
Qed.

Section Lambert.
  Variables (n : nat) (phi_sym c : R) (sp : spacing) (g : grid).
  Hypothesis Hv : valid_request n phi_sym c.
  Hypothesis Hg : make_angle_vector n phi_sym c sp = Ok g.

  Let M := fst (lambertian_matrix g).
  Let A := snd (lambertian_matrix g).
  Let h := off n c n.

  Lemma g_len : length (g_av g) = (2 * h)%nat.
  Proof.
    destruct Hv as [Hn [Hc Hs]]. rewrite (Hgeq _ _ _ _ _ Hg). apply av_half; auto.
  Qed.
  Lemma g_half : (length (g_av g) / 2)%nat = h.
  Proof.
    destruct Hv as [Hn [Hc Hs]]. rewrite (Hgeq _ _ _ _ _ Hg). apply half_length; auto.
  Qed.

  Lemma col_len : length (lambert_column g) = h.
  Proof.
    destruct Hv as [Hn [Hc Hs]]. rewrite (Hgeq _ _ _ _ _ Hg). apply lambert_column_length; auto.
  Qed.
  Lemma col_pos : 0 < rsum (lambert_column g).
  Proof.
    destruct Hv as [Hn [Hc Hs]]. rewrite (Hgeq _ _ _ _ _ Hg). apply lambert_total_pos; auto.
  Qed.

  Lemma M_entry_low r k : (r < h)%nat -> (k < h)%nat ->
    entry M r k = nth r (lambert_column g) 0 / rsum (lambert_column g).
  Proof.
    intros Hr Hk. unfold entry, M, lambertian_matrix. cbn [fst snd].
    rewrite app_nth1 by (rewrite map_length, col_len; auto).
    rewrite nth_map_lt with (da := 0) by (rewrite col_len; auto).
    rewrite g_half. apply nth_repeat_any. auto.
  Qed.

  Lemma M_entry_high r k : (h <= r < 2 * h)%nat -> (k < h)%nat -> entry M r k = 0.
  Proof.
    intros Hr Hk. unfold entry, M, lambertian_matrix. cbn [fst snd].
    rewrite app_nth2 by (rewrite map_length, col_len; lia).
    rewrite map_length, col_len.
    rewrite nth_map_lt with (da := 0) by (rewrite col_len; lia).
    rewrite g_half. apply nth_repeat_any. auto.
  Qed.

  Lemma M_shape : has_shape M (2 * h) h.
  Proof.
    split.
    - unfold M, lambertian_matrix. cbn [fst snd]. rewrite app_length, !map_length, col_len. lia.
    - intros row H. unfold M, lambertian_matrix in H. cbn [fst snd] in H. apply in_app_or in H.
      destruct H as [H|H]; apply in_map_iff in H; destruct H as [x [<- _]]; rewrite repeat_length; apply g_half.
  Qed.

  Lemma firstn_M : firstn h M = map (fun x => repeat (x / rsum (lambert_column g)) h) (lambert_column g).
  Proof.
    unfold M, lambertian_matrix. cbn [fst snd]. rewrite g_half.
    rewrite firstn_app, map_length, col_len, Nat.sub_diag. cbn [firstn]. rewrite app_nil_r.
    apply firstn_all2. rewrite map_length, col_len. auto.
  Qed.
  Lemma skipn_M : skipn h M = map (fun _ => repeat 0 h) (lambert_column g).
  Proof.
    unfold M, lambertian_matrix. cbn [fst snd]. rewrite g_half.
    rewrite skipn_app, map_length, col_len, Nat.sub_diag. cbn [skipn].
    rewrite skipn_all2; [auto|rewrite map_length, col_len; auto].
  Qed.

  Lemma M_coltotal k : (k < h)%nat -> col_total (firstn h M) k = 1.
  Proof.
    intros Hk. rewrite firstn_M. unfold col_total. rewrite map_map.
    rewrite (rsum_map_ext _ (fun x => x / rsum (lambert_column g))).
    - rewrite rsum_map_div. pose proof col_pos. field. lra.
    - intros x _. apply nth_repeat_any. auto.
  Qed.

  Lemma M_coltotal_T k : (k < h)%nat -> col_total (skipn h M) k = 0.
  Proof.
    intros Hk. rewrite skipn_M. unfold col_total. rewrite map_map.
    apply rsum_map_0. intros x _. apply nth_repeat_any. auto.
  Qed.

  Lemma C04_all :
    length (g_av g) = (2 * h)%nat /\ has_shape M (2 * h) h /\ nonneg_matrix M /\
    (forall k, (k < h)%nat -> col_total (firstn h M) k = 1) /\
    (forall r k, (h <= r < 2 * h)%nat -> (k < h)%nat -> entry M r k = 0) /\
    (forall r k k', (r < 2 * h)%nat -> (k < h)%nat -> (k' < h)%nat -> entry M r k = entry M r k') /\
    (forall r r' k x x', nth_error (g_av g) r = Some x -> nth_error (g_av g) r' = Some x' ->
        a_ring x = a_ring x' -> (k < h)%nat -> entry M r k = entry M r' k) /\
    (forall r k, (r < h)%nat -> (k < h)%nat -> 0 < entry M r k) /\
    A = [repeat 0 h].
  Proof.
    pose proof Hv as [Hn [Hc Hs]].
    pose proof (Hgeq _ _ _ _ _ Hg) as Hgq.
    split; [apply g_len|]. split; [apply M_shape|].
    split.
    { intros row x Hrow Hx. unfold M, lambertian_matrix in Hrow. cbn [fst snd] in Hrow.
      apply in_app_or in Hrow. destruct Hrow as [H|H]; apply in_map_iff in H; destruct H as [y [<- Hy]];
        apply repeat_spec in Hx; subst x.
      - pose proof col_pos. apply Rmult_le_pos; [|left; apply Rinv_0_lt_compat; auto].
        rewrite Hgq in Hy. eapply lambert_column_nonneg; [| |exact Hy]; auto.
      - lra. }
    split; [apply M_coltotal|]. split; [intros; apply M_entry_high; auto|].
    split.
    { intros r k k' Hr Hk Hk'. destruct (Nat.lt_ge_cases r h).
      - rewrite !M_entry_low by auto. auto.
      - rewrite !M_entry_high by (auto; lia). auto. }
    assert (Hlook : forall r x, nth_error (g_av g) r = Some x ->
        exists i j, (i < 2 * n)%nat /\ (j < ring_count n c i)%nat /\ r = (off n c i + j)%nat /\ a_ring x = i).
    { intros r x Hx. rewrite Hgq in Hx.
      assert (Hk : (r < length (g_av (grid_of_edges (theta_edges sp n) phi_sym c)))%nat).
      { apply nth_error_Some. rewrite Hx. discriminate. }
      destruct (av_decompose sp n phi_sym c Hn Hc r Hk) as [i [j [Hi [Hj Hkk]]]].
      exists i, j. repeat split; auto.
      pose proof (av_row sp n phi_sym c Hn Hc i j Hi Hj) as Hrow. rewrite <- Hkk in Hrow.
      apply nth_error_nth with (d := default_row) in Hx. rewrite Hrow in Hx. subst x. auto. }
    assert (Hlow : forall i j, (i < n)%nat -> (j < ring_count n c i)%nat -> (off n c i + j < h)%nat).
    { intros i j Hi Hj. pose proof (off_le n c Hn (S i) n ltac:(lia)) as H. rewrite off_S in H by auto.
      unfold h. lia. }
    split.
    { intros r r' k x x' Hx Hx' E Hk.
      destruct (Hlook _ _ Hx) as [i [j [Hi [Hj [-> Ei]]]]].
      destruct (Hlook _ _ Hx') as [i' [j' [Hi' [Hj' [-> Ei']]]]].
      assert (HE : i' = i) by congruence. clear Ei Ei'. subst i'.
      destruct (Nat.lt_ge_cases i n) as [Hin|Hin].
      - rewrite !M_entry_low by auto.
        rewrite Hgq. rewrite (lambert_column_nth sp n phi_sym c Hn Hc i j) by auto. rewrite (lambert_column_nth sp n phi_sym c Hn Hc i j') by auto. reflexivity.
      - assert (h <= off n c i)%nat by (unfold h; apply off_le; auto).
        assert (HB : forall j, (j < ring_count n c i)%nat -> (off n c i + j < 2 * h)%nat).
        { intros q Hq. rewrite <- g_len, Hgq. apply off_bound; auto. }
        pose proof (HB j Hj). pose proof (HB j' Hj').
        rewrite !M_entry_high by (auto; lia). auto. }
    split.
    { intros r k Hr Hk. rewrite M_entry_low by auto.
      apply Rdiv_lt_0_compat; [|apply col_pos].
      assert (Hr' : (r < length (g_av g))%nat) by (rewrite g_len; lia).
      destruct (nth_error (g_av g) r) as [x|] eqn:Ex; [|apply nth_error_None in Ex; lia].
      destruct (Hlook _ _ Ex) as [i [j [Hi [Hj [-> _]]]]].
      assert (i < n)%nat.
      { destruct (Nat.lt_ge_cases i n) as [|Hin]; auto. pose proof (off_le n c Hn n i Hin). unfold h in Hr. lia. }
      rewrite Hgq, lambert_column_nth by auto.
      apply Rdiv_lt_0_compat; [apply ring_power_pos; auto|apply lt_0_INR; lia]. }
    unfold A, lambertian_matrix. cbn [fst snd]. rewrite g_half. auto.
  Qed.
End Lambert.

(* ---------- mirror ---------- *)

Lemma fold_mid_nonzero n phi_sym c m i j : (1 <= n)%nat -> 0 < c -> m_fold m phi_sym -> (i < 2 * n)%nat ->
  Nat.even m = true \/ Nat.even (ring_count n c i) = true ->
  fold_phi (phi_mid n phi_sym c i j + PI) phi_sym <> 0.
Proof.
  intros Hn Hc Hm Hi Hev H0.
  destruct (m_fold_Z m phi_sym Hm) as [Hs HE].
  destruct (fold_phi_congr (phi_mid n phi_sym c i j + PI) phi_sym (Z.of_nat m) Hs HE) as [k Hk].
  rewrite H0 in Hk.
  pose proof (ring_count_pos n c Hn Hc i Hi) as HK.
  set (K := ring_count n c i) in *.
  assert (HKR : 0 < INR K) by (apply lt_0_INR; lia).
  unfold phi_mid, phi_edge in Hk. fold K in Hk. rewrite S_INR in Hk.
  assert (HPI : PI = IZR (Z.of_nat m) * phi_sym / 2) by lra.
  assert (E : 2 * INR j + 1 + INR m * INR K + 2 * IZR k * INR K = 0).
  { rewrite <- INR_IZR_INZ in HPI. rewrite HPI in Hk.
    apply Rmult_eq_reg_r with (phi_sym / (2 * INR K)).
    2:{ apply Rgt_not_eq. apply Rdiv_lt_0_compat; lra. }
    rewrite Rmult_0_l. rewrite Hk at 1. field. lra. }
  assert (EZ : (2 * Z.of_nat j + 1 + Z.of_nat m * Z.of_nat K + 2 * k * Z.of_nat K = 0)%Z).
  { apply eq_IZR. rewrite !plus_IZR, !mult_IZR, <- !INR_IZR_INZ. simpl. lra. }
  destruct Hev as [Hev|Hev]; apply Nat.even_spec in Hev; destruct Hev as [q Hq].
  - assert (Z.of_nat m = 2 * Z.of_nat q)%Z by lia. nia.
  - assert (Z.of_nat K = 2 * Z.of_nat q)%Z by (fold K in Hq; lia). nia.
Qed.

Section Mirror.
  Variables (n : nat) (phi_sym c : R) (sp : spacing) (g : grid).
  Hypothesis Hv : valid_request n phi_sym c.
  Hypothesis Hg : make_angle_vector n phi_sym c sp = Ok g.
  Let h := off n c n.

  Definition in_rows (s : side) : list arow :=
    match s with Front => firstn h (g_av g) | Rear => skipn h (g_av g) end.
  Definition shift_of (s : side) : nat := match s with Front => 0%nat | Rear => h end.

  Lemma in_rows_length s : length (in_rows s) = h.
  Proof.
    pose proof (g_len n phi_sym c sp g Hv Hg) as HL. fold h in HL.
    destruct s; simpl; rewrite ?firstn_length, ?skipn_length, HL; lia.
  Qed.

  Lemma in_rows_nth s k : (k < h)%nat -> nth k (in_rows s) default_row = nth (shift_of s + k) (g_av g) default_row.
  Proof.
    intros Hk. destruct s; simpl.
    - apply nth_firstn_lt. auto.
    - apply nth_skipn_add.
  Qed.

  Lemma mirror_unfold s :
    mirror_matrix g phi_sym s =
    rbind (rmap (fun r => bin_of g (a_theta r) (fold_phi (a_phi r + PI) phi_sym)) (in_rows s)) (fun bins =>
    rbind (rmap (py_pos (h * 2)) bins) (fun pos => Ok (onehot (h * 2) pos, [repeat 0 h]))).
  Proof.
    unfold mirror_matrix.
    rewrite (g_half n phi_sym c sp g Hv Hg). fold h.
    replace (match s with Front => firstn h (g_av g) | Rear => skipn h (g_av g) end) with (in_rows s)
      by (destruct s; auto).
    rewrite in_rows_length. auto.
  Qed.

  (* position of an incidence channel in the rows *)
  Lemma row_of_channel s k : (k < h)%nat ->
    exists i j, (i < 2 * n)%nat /\ (j < ring_count n c i)%nat /\ (shift_of s + k = off n c i + j)%nat /\
      nth k (in_rows s) default_row = mk_arow i (theta_mid sp n i) (phi_mid n phi_sym c i j) /\
      match s with Front => (i < n)%nat | Rear => (n <= i)%nat end.
  Proof.
    intros Hk. pose proof Hv as [Hn [Hc Hs]].
    pose proof (g_len n phi_sym c sp g Hv Hg) as HL. fold h in HL.
    pose proof (Hgeq _ _ _ _ _ Hg) as Hgq.
    assert (Hk' : (shift_of s + k < length (g_av g))%nat) by (destruct s; simpl; lia).
    rewrite Hgq in Hk'.
    destruct (av_decompose sp n phi_sym c Hn Hc _ Hk') as [i [j [Hi [Hj Hkk]]]].
    exists i, j. repeat split; auto.
    - rewrite in_rows_nth by auto. rewrite Hgq, Hkk. apply av_row; auto.
    - destruct s; simpl in Hkk.
      + destruct (Nat.lt_ge_cases i n) as [|H]; auto. pose proof (off_le n c Hn n i H). unfold h in Hk. lia.
      + destruct (Nat.lt_ge_cases i n) as [H|]; auto. exfalso.
        pose proof (off_le n c Hn (S i) n ltac:(lia)) as H1. rewrite off_S in H1 by auto. unfold h in Hkk. lia.
  Qed.

  (* the general result: if no folded azimuth is exactly 0, every column has its 1 in the reflection
     half, in the bin that contains the specular direction *)
  Lemma mirror_general s m :
    m_fold m phi_sym ->
    (Nat.even m = true \/ forall i, (i < 2 * n)%nat -> Nat.even (ring_count n c i) = true) ->
    exists M, mirror_matrix g phi_sym s = Ok (M, [repeat 0 h]) /\ has_shape M (2 * h) h /\
      forall k r0, (k < h)%nat -> incidence_row g s h k = Some r0 ->
        exists r q, column_is_unit M (2 * h) k r /\ reflection_row s h r /\
          bin_contains g r (a_theta r0) (a_phi r0 + PI + IZR q * phi_sym) /\
          (Nat.even m = true -> r = (shift_of s + k)%nat).
  Proof.
    intros Hm Hev.
    pose proof Hv as [Hn [Hc Hs]].
    pose proof (g_len n phi_sym c sp g Hv Hg) as HL. fold h in HL.
    pose proof (Hgeq _ _ _ _ _ Hg) as Hgq.
    destruct (m_fold_Z m phi_sym Hm) as [_ HE].
    (* every channel is binned *)
    assert (Hbin : forall k, (k < h)%nat -> exists r i j q,
        bin_of g (a_theta (nth k (in_rows s) default_row))
               (fold_phi (a_phi (nth k (in_rows s) default_row) + PI) phi_sym) = Ok (Z.of_nat r) /\
        r = (off n c i + j)%nat /\ (i < 2 * n)%nat /\ (j < ring_count n c i)%nat /\
        match s with Front => (i < n)%nat | Rear => (n <= i)%nat end /\
        bin_contains g r (a_theta (nth k (in_rows s) default_row))
          (a_phi (nth k (in_rows s) default_row) + PI + IZR q * phi_sym) /\
        (Nat.even m = true -> r = (shift_of s + k)%nat)).
    { intros k Hk. destruct (row_of_channel s k Hk) as [i [j [Hi [Hj [Hkk [Hrow Hside]]]]]].
      rewrite Hrow. simpl.
      set (f := fold_phi (phi_mid n phi_sym c i j + PI) phi_sym).
      assert (Hf : 0 < f <= phi_sym).
      { pose proof (fold_phi_range (phi_mid n phi_sym c i j + PI) phi_sym Hs).
        assert (f <> 0).
        { apply fold_mid_nonzero with (m := m); auto. destruct Hev; auto. }
        fold f in H. lra. }
      destruct (fold_phi_congr (phi_mid n phi_sym c i j + PI) phi_sym (Z.of_nat m) Hs HE) as [q Hq].
      destruct (find_phi sp n phi_sym c Hn Hc Hs i f Hi Hf) as [j' [Hj' Hfj]].
      exists (off n c i + j')%nat, i, j', q.
      assert (Hth : nth i (theta_edges sp n) 0 < theta_mid sp n i <= nth (S i) (theta_edges sp n) 0).
      { destruct (theta_mid_inside sp n Hn i Hi). lra. }
      assert (Hbo : bin_of g (theta_mid sp n i) f = Ok (Z.of_nat (off n c i + j'))).
      { rewrite Hgq. apply bin_of_eq; auto. }
      repeat split; auto.
      - rewrite <- Hq. fold f.
        destruct (C03_unique n phi_sym c sp g Hv Hg (theta_mid sp n i) f) as [r [Hr1 [Hr2 [Hr3 _]]]].
        + destruct (theta_mid_inside sp n Hn i Hi) as [T1 T2].
          pose proof (theta_edges_le sp n 0 i Hn ltac:(lia)) as T3;
            rewrite theta_edges_0 in T3 by auto;
            pose proof (theta_edges_le sp n (S i) (2 * n) Hn ltac:(lia)) as T4;
            rewrite theta_edges_2n in T4 by auto; lra.
        + auto.
        + rewrite Hbo in Hr1. inversion Hr1 as [Hr1']. apply Nat2Z.inj in Hr1'. rewrite Hr1'. auto.
      - intros Hme. rewrite Hkk. f_equal.
        (* even m: adding PI is a multiple of the symmetry angle *)
        apply Nat.even_spec in Hme. destruct Hme as [p Hp].
        assert (Hmid : f = phi_mid n phi_sym c i j).
        { apply fold_phi_unique with (m := Z.of_nat m) (k := Z.of_nat p); auto.
          - pose proof (phi_mid_inside n phi_sym c Hn Hc Hs i j Hi) as [P1 P2].
            assert (0 <= phi_edge n phi_sym c i j).
            { unfold phi_edge. apply Rmult_le_pos; [apply pos_INR|]. left. apply phi_step_pos; auto. }
            assert (phi_edge n phi_sym c i (S j) <= phi_sym).
            { rewrite <- (phi_edge_K n phi_sym c Hn Hc i Hi) at 2. unfold phi_edge.
              apply Rmult_le_compat_r; [left; apply phi_step_pos; auto|]. apply le_INR. lia. }
            lra.
          - assert (IZR (Z.of_nat m) = 2 * IZR (Z.of_nat p)).
            { rewrite <- mult_IZR. f_equal. lia. }
            rewrite H in HE. lra. }
        rewrite Hmid in Hfj.
        pose proof (phi_mid_inside n phi_sym c Hn Hc Hs i j Hi) as [P1 P2].
        apply (increasing_inj_interval (nth i (g_phi_intv (grid_of_edges (theta_edges sp n) phi_sym c)) [])
               (phi_mid n phi_sym c i j)).
        + apply phi_intv_inc; auto.
        + rewrite phi_intv_nth, linspace_length by auto. lia.
        + rewrite phi_intv_nth, linspace_length by auto. lia.
        + rewrite !phi_intv_nth_nth by (auto; lia). exact Hfj.
        + rewrite !phi_intv_nth_nth by (auto; lia). split; [exact P1|left; exact P2]. }
    (* collect the positions *)
    assert (Hpos : exists pos, length pos = h /\
       (forall k, (k < h)%nat -> bin_of g (a_theta (nth k (in_rows s) default_row))
               (fold_phi (a_phi (nth k (in_rows s) default_row) + PI) phi_sym) = Ok (Z.of_nat (nth k pos 0%nat)))).
    { clear - Hbin.
      assert (Hgen : forall w, (w <= h)%nat -> exists pos, length pos = w /\
        (forall k, (k < w)%nat -> bin_of g (a_theta (nth k (in_rows s) default_row))
               (fold_phi (a_phi (nth k (in_rows s) default_row) + PI) phi_sym) = Ok (Z.of_nat (nth k pos 0%nat)))).
      { induction w as [|w IH]; intros Hw.
        - exists []. split; auto. intros; lia.
        - destruct (IH ltac:(lia)) as [pos [Hl Hp]].
          destruct (Hbin w ltac:(lia)) as [r [i [j [q [Hr _]]]]].
          exists (pos ++ [r]). split; [rewrite app_length; simpl; lia|].
          intros k Hk. destruct (Nat.eq_dec k w) as [->|Hne].
          + rewrite app_nth2 by lia. rewrite Hl, Nat.sub_diag. simpl. auto.
          + rewrite app_nth1 by lia. apply Hp. lia. }
      apply Hgen. auto. }
    destruct Hpos as [pos [Hlen Hpos]].
    assert (Hrm : rmap (fun r => bin_of g (a_theta r) (fold_phi (a_phi r + PI) phi_sym)) (in_rows s)
                  = Ok (map Z.of_nat pos)).
    { assert (Hgen : forall l p, length p = length l ->
         (forall k, (k < length l)%nat -> bin_of g (a_theta (nth k l default_row))
               (fold_phi (a_phi (nth k l default_row) + PI) phi_sym) = Ok (Z.of_nat (nth k p 0%nat))) ->
         rmap (fun r => bin_of g (a_theta r) (fold_phi (a_phi r + PI) phi_sym)) l = Ok (map Z.of_nat p)).
      { induction l as [|a l IH]; intros [|b p] Hl Hall; simpl in Hl; try lia; auto.
        simpl rmap. pose proof (Hall 0%nat ltac:(simpl; lia)) as H0. cbn [nth] in H0. rewrite H0. cbn [rbind].
        rewrite (IH p); try lia; [reflexivity|].
        intros k Hk. apply (Hall (S k)). simpl. lia. }
      apply Hgen; [rewrite in_rows_length; auto|]. rewrite in_rows_length. auto. }
    assert (Hposlt : forall k, (k < h)%nat -> (nth k pos 0 < 2 * h)%nat).
    { intros k Hk. destruct (Hbin k Hk) as [r [i [j [q [Hr [Hr' [Hi [Hj _]]]]]]]].
      rewrite Hpos in Hr by auto. inversion Hr as [E]. apply Nat2Z.inj in E. rewrite E, Hr'.
      rewrite <- HL, Hgq. apply off_bound; auto. }
    assert (Hpp : rmap (py_pos (h * 2)) (map Z.of_nat pos) = Ok pos).
    { rewrite (rmap_ok _ Z.to_nat).
      - rewrite map_map. f_equal. rewrite <- (map_id pos) at 2. apply map_ext. intros. apply Nat2Z.id.
      - intros x Hx. apply in_map_iff in Hx. destruct Hx as [p [<- Hp]].
        apply py_pos_ok. apply In_nth with (d := 0%nat) in Hp. destruct Hp as [k [Hk <-]].
        rewrite Hlen in Hk. specialize (Hposlt k Hk). lia. }
    exists (onehot (h * 2) pos).
    split; [rewrite mirror_unfold, Hrm; cbn [rbind]; rewrite Hpp; reflexivity|].
    split; [replace (2 * h)%nat with (h * 2)%nat by lia; pose proof (onehot_shape (h * 2) pos) as Hsh; rewrite Hlen in Hsh; exact Hsh|].
    intros k r0 Hk Hr0.
    destruct (Hbin k Hk) as [r [i [j [q [Hr [Hr' [Hi [Hj [Hside [Hbc Heven]]]]]]]]]].
    assert (Er0 : nth k (in_rows s) default_row = r0).
    { rewrite in_rows_nth by auto. destruct s; simpl in *; apply nth_error_nth; auto. }
    rewrite Er0 in *.
    assert (Epos : nth k pos 0%nat = r).
    { pose proof (Hpos k Hk) as E. rewrite Er0 in E. rewrite E in Hr. inversion Hr as [E']. apply Nat2Z.inj in E'. auto. }
    exists r, q. split; [|split; [|split; auto]].
    - split; [rewrite <- Epos; auto|]. intros r' Hr''.
      rewrite onehot_entry by lia. rewrite Epos. auto.
    - unfold reflection_row. destruct s.
      + pose proof (off_le n c Hn (S i) n ltac:(lia)) as H1. rewrite off_S in H1 by auto. unfold h. lia.
      + pose proof (off_le n c Hn n i ltac:(lia)) as H1. specialize (Hposlt k Hk). unfold h in *. lia.
  Qed.

  (* full-circle symmetry and one azimuth bin in the first ring: channel 0 is sent to the last row *)
  Lemma mirror_full_circle M A :
    phi_sym = 2 * PI -> ring_count n c 0 = 1%nat ->
    mirror_matrix g phi_sym Front = Ok (M, A) ->
    column_is_unit M (2 * h) 0 (2 * h - 1) /\ (0 < h)%nat.
  Proof.
    intros Hphi HK HM.
    pose proof Hv as [Hn [Hc Hs]]. pose proof PI_RGT_0 as HP.
    pose proof (g_len n phi_sym c sp g Hv Hg) as HL. fold h in HL.
    pose proof (Hgeq _ _ _ _ _ Hg) as Hgq.
    assert (Hh : (0 < h)%nat).
    { pose proof (off_le n c Hn 1 n ltac:(lia)) as H1. rewrite off_S in H1 by auto. unfold h. lia. }
    rewrite mirror_unfold in HM.
    destruct (rmap _ (in_rows Front)) as [bins|] eqn:Eb; [|discriminate]. cbn [rbind] in HM.
    destruct (rmap (py_pos (h * 2)) bins) as [pos|] eqn:Ep; [|discriminate]. cbn [rbind] in HM.
    inversion HM. subst M A. clear HM.
    pose proof (rmap_length _ _ _ Eb) as Lb. rewrite in_rows_length in Lb.
    pose proof (rmap_length _ _ _ Ep) as Lp. rewrite Lb in Lp.
    pose proof (rmap_nth _ _ _ 0%nat default_row 0%Z Eb ltac:(rewrite in_rows_length; auto)) as E0.
    rewrite in_rows_nth in E0 by auto. simpl shift_of in E0. rewrite Nat.add_0_l in E0.
    assert (Erow : nth 0 (g_av g) default_row = mk_arow 0 (theta_mid sp n 0) (phi_mid n phi_sym c 0 0)).
    { rewrite Hgq. pose proof (av_row sp n phi_sym c Hn Hc 0 0 ltac:(lia) ltac:(lia)) as E.
      simpl off in E. exact E. }
    rewrite Erow in E0. simpl in E0.
    assert (Efold : fold_phi (phi_mid n phi_sym c 0 0 + PI) phi_sym = 0).
    { unfold phi_mid, phi_edge. rewrite HK. simpl. rewrite Hphi.
      apply fold_phi_unique with (m := 1%Z) (k := 1%Z); lra. }
    rewrite Efold in E0.
    unfold bin_of in E0.
    assert (Ez : overall_bin (g_phi_intv g) (g_av g) (theta_bin (g_theta_intv g) (theta_mid sp n 0)) 0 = Ok (-1)%Z).
    { rewrite Hgq. rewrite (theta_bin_eq sp n phi_sym c Hn 0) by
        (try lia; destruct (theta_mid_inside sp n Hn 0 ltac:(lia)); lra).
      rewrite overall_bin_zero by (auto; lia). simpl. auto. }
    rewrite Ez in E0. inversion E0 as [E1].
    pose proof (rmap_nth _ _ _ 0%nat 0%Z 0%nat Ep ltac:(lia)) as E2. rewrite <- E1 in E2.
    assert (E3 : py_pos (h * 2) (-1) = Ok (2 * h - 1)%nat).
    { unfold py_pos. replace (-1 <? 0)%Z with true by reflexivity.
      destruct (Z.ltb_spec (-1 + Z.of_nat (h * 2)) 0); [lia|].
      destruct (Z.leb_spec (Z.of_nat (h * 2)) (-1 + Z.of_nat (h * 2))); [lia|]. f_equal. lia. }
    rewrite E3 in E2. inversion E2 as [E4].
    split; auto. split; [lia|]. intros r' Hr'.
    rewrite onehot_entry by lia. rewrite <- E4. auto.
  Qed.

  Lemma mirror_ok_always s : exists M A, mirror_matrix g phi_sym s = Ok (M, A).
  Proof.
    pose proof Hv as [Hn [Hc Hs]].
    pose proof (g_len n phi_sym c sp g Hv Hg) as HL. fold h in HL.
    pose proof (Hgeq _ _ _ _ _ Hg) as Hgq.
    rewrite mirror_unfold.
    assert (Hb : exists bins, rmap (fun r => bin_of g (a_theta r) (fold_phi (a_phi r + PI) phi_sym)) (in_rows s) = Ok bins
        /\ forall b, In b bins -> (-1 <= b < Z.of_nat (2 * h))%Z).
    { assert (Hall : forall r, In r (in_rows s) -> exists b, bin_of g (a_theta r) (fold_phi (a_phi r + PI) phi_sym) = Ok b
          /\ (-1 <= b < Z.of_nat (2 * h))%Z).
      { intros r Hr. apply In_nth with (d := default_row) in Hr. destruct Hr as [k [Hk <-]].
        rewrite in_rows_length in Hk.
        destruct (row_of_channel s k Hk) as [i [j [Hi [Hj [Hkk [Hrow _]]]]]]. rewrite Hrow. simpl.
        assert (Hth : nth i (theta_edges sp n) 0 < theta_mid sp n i <= nth (S i) (theta_edges sp n) 0).
        { destruct (theta_mid_inside sp n Hn i Hi). lra. }
        set (f := fold_phi (phi_mid n phi_sym c i j + PI) phi_sym).
        pose proof (fold_phi_range (phi_mid n phi_sym c i j + PI) phi_sym Hs) as Hf. fold f in Hf.
        destruct (Req_dec f 0) as [E|E].
        - exists (Z.of_nat (off n c i) - 1)%Z. rewrite E. split.
          + rewrite Hgq. unfold bin_of. rewrite (theta_bin_eq sp n phi_sym c Hn i) by auto.
            apply overall_bin_zero; auto.
          + pose proof (off_bound sp n phi_sym c Hn Hc i j Hi Hj) as B. rewrite <- Hgq in B. lia.
        - destruct (find_phi sp n phi_sym c Hn Hc Hs i f Hi ltac:(lra)) as [j' [Hj' Hfj]].
          exists (Z.of_nat (off n c i + j')). split.
          + rewrite Hgq. apply bin_of_eq; auto.
          + pose proof (off_bound sp n phi_sym c Hn Hc i j' Hi Hj') as B. rewrite <- Hgq in B. lia. }
      revert Hall. generalize (in_rows s). induction l as [|a l IH]; intros Hall.
      - exists []. split; auto. intros ? [].
      - destruct (Hall a ltac:(simpl; auto)) as [b [Eb Hb]].
        destruct IH as [bs [Ebs Hbs]]; [intros; apply Hall; simpl; auto|].
        exists (b :: bs). simpl rmap. rewrite Eb. cbn [rbind]. rewrite Ebs. cbn [rbind]. split; auto.
        intros x [<-|Hx]; auto. }
    destruct Hb as [bins [-> Hb]]. cbn [rbind].
    assert (Hp : exists pos, rmap (py_pos (h * 2)) bins = Ok pos).
    { revert Hb. generalize bins. induction bins0 as [|a l IH]; intros Hb.
      - exists []. auto.
      - destruct IH as [pos Epos]; [intros; apply Hb; simpl; auto|].
        simpl rmap. rewrite Epos. specialize (Hb a ltac:(simpl; auto)).
        unfold py_pos.
        assert (Hh : (0 < h)%nat).
        { destruct (Nat.eq_dec h 0) as [E0|]; [|lia].
          pose proof (off_le n c Hn 1 n ltac:(lia)) as H1. rewrite off_S in H1 by auto.
          pose proof (ring_count_pos n c Hn Hc 0 ltac:(lia)). unfold h in E0. lia. }
        destruct (a <? 0)%Z eqn:Ea.
        + apply Z.ltb_lt in Ea. assert (a = -1)%Z by lia. subst a.
          destruct (Z.ltb_spec (-1 + Z.of_nat (h * 2)) 0); [lia|].
          destruct (Z.leb_spec (Z.of_nat (h * 2)) (-1 + Z.of_nat (h * 2))); [lia|]. cbn [rbind]. eauto.
        + rewrite Ea. destruct (Z.leb_spec (Z.of_nat (h * 2)) a); [lia|]. cbn [rbind]. eauto. }
    destruct Hp as [pos ->]. cbn [rbind]. eauto.
  Qed.
End Mirror.

(* ---------- cosine law ---------- *)

Lemma rsum_telescope (f : nat -> R) n : rsum (map (fun i => f (S i) - f i) (seq 0 n)) = f n - f 0%nat.
Proof.
  induction n; [simpl; lra|]. rewrite seq_S, map_app, rsum_app, IHn. simpl. lra.
Qed.

Section Cosine.
  Variables (n : nat) (phi_sym c : R) (sp : spacing) (g : grid).
  Hypothesis Hv : valid_request n phi_sym c.
  Hypothesis Hg : make_angle_vector n phi_sym c sp = Ok g.
  Let M := fst (lambertian_matrix g).
  Let h := off n c n.

  Lemma seq_rings m : seq 0 (off n c m) = flat_map (fun i => map (fun j => (off n c i + j)%nat) (seq 0 (ring_count n c i))) (seq 0 m).
  Proof.
    induction m; [reflexivity|].
    rewrite off_S by (destruct Hv; auto). rewrite seq_app, IHm, seq_S, flat_map_app. f_equal.
    simpl. rewrite app_nil_r. clear. generalize (off n c m) at 1 2. generalize (ring_count n c m).
    intros k o. revert o. induction k; intros o; [reflexivity|].
    rewrite !seq_S, map_app, IHk. reflexivity.
  Qed.

  Lemma av_nth_error i j : (i < 2 * n)%nat -> (j < ring_count n c i)%nat ->
    nth_error (g_av g) (off n c i + j) = Some (mk_arow i (theta_mid sp n i) (phi_mid n phi_sym c i j)).
  Proof.
    intros Hi Hj. destruct Hv as [Hn [Hc Hs]]. pose proof (Hgeq _ _ _ _ _ Hg) as Hgq.
    pose proof (off_bound sp n phi_sym c Hn Hc i j Hi Hj) as B. rewrite <- Hgq in B.
    destruct (nth_error (g_av g) (off n c i + j)) as [x|] eqn:E; [|apply nth_error_None in E; lia].
    apply nth_error_nth with (d := default_row) in E. rewrite <- E, Hgq. f_equal. apply av_row; auto.
  Qed.

  Lemma ring_total_eq i k : (i < n)%nat -> (k < h)%nat ->
    ring_total g M i k = ring_power sp n i / rsum (map (ring_power sp n) (seq 0 n)).
  Proof.
    intros Hi Hk. pose proof Hv as [Hn [Hc Hs]]. pose proof (Hgeq _ _ _ _ _ Hg) as Hgq.
    unfold ring_total. rewrite (g_len n phi_sym c sp g Hv Hg).
    assert (E2 : (2 * off n c n = off n c (2 * n))%nat).
    { rewrite <- (g_len n phi_sym c sp g Hv Hg), Hgq. apply av_length; auto. }
    rewrite E2, seq_rings, flat_map_concat_map, concat_map, map_map.
    assert (Hc' : forall l : list (list R), rsum (concat l) = rsum (map rsum l)).
    { induction l; simpl; auto. rewrite rsum_app, IHl. auto. }
    rewrite Hc', map_map.
    rewrite (rsum_map_single _ (2 * n) i); [| lia |].
    - rewrite map_map.
      rewrite (rsum_map_ext _ (fun _ => ring_power sp n i / INR (ring_count n c i) / rsum (map (ring_power sp n) (seq 0 n)))).
      + rewrite rsum_map_const, seq_length.
        assert (0 < INR (ring_count n c i)) by (apply lt_0_INR; pose proof (ring_count_pos n c Hn Hc i ltac:(lia)); lia).
        pose proof (lambert_total_pos sp n phi_sym c Hn Hc) as HT. rewrite (lambert_column_sum sp n phi_sym c Hn Hc) in HT.
        field. lra.
      + intros j Hj. apply in_seq in Hj. rewrite av_nth_error by lia. simpl. rewrite Nat.eqb_refl.
        unfold M. rewrite (M_entry_low n phi_sym c sp g Hv Hg) by
          (auto; pose proof (off_le n c Hn (S i) n ltac:(lia)) as HO; rewrite off_S in HO by auto; lia).
        rewrite Hgq, lambert_column_nth by (auto; lia).
        rewrite (lambert_column_sum sp n phi_sym c Hn Hc). reflexivity.
    - intros i' Hi' Hne. rewrite map_map. apply rsum_map_0. intros j Hj. apply in_seq in Hj.
      rewrite av_nth_error by lia. simpl. destruct (Nat.eqb_spec i' i); [lia|reflexivity].
  Qed.

  (* equally spaced polar edges: the share of a ring is exactly sin b - sin a *)
  Lemma ring_total_linear i k : sp = SpLinear -> (i < n)%nat -> (k < h)%nat ->
    ring_total g M i k = sin (nth (S i) (g_theta_intv g) 0) - sin (nth i (g_theta_intv g) 0).
  Proof.
    intros Hsp Hi Hk. pose proof Hv as [Hn [Hc Hs]]. pose proof (Hgeq _ _ _ _ _ Hg) as Hgq.
    rewrite ring_total_eq by auto.
    rewrite Hgq, g_theta_intv_eq, !theta_edges_nth_low by (auto; lia).
    assert (Hpos : 0 < INR n) by (apply lt_0_INR; lia).
    set (d := PI / 2 / INR n).
    assert (Hd : 0 < d) by (unfold d; apply Rdiv_lt_0_compat; pose proof PI_RGT_0; lra).
    assert (Hd2 : d <= PI / 2).
    { unfold d. apply Rmult_le_reg_r with (INR n); auto. unfold Rdiv. rewrite Rmult_assoc, Rinv_l by lra.
      assert (1 <= INR n) by (apply (le_INR 1); auto). pose proof PI_RGT_0. nra. }
    assert (Hsd : 0 < sin (d / 2)) by (apply sin_gt_0; pose proof PI_RGT_0; lra).
    assert (Hrp : forall q, (q < n)%nat -> ring_power sp n q =
              d / (2 * sin (d / 2)) * (sin (half_edge sp n (S q)) - sin (half_edge sp n q))).
    { intros q Hq. unfold ring_power, dtheta_at, theta_mid.
      rewrite !theta_edges_nth_low by (auto; lia). subst sp. unfold half_edge. rewrite S_INR.
      replace ((INR q + 1) / INR n * (PI / 2)) with (INR q / INR n * (PI / 2) + d) by (unfold d; field; lra).
      set (a := INR q / INR n * (PI / 2)).
      replace ((a + (a + d)) / 2) with (a + d / 2) by field.
      replace (a + d - a) with d by ring.
      replace (sin (a + d)) with (sin ((a + d / 2) + d / 2)) by (f_equal; field).
      replace (sin a) with (sin ((a + d / 2) - d / 2)) by (f_equal; field).
      rewrite sin_plus, sin_minus. field. lra. }
    assert (Hsum : rsum (map (ring_power sp n) (seq 0 n)) = d / (2 * sin (d / 2))).
    { rewrite (rsum_map_ext _ (fun q => d / (2 * sin (d / 2)) * (sin (half_edge sp n (S q)) - sin (half_edge sp n q)))).
      - rewrite rsum_map_scal. rewrite (rsum_telescope (fun q => sin (half_edge sp n q))).
        rewrite half_edge_n, half_edge_0, sin_0, sin_PI2 by auto. lra.
      - intros q Hq. apply in_seq in Hq. apply Hrp. lia. }
    rewrite Hsum, Hrp by auto. field. split; lra.
  Qed.

  (* for every grid with at least two equally spaced polar bins the first ring gets more than the
     cosine law allows *)
  Lemma cosine_law_violated k : sp = SpLinear -> (2 <= n)%nat -> (k < h)%nat ->
    (sin (nth 1 (g_theta_intv g) 0))² - (sin (nth 0 (g_theta_intv g) 0))² < ring_total g M 0 k.
  Proof.
    intros Hsp Hn2 Hk. pose proof Hv as [Hn [Hc Hs]]. pose proof (Hgeq _ _ _ _ _ Hg) as Hgq.
    rewrite (ring_total_linear 0 k Hsp ltac:(lia) Hk).
    rewrite Hgq, g_theta_intv_eq, !theta_edges_nth_low by (auto; lia).
    rewrite half_edge_0, sin_0 by auto.
    pose proof (half_edge_lt sp n 0 1 Hn ltac:(lia) ltac:(lia)) as H1. rewrite half_edge_0 in H1 by auto.
    pose proof (half_edge_lt sp n 1 n Hn ltac:(lia) ltac:(lia)) as H2. rewrite half_edge_n in H2 by auto.
    set (x := half_edge sp n 1) in *.
    assert (0 < sin x) by (apply sin_gt_0; lra).
    assert (sin x < 1) by (rewrite <- sin_PI2; apply sin_increasing_1; lra).
    unfold Rsqr. nra.
  Qed.
End Cosine.

(* the default ('sin') spacing with two polar bins: the cosine law asks for 1/4 in the first ring *)
Lemma cosine_law_violated_sin g phi_sym c k : 0 < c -> 0 < phi_sym -> (k < off 2 c 2)%nat ->
  make_angle_vector 2 phi_sym c SpSin = Ok g ->
  (sin (nth 1 (g_theta_intv g) 0))² - (sin (nth 0 (g_theta_intv g) 0))² = 1 / 4 /\
  1 / 3 < ring_total g (fst (lambertian_matrix g)) 0 k.
Proof.
  intros Hc Hs Hk Hg.
  assert (Hv : valid_request 2 phi_sym c) by (repeat split; auto; lia).
  rewrite (ring_total_eq 2 phi_sym c SpSin g Hv Hg 0 k ltac:(lia) Hk).
  pose proof (Hgeq _ _ _ _ _ Hg) as Hgq.
  rewrite Hgq, g_theta_intv_eq, !theta_edges_nth_low by lia.
  pose proof PI_RGT_0 as HP.
  assert (E0 : half_edge SpSin 2 0 = 0) by (apply half_edge_0; lia).
  assert (E2 : half_edge SpSin 2 2 = PI / 2) by (apply half_edge_n; lia).
  assert (E1 : half_edge SpSin 2 1 = PI / 6).
  { unfold half_edge. replace (INR 1 / INR 2) with (sin (PI / 6)).
    - apply asin_sin; lra.
    - rewrite sin_PI6. simpl. field. }
  rewrite E0, E1, sin_0, sin_PI6. split; [unfold Rsqr; field|].
  simpl map. simpl rsum. unfold ring_power, dtheta_at, theta_mid.
  rewrite !theta_edges_nth_low by lia. rewrite E0, E1, E2.
  replace ((PI / 6 + PI / 2) / 2) with (PI / 3) by field.
  rewrite cos_PI3.
  assert (1 / 2 < cos ((0 + PI / 6) / 2)).
  { rewrite <- cos_PI3. apply cos_decreasing_1; lra. }
  set (x := cos ((0 + PI / 6) / 2)) in *.
  replace (x * (PI / 6 - 0) / (x * (PI / 6 - 0) + (1 / 2 * (PI / 2 - PI / 6) + 0))) with (x / (x + 1)).
  - apply Rmult_lt_reg_r with (x + 1); [lra|]. unfold Rdiv at 2. rewrite Rmult_assoc, Rinv_l by lra. lra.
  - field. nra.
Qed.

(* ---------- statements with the half length hidden ---------- *)

Lemma C04_ex n phi_sym c sp g : valid_request n phi_sym c -> make_angle_vector n phi_sym c sp = Ok g ->
  exists h M, (0 < h)%nat /\ lambertian_matrix g = (M, [repeat 0 h]) /\
    length (g_av g) = (2 * h)%nat /\ has_shape M (2 * h) h /\ nonneg_matrix M /\
    (forall k, (k < h)%nat -> col_total (firstn h M) k = 1) /\
    (forall r k, (h <= r < 2 * h)%nat -> (k < h)%nat -> entry M r k = 0) /\
    (forall r k k', (r < 2 * h)%nat -> (k < h)%nat -> (k' < h)%nat -> entry M r k = entry M r k') /\
    (forall r r' k x x', nth_error (g_av g) r = Some x -> nth_error (g_av g) r' = Some x' ->
        a_ring x = a_ring x' -> (k < h)%nat -> entry M r k = entry M r' k) /\
    (forall r k, (r < h)%nat -> (k < h)%nat -> 0 < entry M r k).
Proof.
  intros Hv Hg. pose proof Hv as [Hn [Hc Hs]].
  destruct (C04_all n phi_sym c sp g Hv Hg) as [H1 [H2 [H3 [H4 [H5 [H6 [H7 [H8 H9]]]]]]]].
  exists (off n c n), (fst (lambertian_matrix g)).
  assert (0 < off n c n)%nat.
  { pose proof (off_le n c Hn 1 n ltac:(lia)) as HO. rewrite off_S in HO by auto.
    pose proof (ring_count_pos n c Hn Hc 0 ltac:(lia)). lia. }
  split; [auto|]. split; [rewrite <- H9; apply surjective_pairing|].
  repeat (split; [assumption|]). assumption.
Qed.

Lemma C72_ex : exists n phi_sym c sp g h M A k,
  valid_request n phi_sym c /\ make_angle_vector n phi_sym c sp = Ok g /\
  lambertian_matrix g = (M, A) /\ length (g_av g) = (2 * h)%nat /\ (k < h)%nat /\
  rsum (map (fun r => entry M r k) (seq h h)) = 0.
Proof.
  assert (Hv : valid_request 2 (PI / 2) 1) by (pose proof PI_RGT_0; repeat split; try lia; lra).
  destruct (C04_ex 2 (PI / 2) 1 SpSin _ Hv eq_refl) as [h [M [H0 [HM [H1 [_ [_ [_ [H5 _]]]]]]]]].
  exists 2%nat, (PI / 2), 1, SpSin. eexists. exists h, M, [repeat 0 h], 0%nat.
  split; [auto|]. split; [reflexivity|]. split; [exact HM|]. split; [exact H1|]. split; [lia|].
  apply rsum_map_0. intros r Hr. apply in_seq in Hr. apply H5; lia.
Qed.

Lemma phi_edges_count n phi_sym c sp g i : valid_request n phi_sym c ->
  make_angle_vector n phi_sym c sp = Ok g -> (i < 2 * n)%nat ->
  (length (phi_edges_of g i) - 1 = ring_count n c i)%nat.
Proof.
  intros [Hn [Hc Hs]] Hg Hi. rewrite (Hgeq _ _ _ _ _ Hg). unfold phi_edges_of.
  rewrite phi_intv_nth, linspace_length by auto. lia.
Qed.

Lemma C05_ex n phi_sym c sp g m s : valid_request n phi_sym c -> make_angle_vector n phi_sym c sp = Ok g ->
  m_fold m phi_sym ->
  (Nat.even m = true \/ forall i, (i < 2 * n)%nat -> Nat.even (length (phi_edges_of g i) - 1) = true) ->
  exists h M, length (g_av g) = (2 * h)%nat /\
    mirror_matrix g phi_sym s = Ok (M, [repeat 0 h]) /\ has_shape M (2 * h) h /\
    forall k r0, (k < h)%nat -> incidence_row g s h k = Some r0 ->
      exists r q, column_is_unit M (2 * h) k r /\ reflection_row s h r /\
        bin_contains g r (a_theta r0) (a_phi r0 + PI + IZR q * phi_sym).
Proof.
  intros Hv Hg Hm Hev.
  destruct (mirror_general n phi_sym c sp g Hv Hg s m Hm) as [M [H1 [H2 H3]]].
  { destruct Hev as [H|H]; [left; auto|right]. intros i Hi.
    rewrite <- (phi_edges_count n phi_sym c sp g i Hv Hg Hi). auto. }
  exists (off n c n), M. split; [apply (g_len _ _ _ _ _ Hv Hg)|]. split; [auto|]. split; [auto|].
  intros k r0 Hk Hr. destruct (H3 k r0 Hk Hr) as [r [q [A1 [A2 [A3 _]]]]]. eauto.
Qed.

(* a full-circle grid: channel 0 of a front mirror is sent into the last transmission row *)
Lemma C05_refuted_ex : forall n c sp g, valid_request n (2 * PI) c -> c <= 1 ->
  make_angle_vector n (2 * PI) c sp = Ok g ->
  exists h M A, (0 < h)%nat /\ length (g_av g) = (2 * h)%nat /\ mirror_matrix g (2 * PI) Front = Ok (M, A) /\
    column_is_unit M (2 * h) 0 (2 * h - 1) /\ ~ reflection_row Front h (2 * h - 1).
Proof.
  intros n c sp g Hv Hc1 Hg. pose proof Hv as [Hn [Hc Hs]].
  destruct (mirror_ok_always n (2 * PI) c sp g Hv Hg Front) as [M [A HM]].
  assert (HK : ring_count n c 0 = 1%nat).
  { unfold ring_count. destruct (Nat.ltb_spec 0 n); [|lia]. simpl INR.
    replace (Zceil (c * 1)) with 1%Z; [reflexivity|]. symmetry. apply Zceil_unique. lra. }
  destruct (mirror_full_circle n (2 * PI) c sp g Hv Hg M A eq_refl HK HM) as [H1 H2].
  exists (off n c n), M, A. split; [auto|]. split; [apply (g_len _ _ _ _ _ Hv Hg)|].
  split; [auto|]. split; [auto|]. simpl. lia.
Qed.

Lemma C06_linear_share n phi_sym c g : valid_request n phi_sym c ->
  make_angle_vector n phi_sym c SpLinear = Ok g ->
  exists h, length (g_av g) = (2 * h)%nat /\ forall i k, (i < n)%nat -> (k < h)%nat ->
    ring_total g (fst (lambertian_matrix g)) i k =
    sin (nth (S i) (g_theta_intv g) 0) - sin (nth i (g_theta_intv g) 0).
Proof.
  intros Hv Hg. exists (off n c n). split; [apply (g_len _ _ _ _ _ Hv Hg)|].
  intros i k Hi Hk. apply (ring_total_linear n phi_sym c SpLinear g Hv Hg i k eq_refl Hi Hk).
Qed.

Lemma C06_refuted_linear n phi_sym c g : (2 <= n)%nat -> valid_request n phi_sym c ->
  make_angle_vector n phi_sym c SpLinear = Ok g ->
  exists h, (0 < h)%nat /\ length (g_av g) = (2 * h)%nat /\ forall k, (k < h)%nat ->
    (sin (nth 1 (g_theta_intv g) 0))² - (sin (nth 0 (g_theta_intv g) 0))² <
    ring_total g (fst (lambertian_matrix g)) 0 k.
Proof.
  intros Hn2 Hv Hg. destruct (C04_ex _ _ _ _ _ Hv Hg) as [h [M [H0 [_ [H1 _]]]]].
  exists h. split; [auto|]. split; [auto|]. intros k Hk.
  apply (cosine_law_violated n phi_sym c SpLinear g Hv Hg k eq_refl Hn2).
  rewrite (g_len _ _ _ _ _ Hv Hg) in H1. lia.
Qed.

Lemma C06_refuted_default phi_sym c g : 0 < c -> 0 < phi_sym ->
  make_angle_vector 2 phi_sym c SpSin = Ok g ->
  exists k, (k < length (g_av g))%nat /\
  (sin (nth 1 (g_theta_intv g) 0))² - (sin (nth 0 (g_theta_intv g) 0))² = 1 / 4 /\
  1 / 3 < ring_total g (fst (lambertian_matrix g)) 0 k.
Proof.
  intros Hc Hs Hg. assert (Hv : valid_request 2 phi_sym c) by (repeat split; auto; lia).
  destruct (C04_ex _ _ _ _ _ Hv Hg) as [h [M [H0 [_ [H1 _]]]]].
  exists 0%nat. split; [lia|]. apply (cosine_law_violated_sin g phi_sym c 0); auto.
  rewrite (g_len _ _ _ _ _ Hv Hg) in H1. lia.
Qed.
