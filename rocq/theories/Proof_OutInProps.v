(* Proofs of C07 and C08 *)
From Coq Require Import Reals List ZArith Bool Lia Lra Psatz.
From Verif Require Import Base Lib Model_Angles Proof_Angles Spec_Angles Proof_AnglesProps
  Model_Ideal Model_MatMul Spec_Matrix Spec_MatMul Proof_Ideal Proof_IdealProps Proof_OutIn.
Import ListNotations.
Open Scope R_scope.

Lemma ring_count_edges n phi_sym c sp g i : valid_request n phi_sym c -> make_angle_vector n phi_sym c sp = Ok g ->
  (i < 2 * n)%nat -> (length (phi_edges_of g i) - 1)%nat = ring_count n c i.
Proof.
  intros [Hn [Hc Hs]] Hg Hi. unfold phi_edges_of. rewrite (Hgeq _ _ _ _ _ Hg).
  rewrite phi_intv_nth by auto. rewrite linspace_length. lia.
Qed.

Lemma C08_ex n phi_sym c sp g m : valid_request n phi_sym c -> make_angle_vector n phi_sym c sp = Ok g ->
  m_fold m phi_sym -> relabel_ok n m g ->
  exists h u d, length (g_av g) = (2 * h)%nat /\ out_to_in_matrix g phi_sym = Ok (u, d) /\
    permutation_matrix u h /\ permutation_matrix d h /\
    (forall k r0, (k < h)%nat -> nth_error (g_av g) k = Some r0 ->
       exists r r1 q, column_is_unit u h k r /\ nth_error (g_av g) (h + r) = Some r1 /\
         a_ring r1 = (2 * n - 1 - a_ring r0)%nat /\ a_theta r1 = PI - a_theta r0 /\
         Rabs (a_phi r1 - (a_phi r0 + PI + IZR q * phi_sym)) <=
           phi_sym / (2 * INR (length (phi_edges_of g (a_ring r0)) - 1))) /\
    (forall k r0, (k < h)%nat -> nth_error (g_av g) (h + k) = Some r0 ->
       exists r r1 q, column_is_unit d h k r /\ nth_error (g_av g) r = Some r1 /\
         a_ring r1 = (2 * n - 1 - a_ring r0)%nat /\ a_theta r1 = PI - a_theta r0 /\
         Rabs (a_phi r1 - (a_phi r0 + PI + IZR q * phi_sym)) <=
           phi_sym / (2 * INR (length (phi_edges_of g (a_ring r0)) - 1))).
Proof.
  intros Hv Hg Hm Hok. pose proof Hv as [Hn [Hc Hs]].
  pose proof (g_len n phi_sym c sp g Hv Hg) as HL.
  destruct (m_fold_Z m phi_sym Hm) as [_ HE].
  set (h := off n c n) in *.
  (* choose tau *)
  assert (HT : exists tau, 
     (forall i j, (i < 2 * n)%nat -> (j < ring_count n c i)%nat -> (tau i j < ring_count n c i)%nat) /\
     (forall i j j', (i < 2 * n)%nat -> (j < ring_count n c i)%nat -> (j' < ring_count n c i)%nat -> tau i j = tau i j' -> j = j') /\
     (forall i j, (i < 2 * n)%nat -> (j < ring_count n c i)%nat ->
        phi_edge n phi_sym c i (tau i j) <
          fold_phi (phi_mid n phi_sym c i j + PI) (nudge_sym phi_sym) <= phi_edge n phi_sym c i (S (tau i j))) /\
     (forall i j, (i < 2 * n)%nat -> (j < ring_count n c i)%nat -> exists q,
        Rabs (phi_mid n phi_sym c i (tau i j) - (phi_mid n phi_sym c i j + PI + IZR q * phi_sym)) <=
        phi_sym / (2 * INR (ring_count n c i)))).
  { (* azimuth shift for [turn] *)
    assert (HD : Nat.odd m = true -> forall i j, (i < 2 * n)%nat -> (j < ring_count n c i)%nat -> exists q,
        Rabs (phi_mid n phi_sym c i (turn n c i j) - (phi_mid n phi_sym c i j + PI + IZR q * phi_sym)) <=
        phi_sym / (2 * INR (ring_count n c i))).
    { intros Ho i j Hi Hj. apply Nat.odd_spec in Ho. destruct Ho as [p Hp].
      pose proof (half_shift (ring_count n c i)) as H2.
      pose proof (turn_cases n c Hn Hc i j Hi Hj) as HTc.
      pose proof (unit_pos n phi_sym c Hn Hc Hs i Hi) as Hu. pose proof (sym_val n phi_sym c Hn Hc i Hi) as HS.
      rewrite !phi_mid_val. set (u := phi_sym / (2 * INR (ring_count n c i))) in *.
      set (K := ring_count n c i) in *.
      set (b := Nat.b2n (Nat.odd K)) in *.
      assert (Hb : INR b * u <= u /\ 0 <= INR b * u).
      { unfold b. destruct (Nat.odd K); simpl; lra. }
      assert (HPI : PI = INR (m * K) * u).
      { rewrite mult_INR. assert (INR m * (INR (2 * K) * u) = 2 * PI) by (rewrite <- HS; rewrite INR_IZR_INZ; auto).
        rewrite mult_INR in H. simpl (INR 2) in H. lra. }
      assert (Hw : exists w : nat, (turn n c i j + w * K = j + (K + 1) / 2)%nat).
      { destruct HTc as [[A _]|A]; [exists 0%nat|exists 1%nat]; fold K in A; lia. }
      destruct Hw as [w Hw].
      exists (- Z.of_nat (w + p))%Z. rewrite opp_IZR, <- INR_IZR_INZ.
      replace (INR (2 * turn n c i j + 1) * u - (INR (2 * j + 1) * u + PI + - INR (w + p) * phi_sym)) with (INR b * u).
      { rewrite Rabs_pos_eq by lra. lra. }
      assert (EQ : (2 * turn n c i j + 1 + (w + p) * (2 * K) = b + (2 * j + 1) + m * K)%nat).
      { subst m. nia. }
      apply (f_equal INR) in EQ. rewrite (plus_INR (2 * turn n c i j + 1)), (plus_INR (b + (2 * j + 1))), (plus_INR b), (mult_INR (w + p)) in EQ.
      rewrite HPI. rewrite HS at 1.
      apply (f_equal (fun z => z * u)) in EQ. rewrite !Rmult_plus_distr_r in EQ. lra. }
    destruct Hok as [He|[[H1 Hk]|[H3 Hk]]].
    - exists (fun _ j => j). split; [auto|]. split; [auto|]. split.
      + intros i j Hi Hj. rewrite (bin_even n phi_sym c Hn Hc Hs m) by auto.
        destruct (phi_mid_inside n phi_sym c Hn Hc Hs i j Hi). lra.
      + intros i j Hi Hj. apply Nat.even_spec in He. destruct He as [p Hp].
        exists (- Z.of_nat p)%Z. rewrite opp_IZR.
        assert (IZR (Z.of_nat p) * phi_sym = PI).
        { rewrite Hp in HE. rewrite Nat2Z.inj_mul, mult_IZR in HE. simpl (IZR (Z.of_nat 2)) in HE. lra. }
        replace (_ - _) with 0 by lra. rewrite Rabs_R0.
        pose proof (unit_pos n phi_sym c Hn Hc Hs i Hi). lra.
    - subst m. assert (phi_sym = 2 * PI) by (simpl in HE; lra).
      exists (turn n c). split; [intros; apply turn_lt; auto|]. split; [intros i j j' A B C0 D; exact (turn_inj n c Hn Hc i j j' A B C0 D)|].
      split; [|apply HD; auto].
      intros i j Hi Hj. rewrite H. apply bin_full; auto.
      rewrite <- (ring_count_edges n phi_sym c sp g i) by auto. apply Hk; auto.
    - destruct (Nat.even m) eqn:He.
      + exists (fun _ j => j). split; [auto|]. split; [auto|]. split.
        * intros i j Hi Hj. rewrite (bin_even n phi_sym c Hn Hc Hs m) by auto.
          destruct (phi_mid_inside n phi_sym c Hn Hc Hs i j Hi). lra.
        * intros i j Hi Hj. apply Nat.even_spec in He. destruct He as [p Hp].
          exists (- Z.of_nat p)%Z. rewrite opp_IZR.
          assert (IZR (Z.of_nat p) * phi_sym = PI).
          { rewrite Hp in HE. rewrite Nat2Z.inj_mul, mult_IZR in HE. simpl (IZR (Z.of_nat 2)) in HE. lra. }
          replace (_ - _) with 0 by lra. rewrite Rabs_R0.
          pose proof (unit_pos n phi_sym c Hn Hc Hs i Hi). lra.
      + assert (Ho : Nat.odd m = true) by (rewrite <- Nat.negb_even, He; auto).
        exists (turn n c). split; [intros; apply turn_lt; auto|]. split; [intros i j j' A B C0 D; exact (turn_inj n c Hn Hc i j j' A B C0 D)|].
        split; [|apply HD; auto].
        intros i j Hi Hj. rewrite (bin_odd n phi_sym c Hn Hc Hs m) by
          (auto; rewrite <- (ring_count_edges n phi_sym c sp g i) by auto; apply Hk; auto).
        destruct (phi_mid_inside n phi_sym c Hn Hc Hs i (turn n c i j) Hi). lra. }
  destruct HT as [tau [T1 [T2 [T3 T4]]]].
  destruct (oi_matrices n phi_sym c sp g Hv Hg tau T1 T2 T3) as [u [d [E [Pu [Pd [Cu Cd]]]]]].
  fold h in Pu, Pd, Cu, Cd.
  exists h, u, d. split; auto. split; auto. split; auto. split; auto.
  assert (Row : forall k r0, (k < 2 * h)%nat -> nth_error (g_av g) k = Some r0 -> exists r1 q,
     nth_error (g_av g) (dest phi_sym g k) = Some r1 /\
         a_ring r1 = (2 * n - 1 - a_ring r0)%nat /\ a_theta r1 = PI - a_theta r0 /\
         Rabs (a_phi r1 - (a_phi r0 + PI + IZR q * phi_sym)) <=
           phi_sym / (2 * INR (length (phi_edges_of g (a_ring r0)) - 1))).
  { intros k r0 Hk Hr.
    destruct (dest_row n phi_sym c sp g Hv Hg tau T1 T3 k r0 Hk Hr) as [i [j [Hi [Hj [-> Hd]]]]].
    destruct (T4 i j Hi Hj) as [q Hq]. eexists. exists q. split; [exact Hd|]. cbn [a_ring a_theta a_phi].
    split; auto. split; auto. rewrite (ring_count_edges n phi_sym c sp g i) by auto. auto. }
  split.
  - intros k r0 Hk Hr. destruct (Row k r0 ltac:(lia) Hr) as [r1 [q [A B]]].
    exists (dest phi_sym g k - h)%nat, r1, q. split; [apply Cu; auto|]. split; auto.
    pose proof (dest_up n phi_sym c sp g Hv Hg tau T1 T3 k Hk) as Hd. fold h in Hd.
    replace (h + (dest phi_sym g k - h))%nat with (dest phi_sym g k) by lia. auto.
  - intros k r0 Hk Hr. destruct (Row (h + k)%nat r0 ltac:(lia) Hr) as [r1 [q [A B]]].
    exists (dest phi_sym g (h + k)), r1, q. split; [apply Cd; auto|]. split; auto.
Qed.

(* out_to_in never raises *)
Lemma oi_total n phi_sym c sp g : valid_request n phi_sym c -> make_angle_vector n phi_sym c sp = Ok g ->
  0 < nudge_sym phi_sym -> exists ud, out_to_in_matrix g phi_sym = Ok ud.
Proof.
  intros Hv Hg Hnp. pose proof Hv as [Hn [Hc Hs]].
  pose proof (g_len n phi_sym c sp g Hv Hg) as HL.
  pose proof (Hgeq _ _ _ _ _ Hg) as Hgq.
  assert (Hle : nudge_sym phi_sym <= phi_sym).
  { unfold nudge_sym. destruct (Reqb _ _); lra. }
  unfold out_to_in_matrix, out_to_in_pos.
  assert (HB : forall r, In r (g_av g) -> exists z,
     overall_bin (g_phi_intv g) (g_av g) (theta_bin (g_theta_intv g) (PI - a_theta r))
        (fold_phi (a_phi r + PI) (nudge_sym phi_sym)) = Ok z /\ (-1 <= z < Z.of_nat (2 * off n c n))%Z).
  { intros r Hr. apply In_nth with (d := default_row) in Hr. destruct Hr as [k [Hk Ek]].
    rewrite HL in Hk. destruct (oi_rows n phi_sym c sp g Hv Hg k Hk) as [i [j [Hi [Hj [_ [E _]]]]]].
    rewrite E in Ek. subst r. cbn [a_theta a_phi].
    rewrite <- theta_mid_sym by auto. rewrite Hgq.
    rewrite (theta_bin_eq sp n phi_sym c Hn (2 * n - 1 - i)); [|lia|].
    2:{ destruct (theta_mid_inside sp n Hn (2 * n - 1 - i) ltac:(lia)). lra. }
    pose proof (fold_phi_range (phi_mid n phi_sym c i j + PI) (nudge_sym phi_sym) Hnp) as [F1 F2].
    set (f := fold_phi _ _) in *.
    destruct (Req_EM_T f 0) as [->|Hne].
    - rewrite (overall_bin_zero sp n phi_sym c Hn Hc Hs (2 * n - 1 - i)) by (auto; lia). eexists. split; [reflexivity|].
      assert (off n c (2 * n - 1 - i) <= off n c (2 * n))%nat by (apply off_le; auto; lia).
      rewrite <- HL, Hgq, av_length by auto. lia.
    - destruct (find_phi sp n phi_sym c Hn Hc Hs (2 * n - 1 - i) f) as [j' [Hj' Hf]]; [lia|lra|].
      rewrite (overall_bin_eq sp n phi_sym c Hn Hc Hs (2 * n - 1 - i) j') by (auto; lia). eexists. split; [reflexivity|].
      pose proof (off_bound sp n phi_sym c Hn Hc (2 * n - 1 - i) j' ltac:(lia) Hj') as HBd.
      rewrite <- Hgq, HL in HBd. lia. }
  assert (HR : forall l, (forall r, In r l -> In r (g_av g)) -> exists zs,
     rmap (fun r => overall_bin (g_phi_intv g) (g_av g) (theta_bin (g_theta_intv g) (PI - a_theta r))
        (fold_phi (a_phi r + PI) (nudge_sym phi_sym))) l = Ok zs /\
     forall z, In z zs -> (-1 <= z < Z.of_nat (2 * off n c n))%Z).
  { induction l as [|r l IH]; intros H.
    - exists []. split; [reflexivity|]. intros ? [].
    - destruct (HB r ltac:(apply H; simpl; auto)) as [z [Ez Hz]].
      destruct IH as [zs [Ezs Hzs]]; [intros; apply H; simpl; auto|].
      exists (z :: zs). cbn [rmap]. rewrite Ez. cbn [rbind]. rewrite Ezs. cbn [rbind].
      split; auto. intros y [<-|Hy]; auto. }
  destruct (HR (g_av g) ltac:(auto)) as [zs [Ezs Hzs]].
  rewrite Ezs. cbn [rbind].
  assert (HP : exists pos, rmap (py_pos (length (g_av g))) zs = Ok pos).
  { assert (Hpos : (0 < off n c n)%nat).
    { pose proof (off_le n c Hn 1 n ltac:(lia)) as H1. rewrite off_S in H1 by auto.
      pose proof (ring_count_pos n c Hn Hc 0 ltac:(lia)). lia. }
    rewrite HL. clear - Hzs Hpos. induction zs as [|z zs IH]; [exists []; reflexivity|].
    destruct IH as [ps Eps]; [intros; apply Hzs; simpl; auto|].
    pose proof (Hzs z ltac:(simpl; auto)) as Hz. cbn [rmap].
    assert (Eq : exists p, py_pos (2 * off n c n) z = Ok p).
    { unfold py_pos. destruct (Z.ltb_spec z 0).
      - destruct (Z.ltb_spec (z + Z.of_nat (2 * off n c n)) 0); [lia|].
        destruct (Z.leb_spec (Z.of_nat (2 * off n c n)) (z + Z.of_nat (2 * off n c n))); [lia|]. eauto.
      - destruct (Z.ltb_spec z 0); [lia|]. destruct (Z.leb_spec (Z.of_nat (2 * off n c n)) z); [lia|]. eauto. }
    destruct Eq as [p ->]. cbn [rbind]. rewrite Eps. cbn [rbind]. eauto. }
  destruct HP as [pos ->]. cbn [rbind]. eauto.
Qed.

(* odd symmetry and one azimuth bin in the outermost lower ring: its power is lost *)
Lemma C08_lost n phi_sym c sp g m u d : valid_request n phi_sym c -> make_angle_vector n phi_sym c sp = Ok g ->
  m_fold m phi_sym -> Nat.odd m = true -> (3 <= m)%nat -> c <= 1 ->
  out_to_in_matrix g phi_sym = Ok (u, d) ->
  exists h k, length (g_av g) = (2 * h)%nat /\ (k < h)%nat /\ has_shape d h h /\ col_total d k = 0.
Proof.
  intros Hv Hg Hm Ho H3 Hc1 E. pose proof Hv as [Hn [Hc Hs]].
  pose proof (g_len n phi_sym c sp g Hv Hg) as HL.
  pose proof (Hgeq _ _ _ _ _ Hg) as Hgq.
  set (h := off n c n) in *.
  assert (HK : ring_count n c (2 * n - 1) = 1%nat).
  { unfold ring_count. destruct (Nat.ltb_spec (2 * n - 1) n).
    - lia.
    - replace (2 * n - (2 * n - 1))%nat with 1%nat by lia. rewrite (Zceil_unique (c * INR 1) 1); [reflexivity|]. simpl. lra. }
  assert (Hoff : (off n c (2 * n - 1) = 2 * h - 1)%nat).
  { assert (EL : off n c (2 * n) = (2 * h)%nat) by (rewrite <- HL, Hgq, av_length by auto; auto).
    replace (2 * n)%nat with (S (2 * n - 1)) in EL by lia. rewrite off_S, HK in EL by auto. lia. }
  assert (Hh : (0 < h)%nat).
  { pose proof (off_le n c Hn 1 n ltac:(lia)) as H1. rewrite off_S in H1 by auto.
    pose proof (ring_count_pos n c Hn Hc 0 ltac:(lia)). unfold h. lia. }
  unfold out_to_in_matrix in E. destruct (out_to_in_pos g phi_sym) as [pos|] eqn:Ep; [|discriminate].
  cbn [rbind] in E. rewrite (g_half n phi_sym c sp g Hv Hg) in E. fold h in E. rewrite HL in E.
  replace (2 * h - h)%nat with h in E by lia. inversion E. subst u d. clear E.
  unfold out_to_in_pos in Ep.
  destruct (rmap _ (g_av g)) as [zs|] eqn:Ez; [|discriminate]. cbn [rbind] in Ep.
  pose proof (rmap_length _ _ _ Ez) as Lz. pose proof (rmap_length _ _ _ Ep) as Lp.
  rewrite HL in *.
  pose proof (rmap_nth _ _ _ (2 * h - 1)%nat default_row 0%Z Ez ltac:(lia)) as E1.
  pose proof (rmap_nth _ _ _ (2 * h - 1)%nat 0%Z 0%nat Ep ltac:(lia)) as E2.
  assert (Erow : nth (2 * h - 1) (g_av g) default_row =
      mk_arow (2 * n - 1) (theta_mid sp n (2 * n - 1)) (phi_mid n phi_sym c (2 * n - 1) 0)).
  { rewrite Hgq, <- Hoff. rewrite <- (Nat.add_0_r (off n c (2 * n - 1))).
    apply av_row; auto; lia. }
  rewrite Erow in E1. cbn [a_theta a_phi] in E1.
  rewrite <- theta_mid_sym in E1 by (auto; lia).
  replace (2 * n - 1 - (2 * n - 1))%nat with 0%nat in E1 by lia.
  rewrite nudge_other in E1 by (apply (m_fold_not_full m); auto; lia).
  assert (F0 : fold_phi (phi_mid n phi_sym c (2 * n - 1) 0 + PI) phi_sym = 0).
  { apply Nat.odd_spec in Ho. destruct Ho as [p Hp].
    rewrite (fold_half n phi_sym c Hn Hc Hs m (2 * n - 1) 0 0 (p + 1) Hm); [simpl; lra|lia| |]; rewrite HK; lia. }
  rewrite F0 in E1. rewrite Hgq in E1.
  rewrite (theta_bin_eq sp n phi_sym c Hn 0) in E1; [|lia|].
  2:{ destruct (theta_mid_inside sp n Hn 0 ltac:(lia)). lra. }
  rewrite overall_bin_zero in E1 by (auto; lia).
  assert (Z1 : nth (2 * h - 1) zs 0%Z = (-1)%Z) by (inversion E1; auto).
  rewrite Z1 in E2.
  assert (P1 : nth (2 * h - 1) pos 0%nat = (2 * h - 1)%nat).
  { unfold py_pos in E2. change (-1 <? 0)%Z with true in E2. cbv iota in E2.
    destruct (Z.ltb_spec (-1 + Z.of_nat (2 * h)) 0); [lia|].
    destruct (Z.leb_spec (Z.of_nat (2 * h)) (-1 + Z.of_nat (2 * h))); [lia|].
    assert (E3 : forall a b : nat, Ok a = Ok b -> a = b) by congruence. apply E3 in E2. rewrite <- E2. lia. }
  assert (Hsh : has_shape (submatrix (onehot (2 * h) pos) 0 h h h) h h).
  { apply sub_shape with (NR := (2 * h)%nat) (NC := (2 * h)%nat); try lia.
    pose proof (onehot_shape (2 * h) pos) as H. replace (length pos) with (2 * h)%nat in H by lia. exact H. }
  exists h, (h - 1)%nat. split; auto. split; [lia|]. split; auto.
  destruct Hsh as [S1 S2].
  rewrite (col_total_tab _ h) by auto. apply rsum_map_0. intros r Hr. apply in_seq in Hr.
  rewrite sub_entry by lia. rewrite onehot_entry by lia.
  assert (P2 : nth (h + (h - 1)) pos 0%nat = (2 * h - 1)%nat).
  { etransitivity; [|exact P1]. f_equal. lia. }
  rewrite P2.
  destruct (Nat.eqb_spec (0 + r) (2 * h - 1)); [lia|auto].
Qed.

Lemma C08_lost_ex : forall n c sp g m, valid_request n (2 * PI / INR m) c -> Nat.odd m = true -> (3 <= m)%nat -> c <= 1 ->
  make_angle_vector n (2 * PI / INR m) c sp = Ok g ->
  exists h u d k, length (g_av g) = (2 * h)%nat /\ out_to_in_matrix g (2 * PI / INR m) = Ok (u, d) /\
    (k < h)%nat /\ has_shape d h h /\ col_total d k = 0.
Proof.
  intros n c sp g m Hv Ho H3 Hc1 Hg. pose proof Hv as [Hn [Hc Hs]].
  assert (Hm : m_fold m (2 * PI / INR m)) by (split; [lia|auto]).
  destruct (oi_total n (2 * PI / INR m) c sp g Hv Hg) as [[u d] E].
  { rewrite nudge_other; auto. apply (m_fold_not_full m); auto; lia. }
  destruct (C08_lost n _ c sp g m u d Hv Hg Hm Ho H3 Hc1 E) as [h [k [A [B [C D]]]]].
  exists h, u, d, k. auto.
Qed.

(* ---------- C07 ---------- *)

Section V0.
  Variables (n : nat) (phi_sym c : R) (sp : spacing) (g : grid).
  Hypothesis Hv : valid_request n phi_sym c.
  Hypothesis Hg : make_angle_vector n phi_sym c sp = Ok g.
  Let h := off n c n.

  Lemma v0_start i theta : (i < n)%nat -> nth i (theta_edges sp n) 0 <= theta < nth (S i) (theta_edges sp n) 0 ->
    (Z.of_nat (digitize_left theta (g_theta_intv g)) - 1)%Z = Z.of_nat i.
  Proof.
    pose proof Hv as [Hn [Hc Hs]]. intros Hi Ht. rewrite (Hgeq _ _ _ _ _ Hg), g_theta_intv_eq.
    rewrite digitize_left_spec with (i := i); [lia| | |auto].
    - apply theta_edges_increasing; auto.
    - rewrite theta_edges_length. lia.
  Qed.

  Lemma find_upper theta : 0 <= theta < PI / 2 -> exists i, (i < n)%nat /\
    nth i (theta_edges sp n) 0 <= theta < nth (S i) (theta_edges sp n) 0.
  Proof.
    pose proof Hv as [Hn [Hc Hs]]. intros Ht. pose proof PI_RGT_0.
    destruct (find_theta_left sp n Hn theta ltac:(lra)) as [i [Hi Hti]].
    exists i. split; auto. destruct (Nat.lt_ge_cases i n) as [|H1]; auto.
    pose proof (theta_edges_le sp n n i Hn ltac:(lia)) as H2. rewrite theta_edges_n in H2 by auto. lra.
  Qed.

  Lemma v0_unfold i theta phi_in : (i < n)%nat ->
    nth i (theta_edges sp n) 0 <= theta < nth (S i) (theta_edges sp n) 0 ->
    make_v0_row g theta phi_in =
    match phi_in with
    | PhiAll => Ok (map (fun k => if (off n c i <=? k)%nat && (k <? off n c i + ring_count n c i)%nat
                                  then 1 / INR (ring_count n c i) else 0) (seq 0 h))
    | PhiNum phi => rbind (py_pos h (Z.of_nat (off n c i) + (Z.of_nat (digitize_left phi (phi_edges_of g i)) - 1))%Z)
                     (fun p => Ok (map (fun k => if Nat.eqb k p then 1 else 0) (seq 0 h)))
    end.
  Proof.
    pose proof Hv as [Hn [Hc Hs]]. intros Hi Ht. unfold make_v0_row.
    rewrite (v0_start i theta Hi Ht). rewrite (g_half n phi_sym c sp g Hv Hg). fold h.
    pose proof (Hgeq _ _ _ _ _ Hg) as Hgq.
    rewrite py_index_ok with (d := []) by (rewrite Hgq, phi_intv_length by auto; lia).
    rewrite Nat2Z.id. cbn [rbind].
    replace (argmin Z.ltb (map (fun r => Z.abs (Z.of_nat (a_ring r) - Z.of_nat i)) (g_av g))) with (Ok (off n c i))
      by (rewrite Hgq; symmetry; apply ring_start; auto; lia).
    cbn [rbind]. destruct phi_in; auto.
    pose proof (ring_count_edges n phi_sym c sp g i Hv Hg ltac:(lia)) as E. unfold phi_edges_of in E. rewrite E. auto.
  Qed.

  Lemma v0_numeric theta phi nwl : 0 <= theta < PI / 2 -> 0 <= phi < phi_sym ->
    exists k i j row, (k < h)%nat /\ row_is g k i j /\
      in_bin_left (g_theta_intv g) i theta /\ in_bin_left (phi_edges_of g i) j phi /\
      make_v0 g theta (PhiNum phi) nwl = Ok (repeat row nwl) /\ length row = h /\
      forall k', nth k' row 0 = if Nat.eqb k' k then 1 else 0.
  Proof.
    pose proof Hv as [Hn [Hc Hs]]. intros Ht Hp.
    pose proof (Hgeq _ _ _ _ _ Hg) as Hgq.
    destruct (find_upper theta Ht) as [i [Hi Hti]].
    destruct (find_phi_left sp n phi_sym c Hn Hc Hs i phi ltac:(lia) Hp) as [j [Hj Hpj]].
    assert (Hk : (off n c i + j < h)%nat).
    { pose proof (off_le n c Hn (S i) n ltac:(lia)) as H1. rewrite off_S in H1 by auto. unfold h. lia. }
    exists (off n c i + j)%nat, i, j, (map (fun k => if Nat.eqb k (off n c i + j) then 1 else 0) (seq 0 h)).
    split; auto. split; [apply (row_is_intro n phi_sym c sp g Hv Hg); auto; lia|].
    split.
    { split; [rewrite Hgq, g_theta_intv_eq, theta_edges_length; lia|]. rewrite Hgq, g_theta_intv_eq. auto. }
    assert (HB : in_bin_left (phi_edges_of g i) j phi).
    { unfold phi_edges_of. rewrite Hgq. split; [rewrite phi_intv_nth, linspace_length by (auto; lia); lia|].
      rewrite !phi_intv_nth_nth by (auto; lia). auto. }
    split; auto. split; [|split].
    - unfold make_v0. rewrite (v0_unfold i) by auto.
      assert (Ed : digitize_left phi (phi_edges_of g i) = S j).
      { apply digitize_left_spec; [|apply HB|apply HB]. unfold phi_edges_of. rewrite Hgq. apply phi_intv_inc; auto; lia. }
      rewrite Ed. rewrite py_pos_ok by lia. cbn [rbind].
      replace (Z.to_nat (Z.of_nat (off n c i) + (Z.of_nat (S j) - 1))) with (off n c i + j)%nat by lia. auto.
    - rewrite map_length, seq_length. auto.
    - intros k'. destruct (Nat.lt_ge_cases k' h) as [H|H].
      + rewrite nth_map_lt with (da := 0%nat) by (rewrite seq_length; auto). rewrite nth_seq0 by auto. auto.
      + rewrite nth_overflow by (rewrite map_length, seq_length; auto).
        destruct (Nat.eqb_spec k' (off n c i + j)); [lia|auto].
  Qed.

  Lemma v0_all theta nwl : 0 <= theta < PI / 2 ->
    exists i row, in_bin_left (g_theta_intv g) i theta /\
      make_v0 g theta PhiAll nwl = Ok (repeat row nwl) /\ length row = h /\ rsum row = 1 /\
      forall k r, (k < h)%nat -> nth_error (g_av g) k = Some r ->
        nth k row 0 = if Nat.eqb (a_ring r) i then 1 / INR (length (phi_edges_of g i) - 1) else 0.
  Proof.
    pose proof Hv as [Hn [Hc Hs]]. intros Ht.
    pose proof (Hgeq _ _ _ _ _ Hg) as Hgq.
    destruct (find_upper theta Ht) as [i [Hi Hti]].
    pose proof (ring_count_pos n c Hn Hc i ltac:(lia)) as HK.
    exists i. eexists. split; [|split; [|split; [|split]]].
    - split; [rewrite Hgq, g_theta_intv_eq, theta_edges_length; lia|]. rewrite Hgq, g_theta_intv_eq. auto.
    - unfold make_v0. rewrite (v0_unfold i) by auto. cbn [rbind]. reflexivity.
    - rewrite map_length, seq_length. auto.
    - set (o := off n c i). set (K := ring_count n c i) in *.
      assert (Hoh : (o + K <= h)%nat).
      { pose proof (off_le n c Hn (S i) n ltac:(lia)) as H1. rewrite off_S in H1 by auto. unfold h, o, K. lia. }
      replace h with (o + (K + (h - o - K)))%nat by lia.
      rewrite seq_app, (seq_app K), !map_app, !rsum_app. simpl (0 + o)%nat.
      rewrite (rsum_map_0 _ (seq 0 o)).
      2:{ intros k Hk. apply in_seq in Hk. destruct (Nat.leb_spec o k); simpl; auto. lia. }
      rewrite (rsum_map_0 _ (seq (o + K) _)).
      2:{ intros k Hk. apply in_seq in Hk. destruct (Nat.ltb_spec k (o + K)); [lia|]. rewrite andb_false_r. auto. }
      rewrite (rsum_map_ext _ (fun _ => 1 / INR K)).
      2:{ intros k Hk. apply in_seq in Hk. destruct (Nat.leb_spec o k); [|lia]. destruct (Nat.ltb_spec k (o + K)); [auto|lia]. }
      rewrite rsum_map_const, seq_length. field. apply Rgt_not_eq, lt_0_INR. lia.
    - intros k r Hk Hr. rewrite nth_map_lt with (da := 0%nat) by (rewrite seq_length; auto). rewrite nth_seq0 by auto.
      rewrite (ring_count_edges n phi_sym c sp g i Hv Hg) by lia.
      destruct (oi_rows n phi_sym c sp g Hv Hg k ltac:(unfold h in Hk; lia)) as [i' [j [Hi' [Hj [E [E2 _]]]]]].
      apply nth_error_nth with (d := default_row) in Hr. rewrite E2 in Hr. subst r. cbn [a_ring].
      destruct (Nat.eqb_spec i' i) as [->|Hne].
      + destruct (Nat.leb_spec (off n c i) k); [|lia]. destruct (Nat.ltb_spec k (off n c i + ring_count n c i)); [auto|lia].
      + destruct (Nat.leb_spec (off n c i) k); simpl; auto.
        destruct (Nat.ltb_spec k (off n c i + ring_count n c i)); auto. exfalso.
        destruct (off_inj sp n phi_sym c Hn Hc i' j i (k - off n c i)); auto; lia.
  Qed.

  (* phi_in equal to the symmetry angle *)
  Lemma v0_at_sym i theta nwl : (S i < n)%nat -> in_bin_left (g_theta_intv g) i theta ->
    exists k r row, (k < h)%nat /\ nth_error (g_av g) k = Some r /\ a_ring r = S i /\
      make_v0 g theta (fold_phi_in (PhiNum phi_sym) phi_sym) nwl = Ok (repeat row nwl) /\
      nth k row 0 = 1 /\ rsum row = 1.
  Proof.
    pose proof Hv as [Hn [Hc Hs]]. intros Hi [_ Ht].
    pose proof (Hgeq _ _ _ _ _ Hg) as Hgq. rewrite Hgq, g_theta_intv_eq in Ht.
    assert (Hk : (off n c (S i) < h)%nat).
    { pose proof (off_le n c Hn (S (S i)) n ltac:(lia)) as H1. rewrite off_S in H1 by auto. unfold h.
      pose proof (ring_count_pos n c Hn Hc (S i) ltac:(lia)). lia. }
    pose proof (av_row sp n phi_sym c Hn Hc (S i) 0 ltac:(lia) ltac:(pose proof (ring_count_pos n c Hn Hc (S i) ltac:(lia)); lia)) as Erow.
    rewrite Nat.add_0_r, <- Hgq in Erow.
    exists (off n c (S i)), (mk_arow (S i) (theta_mid sp n (S i)) (phi_mid n phi_sym c (S i) 0)).
    exists (map (fun k => if Nat.eqb k (off n c (S i)) then 1 else 0) (seq 0 h)).
    split; auto. split.
    { rewrite <- Erow. apply nth_error_nth'. rewrite (g_len n phi_sym c sp g Hv Hg). unfold h in Hk. lia. }
    split; auto. split; [|split].
    - simpl fold_phi_in. destruct (Rltb phi_sym phi_sym) eqn:E; [apply Rltb_true in E; lra|].
      unfold make_v0. rewrite (v0_unfold i) by (auto; lia).
      assert (Ed : digitize_left phi_sym (phi_edges_of g i) = S (ring_count n c i)).
      { unfold digitize_left, phi_edges_of. rewrite Hgq, phi_intv_nth by (auto; lia).
        rewrite filter_all; [rewrite linspace_length; lia|].
        intros x Hx. apply Rleb_true. apply In_nth with (d := 0) in Hx. destruct Hx as [q [Hq <-]].
        rewrite linspace_length in Hq. rewrite linspace_nth by auto.
        replace (ring_count n c i + 1 - 1)%nat with (ring_count n c i) by lia.
        pose proof (ring_count_pos n c Hn Hc i ltac:(lia)) as HK. set (K := ring_count n c i) in *.
        assert (HKR : 0 < INR K) by (apply lt_0_INR; lia).
        assert (INR q <= INR K) by (apply le_INR; lia).
        rewrite Rplus_0_l, Rminus_0_r. apply Rmult_le_reg_r with (INR K); auto.
        replace (INR q * (phi_sym / INR K) * INR K) with (INR q * phi_sym) by (field; lra). nra. }
      rewrite Ed. rewrite off_S in * by auto. rewrite py_pos_ok by lia. cbn [rbind].
      replace (Z.to_nat (Z.of_nat (off n c i) + (Z.of_nat (S (ring_count n c i)) - 1))) with (off n c i + ring_count n c i)%nat by lia. auto.
    - rewrite nth_map_lt with (da := 0%nat) by (rewrite seq_length; auto). rewrite nth_seq0 by auto. rewrite Nat.eqb_refl. auto.
    - rewrite (rsum_map_single _ h (off n c (S i))); auto; [rewrite Nat.eqb_refl; auto|].
      intros q Hq Hne. destruct (Nat.eqb_spec q (off n c (S i))); [congruence|auto].
  Qed.

  (* grazing incidence and phi_in = 'all': no power at all *)
  Lemma v0_grazing nwl : exists row, make_v0 g (PI / 2) PhiAll nwl = Ok (repeat row nwl) /\
    length row = h /\ rsum row = 0.
  Proof.
    pose proof Hv as [Hn [Hc Hs]]. pose proof (Hgeq _ _ _ _ _ Hg) as Hgq.
    exists (map (fun k => if (off n c n <=? k)%nat && (k <? off n c n + ring_count n c n)%nat
                                  then 1 / INR (ring_count n c n) else 0) (seq 0 h)).
    split; [|split].
    - unfold make_v0, make_v0_row.
      assert (E1 : digitize_left (PI / 2) (g_theta_intv g) = S n).
      { rewrite Hgq, g_theta_intv_eq. apply digitize_left_spec.
        - apply theta_edges_increasing; auto.
        - rewrite theta_edges_length; lia.
        - rewrite theta_edges_n by auto. pose proof (theta_edges_increasing sp n Hn n (S n)) as H.
          rewrite theta_edges_length in H. specialize (H ltac:(lia)). rewrite theta_edges_n in H by auto. lra. }
      rewrite E1. replace (Z.of_nat (S n) - 1)%Z with (Z.of_nat n) by lia.
      rewrite (g_half n phi_sym c sp g Hv Hg). fold h.
      rewrite py_index_ok with (d := []) by (rewrite Hgq, phi_intv_length by auto; lia).
      rewrite Nat2Z.id. cbn [rbind].
      replace (argmin Z.ltb (map (fun r => Z.abs (Z.of_nat (a_ring r) - Z.of_nat n)) (g_av g))) with (Ok (off n c n))
        by (rewrite Hgq; symmetry; apply ring_start; auto; lia).
      cbn [rbind].
      pose proof (ring_count_edges n phi_sym c sp g n Hv Hg ltac:(lia)) as E. unfold phi_edges_of in E. rewrite E. auto.
    - rewrite map_length, seq_length. auto.
    - apply rsum_map_0. intros k Hk. apply in_seq in Hk. fold h. destruct (Nat.leb_spec h k); simpl; auto. lia.
  Qed.
End V0.
