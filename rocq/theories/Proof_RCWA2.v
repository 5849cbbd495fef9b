From Coq Require Import Reals List ZArith Bool String Lia Lra.
From Verif Require Import Base Lib Model_Angles Proof_Angles Spec_Angles Proof_AnglesProps Model_Ideal Model_MatMul Model_TMM
  Model_Diff Spec_Diff Proof_Diff Spec_TMM Model_RT Proof_RT Model_RCWA Spec_RCWA Proof_RCWA.
Import ListNotations.
Local Notation length := List.length.
Open Scope R_scope.

Section Loop.
  Variables (n : nat) (phi_sym c : R) (sp : spacing) (g : grid) (h : nat).
  Hypothesis Hv : valid_request n phi_sym c.
  Hypothesis Hg : make_angle_vector n phi_sym c sp = Ok g.
  Hypothesis Hh : length (g_av g) = (2 * h)%nat.
  Hypothesis Hphi : 1 / 10 ^ 10 <= phi_sym.
  Variables (wl n_in n_out : R) (g1 g2 : v2) (s : side) (basis : list order) (solve : R -> R -> rcwa_out).
  Hypothesis Hwl : 0 < wl.
  Hypothesis Hni : 0 < n_in.
  Hypothesis Hno : 0 < n_out.

  Definition row_writes (r : arow) : list (nat * fl) :=
    all_writes phi_sym g wl n_in n_out g1 g2 s (a_theta r) (a_phi r) basis (solve (a_theta r) (a_phi r)).

  Lemma row_writes_ok r :
    rcwa_writes s g wl n_in n_out phi_sym basis g1 g2 (a_theta r) (a_phi r) (solve (a_theta r) (a_phi r)) = Ok (map zw (row_writes r)) /\
    forall w, In w (row_writes r) -> (fst w < 2 * h)%nat.
  Proof. apply (writes_ok n phi_sym c sp g h); auto. Qed.

  Notation loop := (rcwa_loop s g wl n_in n_out phi_sym basis g1 g2 solve).

  Lemma loop_step i1 cc r rest mat A : shaped (2 * h) h mat -> length A = h -> (i1 < h)%nat -> (cc < h)%nat ->
    exists col, loop i1 ((Z.of_nat cc, r) :: rest) mat A =
        loop (S i1) rest (set_nth cc col mat) (set_nth cc (q_A (solve (a_theta r) (a_phi r))) A) /\
      length col = (2 * h)%nat /\ (i1 = cc -> col = fold_left dep (row_writes r) (nth cc mat [])) /\
      (i1 <> cc -> col = fold_left (over (nth i1 mat [])) (row_writes r) (nth cc mat [])).
  Proof.
    intros Hm HA Hi Hc. cbn [rcwa_loop]. destruct (row_writes_ok r) as [-> W]. cbn [rbind].
    destruct (write_total (2 * h) h i1 cc (row_writes r) mat Hm Hi Hc W) as (col & -> & C1 & C2 & C3). cbn [rbind].
    rewrite py_pos_ok by lia. rewrite Nat2Z.id. cbn [rbind]. exists col. auto.
  Qed.

  Lemma loop_total : forall rows cs i1 mat A, length cs = length rows -> shaped (2 * h) h mat -> length A = h ->
    (i1 + length rows <= h)%nat -> Forall (fun k => (k < h)%nat) cs ->
    exists mat' A', loop i1 (combine (map Z.of_nat cs) rows) mat A = Ok (mat', A') /\ shaped (2 * h) h mat' /\ length A' = h /\
      (forall k, ~ In k cs -> nth k mat' [] = nth k mat [] /\ nth k A' [] = nth k A []) /\
      (NoDup cs -> forall k r, nth_error rows k = Some r -> nth (nth k cs 0%nat) A' [] = q_A (solve (a_theta r) (a_phi r))).
  Proof.
    induction rows as [|r rows IH]; intros [|cc cs] i1 mat A HL Hm HA Hi Hc; simpl in HL; try lia.
    - exists mat, A. cbn [map combine rcwa_loop]. split; auto. split; auto. split; auto. split; auto. intros _ k r H. destruct k; discriminate.
    - cbn [map combine]. apply Forall_cons_iff in Hc as [Hcc Hcs]. simpl in Hi.
      destruct (loop_step i1 cc r (combine (map Z.of_nat cs) rows) mat A Hm ltac:(lia) ltac:(lia) Hcc) as (col & -> & C1 & _ & _).
      destruct (IH cs (S i1) (set_nth cc col mat) (set_nth cc (q_A (solve (a_theta r) (a_phi r))) A)) as (mat' & A' & E & S' & LA & Ho & Ha);
        auto; try lia; [apply set_shaped; auto|rewrite set_nth_length; auto|].
      exists mat', A'. split; auto. split; auto. split; auto. split.
      + intros k Hk. assert (k <> cc) by (intros ->; apply Hk; left; auto). destruct (Ho k) as [-> ->]; [intros Hin; apply Hk; right; auto|].
        rewrite !set_nth_nth by (destruct Hm; lia). destruct (Nat.eqb_spec k cc); [contradiction|auto].
      + intros HN. apply NoDup_cons_iff in HN as [HN1 HN2]. intros [|k] r' Hr.
        * injection Hr as <-. cbn [nth]. destruct (Ho cc HN1) as [_ ->]. rewrite set_nth_nth by lia. rewrite Nat.eqb_refl. auto.
        * cbn [nth nth_error] in *. apply Ha; auto.
  Qed.

  Lemma loop_same : forall rows i1 mat A, shaped (2 * h) h mat -> length A = h -> (i1 + length rows <= h)%nat ->
    (forall k, (i1 <= k < h)%nat -> nth k mat [] = repeat (Some 0) (2 * h)) ->
    exists mat' A', loop i1 (combine (map Z.of_nat (seq i1 (length rows))) rows) mat A = Ok (mat', A') /\ shaped (2 * h) h mat' /\ length A' = h /\
      (forall k r, nth_error rows k = Some r -> nth (i1 + k) mat' [] = fold_left dep (row_writes r) (repeat (Some 0) (2 * h)) /\
         nth (i1 + k) A' [] = q_A (solve (a_theta r) (a_phi r))) /\
      (forall k, (k < i1)%nat -> nth k mat' [] = nth k mat [] /\ nth k A' [] = nth k A []).
  Proof.
    induction rows as [|r rows IH]; intros i1 mat A Hm HA Hi Hz.
    - exists mat, A. cbn. split; auto. split; auto. split; auto. split; auto. intros [|k] r H; discriminate.
    - cbn [length seq map combine]. simpl in Hi.
      destruct (loop_step i1 i1 r (combine (map Z.of_nat (seq (S i1) (length rows))) rows) mat A Hm ltac:(lia) ltac:(lia) ltac:(lia)) as (col & -> & C1 & C2 & _).
      destruct (IH (S i1) (set_nth i1 col mat) (set_nth i1 (q_A (solve (a_theta r) (a_phi r))) A)) as (mat' & A' & E & S' & LA & Hn & Ho); auto; try lia.
      { apply set_shaped; auto; lia. } { rewrite set_nth_length; auto. }
      { intros k Hk. rewrite set_nth_nth by (destruct Hm; lia). destruct (Nat.eqb_spec k i1); [lia|]. apply Hz. lia. }
      exists mat', A'. split; auto. split; auto. split; auto. split.
      + intros [|k] r' Hr.
        * injection Hr as <-. rewrite Nat.add_0_r. destruct (Ho i1) as [-> ->]; [lia|]. rewrite !set_nth_nth by (destruct Hm; lia).
          rewrite Nat.eqb_refl. split; auto. rewrite C2 by auto. rewrite Hz by lia. auto.
        * replace (i1 + S k)%nat with (S i1 + k)%nat by lia. apply Hn. auto.
      + intros k Hk. destruct (Ho k) as [-> ->]; [lia|]. rewrite !set_nth_nth by (destruct Hm; lia). destruct (Nat.eqb_spec k i1); [lia|auto].
  Qed.

  Lemma zero_shaped : shaped (2 * h) h (repeat (repeat (Some 0) (2 * h)) h).
  Proof.
    split; [apply repeat_length|]. intros k Hk. rewrite nth_repeat_any by auto. apply repeat_length.
  Qed.
  Lemma zero_col k : (k < h)%nat -> nth k (repeat (repeat (Some 0 : fl) (2 * h)) h) [] = repeat (Some 0) (2 * h).
  Proof. intros Hk. apply nth_repeat_any. auto. Qed.
End Loop.

(* ---------- in_bin ---------- *)

Section InBin.
  Variables (n : nat) (phi_sym c : R) (sp : spacing) (g : grid) (h : nat).
  Hypothesis Hv : valid_request n phi_sym c.
  Hypothesis Hg : make_angle_vector n phi_sym c sp = Ok g.
  Hypothesis Hh : length (g_av g) = (2 * h)%nat.

  Lemma rows_length : length (firstn h (g_av g)) = h.
  Proof. rewrite firstn_length. lia. Qed.
  Lemma rows_nth k : (k < h)%nat -> nth_error (firstn h (g_av g)) k = nth_error (g_av g) k.
  Proof.
    intros Hk. rewrite <- (firstn_skipn h (g_av g)) at 2. rewrite nth_error_app1; auto. rewrite rows_length. auto.
  Qed.

  Lemma h_off : h = off n c n.
  Proof.
    pose proof Hv as [Hn [Hc Hs]]. pose proof (av_half sp n phi_sym c Hn Hc) as A. rewrite <- (Hgeq _ _ _ _ _ Hg) in A. lia.
  Qed.

  (* row of the mirrored direction *)
  Lemma mirror_row k r : (k < h)%nat -> nth_error (g_av g) k = Some r ->
    exists i j k', (i < n)%nat /\ (j < ring_count n c i)%nat /\ k = (off n c i + j)%nat /\ k' = (off n c (2 * n - 1 - i) + j)%nat /\
      (h <= k' < 2 * h)%nat /\ (exists r', nth_error (g_av g) k' = Some r' /\ a_theta r' = PI - a_theta r /\ a_phi r' = a_phi r) /\
      bin_of g (PI - a_theta r) (a_phi r) = Ok (Z.of_nat k').
  Proof.
    intros Hk Hr. pose proof Hv as [Hn [Hc Hs]]. pose proof (Hgeq _ _ _ _ _ Hg) as Hgq. pose proof h_off as Ho.
    assert (Hk' : (k < length (g_av g))%nat) by lia. rewrite Hgq in Hk'.
    destruct (av_decompose sp n phi_sym c Hn Hc k Hk') as [i [j [Hi [Hj E]]]].
    assert (Hin : (i < n)%nat).
    { destruct (Nat.lt_ge_cases i n); auto. pose proof (off_le n c Hn n i ltac:(lia)). lia. }
    pose proof (av_row sp n phi_sym c Hn Hc i j Hi Hj) as Er.
    assert (Hj' : (j < ring_count n c (2 * n - 1 - i))%nat) by (rewrite ring_count_sym by (auto; lia); auto).
    pose proof (av_row sp n phi_sym c Hn Hc (2 * n - 1 - i) j ltac:(lia) Hj') as Er'.
    pose proof (off_bound sp n phi_sym c Hn Hc (2 * n - 1 - i) j ltac:(lia) Hj') as Hb. rewrite <- Hgq in Hb.
    pose proof (off_le n c Hn n (2 * n - 1 - i) ltac:(lia)) as Hle.
    assert (R' : exists r', nth_error (g_av g) (off n c (2 * n - 1 - i) + j) = Some r' /\ a_theta r' = PI - a_theta r /\ a_phi r' = a_phi r).
    { eexists. split; [rewrite (nth_error_nth' _ default_row) by lia; rewrite Hgq, Er'; reflexivity|].
      rewrite E, Hgq in Hr. apply nth_error_nth with (d := default_row) in Hr. rewrite Er in Hr. rewrite <- Hr. cbn [a_theta a_phi].
      split; [apply theta_mid_sym; auto; lia|]. unfold phi_mid, phi_edge. rewrite ring_count_sym by (auto; lia). auto. }
    exists i, j, (off n c (2 * n - 1 - i) + j)%nat. split; auto. split; auto. split; auto. split; auto. split; [lia|]. split; auto.
    destruct R' as (r' & R1 & <- & <-). apply (C03_center n phi_sym c sp); auto.
  Qed.

  Definition rear_bin (r : arow) : nat := match bin_of g (PI - a_theta r) (a_phi r) with Ok b => Z.to_nat b - h | Err _ => 0%nat end.

  Lemma rear_bin_ok k r : (k < h)%nat -> nth_error (g_av g) k = Some r ->
    (rear_bin r < h)%nat /\ bin_of g (PI - a_theta r) (a_phi r) = Ok (Z.of_nat (h + rear_bin r)) /\
    (exists r', nth_error (g_av g) (h + rear_bin r) = Some r' /\ a_theta r' = PI - a_theta r /\ a_phi r' = a_phi r) /\
    (n = 1%nat -> rear_bin r = k) /\ ((2 <= n)%nat -> k = 0%nat -> rear_bin r <> 0%nat).
  Proof.
    intros Hk Hr. destruct (mirror_row k r Hk Hr) as (i & j & k' & Hi & Hj & E & E' & Hb & (r' & R1 & R2 & R3) & B).
    unfold rear_bin. rewrite B, Nat2Z.id. replace (h + (k' - h))%nat with k' by lia. split; [lia|]. split; auto. split; [exists r'; auto|].
    pose proof h_off as Ho. pose proof Hv as [Hn [Hc Hs]]. split.
    - intros ->. replace i with 0%nat in * by lia. cbn [Nat.mul Nat.add Nat.sub] in E'. assert (off 1 c 0 = 0)%nat by reflexivity. lia.
    - intros H2 ->. assert (i = 0)%nat.
      { destruct i as [|i]; auto. rewrite off_S in E by auto. pose proof (ring_count_pos n c Hn Hc i ltac:(lia)). lia. }
      subst i. assert (H : (off n c (S n) <= off n c (2 * n - 1 - 0))%nat) by (apply off_le; auto; lia). rewrite off_S in H by auto.
      pose proof (ring_count_pos n c Hn Hc n ltac:(lia)). lia.
  Qed.

  Lemma rear_bin_inj k1 k2 r1 r2 : (k1 < h)%nat -> (k2 < h)%nat -> nth_error (g_av g) k1 = Some r1 -> nth_error (g_av g) k2 = Some r2 ->
    rear_bin r1 = rear_bin r2 -> k1 = k2.
  Proof.
    intros H1 H2 R1 R2 E. destruct (rear_bin_ok _ _ H1 R1) as (_ & _ & (a & A1 & A2 & A3) & _).
    destruct (rear_bin_ok _ _ H2 R2) as (_ & _ & (b & B1 & B2 & B3) & _). rewrite E, B1 in A1. injection A1 as ->.
    assert (a_theta r1 = a_theta r2) as T by lra. assert (a_phi r1 = a_phi r2) as P by congruence.
    pose proof (C03_center n phi_sym c sp g Hv Hg k1 r1 R1) as C1. pose proof (C03_center n phi_sym c sp g Hv Hg k2 r2 R2) as C2.
    rewrite T, P, C2 in C1. injection C1 as C1. lia.
  Qed.

  Lemma row_at k : (k < h)%nat -> exists r, nth_error (g_av g) k = Some r.
  Proof. intros Hk. destruct (nth_error (g_av g) k) eqn:E; [eauto|]. apply nth_error_None in E. lia. Qed.

  Definition channel (s : side) (k : nat) (r : arow) : nat := match s with Front => k | Rear => rear_bin r end.

  Lemma in_bins_ok s : exists cs, rcwa_in_bins s g (firstn h (g_av g)) = Ok (map Z.of_nat cs) /\ length cs = h /\
    Forall (fun k => (k < h)%nat) cs /\ NoDup cs /\ (s = Front \/ n = 1%nat -> cs = seq 0 h) /\
    (forall k r, (k < h)%nat -> nth_error (g_av g) k = Some r -> nth k cs 0%nat = channel s k r) /\
    (forall k r, (k < h)%nat -> nth_error (g_av g) k = Some r -> exists r',
       nth_error (g_av g) (channel_row s h (nth k cs 0%nat)) = Some r' /\ incoming s (a_theta r') = a_theta r /\ a_phi r' = a_phi r).
  Proof.
    destruct s; cbn [rcwa_in_bins].
    - exists (seq 0 h). rewrite rows_length. split; auto. split; [apply seq_length|]. split.
      { apply Forall_forall. intros k Hk. apply in_seq in Hk. lia. }
      split; [apply seq_NoDup|]. split; auto. split; [intros k r Hk Hr; rewrite seq_nth by auto; reflexivity|].
      intros k r Hk Hr. rewrite seq_nth by auto. cbn [channel_row incoming plus]. eauto.
    - set (cs := map rear_bin (firstn h (g_av g))). exists cs.
      assert (Hcs : forall k r, (k < h)%nat -> nth_error (g_av g) k = Some r -> nth k cs 0%nat = rear_bin r).
      { intros k r Hk Hr. unfold cs. rewrite nth_map_lt with (da := r) by (rewrite rows_length; auto). f_equal.
        rewrite <- (rows_nth k Hk) in Hr. apply nth_error_nth. auto. }
      assert (HL : length cs = h) by (unfold cs; rewrite map_length; apply rows_length).
      split.
      + rewrite rmap_ok with (k := fun r => Z.of_nat (rear_bin r)); [unfold cs; rewrite map_map; auto|].
        intros r Hr. apply In_nth_error in Hr. destruct Hr as [k Hr].
        assert (Hk : (k < h)%nat). { rewrite <- rows_length. apply nth_error_Some. congruence. }
        rewrite rows_nth in Hr by auto. destruct (rear_bin_ok k r Hk Hr) as (_ & B & _). rewrite B. cbn [rbind]. f_equal.
        rewrite Hh. replace (2 * h / 2)%nat with h by (rewrite Nat.mul_comm, Nat.div_mul; lia). lia.
      + split; auto. split.
        { apply Forall_nth. intros k d Hk. rewrite HL in Hk. rewrite (nth_indep _ d 0%nat) by lia. destruct (row_at k Hk) as [r Hr].
          rewrite (Hcs _ _ Hk Hr). apply (rear_bin_ok k r Hk Hr). }
        split.
        { apply NoDup_nth with (d := 0%nat). rewrite HL. intros k1 k2 H1 H2 E. destruct (row_at k1 H1) as [r1 R1]. destruct (row_at k2 H2) as [r2 R2].
          rewrite (Hcs _ _ H1 R1), (Hcs _ _ H2 R2) in E. apply (rear_bin_inj k1 k2 r1 r2); auto. }
        split.
        { intros [H|H]; [discriminate|]. apply nth_ext with (d := 0%nat) (d' := 0%nat); [rewrite seq_length; auto|]. rewrite HL. intros k Hk.
          destruct (row_at k Hk) as [r Hr]. rewrite (Hcs _ _ Hk Hr), seq_nth by auto. destruct (rear_bin_ok k r Hk Hr) as (_ & _ & _ & E & _). auto. }
        split; [exact Hcs|]. intros k r Hk Hr. rewrite (Hcs _ _ Hk Hr). destruct (rear_bin_ok k r Hk Hr) as (_ & _ & (r' & A & B & C) & _).
        exists r'. cbn [channel_row incoming]. split; auto. split; auto. rewrite B. ring.
  Qed.
End InBin.

(* ---------- the matrix ---------- *)

Lemma group_sum_scal a x l b : group_sum a (map (fun y => x * y) l) b = x * group_sum a l b.
Proof.
  unfold group_sum. rewrite map_length. rewrite <- rsum_map_scal. apply rsum_map_ext. intros j Hj. apply in_seq in Hj.
  rewrite nth_map_lt with (da := 0) by lia. destruct (Nat.eqb _ _); ring.
Qed.

Section Matrix.
  Variables (n : nat) (phi_sym c : R) (sp : spacing) (g : grid) (h : nat).
  Hypothesis Hv : valid_request n phi_sym c.
  Hypothesis Hg : make_angle_vector n phi_sym c sp = Ok g.
  Hypothesis Hh : length (g_av g) = (2 * h)%nat.
  Hypothesis Hphi : 1 / 10 ^ 10 <= phi_sym.
  Variables (wl n_in n_out : R) (g1 g2 : v2) (s : side) (basis : list order) (n_layers : nat) (solve : R -> R -> rcwa_out).
  Hypothesis Hwl : 0 < wl.
  Hypothesis Hni : 0 < n_in.
  Hypothesis Hno : 0 < n_out.
  Notation matrix := (rcwa_matrix s g wl n_in n_out phi_sym basis g1 g2 n_layers solve).

  Lemma half : (length (g_av g) / 2 = h)%nat.
  Proof. rewrite Hh, Nat.mul_comm, Nat.div_mul; lia. Qed.

  Lemma azimuth_ok theta phi m : azimuth_of phi_sym (order_freq n_in wl theta phi g1 g2 m)
    (d_phi (order_direction wl n_in n_out theta phi phi_sym g1 g2 m)).
  Proof.
    destruct Hv as (_ & _ & Hs). split.
    - unfold order_direction. cbn [d_phi]. apply fold_phi_range. auto.
    - intros alpha k Hk Hp. apply (order_azimuth wl n_in n_out theta phi phi_sym g1 g2 m alpha k Hs Hk). exact Hp.
  Qed.

  Lemma column_spec theta phi o : length (q_Rp o) = length basis -> length (q_Tp o) = length basis ->
    let KR := kept n_in n_in wl theta phi g1 g2 basis (q_Rp o) in
    let KT := kept n_out n_in wl theta phi g1 g2 basis (q_Tp o) in
    rsum KR <> 0 -> exists col,
      fold_left dep (all_writes phi_sym g wl n_in n_out g1 g2 s theta phi basis o) (repeat (Some 0) (2 * h)) = map Some col /\
      distribution g s h phi_sym wl n_in n_out g1 g2 theta phi basis (1 - q_T o - rsum (q_A o)) KR KT col.
  Proof.
    intros HR HT KR KT HS.
    destruct (column_ok n phi_sym c sp g h Hv Hg Hh Hphi wl n_in n_out g1 g2 s Hwl Hni Hno theta phi basis o HR HT HS) as (col & C1 & C2 & C3 & C4).
    exists col. split; auto. split; auto. split; auto.
    exists (map (bin_r phi_sym g wl n_in n_out g1 g2 s theta phi) basis), (map (bin_t phi_sym g wl n_in n_out g1 g2 s theta phi) basis).
    rewrite !map_length. split; auto. split; auto. split.
    - intros b Hb. rewrite C3 by auto. rewrite group_sum_scal. reflexivity.
    - intros j Hj. cbv zeta. set (m := nth j basis (0, 0)%Z). exists (d_phi (order_direction wl n_in n_out theta phi phi_sym g1 g2 m)).
      split; [apply azimuth_ok|]. rewrite !nth_map_lt with (da := (0, 0)%Z) by auto. fold m. split; intros Hf.
      + exact (place_r n phi_sym c sp g h Hv Hg Hh Hphi wl n_in n_out g1 g2 s Hwl Hni theta phi m Hf).
      + exact (place_t n phi_sym c sp g h Hv Hg Hh Hphi wl n_in n_out g1 g2 s Hwl Hno theta phi m Hf).
  Qed.

  (* shape and absorption, both sides *)
  Lemma matrix_total : exists cols A, matrix = Ok (cols, A) /\ length cols = h /\ length A = h /\
    (forall i, (i < h)%nat -> length (nth i cols []) = (2 * h)%nat) /\
    (forall i r, (i < h)%nat -> nth_error (g_av g) (channel_row s h i) = Some r ->
       nth i A [] = flip_rear s (q_A (solve (incoming s (a_theta r)) (a_phi r)))).
  Proof.
    unfold rcwa_matrix. rewrite half. cbv zeta.
    destruct (in_bins_ok n phi_sym c sp g h Hv Hg Hh s) as (cs & -> & L & F & N & _ & _ & P). cbn [rbind]. rewrite Hh.
    destruct (loop_total n phi_sym c sp g h Hv Hg Hh Hphi wl n_in n_out g1 g2 s basis solve Hwl Hni Hno (firstn h (g_av g)) cs 0
      (repeat (repeat (Some 0) (2 * h)) h) (repeat (repeat 0 n_layers) h)) as (mat & A & -> & S1 & S2 & _ & S3); auto.
    { rewrite L. symmetry. apply (rows_length g h Hh). } { apply zero_shaped. } { apply repeat_length. }
    { rewrite (rows_length g h Hh). lia. }
    cbn [rbind fst snd]. exists mat, (map (flip_rear s) A). split; auto. split; [apply S1|]. split; [rewrite map_length; auto|].
    split; [apply S1|]. intros i r Hi Hr.
    assert (Hin : In i cs).
    { apply (NoDup_length_incl N (l' := seq 0 h)); [rewrite seq_length; lia| |apply in_seq; lia].
      intros x Hx. rewrite Forall_forall in F. apply in_seq. specialize (F x Hx). lia. }
    destruct (In_nth _ _ 0%nat Hin) as (k & Hk & Ek). rewrite L in Hk. destruct (row_at g h Hh k Hk) as [rk Rk].
    destruct (P k rk Hk Rk) as (r' & R1 & R2 & R3). rewrite Ek, Hr in R1. injection R1 as <-. rewrite R2, R3.
    rewrite nth_map_lt with (da := []) by lia. f_equal. rewrite <- Ek. apply (S3 N). rewrite rows_nth; auto.
  Qed.

  Lemma matrix_same : s = Front \/ n = 1%nat -> exists cols A, matrix = Ok (cols, A) /\ 
    forall i r, (i < h)%nat -> nth_error (g_av g) (channel_row s h i) = Some r ->
      nth i cols [] = fold_left dep (all_writes phi_sym g wl n_in n_out g1 g2 s (incoming s (a_theta r)) (a_phi r) basis
                        (solve (incoming s (a_theta r)) (a_phi r))) (repeat (Some 0) (2 * h)).
  Proof.
    intros Hs. unfold rcwa_matrix. rewrite half. cbv zeta.
    destruct (in_bins_ok n phi_sym c sp g h Hv Hg Hh s) as (cs & -> & L & F & N & E & _ & P). cbn [rbind]. rewrite Hh.
    specialize (E Hs). subst cs.
    destruct (loop_same n phi_sym c sp g h Hv Hg Hh Hphi wl n_in n_out g1 g2 s basis solve Hwl Hni Hno (firstn h (g_av g)) 0
      (repeat (repeat (Some 0) (2 * h)) h) (repeat (repeat 0 n_layers) h)) as (mat & A & E' & S1 & S2 & S3 & _).
    { apply zero_shaped. } { apply repeat_length. } { rewrite (rows_length g h Hh). lia. }
    { intros k Hk. apply zero_col. lia. }
    rewrite (rows_length g h Hh) in E'. rewrite E'. cbn [rbind fst snd]. exists mat, (map (flip_rear s) A). split; auto.
    intros i r Hi Hr. destruct (row_at g h Hh i Hi) as [ri Ri]. destruct (P i ri Hi Ri) as (r' & R1 & R2 & R3). rewrite seq_nth in R1 by auto.
    cbn [plus] in R1. rewrite Hr in R1. injection R1 as <-. rewrite R2, R3. apply (S3 i ri). rewrite rows_nth; auto.
  Qed.
End Matrix.

(* ---------- C56, C100 ---------- *)

Lemma rcwa_columns : forall n phi_sym c sp g h wl n_in n_out g1 g2 s basis n_layers solve,
  valid_request n phi_sym c -> make_angle_vector n phi_sym c sp = Ok g -> length (g_av g) = (2 * h)%nat -> 1 / 10 ^ 10 <= phi_sym ->
  0 < wl -> 0 < n_in -> 0 < n_out -> s = Front \/ n = 1%nat ->
  exists cols A, rcwa_matrix s g wl n_in n_out phi_sym basis g1 g2 n_layers solve = Ok (cols, A) /\ length cols = h /\ length A = h /\
    forall i r, (i < h)%nat -> nth_error (g_av g) (channel_row s h i) = Some r ->
      let theta := incoming s (a_theta r) in let phi := a_phi r in let o := solve theta phi in
      let KR := kept n_in n_in wl theta phi g1 g2 basis (q_Rp o) in
      let KT := kept n_out n_in wl theta phi g1 g2 basis (q_Tp o) in
      nth i A [] = flip_rear s (q_A o) /\
      (length (q_Rp o) = length basis -> length (q_Tp o) = length basis -> rsum KR <> 0 ->
       exists col, nth i cols [] = map Some col /\
         distribution g s h phi_sym wl n_in n_out g1 g2 theta phi basis (1 - q_T o - rsum (q_A o)) KR KT col).
Proof.
  intros n phi_sym c sp g h wl n_in n_out g1 g2 s basis n_layers solve Hv Hg Hh Hphi Hwl Hni Hno Hs.
  destruct (matrix_total n phi_sym c sp g h Hv Hg Hh Hphi wl n_in n_out g1 g2 s basis n_layers solve Hwl Hni Hno) as (cols & A & E & L1 & L2 & _ & HA).
  destruct (matrix_same n phi_sym c sp g h Hv Hg Hh Hphi wl n_in n_out g1 g2 s basis n_layers solve Hwl Hni Hno Hs) as (cols' & A' & E' & HC).
  rewrite E in E'. injection E' as <- <-. exists cols, A. split; auto. split; auto. split; auto. intros i r Hi Hr. cbv zeta.
  split; [apply HA; auto|]. intros HR HT HS. rewrite (HC i r Hi Hr).
  apply (column_spec n phi_sym c sp); auto.
Qed.

Lemma rcwa_absorption : forall n phi_sym c sp g h wl n_in n_out g1 g2 s basis n_layers solve,
  valid_request n phi_sym c -> make_angle_vector n phi_sym c sp = Ok g -> length (g_av g) = (2 * h)%nat -> 1 / 10 ^ 10 <= phi_sym ->
  0 < wl -> 0 < n_in -> 0 < n_out ->
  exists cols A, rcwa_matrix s g wl n_in n_out phi_sym basis g1 g2 n_layers solve = Ok (cols, A) /\ length cols = h /\ length A = h /\
    (forall i, (i < h)%nat -> length (nth i cols []) = (2 * h)%nat) /\
    forall i r, (i < h)%nat -> nth_error (g_av g) (channel_row s h i) = Some r ->
      nth i A [] = flip_rear s (q_A (solve (incoming s (a_theta r)) (a_phi r))).
Proof.
  intros n phi_sym c sp g h wl n_in n_out g1 g2 s basis n_layers solve Hv Hg Hh Hphi Hwl Hni Hno.
  apply (matrix_total n phi_sym c sp); auto.
Qed.

Lemma dep_keeps_nan ws : forall col b, nth b col (None : fl) = None -> nth b (fold_left dep ws col) (None : fl) = None.
Proof.
  induction ws as [|w ws IH]; intros col b H; auto. cbn [fold_left]. apply IH. unfold dep.
  destruct (Nat.lt_ge_cases (fst w) (length col)) as [Hl|Hl].
  - rewrite set_nth_nth by auto. destruct (Nat.eqb_spec b (fst w)) as [->|]; auto. rewrite H. reflexivity.
  - destruct (Nat.lt_ge_cases b (length col)) as [Hb|Hb]; [|apply nth_overflow; rewrite set_nth_length; auto].
    assert (E : forall m (l : list fl) x, (length l <= m)%nat -> set_nth m x l = l).
    { induction m as [|m IHm]; intros [|a l] x Hx; simpl in Hx; auto; try lia. cbn [set_nth]. f_equal. apply IHm. lia. }
    rewrite E; auto.
Qed.
Lemma dep_nan ws : forall col b, In (b, None) ws -> (b < length col)%nat -> nth b (fold_left dep ws col) (None : fl) = None.
Proof.
  induction ws as [|w ws IH]; intros col b Hin Hb; [easy|]. cbn [fold_left]. destruct Hin as [->|Hin].
  - apply dep_keeps_nan. unfold dep. cbn [fst snd]. rewrite set_nth_nth by auto. rewrite Nat.eqb_refl. destruct (nth b col None); auto.
  - apply IH; auto. unfold dep. rewrite set_nth_length. auto.
Qed.

Lemma rcwa_nan : forall n phi_sym c sp g h wl n_in n_out g1 g2 s basis n_layers solve,
  valid_request n phi_sym c -> make_angle_vector n phi_sym c sp = Ok g -> length (g_av g) = (2 * h)%nat -> 1 / 10 ^ 10 <= phi_sym ->
  0 < wl -> 0 < n_in -> 0 < n_out -> s = Front \/ n = 1%nat ->
  exists cols A, rcwa_matrix s g wl n_in n_out phi_sym basis g1 g2 n_layers solve = Ok (cols, A) /\
    forall i r, (i < h)%nat -> nth_error (g_av g) (channel_row s h i) = Some r ->
      let theta := incoming s (a_theta r) in let phi := a_phi r in let o := solve theta phi in
      length (q_Rp o) = length basis -> basis <> [] -> rsum (kept n_in n_in wl theta phi g1 g2 basis (q_Rp o)) = 0 ->
      exists b, (b < 2 * h)%nat /\ nth_error (nth i cols []) b = Some None.
Proof.
  intros n phi_sym c sp g h wl n_in n_out g1 g2 s basis n_layers solve Hv Hg Hh Hphi Hwl Hni Hno Hs.
  destruct (matrix_same n phi_sym c sp g h Hv Hg Hh Hphi wl n_in n_out g1 g2 s basis n_layers solve Hwl Hni Hno Hs) as (cols & A & E & HC).
  exists cols, A. split; auto. intros i r Hi Hr. cbv zeta. set (theta := incoming s (a_theta r)). set (phi := a_phi r). set (o := solve theta phi).
  intros HR HB H0. rewrite (HC i r Hi Hr). fold theta phi o.
  destruct basis as [|m ms] eqn:EB; [contradiction|].
  set (b := bin_r phi_sym g wl n_in n_out g1 g2 s theta phi m). exists b.
  assert (Hb : (b < 2 * h)%nat) by (apply (bin_r_lt n phi_sym c sp); auto). split; auto.
  rewrite (nth_error_nth' _ (None : fl)) by (rewrite dep_fold_length, repeat_length; auto). f_equal.
  apply dep_nan; [|rewrite repeat_length; auto].
  assert (E0 : rsum (kept_R phi_sym wl n_in n_out g1 g2 theta phi (m :: ms) o) = 0) by exact H0.
  unfold all_writes. apply in_or_app. left. rewrite E0. unfold rescale. replace (Reqb 0 0) with true by (symmetry; apply Reqb_true; auto).
  unfold kept_R. destruct (q_Rp o) as [|x l] eqn:EX; [simpl in HR; lia|]. cbn [map map2 filter fnonzero snd]. left. reflexivity.
Qed.

(* rear incidence, more than one polar bin: two orders that fall into one bin *)
Definition littrow_solver : R -> R -> rcwa_out := fun _ _ => mk_rout 0 [] [1 / 2; 1 / 2] [0; 0].

Lemma over_two (src col : list fl) b x y : (b < length col)%nat -> nth b src (None : fl) = Some 0 -> 
  fold_left (over src) [(b, Some x); (b, Some y)] col = set_nth b (Some y) col.
Proof.
  intros Hb Hs. cbn [fold_left]. unfold over. cbn [fst snd]. rewrite Hs. cbn [fadd]. rewrite set_set. rewrite !Rplus_0_l. auto.
Qed.

Lemma set_map_some b y : forall k, set_nth b (Some y) (repeat (Some 0 : fl) k) = map Some (set_nth b y (repeat 0 k)).
Proof. induction b as [|b IH]; intros [|k]; cbn [repeat set_nth map]; auto; f_equal; [induction k; cbn [repeat map]; auto; f_equal; auto|apply IH]. Qed.

Lemma rsum_set_zero y : forall k b, (b < k)%nat -> rsum (set_nth b y (repeat 0 k)) = y.
Proof.
  induction k as [|k IH]; intros b Hb; [lia|]. destruct b as [|b]; cbn [repeat set_nth rsum].
  - rewrite rsum_repeat. lra.
  - rewrite IH by lia. lra.
Qed.

Lemma rcwa_rear_loses : forall n phi_sym c sp g h wl n_in n_out g2 n_layers r0,
  valid_request n phi_sym c -> make_angle_vector n phi_sym c sp = Ok g -> length (g_av g) = (2 * h)%nat -> 1 / 10 ^ 10 <= phi_sym ->
  0 < wl -> 0 < n_in -> 0 < n_out -> (2 <= n)%nat -> nth_error (g_av g) 0 = Some r0 -> cos (a_phi r0) <> 0 ->
  let g1 := (- 2 * (n_in / wl * sin (a_theta r0) * sin (a_phi r0)), - 2 * (n_in / wl * sin (a_theta r0) * cos (a_phi r0))) in
  exists cols A i r col, rcwa_matrix Rear g wl n_in n_out phi_sym [(0, 0); (1, 0)]%Z g1 g2 n_layers littrow_solver = Ok (cols, A) /\
    (i < h)%nat /\ nth_error (g_av g) (channel_row Rear h i) = Some r /\
    incoming Rear (a_theta r) = a_theta r0 /\ a_phi r = a_phi r0 /\
    rsum (kept n_in n_in wl (a_theta r0) (a_phi r0) g1 g2 [(0, 0); (1, 0)]%Z [1 / 2; 1 / 2]) = 1 /\
    nth i cols [] = map Some col /\ rsum col = 1 / 2.
Proof.
  intros n phi_sym c sp g h wl n_in n_out g2 n_layers r0 Hv Hg Hh Hphi Hwl Hni Hno H2 Hr0 Hcos g1.
  set (basis := [(0, 0); (1, 0)]%Z). set (fi := f_inc wl n_in (a_theta r0) (a_phi r0)).
  assert (Hh0 : (0 < h)%nat). { assert (0 < length (g_av g))%nat by (apply nth_error_Some; congruence). lia. }
  destruct (rear_bin_ok n phi_sym c sp g h Hv Hg Hh 0 r0 Hh0 Hr0) as (Hib & _ & (r' & R1 & R2 & R3) & _ & Hne).
  specialize (Hne H2 eq_refl). set (ib := rear_bin g h r0) in *.
  (* the incident direction *)
  pose proof PI_RGT_0 as HPI.
  assert (Hth : 0 < a_theta r0 < PI / 2).
  { destruct (C01_rows _ _ _ _ _ Hv Hg) as [[h' [L Hrow]] _]. assert (h' = h) by lia. subst h'.
    destruct (Hrow _ _ Hr0) as [H1 [_ _]]. apply H1 in Hh0. lra. }
  assert (HK : 0 < n_in / wl) by (apply Rdiv_lt_0_compat; auto).
  assert (Hsin : 0 < sin (a_theta r0) < 1).
  { split; [apply sin_gt_0; lra|]. rewrite <- sin_PI2. apply sin_increasing_1; lra. }
  (* its two orders *)
  assert (F0 : f_order fi g1 g2 (0, 0)%Z = fi).
  { unfold f_order. cbn [fst snd]. destruct fi as [a b]. cbn [fst snd]. f_equal; ring. }
  assert (F1 : f_order fi g1 g2 (1, 0)%Z = (- fst fi, - snd fi)).
  { unfold f_order, g1, fi, f_inc. cbn [fst snd]. f_equal; ring. }
  assert (LF : length2 fi = n_in / wl * sin (a_theta r0)) by (apply f_inc_length; auto; lra).
  assert (LF1 : length2 (- fst fi, - snd fi) = length2 fi) by (unfold length2; cbn [fst snd]; f_equal; ring).
  assert (Hlt : length2 fi < n_in / wl) by (rewrite LF; nra).
  assert (KP : forall f, length2 f = length2 fi -> kept_power n_in wl f (1 / 2) = 1 / 2).
  { intros f Hf. unfold kept_power. rewrite Hf. destruct (Rlt_dec (length2 fi) (n_in / wl)); [|lra]. destruct (Rle_dec (1 / 10 ^ 16) (1 / 2)) as [|Hn]; auto.
    exfalso. apply Hn. unfold Rdiv. rewrite !Rmult_1_l. apply Rinv_le_contravar; [lra|]. apply Rle_trans with (10 ^ 1); [lra|]. apply Rle_pow; [lra|lia]. }
  assert (KZ : forall f, kept_power n_out wl f 0 = 0).
  { intros f. unfold kept_power. destruct (Rlt_dec _ _); auto. destruct (Rle_dec _ _); auto. }
  set (o := littrow_solver (a_theta r0) (a_phi r0)).
  assert (ER : kept_R phi_sym wl n_in n_out g1 g2 (a_theta r0) (a_phi r0) basis o = [1 / 2; 1 / 2]).
  { unfold kept_R, basis. cbn [q_Rp o littrow_solver map2]. unfold order_direction. cbn [d_f]. fold fi. rewrite F0, F1. rewrite !KP; auto. }
  assert (ET : kept_T phi_sym wl n_in n_out g1 g2 (a_theta r0) (a_phi r0) basis o = [0; 0]).
  { unfold kept_T, basis. cbn [q_Tp o littrow_solver map2]. rewrite !KZ. auto. }
  assert (SR : rsum (kept_R phi_sym wl n_in n_out g1 g2 (a_theta r0) (a_phi r0) basis o) = 1) by (rewrite ER; cbn [rsum]; lra).
  set (b := bin_r phi_sym g wl n_in n_out g1 g2 Rear (a_theta r0) (a_phi r0) (0, 0)%Z).
  assert (Hb : (b < 2 * h)%nat) by (apply (bin_r_lt n phi_sym c sp); auto).
  assert (Eb : bin_r phi_sym g wl n_in n_out g1 g2 Rear (a_theta r0) (a_phi r0) (1, 0)%Z = b).
  { unfold b, bin_r, order_direction. cbn [d_r d_phi]. fold fi. rewrite F0, F1. cbn [fst snd]. f_equal.
    - f_equal. unfold polar. cbn [fst snd]. 
      replace (- fst fi * - fst fi) with (fst fi * fst fi) by ring. replace (- snd fi * - snd fi) with (snd fi * snd fi) by ring.
      replace ((- fst fi) ^ 2) with (fst fi ^ 2) by ring. replace ((- snd fi) ^ 2) with (snd fi ^ 2) by ring. auto.
    - f_equal. unfold arctan_div. assert (Hy : snd fi <> 0).
      { unfold fi, f_inc. cbn [snd]. apply Rmult_integral_contrapositive. split; auto. nra. }
      unfold Reqb. destruct (Req_EM_T (snd fi) 0); [contradiction|]. destruct (Req_EM_T (- snd fi) 0); [lra|]. f_equal. field. auto. }
  assert (EW : all_writes phi_sym g wl n_in n_out g1 g2 Rear (a_theta r0) (a_phi r0) basis o = [(b, Some (1 / 2)); (b, Some (1 / 2))]).
  { rewrite writes_real by lra. unfold real_writes. rewrite SR, ER, ET. unfold basis. cbn [map combine app]. fold b. rewrite Eb.
    cbn [o littrow_solver q_T q_A rsum]. cbn [filter]. unfold nz. cbn [snd].
    replace ((1 - 0 - 0) / 1 * (1 / 2)) with (1 / 2) by field.
    replace (Reqb (1 / 2) 0) with false by (symmetry; unfold Reqb; destruct (Req_EM_T (1 / 2) 0); auto; lra).
    replace (Reqb 0 0) with true by (symmetry; apply Reqb_true; auto). reflexivity. }
  (* the loop *)
  destruct (in_bins_ok n phi_sym c sp g h Hv Hg Hh Rear) as (cs & EI & L & F & N & _ & P & _).
  pose proof (P 0%nat r0 Hh0 Hr0) as P0. cbn [channel] in P0. fold ib in P0.
  assert (Hrows : exists rest, firstn h (g_av g) = r0 :: rest).
  { destruct (g_av g) as [|a l]; [discriminate|]. injection Hr0 as ->. destruct h; [lia|]. cbn [firstn]. eauto. }
  destruct Hrows as [rest Erest]. pose proof (rows_length g h Hh) as Lr. rewrite Erest in Lr.
  destruct cs as [|c0 cs]; [simpl in L; lia|]. cbn [nth] in P0. subst c0.
  destruct (loop_step n phi_sym c sp g h Hv Hg Hh Hphi wl n_in n_out g1 g2 Rear basis littrow_solver Hwl Hni Hno 0 ib r0
     (combine (map Z.of_nat cs) rest) (repeat (repeat (Some 0) (2 * h)) h) (repeat (repeat 0 n_layers) h)) as (col & E1 & C1 & _ & C2); auto.
  { apply zero_shaped. } { apply repeat_length. }
  apply NoDup_cons_iff in N as [N1 N2]. apply Forall_cons_iff in F as [F0' F'].
  destruct (loop_total n phi_sym c sp g h Hv Hg Hh Hphi wl n_in n_out g1 g2 Rear basis littrow_solver Hwl Hni Hno rest cs 1
     (set_nth ib col (repeat (repeat (Some 0) (2 * h)) h)) (set_nth ib (q_A (littrow_solver (a_theta r0) (a_phi r0))) (repeat (repeat 0 n_layers) h)))
     as (mat & A & E2 & S1 & S2 & S3 & _); auto.
  { simpl in L, Lr. lia. } { apply set_shaped; auto. apply zero_shaped. } { rewrite set_nth_length. apply repeat_length. } { simpl in Lr. lia. }
  exists mat, (map (flip_rear Rear) A), ib, r', (set_nth b (1 / 2) (repeat 0 (2 * h))). split.
  { unfold rcwa_matrix. rewrite (half g h Hh). cbv zeta. fold basis. rewrite EI. cbn [rbind]. rewrite Erest, Hh. cbn [map combine].
    fold basis in E1. rewrite E1, E2. reflexivity. }
  split; auto. split; auto. cbn [incoming]. split; [rewrite R2; ring|]. split; auto. split.
  { exact SR. }
  split; [|apply rsum_set_zero; auto].
  destruct (S3 ib N1) as [-> _]. rewrite set_nth_nth by (rewrite repeat_length; auto). rewrite Nat.eqb_refl.
  rewrite C2 by auto. unfold row_writes. fold o. rewrite EW. rewrite !zero_col by auto.
  rewrite over_two; [|rewrite repeat_length; auto|rewrite nth_repeat_any; auto]. apply set_map_some.
Qed.
