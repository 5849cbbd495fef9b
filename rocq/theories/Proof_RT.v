(* Proofs about RT_wl: counting. *)
From Coq Require Import Reals List ZArith Bool Lia Lra.
From Verif Require Import Base Lib Model_Angles Model_Ideal Model_MatMul Model_Optics Model_RayIface
  Model_RT Spec_Matrix Spec_RT.
Import ListNotations.
Open Scope R_scope.

(* ---------- accumulators ---------- *)

Lemma add_at_len l i x : length (add_at l i x) = length l.
Proof. apply set_nth_length. Qed.

Lemma add_at_nth l i x j : (i < length l)%nat -> nth j (add_at l i x) 0 = nth j l 0 + if Nat.eqb i j then x else 0.
Proof.
  intros Hi. unfold add_at. rewrite set_nth_nth by auto. rewrite Nat.eqb_sym.
  destruct (Nat.eqb_spec i j) as [->|H]; lra.
Qed.

Lemma zeros_shape nr nc : has_shape (zeros nr nc) nr nc.
Proof.
  split; [apply repeat_length|]. intros row H. apply repeat_spec in H. subst. apply repeat_length.
Qed.
Lemma zeros_entry nr nc r c : entry (zeros nr nc) r c = 0.
Proof.
  unfold entry, zeros. destruct (Nat.lt_ge_cases r nr) as [H|H].
  - rewrite (nth_repeat_any _ _ nr) by auto. destruct (Nat.lt_ge_cases c nc).
    + apply nth_repeat_any. auto.
    + apply nth_overflow. rewrite repeat_length. auto.
  - rewrite (nth_overflow (repeat (repeat 0 nc) nr)) by (rewrite repeat_length; auto). destruct c; auto.
Qed.

Lemma row_len m nr nc r : has_shape m nr nc -> (r < nr)%nat -> length (nth r m []) = nc.
Proof. intros [H1 H2] Hr. apply H2, nth_In. lia. Qed.

Lemma mat_add_shape m nr nc r c x : has_shape m nr nc -> has_shape (mat_add m r c x) nr nc.
Proof.
  intros [H1 H2]. unfold mat_add. destruct (Nat.lt_ge_cases r (length m)) as [Hr|Hr].
  - split; [rewrite set_nth_length; auto|]. intros row Hin. apply In_nth with (d := []) in Hin.
    destruct Hin as [k [Hk <-]]. rewrite set_nth_length in Hk. rewrite set_nth_nth by auto.
    destruct (Nat.eqb k r); [rewrite add_at_len|]; apply H2, nth_In; auto.
  - replace (set_nth r (add_at (nth r m []) c x) m) with m; [split; auto|].
    symmetry. clear -Hr. generalize (add_at (nth r m []) c x). intros y. revert r Hr.
    induction m as [|a m IH]; intros r Hr; [destruct r; auto|]. destruct r; simpl in *; [lia|]. f_equal. apply IH. lia.
Qed.

Lemma mat_add_entry m nr nc r c x r' c' : has_shape m nr nc -> (r < nr)%nat -> (c < nc)%nat ->
  entry (mat_add m r c x) r' c' = entry m r' c' + if Nat.eqb r r' && Nat.eqb c c' then x else 0.
Proof.
  intros Hs Hr Hc. unfold entry, mat_add. rewrite set_nth_nth by (destruct Hs; lia).
  rewrite Nat.eqb_sym. destruct (Nat.eqb_spec r r') as [->|Hne]; cbn [andb]; [|lra].
  apply add_at_nth. rewrite (row_len m nr nc) by auto. auto.
Qed.

Lemma add_col_shape m nr nc c v : has_shape m nr nc -> length v = nr -> has_shape (add_col m c v) nr nc.
Proof.
  intros [H1 H2] Hv. unfold add_col. split; [rewrite map2_length; lia|].
  intros row Hin. apply In_nth with (d := []) in Hin. destruct Hin as [k [Hk <-]]. rewrite map2_length in Hk.
  rewrite map2_nth with (da := []) (db := 0) by lia. rewrite add_at_len. apply H2, nth_In. lia.
Qed.

Lemma add_col_entry m nr nc c v r' c' : has_shape m nr nc -> length v = nr -> (c < nc)%nat -> (r' < nr)%nat ->
  entry (add_col m c v) r' c' = entry m r' c' + if Nat.eqb c c' then nth r' v 0 else 0.
Proof.
  intros Hs Hv Hc Hr. pose proof Hs as [H1 H2]. unfold entry, add_col.
  rewrite map2_nth with (da := []) (db := 0) by lia. apply add_at_nth. rewrite (row_len m nr nc) by auto. auto.
Qed.

(* ---------- counting a list of events ---------- *)

Section Count.
  Variables (g : grid) (h nr n_abs nloc : nat).

  Definition lf (v : event) : bool := Z.leb (v_ring v) (Z.of_nat (length (g_theta_intv g) - 1) - 1).
  Definition ec (v : event) : nat := Z.to_nat (v_in v).
  Definition er (v : event) : nat := Z.to_nat (v_out v).
  Definition el (v : event) : nat := match py_pos nloc (v_loc v) with Ok l => l | Err _ => 0%nat end.

  Definition good_event (v : event) : Prop :=
    (0 <= v_in v < Z.of_nat h)%Z /\
    if lf v then (0 <= v_out v < Z.of_nat nr)%Z
    else length (v_A v) = n_abs /\ exists l, py_pos nloc (v_loc v) = Ok l.

  Definition shape_ok (K : counts) : Prop :=
    has_shape (k_out K) nr h /\ has_shape (k_A K) n_abs h /\ length (k_n K) = h /\ length (k_abs K) = h /\
    has_shape (k_loc K) nloc h.

  Definition esum (w : event -> R) (c : nat) (l : list event) : R :=
    rsum (map (fun v => if Nat.eqb (ec v) c then w v else 0) l).

  Lemma esum_cons w c v l : esum w c (v :: l) = (if Nat.eqb (ec v) c then w v else 0) + esum w c l.
  Proof. reflexivity. Qed.

  Lemma py_pos_lt n i l : py_pos n i = Ok l -> (l < n)%nat.
  Proof.
    unfold py_pos. destruct (_ <? 0)%Z eqn:E1; try discriminate.
    destruct (Z.leb_spec (Z.of_nat n) (if (i <? 0)%Z then (i + Z.of_nat n)%Z else i)); try discriminate.
    intros H1. injection H1 as <-. apply Z.ltb_ge in E1. lia.
  Qed.

  Lemma count_all_ok l : (forall v, In v l -> good_event v) -> forall K, shape_ok K ->
    exists K', count_all g K l = Ok K' /\ shape_ok K' /\
      (forall c, nth c (k_n K') 0 = nth c (k_n K) 0 + esum (fun _ => 1) c l) /\
      (forall c, nth c (k_abs K') 0 = nth c (k_abs K) 0 + esum (fun v => if lf v then 0 else 1) c l) /\
      (forall r c, entry (k_out K') r c = entry (k_out K) r c +
         esum (fun v => if lf v && Nat.eqb (er v) r then 1 else 0) c l) /\
      (forall i c, (i < n_abs)%nat -> entry (k_A K') i c = entry (k_A K) i c +
         esum (fun v => if lf v then 0 else nth i (v_A v) 0) c l) /\
      (forall i c, entry (k_loc K') i c = entry (k_loc K) i c +
         esum (fun v => if negb (lf v) && Nat.eqb (el v) i then 1 else 0) c l).
  Proof.
    induction l as [|v l IH]; intros Hl K HK.
    - exists K. split; [reflexivity|]. split; [exact HK|]. unfold esum. cbn [map rsum].
      split; [intros; lra|]. split; [intros; lra|]. split; [intros; lra|]. split; intros; lra.
    - assert (Hv : good_event v) by (apply Hl; left; auto). destruct Hv as [Hc Hv].
      destruct HK as [S1 [S2 [S3 [S4 S5]]]].
      assert (Ec : (ec v < h)%nat) by (unfold ec; lia).
      cbn [count_all]. unfold count_ray. rewrite py_pos_ok by (rewrite S3; auto). cbn [rbind].
      fold (ec v). change (Z.leb (v_ring v) (Z.of_nat (length (g_theta_intv g) - 1) - 1)) with (lf v).
      destruct (lf v) eqn:El.
      + rewrite py_pos_ok by (destruct S1 as [-> _]; auto). cbn [rbind]. fold (er v).
        assert (Er : (er v < nr)%nat) by (unfold er; lia).
        destruct (IH (fun w Hw => Hl w (or_intror Hw)) {| k_out := mat_add (k_out K) (er v) (ec v) 1; k_A := k_A K;
          k_n := add_at (k_n K) (ec v) 1; k_abs := k_abs K; k_loc := k_loc K |}) as [K' [E [HS [I1 [I2 [I3 [I4 I5]]]]]]].
        { split; [apply mat_add_shape; auto|]. cbn [k_A k_n k_abs k_loc]. rewrite add_at_len. auto. }
        exists K'. split; [exact E|]. split; [exact HS|]. cbn [k_out k_A k_n k_abs k_loc] in *.
        split; [|split; [|split; [|split]]].
        * intros c. rewrite I1, esum_cons, add_at_nth by lia. destruct (Nat.eqb (ec v) c); lra.
        * intros c. rewrite I2, esum_cons, El. destruct (Nat.eqb (ec v) c); lra.
        * intros r c. rewrite I3, esum_cons, El, (mat_add_entry _ nr h) by auto. cbn [andb].
          destruct (Nat.eqb (er v) r), (Nat.eqb (ec v) c); cbn [andb]; lra.
        * intros i c Hi. rewrite I4, esum_cons, El by auto. destruct (Nat.eqb (ec v) c); lra.
        * intros i c. rewrite I5, esum_cons, El. cbn [negb andb]. destruct (Nat.eqb (ec v) c); lra.
      + destruct Hv as [HA [il Hil]]. rewrite (proj1 S5), Hil. cbn [rbind].
        assert (Hl' : (il < nloc)%nat) by (eapply py_pos_lt; eauto).
        destruct (IH (fun w Hw => Hl w (or_intror Hw)) {| k_out := k_out K; k_A := add_col (k_A K) (ec v) (v_A v);
          k_n := add_at (k_n K) (ec v) 1; k_abs := add_at (k_abs K) (ec v) 1; k_loc := mat_add (k_loc K) il (ec v) 1 |})
          as [K' [E [HS [I1 [I2 [I3 [I4 I5]]]]]]].
        { split; [auto|]. cbn [k_A k_n k_abs k_loc]. rewrite !add_at_len. split; [apply add_col_shape; auto|].
          split; [auto|]. split; [auto|]. apply mat_add_shape; auto. }
        exists K'. split; [exact E|]. split; [exact HS|]. cbn [k_out k_A k_n k_abs k_loc] in *.
        assert (Eel : el v = il) by (unfold el; rewrite Hil; auto).
        split; [|split; [|split; [|split]]].
        * intros c. rewrite I1, esum_cons, add_at_nth by lia. destruct (Nat.eqb (ec v) c); lra.
        * intros c. rewrite I2, esum_cons, El, add_at_nth by lia. destruct (Nat.eqb (ec v) c); lra.
        * intros r c. rewrite I3, esum_cons, El. cbn [andb]. destruct (Nat.eqb (ec v) c); lra.
        * intros i c Hi. rewrite I4, esum_cons, El, (add_col_entry _ n_abs h) by auto. destruct (Nat.eqb (ec v) c); lra.
        * intros i c. rewrite I5, esum_cons, El, Eel, (mat_add_entry _ nloc h) by auto. cbn [negb andb].
          destruct (Nat.eqb il i), (Nat.eqb (ec v) c); cbn [andb]; lra.
  Qed.
End Count.

(* ---------- normalisation ---------- *)

Lemma entry_grid (f : nat -> nat -> R) nr nc r c : (r < nr)%nat -> (c < nc)%nat ->
  entry (map (fun r => map (fun c => f r c) (seq 0 nc)) (seq 0 nr)) r c = f r c.
Proof.
  intros Hr Hc. unfold entry. rewrite nth_map_lt with (da := 0%nat) by (rewrite seq_length; auto).
  rewrite nth_map_lt with (da := 0%nat) by (rewrite seq_length; auto). rewrite !nth_seq0 by auto. reflexivity.
Qed.

Lemma entry_rows (f : list R -> nat -> R) m nc r c : (r < length m)%nat -> (c < nc)%nat ->
  entry (map (fun row => map (fun c => f row c) (seq 0 nc)) m) r c = f (nth r m []) c.
Proof.
  intros Hr Hc. unfold entry. rewrite nth_map_lt with (da := []) by auto.
  rewrite nth_map_lt with (da := 0%nat) by (rewrite seq_length; auto). rewrite nth_seq0 by auto. reflexivity.
Qed.

Lemma col_sum_entries m nr nc c : has_shape m nr nc ->
  col_sum m c = rsum (map (fun r => entry m r c) (seq 0 nr)).
Proof.
  intros [H1 H2]. unfold col_sum. f_equal. rewrite <- H1. unfold entry.
  apply list_ext with (d := 0); [rewrite !map_length, seq_length; auto|].
  intros i Hi. rewrite map_length in Hi. rewrite nth_map_lt with (da := []) by auto.
  rewrite nth_map_lt with (da := 0%nat) by (rewrite seq_length; auto). rewrite nth_seq0 by auto. reflexivity.
Qed.

Section Norm.
  Variables (K : counts) (G : garbage) (h nr n_abs nloc : nat).
  Hypothesis HK : shape_ok h nr n_abs nloc K.

  Lemma norm_shape : has_shape (o_mat (normalise_counts K G)) nr h /\
    has_shape (o_Amat (normalise_counts K G)) n_abs h /\ length (o_intgr (normalise_counts K G)) = h /\
    has_shape (o_local (normalise_counts K G)) nloc h.
  Proof.
    destruct HK as [S1 [S2 [S3 [S4 S5]]]]. unfold normalise_counts. cbn [o_mat o_Amat o_intgr o_local].
    rewrite S3, (proj1 S1).
    split; [split; [rewrite map_length, seq_length; auto|]|].
    { intros row Hin; apply in_map_iff in Hin; destruct Hin as [x [<- _]]; rewrite map_length, seq_length; auto. }
    split; [split; [rewrite map_length; apply S2|]|].
    { intros row Hin; apply in_map_iff in Hin; destruct Hin as [x [<- _]]; rewrite map_length, seq_length; auto. }
    split; [rewrite map_length, seq_length; auto|].
    split; [rewrite map_length; apply S5|].
    intros row Hin; apply in_map_iff in Hin; destruct Hin as [x [<- _]]; rewrite map_length, seq_length; auto.
  Qed.

  Lemma norm_out r c : (r < nr)%nat -> (c < h)%nat ->
    entry (o_mat (normalise_counts K G)) r c =
    unnan (fdiv_where (entry (k_out K) r c) (nth c (k_n K) 0) (gb_out G r c)).
  Proof.
    destruct HK as [S1 [S2 [S3 [S4 S5]]]]. intros Hr Hc. unfold normalise_counts. cbn [o_mat].
    rewrite entry_grid; [reflexivity| destruct S1; lia | lia].
  Qed.

  Lemma norm_A r c : (r < n_abs)%nat -> (c < h)%nat ->
    entry (o_Amat (normalise_counts K G)) r c =
    unnan (fmul (if Reqb (col_sum (k_A K) c) 0 then gb_scale G c
      else fmul (fdiv_where (nth c (k_abs K) 0) (nth c (k_n K) 0) (gb_frac G c)) (Some (/ col_sum (k_A K) c)))
      (Some (entry (k_A K) r c))).
  Proof.
    destruct HK as [S1 [S2 [S3 [S4 S5]]]]. intros Hr Hc. unfold normalise_counts. cbn [o_Amat].
    rewrite (entry_rows (fun row c => unnan (fmul (if Reqb (col_sum (k_A K) c) 0 then gb_scale G c
      else fmul (fdiv_where (nth c (k_abs K) 0) (nth c (k_n K) 0) (gb_frac G c)) (Some (/ col_sum (k_A K) c)))
      (Some (nth c row 0))))); [reflexivity| destruct S2; lia | lia].
  Qed.

  Lemma norm_loc r c : (r < nloc)%nat -> (c < h)%nat ->
    entry (o_local (normalise_counts K G)) r c =
    if Reqb (col_sum (k_loc K) c) 0 then 0 else entry (k_loc K) r c / col_sum (k_loc K) c.
  Proof.
    destruct HK as [S1 [S2 [S3 [S4 S5]]]]. intros Hr Hc. unfold normalise_counts. cbn [o_local].
    rewrite (entry_rows (fun row c => if Reqb (col_sum (k_loc K) c) 0 then 0 else nth c row 0 / col_sum (k_loc K) c));
      [reflexivity| destruct S5; lia | lia].
  Qed.

  Lemma norm_intgr c : (c < h)%nat -> nth c (o_intgr (normalise_counts K G)) 0 =
    if Reqb (nth c (k_abs K) 0) 0 then 0 else col_sum (k_A K) c / nth c (k_abs K) 0.
  Proof.
    destruct HK as [S1 [S2 [S3 [S4 S5]]]]. intros Hc. unfold normalise_counts. cbn [o_intgr].
    rewrite nth_map_lt with (da := 0%nat) by (rewrite seq_length; lia). rewrite nth_seq0 by lia. reflexivity.
  Qed.
End Norm.

(* ---------- binning ---------- *)

From Verif Require Import Spec_Angles Proof_Angles.

Lemma digitize_app x l m : digitize_right x (l ++ m) = (digitize_right x l + digitize_right x m)%nat.
Proof. unfold digitize_right. rewrite filter_app, app_length. reflexivity. Qed.

Lemma theta_bin_ext tmm g theta : theta <= PI -> theta_bin (theta_intv_of tmm g) theta = theta_bin (g_theta_intv g) theta.
Proof.
  intros H. unfold theta_bin, theta_intv_of. destruct tmm; auto. rewrite digitize_app.
  rewrite (digitize_right_below theta [11]); [f_equal; lia|].
  intros y [<-|[]]. pose proof PI_4. lra.
Qed.

Lemma py_index_app {A} (l m : list A) i a : py_index l i = Ok a -> (0 <= i)%Z -> py_index (l ++ m) i = Ok a.
Proof.
  unfold py_index. intros H Hi. rewrite app_length.
  assert (E0 : (i <? 0)%Z = false) by (apply Z.ltb_ge; lia). rewrite !E0 in H. rewrite !E0.
  destruct (nth_error l (Z.to_nat i)) eqn:E; try discriminate.
  rewrite nth_error_app1 by (apply nth_error_Some; congruence). rewrite E. auto.
Qed.

From Verif Require Import Proof_AnglesProps.

Lemma filter_all {A} (f : A -> bool) l : (forall x, In x l -> f x = true) -> filter f l = l.
Proof.
  induction l as [|a l IH]; intros H; auto. cbn [filter]. rewrite (H a (or_introl eq_refl)). f_equal.
  apply IH. intros x Hx. apply H. right. auto.
Qed.

Section Bins.
  Variables (n : nat) (phi_sym c : R) (sp : spacing) (g : grid).
  Hypothesis Hv : valid_request n phi_sym c.
  Hypothesis Hg : make_angle_vector n phi_sym c sp = Ok g.

  Lemma ring_of theta : 0 < theta <= PI -> exists i, (i < 2 * n)%nat /\
    theta_bin (g_theta_intv g) theta = Z.of_nat i /\ in_bin (g_theta_intv g) i theta.
  Proof.
    intros Ht. destruct (C01_edges _ _ _ _ _ Hv Hg) as [L [Inc [E0 [_ [E2 _]]]]].
    destruct (find_interval_right (g_theta_intv g) theta Inc) as [i [Hi Hx]].
    - destruct Hv. lia.
    - rewrite E0, L. replace (2 * n + 1 - 1)%nat with (2 * n)%nat by lia. rewrite E2. auto.
    - exists i. split; [lia|]. split; [|split; auto]. unfold theta_bin.
      rewrite (digitize_right_spec _ _ i Inc Hi Hx). lia.
  Qed.

  (* in_bin i, i < n: not beyond horizontal *)
  Lemma ring_half i theta : in_bin (g_theta_intv g) i theta -> ((i < n)%nat <-> theta <= PI / 2).
  Proof.
    intros [Hi [H1 H2]]. destruct (C01_edges _ _ _ _ _ Hv Hg) as [L [Inc [E0 [En [E2 _]]]]]. split; intros H.
    - destruct (Nat.eq_dec (S i) n) as [<-|Hne]; [lra|].
      pose proof (Inc (S i) n ltac:(lia)). lra.
    - destruct (Nat.lt_ge_cases i n) as [|Hge]; auto. exfalso.
      destruct (Nat.eq_dec i n) as [->|Hne]; [lra|]. pose proof (Inc n i ltac:(lia)). lra.
  Qed.

  Lemma full_bin_ext tmm theta phi k : 0 < theta <= PI -> bin_of g theta phi = Ok k -> full_bin tmm g theta phi = Ok k.
  Proof.
    intros Ht. unfold full_bin, bin_of, polar_bin. rewrite theta_bin_ext by tauto.
    destruct (ring_of theta Ht) as [i [Hi [-> _]]]. unfold overall_bin.
    destruct (py_index (g_phi_intv g) (Z.of_nat i)) eqn:E; try discriminate. cbn [rbind].
    unfold phi_intv_of. destruct tmm; [rewrite (py_index_app _ _ _ _ E) by lia | rewrite E]; auto.
  Qed.

  Lemma av_nonempty : g_av g <> [].
  Proof.
    destruct (C03_unique _ _ _ _ _ Hv Hg (PI / 2) phi_sym) as [k [_ [Hk _]]].
    - pose proof PI_RGT_0. lra.
    - destruct Hv. lra.
    - intros E. rewrite E in Hk. simpl in Hk. lia.
  Qed.

  Lemma absorbed_ring : polar_bin true g 10 = Z.of_nat (2 * n).
  Proof.
    destruct (C01_edges _ _ _ _ _ Hv Hg) as [L [Inc [E0 [_ [E2 _]]]]].
    unfold polar_bin, theta_bin, theta_intv_of. rewrite digitize_app. rewrite (digitize_right_below 10 [11]).
    2:{ intros y [<-|[]]. lra. }
    replace (digitize_right 10 (g_theta_intv g)) with (2 * n + 1)%nat; [lia|].
    unfold digitize_right. rewrite <- L. f_equal. symmetry.
    apply filter_all. intros x Hx.
    apply In_nth with (d := 0) in Hx. destruct Hx as [k [Hk <-]]. apply Rltb_true.
    pose proof PI_4. destruct (Nat.eq_dec k (2 * n)) as [->|]; [lra|].
    pose proof (Inc k (2 * n)%nat ltac:(lia)). lra.
  Qed.

  Lemma absorbed_bin phi : exists k, full_bin true g 10 phi = Ok k.
  Proof.
    unfold full_bin. rewrite absorbed_ring. unfold overall_bin, phi_intv_of.
    rewrite py_index_ok with (d := []) by (rewrite app_length, (proj1 (C01_rings _ _ _ _ _ Hv Hg)); simpl; lia).
    cbn [rbind]. pose proof av_nonempty. destruct (g_av g) as [|r l]; [congruence|].
    cbn [map argmin rbind]. eexists. reflexivity.
  Qed.

  Lemma local_bin tmm x : Rabs x <= PI / 2 ->
    exists l, py_pos n (theta_bin (theta_intv_of tmm g) (Rabs x)) = Ok l /\ (l < n)%nat /\
      (x <> 0 -> in_bin (g_theta_intv g) l (Rabs x)) /\ (x = 0 -> l = (n - 1)%nat).
  Proof.
    intros Hx. pose proof PI_RGT_0. pose proof (Rabs_pos x). rewrite theta_bin_ext by lra.
    destruct (Req_dec x 0) as [->|Hne].
    - rewrite Rabs_R0. exists (n - 1)%nat. assert (1 <= n)%nat by (destruct Hv; auto).
      unfold theta_bin. rewrite digitize_right_below.
      + split; [|split; [lia|split; [congruence|auto]]]. unfold py_pos.
        replace (Z.of_nat 0 - 1 <? 0)%Z with true by reflexivity.
        replace (Z.of_nat 0 - 1 + Z.of_nat n <? 0)%Z with false by (symmetry; apply Z.ltb_ge; lia).
        replace (Z.of_nat n <=? Z.of_nat 0 - 1 + Z.of_nat n)%Z with false by (symmetry; apply Z.leb_gt; lia).
        f_equal. lia.
      + destruct (C01_edges _ _ _ _ _ Hv Hg) as [L [Inc [E0 _]]].
        intros y Hy. apply In_nth with (d := 0) in Hy. destruct Hy as [k [Hk <-]].
        destruct k; [lra|]. pose proof (Inc 0%nat (S k) ltac:(lia)). lra.
    - assert (0 < Rabs x) by (apply Rabs_pos_lt; auto).
      destruct (ring_of (Rabs x)) as [i [Hi [-> Hin]]]; [lra|].
      apply (ring_half _ _ Hin) in Hx as Hi'. exists i.
      split; [rewrite py_pos_ok by lia; f_equal; lia|]. split; auto. split; auto. congruence.
  Qed.

  Lemma bin_half h k theta phi : length (g_av g) = (2 * h)%nat -> bin_contains g k theta phi ->
    ((k < h)%nat <-> theta <= PI / 2).
  Proof.
    intros Hh [i [j [[r [Hr [Hi _]]] [Hin _]]]].
    destruct (C01_rows _ _ _ _ _ Hv Hg) as [[h' [L Hrow]] _]. assert (h' = h) by lia. subst h'.
    rewrite (proj2 (proj2 (Hrow k r Hr))), Hi. apply ring_half. auto.
  Qed.
End Bins.

(* ---------- all rays ---------- *)

Lemma rmap_ok {A B} (f : A -> res B) (k : A -> B) l : (forall x, In x l -> f x = Ok (k x)) -> rmap f l = Ok (map k l).
Proof.
  induction l as [|a l IH]; intros H; auto. cbn [rmap map]. rewrite (H a (or_introl eq_refl)). cbn [rbind].
  rewrite IH; auto. intros x Hx. apply H. right. auto.
Qed.

Lemma rconcat_ok {A B} (f : A -> res (list B)) (k : A -> list B) l : (forall x, In x l -> f x = Ok (k x)) ->
  rconcat (map f l) = Ok (flat_map k l).
Proof.
  induction l as [|a l IH]; intros H; auto. cbn [rconcat map flat_map]. rewrite (H a (or_introl eq_refl)). cbn [rbind].
  rewrite IH; auto. intros x Hx. apply H. right. auto.
Qed.

Section Rays.
  Variables (n : nat) (phi_sym c : R) (sp : spacing) (g : grid) (h : nat) (s : side) (tmm : bool) (n_abs : nat)
            (beams : list beam).
  Hypothesis Hv : valid_request n phi_sym c.
  Hypothesis Hg : make_angle_vector n phi_sym c sp = Ok g.
  Hypothesis Hh : length (g_av g) = (2 * h)%nat.
  Hypothesis Hb : forall b, In b beams -> good_beam phi_sym b /\
    forall y, In y (b_rays b) -> good_ray tmm phi_sym n_abs y.

  Lemma half_len : (length (g_av g) / 2)%nat = h.
  Proof. rewrite Hh. rewrite Nat.mul_comm. apply Nat.div_mul. lia. Qed.

  Lemma folded phi : fold_phi phi phi_sym <> 0 -> 0 < fold_phi phi phi_sym <= phi_sym.
  Proof. intros H. destruct Hv as [_ [_ Hs]]. pose proof (fold_phi_range phi phi_sym Hs). lra. Qed.

  Lemma seen_range b : good_beam phi_sym b -> 0 < as_seen s (b_theta b) <= PI /\
    (as_seen s (b_theta b) <= PI / 2 <-> s = Front).
  Proof.
    intros [H _]. pose proof PI_RGT_0. destruct s; cbn [as_seen]; (split; [lra|]); split; intros; try lra; try discriminate; auto.
  Qed.

  Lemma seen_out_range y : good_ray tmm phi_sym n_abs y -> leaves y = true ->
    0 < as_seen s (ro_theta (y_out y)) <= PI /\ seen_out s (theta_out y) = as_seen s (ro_theta (y_out y)) /\
    phi_out y = y_phi y /\ fold_phi (y_phi y) phi_sym <> 0.
  Proof.
    unfold good_ray, leaves, theta_out, phi_out. destruct (ro_A (y_out y)); try discriminate. intros [H1 H2] _.
    replace (Rltb (ro_theta (y_out y)) 0) with false by (symmetry; apply Rltb_false; lra).
    destruct s; cbn [as_seen seen_out].
    - split; [lra|]. auto.
    - replace (Rltb (ro_theta (y_out y)) (PI + 1 / 10)) with true by (symmetry; apply Rltb_true; lra).
      split; [lra|]. auto.
  Qed.

  Lemma bins_exist : exists col row, bins_of_rays s phi_sym g h beams col row.
  Proof.
    exists (fun b => (match bin_of g (as_seen s (b_theta b)) (fold_phi (b_phi b) phi_sym) with
                      | Ok z => Z.to_nat z | Err _ => 0%nat end - match s with Front => 0%nat | Rear => h end)%nat),
           (fun y => match bin_of g (as_seen s (ro_theta (y_out y))) (fold_phi (y_phi y) phi_sym) with
                      | Ok z => Z.to_nat z | Err _ => 0%nat end).
    split.
    - intros b Hin. destruct (Hb b Hin) as [Hgb _]. destruct (seen_range b Hgb) as [R1 R2].
      destruct (C03_unique _ _ _ _ _ Hv Hg _ _ R1 (folded _ (proj2 Hgb))) as [k [-> [Hk [Hc _]]]].
      rewrite Nat2Z.id. pose proof (bin_half _ _ _ _ _ Hv Hg h _ _ _ Hh Hc) as Hhalf. rewrite R2 in Hhalf.
      destruct s.
      + rewrite Nat.sub_0_r. split; [apply Hhalf; auto | auto].
      + assert (h <= k)%nat. { destruct (Nat.lt_ge_cases k h) as [H|]; auto. apply Hhalf in H. discriminate. }
        split; [lia|]. replace (h + (k - h))%nat with k by lia. auto.
    - intros b y Hin Hy Hl. destruct (Hb b Hin) as [_ Hr].
      destruct (seen_out_range y (Hr y Hy) Hl) as [R1 [_ [_ R4]]].
      destruct (C03_unique _ _ _ _ _ Hv Hg _ _ R1 (folded _ R4)) as [k [-> [Hk [Hc _]]]].
      rewrite Nat2Z.id. split; [lia|auto].
  Qed.

  Variables (col : beam -> nat) (row : ray -> nat).
  Hypothesis Hbins : bins_of_rays s phi_sym g h beams col row.

  Definition ev_of (p : beam * ray) : event :=
    let y := snd p in
    {| v_in := Z.of_nat (col (fst p));
       v_out := match full_bin tmm g (seen_out s (theta_out y)) (fold_phi (phi_out y) phi_sym) with
                | Ok o => o | Err _ => 0%Z end;
       v_ring := polar_bin tmm g (seen_out s (theta_out y));
       v_A := if leaves y then repeat 0 n_abs else absorption y;
       v_loc := theta_bin (theta_intv_of tmm g) (Rabs (ro_loc (y_out y))) |}.

  Lemma beam_bin b : In b beams ->
    full_bin tmm g (seen_in s (b_theta b)) (fold_phi (b_phi b) phi_sym) =
    Ok (Z.of_nat (col b) + Z.of_nat (Model_RT.offset s g))%Z.
  Proof.
    intros Hin. destruct (Hb b Hin) as [Hgb _]. destruct (seen_range b Hgb) as [R1 R2].
    change (seen_in s (b_theta b)) with (as_seen s (b_theta b)).
    destruct (C03_unique _ _ _ _ _ Hv Hg _ _ R1 (folded _ (proj2 Hgb))) as [k [E [Hk [Hc Hu]]]].
    rewrite (full_bin_ext _ _ _ _ _ Hv Hg tmm _ _ _ R1 E). f_equal.
    pose proof (Hu _ (proj2 (proj1 Hbins b Hin))). unfold Model_RT.offset. rewrite half_len. destruct s; lia.
  Qed.

  Lemma ray_bin b y : In b beams -> In y (b_rays b) ->
    (if leaves y then
       full_bin tmm g (seen_out s (theta_out y)) (fold_phi (phi_out y) phi_sym) = Ok (Z.of_nat (row y)) /\
       (0 <= polar_bin tmm g (seen_out s (theta_out y)) < 2 * Z.of_nat n)%Z
     else tmm = true /\ polar_bin tmm g (seen_out s (theta_out y)) = Z.of_nat (2 * n) /\
       exists o, full_bin tmm g (seen_out s (theta_out y)) (fold_phi (phi_out y) phi_sym) = Ok o).
  Proof.
    intros Hin Hy. destruct (Hb b Hin) as [_ Hr]. specialize (Hr y Hy). destruct (leaves y) eqn:El.
    - destruct (seen_out_range y Hr El) as [R1 [-> [-> R4]]].
      destruct (C03_unique _ _ _ _ _ Hv Hg _ _ R1 (folded _ R4)) as [k [E [Hk [Hc Hu]]]].
      rewrite (full_bin_ext _ _ _ _ _ Hv Hg tmm _ _ _ R1 E). split.
      + f_equal. f_equal. symmetry. apply Hu. apply (proj2 Hbins b y Hin Hy El).
      + unfold polar_bin. rewrite theta_bin_ext by lra. destruct (ring_of _ _ _ _ _ Hv Hg _ R1) as [i [Hi [-> _]]]. lia.
    - unfold good_ray in Hr. unfold leaves in El. destruct (ro_A (y_out y)); try discriminate.
      destruct Hr as [-> [Hth _]]. split; auto.
      replace (seen_out s (theta_out y)) with 10.
      + split; [apply (absorbed_ring _ _ _ _ _ Hv Hg) | apply (absorbed_bin _ _ _ _ _ Hv Hg)].
      + unfold theta_out. rewrite Hth. replace (Rltb 10 0) with false by (symmetry; apply Rltb_false; lra).
        destruct s; cbn [seen_out]; auto. pose proof PI_4.
        replace (Rltb 10 (PI + 1 / 10)) with false by (symmetry; apply Rltb_false; lra). auto.
  Qed.

  Lemma events_eq : rconcat (map (bin_beam s tmm phi_sym g n_abs) beams) = Ok (map ev_of (pairs beams)).
  Proof.
    unfold pairs. replace (map ev_of (flat_map (fun b => map (pair b) (b_rays b)) beams))
      with (flat_map (fun b => map (fun y => ev_of (b, y)) (b_rays b)) beams).
    2:{ clear. induction beams as [|b l IH]; auto. cbn [flat_map]. rewrite map_app, map_map, IH. auto. }
    apply rconcat_ok. intros b Hin. unfold bin_beam. rewrite beam_bin by auto. cbn [rbind].
    apply rmap_ok. intros y Hy. unfold bin_ray, ev_of. cbn [fst snd].
    pose proof (ray_bin b y Hin Hy) as HR.
    replace (layer_A n_abs y) with (@Ok (list R) (if leaves y then repeat 0 n_abs else absorption y)).
    2:{ destruct (Hb b Hin) as [_ Hr]. specialize (Hr y Hy). unfold layer_A, leaves, absorption, good_ray in *.
        destruct (ro_A (y_out y)); auto. destruct Hr as [_ [_ [-> _]]]. rewrite Nat.eqb_refl. auto. }
    cbn [rbind].
    assert (Eo : exists o, full_bin tmm g (seen_out s (theta_out y)) (fold_phi (phi_out y) phi_sym) = Ok o).
    { destruct (leaves y); [destruct HR as [-> _]; eauto | tauto]. }
    destruct Eo as [o ->]. cbn [rbind]. f_equal. f_equal. lia.
  Qed.

  Lemma loc_len : ((length (theta_intv_of tmm g) - 1) / 2)%nat = n.
  Proof.
    unfold theta_intv_of. destruct (C01_edges _ _ _ _ _ Hv Hg) as [L _]. destruct tmm.
    - rewrite app_length, L. cbn [length]. replace (2 * n + 1 + 1 - 1)%nat with (n * 2 + 1)%nat by lia.
      rewrite Nat.div_add_l by lia. simpl. lia.
    - rewrite L. replace (2 * n + 1 - 1)%nat with (n * 2)%nat by lia. apply Nat.div_mul. lia.
  Qed.

  Lemma lf_leaves b y : In b beams -> In y (b_rays b) -> lf g (ev_of (b, y)) = leaves y.
  Proof.
    intros Hin Hy. pose proof (ray_bin b y Hin Hy) as HR. unfold lf, ev_of. cbn [v_ring fst snd].
    destruct (C01_edges _ _ _ _ _ Hv Hg) as [L _]. rewrite L. destruct (leaves y).
    - apply Z.leb_le. lia.
    - destruct HR as [_ [-> _]]. apply Z.leb_gt. lia.
  Qed.

  Lemma in_pairs b y : In (b, y) (pairs beams) <-> In b beams /\ In y (b_rays b).
  Proof.
    unfold pairs. rewrite in_flat_map. split.
    - intros [x [H1 H2]]. apply in_map_iff in H2. destruct H2 as [z [E H2]]. injection E as -> ->. auto.
    - intros [H1 H2]. exists b. split; auto. apply in_map. auto.
  Qed.

  Lemma events_good v : In v (map ev_of (pairs beams)) -> good_event g h (2 * h) n_abs n v.
  Proof.
    intros H. apply in_map_iff in H. destruct H as [[b y] [<- H]]. apply in_pairs in H. destruct H as [Hin Hy].
    unfold good_event. rewrite lf_leaves by auto. pose proof (ray_bin b y Hin Hy) as HR.
    split; [cbn [ev_of v_in fst]; pose proof (proj1 (proj1 Hbins b Hin)); lia|].
    destruct (leaves y) eqn:El.
    - cbn [ev_of v_out fst snd]. destruct HR as [-> _]. pose proof (proj1 (proj2 Hbins b y Hin Hy El)). lia.
    - destruct (Hb b Hin) as [_ Hr]. specialize (Hr y Hy). unfold ev_of. cbn [v_A v_loc fst snd]. rewrite El.
      unfold leaves in El. unfold absorption, good_ray in *. destruct (ro_A (y_out y)); try discriminate.
      destruct Hr as [_ [_ [HA [_ Hl]]]]. split; auto.
      destruct (local_bin _ _ _ _ _ Hv Hg tmm _ Hl) as [il [-> _]]. eauto.
  Qed.

  Lemma esum_col w W k : (forall b y, In b beams -> In y (b_rays b) -> w (ev_of (b, y)) = W y) ->
    esum w k (map ev_of (pairs beams)) = in_column col k W (pairs beams).
  Proof.
    intros H. unfold esum, in_column. rewrite map_map. f_equal. apply map_ext_in. intros [b y] Hp.
    apply in_pairs in Hp. cbn [ev_of fst snd]. unfold ec. cbn [ev_of v_in fst]. rewrite Nat2Z.id.
    destruct (Nat.eqb (col b) k); auto. apply H; tauto.
  Qed.

  (* the ring of the local angle, as indexed by the code *)
  Definition loc_row (y : ray) : nat :=
    match py_pos n (theta_bin (theta_intv_of tmm g) (Rabs (ro_loc (y_out y)))) with Ok l => l | Err _ => 0%nat end.

  Lemma counted : exists K, count_all g (count_start tmm g n_abs) (map ev_of (pairs beams)) = Ok K /\
    shape_ok h (2 * h) n_abs n K /\
    (forall k, (k < h)%nat -> nth k (k_n K) 0 = in_column col k (fun _ => 1) (pairs beams)) /\
    (forall k, (k < h)%nat -> nth k (k_abs K) 0 = in_column col k (fun y => if leaves y then 0 else 1) (pairs beams)) /\
    (forall r k, entry (k_out K) r k =
       in_column col k (fun y => if leaves y && Nat.eqb (row y) r then 1 else 0) (pairs beams)) /\
    (forall l k, (l < n_abs)%nat -> entry (k_A K) l k = in_column col k (fun y => nth l (absorption y) 0) (pairs beams)) /\
    (forall l k, entry (k_loc K) l k =
       in_column col k (fun y => if negb (leaves y) && Nat.eqb (loc_row y) l then 1 else 0) (pairs beams)).
  Proof.
    assert (S0 : shape_ok h (2 * h) n_abs n (count_start tmm g n_abs)).
    { unfold count_start, shape_ok. rewrite half_len, loc_len, Hh. cbn [k_out k_A k_n k_abs k_loc].
      rewrite !repeat_length. split; [apply zeros_shape|]. split; [apply zeros_shape|]. split; auto. split; auto. apply zeros_shape. }
    destruct (count_all_ok g h (2 * h) n_abs n _ events_good _ S0) as [K [E [S1 [I1 [I2 [I3 [I4 I5]]]]]]].
    exists K. split; auto. split; auto.
    assert (Zn : forall k, nth k (repeat 0 (length (g_av g) / 2)) 0 = 0).
    { intros k. rewrite half_len. destruct (Nat.lt_ge_cases k h); [apply nth_repeat_any; auto|].
      apply nth_overflow. rewrite repeat_length. auto. }
    split; [|split; [|split; [|split]]].
    - intros k Hk. rewrite I1. unfold count_start. cbn [k_n]. rewrite Zn, Rplus_0_l. apply esum_col. auto.
    - intros k Hk. rewrite I2. unfold count_start. cbn [k_abs]. rewrite Zn, Rplus_0_l. apply esum_col.
      intros b y H1 H2. rewrite lf_leaves by auto. auto.
    - intros r k. rewrite I3. unfold count_start. cbn [k_out]. rewrite zeros_entry, Rplus_0_l. apply esum_col.
      intros b y H1 H2. rewrite lf_leaves by auto. pose proof (ray_bin b y H1 H2) as HR. destruct (leaves y) eqn:El; auto.
      unfold er. cbn [ev_of v_out fst snd]. destruct HR as [-> _]. rewrite Nat2Z.id. auto.
    - intros l k Hl. rewrite I4 by auto. unfold count_start. cbn [k_A]. rewrite zeros_entry, Rplus_0_l. apply esum_col.
      intros b y H1 H2. rewrite lf_leaves by auto. cbn [ev_of v_A fst snd]. destruct (leaves y) eqn:El; auto.
      unfold leaves in El. unfold absorption. destruct (ro_A (y_out y)); try discriminate. destruct l; auto.
    - intros l k. rewrite I5. unfold count_start. cbn [k_loc]. rewrite zeros_entry, Rplus_0_l. apply esum_col.
      intros b y H1 H2. rewrite lf_leaves by auto. unfold el, loc_row. cbn [ev_of v_loc fst snd]. auto.
  Qed.
End Rays.
