From Coq Require Import Reals List ZArith Bool String Lia Lra.
From Verif Require Import Base Lib Model_Angles Proof_Angles Spec_Angles Proof_AnglesProps Model_Ideal Model_MatMul Model_TMM
  Model_Diff Spec_Diff Proof_Diff Spec_TMM Model_RT Proof_RT Model_RCWA Spec_RCWA.
Import ListNotations.
Local Notation length := List.length.
Open Scope R_scope.

(* ---------- orders ---------- *)

Lemma polar_range n wl f : 0 < n -> 0 < wl -> 0 <= polar n wl f <= PI / 2.
Proof.
  intros Hn Hw. pose proof PI_RGT_0. destruct (polar_spec n wl f Hn Hw) as [A B].
  destruct (Rlt_le_dec (length2 f) (n / wl)) as [H1|H1]; [destruct (A H1); lra|rewrite (B H1); lra].
Qed.

Lemma kept_r n wl f x : 0 < n -> 0 < wl -> rcwa_kept (polar n wl f) x = kept_power n wl f x.
Proof.
  intros Hn Hw. unfold rcwa_kept, kept_power. destruct (polar_spec n wl f Hn Hw) as [A B].
  destruct (Rlt_dec (length2 f) (n / wl)) as [H|H].
  - destruct (A H) as [[_ H1] _]. replace (Reqb (polar n wl f) (PI / 2)) with false
      by (symmetry; unfold Reqb; destruct (Req_EM_T (polar n wl f) (PI / 2)); auto; lra).
    destruct (Rle_dec (1 / 10 ^ 16) x) as [H2|H2].
    + replace (Rltb x (1 / 10 ^ 16)) with false by (symmetry; apply Rltb_false; auto). auto.
    + replace (Rltb x (1 / 10 ^ 16)) with true by (symmetry; apply Rltb_true; lra). auto.
  - rewrite B by lra. replace (Reqb (PI / 2) (PI / 2)) with true by (symmetry; apply Reqb_true; auto). auto.
Qed.

Lemma kept_t n wl f x : 0 < n -> 0 < wl -> rcwa_kept (PI - polar n wl f) x = kept_power n wl f x.
Proof.
  intros Hn Hw. rewrite <- kept_r by auto. unfold rcwa_kept.
  replace (Reqb (PI - polar n wl f) (PI / 2)) with (Reqb (polar n wl f) (PI / 2)); auto.
  unfold Reqb. destruct (Req_EM_T (polar n wl f) (PI / 2)), (Req_EM_T (PI - polar n wl f) (PI / 2)); auto; lra.
Qed.

Lemma kept_nonneg n wl f x : 0 <= kept_power n wl f x.
Proof.
  unfold kept_power. destruct (Rlt_dec _ _); [|lra]. destruct (Rle_dec _ _); [|lra].
  apply Rle_trans with (1 / 10 ^ 16); auto. apply Rlt_le, Rdiv_lt_0_compat; [lra|apply pow_lt; lra].
Qed.

Lemma tiny_pos : 0 < 1 / 10 ^ 10.
Proof. apply Rdiv_lt_0_compat; [lra|apply pow_lt; lra]. Qed.
Lemma tiny_small : 1 / 10 ^ 10 < 1.
Proof. assert (1 < 10 ^ 10) by (apply Rlt_pow_R1; [lra|lia]). apply (Rmult_lt_reg_r (10 ^ 10)); [lra|]. unfold Rdiv. rewrite Rmult_assoc, Rinv_l; lra. Qed.

Lemma nudge_nudged x : nudged x (nudge x).
Proof.
  unfold nudged, nudge, Reqb. destruct (Req_EM_T x 0); auto.
Qed.

(* ---------- writing ---------- *)

Definition dep (col : list fl) (w : nat * fl) : list fl := set_nth (fst w) (fadd (nth (fst w) col None) (snd w)) col.
Definition over (src col : list fl) (w : nat * fl) : list fl := set_nth (fst w) (fadd (nth (fst w) src None) (snd w)) col.
Definition zw (w : nat * fl) : Z * fl := (Z.of_nat (fst w), snd w).

Lemma dep_fold_length ws : forall col, length (fold_left dep ws col) = length col.
Proof. induction ws as [|w ws IH]; intros col; auto. cbn [fold_left]. rewrite IH. unfold dep. apply set_nth_length. Qed.
Lemma over_fold_length src ws : forall col, length (fold_left (over src) ws col) = length col.
Proof. induction ws as [|w ws IH]; intros col; auto. cbn [fold_left]. rewrite IH. unfold over. apply set_nth_length. Qed.

Lemma set_set {A} n (x y : A) : forall l, set_nth n x (set_nth n y l) = set_nth n x l.
Proof. induction n as [|n IH]; intros [|a l]; cbn [set_nth]; auto. f_equal. auto. Qed.
Lemma set_same {A} n : forall (l : list A) d, (n < length l)%nat -> set_nth n (nth n l d) l = l.
Proof. induction n as [|n IH]; intros [|a l] d H; simpl in H; try lia; cbn [set_nth nth]; auto. f_equal. apply IH. lia. Qed.

Section Write.
  Variables (N h : nat).
  Definition shaped (mat : list (list fl)) : Prop := length mat = h /\ forall c, (c < h)%nat -> length (nth c mat []) = N.

  Lemma set_shaped mat c col : shaped mat -> (c < h)%nat -> length col = N -> shaped (set_nth c col mat).
  Proof.
    intros [H1 H2] Hc Hl. split; [rewrite set_nth_length; auto|]. intros k Hk. rewrite set_nth_nth by lia.
    destruct (Nat.eqb k c); auto.
  Qed.

  Lemma write_step mat i1 c w : shaped mat -> (i1 < h)%nat -> (c < h)%nat -> (fst w < N)%nat ->
    rcwa_write i1 (Z.of_nat c) mat (zw w) = Ok (set_nth c (over (nth i1 mat []) (nth c mat []) w) mat).
  Proof.
    intros [H1 H2] Hi Hc Hw. unfold rcwa_write, zw. cbn [fst snd].
    rewrite (py_index_ok _ _ []) by lia. rewrite Nat2Z.id. cbn [rbind].
        rewrite (py_index_ok _ _ (None : fl)) by (rewrite H2 by auto; lia). rewrite Nat2Z.id. cbn [rbind].
    rewrite py_pos_ok by lia. rewrite Nat2Z.id. cbn [rbind].
    rewrite py_pos_ok by (rewrite H2 by auto; lia). rewrite Nat2Z.id. reflexivity.
  Qed.

  Lemma write_same i1 ws : forall mat, shaped mat -> (i1 < h)%nat -> (forall w, In w ws -> (fst w < N)%nat) ->
    rcwa_write_all i1 (Z.of_nat i1) mat (map zw ws) = Ok (set_nth i1 (fold_left dep ws (nth i1 mat [])) mat).
  Proof.
    induction ws as [|w ws IH]; intros mat Hs Hi Hw; cbn [map rcwa_write_all fold_left].
    - rewrite set_same by (destruct Hs; lia). auto.
    - rewrite write_step by (auto; apply Hw; left; auto). cbn [rbind].
      change (over (nth i1 mat []) (nth i1 mat []) w) with (dep (nth i1 mat []) w).
      rewrite IH; auto; [|apply set_shaped; auto; unfold dep; rewrite set_nth_length; apply Hs; auto|intros; apply Hw; right; auto].
      rewrite set_nth_nth by (destruct Hs; lia). rewrite Nat.eqb_refl. rewrite set_set. auto.
  Qed.

  Lemma write_other i1 c ws : i1 <> c -> forall mat, shaped mat -> (i1 < h)%nat -> (c < h)%nat ->
    (forall w, In w ws -> (fst w < N)%nat) ->
    rcwa_write_all i1 (Z.of_nat c) mat (map zw ws) = Ok (set_nth c (fold_left (over (nth i1 mat [])) ws (nth c mat [])) mat).
  Proof.
    intros Hne. induction ws as [|w ws IH]; intros mat Hs Hi Hc Hw; cbn [map rcwa_write_all fold_left].
    - rewrite set_same by (destruct Hs; lia). auto.
    - rewrite write_step by (auto; apply Hw; left; auto). cbn [rbind].
      rewrite IH; auto; [|apply set_shaped; auto; unfold over; rewrite set_nth_length; apply Hs; auto|intros; apply Hw; right; auto].
      rewrite !set_nth_nth by (destruct Hs; lia). rewrite Nat.eqb_refl. destruct (Nat.eqb_spec i1 c); [contradiction|].
      rewrite set_set. auto.
  Qed.

  Lemma write_total i1 c ws mat : shaped mat -> (i1 < h)%nat -> (c < h)%nat -> (forall w, In w ws -> (fst w < N)%nat) ->
    exists col, rcwa_write_all i1 (Z.of_nat c) mat (map zw ws) = Ok (set_nth c col mat) /\ length col = N /\
      (i1 = c -> col = fold_left dep ws (nth c mat [])) /\
      (i1 <> c -> col = fold_left (over (nth i1 mat [])) ws (nth c mat [])).
  Proof.
    intros Hs Hi Hc Hw. destruct (Nat.eq_dec i1 c) as [->|Hne].
    - eexists. split; [apply write_same; auto|]. rewrite dep_fold_length. split; [apply Hs; auto|]. split; [auto|congruence].
    - eexists. split; [apply write_other; auto|]. rewrite over_fold_length. split; [apply Hs; auto|]. split; [congruence|auto].
  Qed.
End Write.

(* sum of the values written to bin b *)
Definition sum_at (ws : list (nat * R)) (b : nat) : R := rsum (map (fun w => if Nat.eqb (fst w) b then snd w else 0) ws).
Definition sw (w : nat * R) : nat * fl := (fst w, Some (snd w)).

Lemma dep_real ws : forall col, (forall w, In w ws -> (fst w < length col)%nat) ->
  exists out, fold_left dep (map sw ws) (map Some col) = map Some out /\ length out = length col /\
    (forall b, (b < length col)%nat -> nth b out 0 = nth b col 0 + sum_at ws b) /\ rsum out = rsum col + rsum (map snd ws).
Proof.
  induction ws as [|w ws IH]; intros col Hw; cbn [map fold_left].
  - exists col. split; auto. split; auto. split; [intros; unfold sum_at; simpl; lra|simpl; lra].
  - assert (Hl : (fst w < length col)%nat) by (apply Hw; left; auto).
    assert (E : dep (map Some col) (sw w) = map Some (add_at col (fst w) (snd w))).
    { unfold dep, sw, add_at. cbn [fst snd]. rewrite nth_map_lt with (da := 0) by auto. cbn [fadd].
      clear. revert w. induction col as [|a col IH]; intros [n x]; [destruct n; reflexivity|].
      cbn [fst snd]. destruct n as [|n]; cbn [set_nth map nth]; auto. f_equal. apply (IH (n, x)). }
    rewrite E. destruct (IH (add_at col (fst w) (snd w))) as (out & O1 & O2 & O3 & O4).
    { intros v Hv. rewrite add_at_len. apply Hw. right. auto. }
    rewrite add_at_len in O2, O3. exists out. split; auto. split; auto. split.
    + intros b Hb. rewrite O3 by auto. rewrite add_at_nth by auto. unfold sum_at. cbn [map]. cbn [rsum]. lra.
    + rewrite O4. cbn [map rsum].
      assert (S : rsum (add_at col (fst w) (snd w)) = rsum col + snd w).
      { unfold add_at. clear - Hl. revert w Hl. induction col as [|a col IH]; intros [n x] Hl; simpl in Hl; [lia|].
        cbn [fst snd] in *. destruct n as [|n]; cbn [set_nth nth rsum]; [lra|].
        specialize (IH (n, x)). cbn [fst snd] in IH. rewrite IH by lia. lra. }
      lra.
Qed.

(* ---------- bins of the orders ---------- *)

Definition ordbin (g : grid) (theta phi : R) : nat :=
  match bin_of g (nudge theta) (nudge phi) with Ok z => Z.to_nat z | Err _ => 0%nat end.

Definition in_range (phi_sym : R) (theta phi : R) : Prop := 0 <= theta <= PI /\ 0 <= phi < phi_sym.

Section Bins.
  Variables (n : nat) (phi_sym c : R) (sp : spacing) (g : grid) (h : nat).
  Hypothesis Hv : valid_request n phi_sym c.
  Hypothesis Hg : make_angle_vector n phi_sym c sp = Ok g.
  Hypothesis Hh : length (g_av g) = (2 * h)%nat.
  Hypothesis Hphi : 1 / 10 ^ 10 <= phi_sym.

  Lemma ordbin_ok theta phi : in_range phi_sym theta phi ->
    bin_of g (nudge theta) (nudge phi) = Ok (Z.of_nat (ordbin g theta phi)) /\ (ordbin g theta phi < 2 * h)%nat /\
    placed g (ordbin g theta phi) theta phi /\ ((ordbin g theta phi < h)%nat <-> theta <= PI / 2).
  Proof.
    intros [Ht Hp]. pose proof tiny_pos as T0. pose proof tiny_small as T1. pose proof PI2_1 as HP1. pose proof PI_RGT_0 as HP.
    assert (N1 : 0 < nudge theta <= PI /\ (nudge theta <= PI / 2 <-> theta <= PI / 2)).
    { unfold nudge. destruct (Reqb theta 0) eqn:E.
      - apply Reqb_true in E. subst. split; [lra|]. split; intros; lra.
      - assert (theta <> 0) by (intros ->; unfold Reqb in E; destruct (Req_EM_T 0 0); congruence). split; [lra|tauto]. }
    assert (N2 : 0 < nudge phi <= phi_sym).
    { unfold nudge. destruct (Reqb phi 0) eqn:E; [lra|].
      assert (phi <> 0) by (intros ->; unfold Reqb in E; destruct (Req_EM_T 0 0); congruence). lra. }
    destruct N1 as [N1 N3]. destruct (C03_unique _ _ _ _ _ Hv Hg _ _ N1 N2) as (k & E & Hk & Hc & _).
    unfold ordbin. rewrite E. rewrite Nat2Z.id. split; auto. split; [lia|]. split.
    - exists (nudge theta), (nudge phi). split; [apply nudge_nudged|]. split; [apply nudge_nudged|auto].
    - rewrite (bin_half _ _ _ _ _ Hv Hg h _ _ _ Hh Hc). auto.
  Qed.

  Definition bin_value (w : R * R * fl) : nat * fl := (ordbin g (fst (fst w)) (snd (fst w)), snd w).

  Lemma order_writes_ok l : (forall w, In w l -> in_range phi_sym (fst (fst w)) (snd (fst w))) ->
    order_writes g l = Ok (map zw (map bin_value (filter (fun w => fnonzero (snd w)) l))).
  Proof.
    intros Hl. unfold order_writes. rewrite map_map.
    apply (rmap_ok _ (fun w => zw (bin_value w))). intros [[theta phi] v] Hin. apply filter_In in Hin. destruct Hin as [Hin _].
    apply Hl in Hin. cbn [fst snd] in Hin. destruct (ordbin_ok theta phi Hin) as [-> _]. reflexivity.
  Qed.

  Section Dir.
    Variables (wl n_in n_out : R) (g1 g2 : v2) (s : side).
    Hypothesis Hwl : 0 < wl.
    Hypothesis Hni : 0 < n_in.
    Hypothesis Hno : 0 < n_out.
    Variables (theta phi : R).
    Let dir := order_direction wl n_in n_out theta phi phi_sym g1 g2.

    Lemma dir_r m : in_range phi_sym (turn_theta s (d_r (dir m))) (d_phi (dir m)).
    Proof.
      unfold dir, order_direction. cbn [d_r d_phi]. set (f := f_order _ _ _ _). pose proof (polar_range n_in wl f Hni Hwl).
      pose proof PI_RGT_0. destruct Hv as (_ & _ & Hs). split; [destruct s; cbn [turn_theta]; lra|apply fold_phi_range; auto].
    Qed.
    Lemma dir_t m : in_range phi_sym (turn_theta s (d_t (dir m))) (d_phi (dir m)).
    Proof.
      unfold dir, order_direction. cbn [d_t d_phi]. set (f := f_order _ _ _ _). pose proof (polar_range n_out wl f Hno Hwl).
      pose proof PI_RGT_0. destruct Hv as (_ & _ & Hs). split; [destruct s; cbn [turn_theta]; lra|apply fold_phi_range; auto].
    Qed.

    Definition bin_r (m : order) : nat := ordbin g (turn_theta s (d_r (dir m))) (d_phi (dir m)).
    Definition bin_t (m : order) : nat := ordbin g (turn_theta s (d_t (dir m))) (d_phi (dir m)).

    Lemma bin_r_lt m : (bin_r m < 2 * h)%nat.
    Proof. apply ordbin_ok, dir_r. Qed.
    Lemma bin_t_lt m : (bin_t m < 2 * h)%nat.
    Proof. apply ordbin_ok, dir_t. Qed.

    Lemma place_r m : length2 (d_f (dir m)) < n_in / wl ->
      exists th, leaves_at n_in wl (d_f (dir m)) th /\ placed g (bin_r m) (incoming s th) (d_phi (dir m)) /\ same_half s h (bin_r m).
    Proof.
      intros Hf. destruct (ordbin_ok _ _ (dir_r m)) as (_ & B1 & B2 & B3). fold (bin_r m) in B1, B2, B3.
      pose proof (polar_spec n_in wl (d_f (dir m)) Hni Hwl) as [P _]. destruct (P Hf) as [P1 P2].
      exists (d_r (dir m)). split; [split; auto|]. split; [destruct s; exact B2|].
      change (polar n_in wl (d_f (dir m))) with (d_r (dir m)) in P1.
      destruct s; cbn [turn_theta same_half] in *; [apply B3; lra|]. split; auto.
      destruct (Nat.lt_ge_cases (bin_r m) h) as [H|]; auto. apply B3 in H. lra.
    Qed.

    Lemma place_t m : length2 (d_f (dir m)) < n_out / wl ->
      exists th, leaves_at n_out wl (d_f (dir m)) th /\ placed g (bin_t m) (onward s th) (d_phi (dir m)) /\ other_half s h (bin_t m).
    Proof.
      intros Hf. destruct (ordbin_ok _ _ (dir_t m)) as (_ & B1 & B2 & B3). fold (bin_t m) in B1, B2, B3.
      pose proof (polar_spec n_out wl (d_f (dir m)) Hno Hwl) as [P _]. destruct (P Hf) as [P1 P2].
      exists (PI - d_t (dir m)). assert (E : PI - d_t (dir m) = polar n_out wl (d_f (dir m))) by (unfold dir, order_direction; cbn [d_t d_f]; ring).
      split; [split; rewrite E; auto|]. split.
      - destruct s; cbn [turn_theta onward] in *; [|exact B2]. replace (PI - (PI - d_t (dir m))) with (d_t (dir m)) by ring. exact B2.
      - rewrite <- E in P1. destruct s; cbn [turn_theta other_half] in *; [|apply B3; lra]. split; auto.
        destruct (Nat.lt_ge_cases (bin_t m) h) as [H|]; auto. apply B3 in H. lra.
    Qed.

    Variables (basis : list order) (o : rcwa_out).
    Hypothesis HRp : length (q_Rp o) = length basis.
    Hypothesis HTp : length (q_Tp o) = length basis.
    Definition kept_R : list R := map2 (fun m x => kept_power n_in wl (d_f (dir m)) x) basis (q_Rp o).
    Definition kept_T : list R := map2 (fun m x => kept_power n_out wl (d_f (dir m)) x) basis (q_Tp o).
    Let Rt := 1 - q_T o - rsum (q_A o).

    Lemma model_kept_R : map2 (fun d x => rcwa_kept (d_r d) x) (map dir basis) (q_Rp o) = kept_R.
    Proof.
      unfold kept_R. clear HRp HTp. generalize (q_Rp o). induction basis as [|m ms IH]; intros [|x l]; cbn [map map2]; auto.
      f_equal; [|apply IH]. apply kept_r; auto.
    Qed.
    Lemma model_kept_T : map2 (fun d x => rcwa_kept (d_t d) x) (map dir basis) (q_Tp o) = kept_T.
    Proof.
      unfold kept_T. clear HRp HTp. generalize (q_Tp o). induction basis as [|m ms IH]; intros [|x l]; cbn [map map2]; auto.
      f_equal; [|apply IH]. apply kept_t; auto.
    Qed.

    Definition all_writes : list (nat * fl) :=
      map bin_value (filter (fun w => fnonzero (snd w))
        (map2 (fun d x => (turn_theta s (d_r d), d_phi d, rescale Rt (rsum kept_R) x)) (map dir basis) kept_R)) ++
      map bin_value (filter (fun w => fnonzero (snd w))
        (map2 (fun d x => (turn_theta s (d_t d), d_phi d, Some x)) (map dir basis) kept_T)).

    Lemma in_map2 {A B C} (f : A -> B -> C) l m y : In y (map2 f l m) -> exists a b, In a l /\ In b m /\ y = f a b.
    Proof.
      revert m. induction l as [|a l IH]; intros [|b m]; cbn [map2]; intros H; try easy. destruct H as [<-|H].
      - exists a, b. simpl. auto.
      - destruct (IH m H) as (a' & b' & H1 & H2 & ->). exists a', b'. simpl. auto.
    Qed.

    Lemma writes_ok : rcwa_writes s g wl n_in n_out phi_sym basis g1 g2 theta phi o = Ok (map zw all_writes) /\
      forall w, In w all_writes -> (fst w < 2 * h)%nat.
    Proof.
      unfold rcwa_writes. fold dir. cbv zeta. rewrite model_kept_R, model_kept_T. fold Rt. split.
      - rewrite order_writes_ok.
        + cbn [rbind]. rewrite order_writes_ok.
          * cbn [rbind]. unfold all_writes. rewrite map_app. auto.
          * intros w Hw. apply in_map2 in Hw. destruct Hw as (d & x & Hd & _ & ->). apply in_map_iff in Hd. destruct Hd as [m [<- _]]. apply dir_t.
        + intros w Hw. apply in_map2 in Hw. destruct Hw as (d & x & Hd & _ & ->). apply in_map_iff in Hd. destruct Hd as [m [<- _]]. apply dir_r.
      - intros w Hw. unfold all_writes in Hw. apply in_app_or in Hw. destruct Hw as [Hw|Hw]; apply in_map_iff in Hw;
          destruct Hw as [v [<- Hw]]; apply filter_In in Hw; destruct Hw as [Hw _]; apply in_map2 in Hw;
          destruct Hw as (d & x & Hd & _ & ->); apply in_map_iff in Hd; destruct Hd as [m [<- _]]; cbn [bin_value fst snd].
        + apply bin_r_lt.
        + apply bin_t_lt.
    Qed.

    Definition nz (w : nat * R) : bool := negb (Reqb (snd w) 0).
    Definition real_writes : list (nat * R) :=
      combine (map bin_r basis) (map (fun x => Rt / rsum kept_R * x) kept_R) ++ combine (map bin_t basis) kept_T.

    Lemma filter_real (k : R -> R) (b : order -> nat) (th : direction -> R) : forall ms l,
      (forall m, b m = ordbin g (th (dir m)) (d_phi (dir m))) ->
      map bin_value (filter (fun w => fnonzero (snd w)) (map2 (fun d x => (th d, d_phi d, Some (k x))) (map dir ms) l)) =
      map sw (filter nz (combine (map b ms) (map k l))).
    Proof.
      induction ms as [|m ms IH]; intros [|x l] Hb; cbn [map map2 combine filter]; auto. 
      specialize (IH l Hb). unfold nz at 1. cbn [snd fnonzero].
      destruct (negb (Reqb (k x) 0)); cbn [map]; [|exact IH]. f_equal; [|exact IH]. unfold bin_value, sw. cbn [fst snd]. rewrite Hb. auto.
    Qed.

    Lemma writes_real : rsum kept_R <> 0 -> all_writes = map sw (filter nz real_writes).
    Proof.
      intros HS. unfold all_writes, real_writes. rewrite filter_app, map_app. f_equal.
      - rewrite <- (filter_real (fun x => Rt / rsum kept_R * x) bin_r (fun d => turn_theta s (d_r d)) basis kept_R) by reflexivity.
        unfold rescale. replace (Reqb (rsum kept_R) 0) with false by (symmetry; unfold Reqb; destruct (Req_EM_T (rsum kept_R) 0); tauto). auto.
      - rewrite <- (map_id kept_T) at 2. rewrite <- (filter_real (fun x => x) bin_t (fun d => turn_theta s (d_t d)) basis kept_T) by reflexivity. auto.
    Qed.

    Lemma sum_at_nz l b : sum_at (filter nz l) b = sum_at l b.
    Proof.
      unfold sum_at. induction l as [|[k x] l IH]; auto. cbn [filter]. unfold nz at 1. cbn [snd].
      destruct (Reqb x 0) eqn:E; cbn [negb map rsum fst snd]; [|rewrite IH; auto].
      apply Reqb_true in E. subst. rewrite IH. destruct (Nat.eqb k b); lra.
    Qed.
    Lemma rsum_nz l : rsum (map snd (filter nz l)) = rsum (map snd l).
    Proof.
      induction l as [|[k x] l IH]; auto. cbn [filter]. unfold nz at 1. cbn [snd].
      destruct (Reqb x 0) eqn:E; cbn [negb map rsum fst snd]; [|rewrite IH; auto].
      apply Reqb_true in E. subst. rewrite IH. lra.
    Qed.

    Lemma sum_at_combine : forall (a : list nat) (l : list R) b, length a = length l -> sum_at (combine a l) b = group_sum a l b.
    Proof.
      intros a l b HL. unfold sum_at, group_sum. f_equal. apply list_ext with (d := 0); [rewrite !map_length, combine_length, seq_length; lia|].
      intros i Hi. rewrite map_length, combine_length in Hi. rewrite nth_map_lt with (da := (0%nat, 0)) by (rewrite combine_length; lia). rewrite combine_nth by auto.
      rewrite nth_map_lt with (da := 0%nat) by (rewrite seq_length; lia). rewrite seq_nth by lia. auto.
    Qed.

    Lemma kept_R_length : length kept_R = length basis.
    Proof. unfold kept_R. rewrite map2_length. lia. Qed.
    Lemma kept_T_length : length kept_T = length basis.
    Proof. unfold kept_T. rewrite map2_length. lia. Qed.

    Lemma map_snd_combine {A B} : forall (a : list A) (l : list B), length a = length l -> map snd (combine a l) = l.
    Proof. induction a as [|x a IH]; intros [|y l] H; simpl in H; try lia; auto. cbn [combine map snd]. f_equal. apply IH. lia. Qed.

    (* one column of the matrix, written on top of zeros *)
    Lemma column_ok : rsum kept_R <> 0 ->
      exists col, fold_left dep all_writes (repeat (Some 0) (2 * h)) = map Some col /\ length col = (2 * h)%nat /\
        (forall b, (b < 2 * h)%nat -> nth b col 0 =
           group_sum (map bin_r basis) (map (fun x => Rt / rsum kept_R * x) kept_R) b + group_sum (map bin_t basis) kept_T b) /\
        rsum col = Rt + rsum kept_T.
    Proof.
      intros HS. rewrite writes_real by auto.
      destruct (dep_real (filter nz real_writes) (repeat 0 (2 * h))) as (col & C1 & C2 & C3 & C4).
      { intros w Hw. rewrite repeat_length. destruct writes_ok as [_ W]. apply (W (sw w)). rewrite writes_real by auto. apply in_map. auto. }
      rewrite repeat_length in C2, C3. exists col. split.
      { etransitivity; [|exact C1]. f_equal. generalize (2 * h)%nat. intros k. induction k as [|k IH]; auto. cbn [repeat map]. f_equal. exact IH. }
      split; auto.
      pose proof kept_R_length. pose proof kept_T_length. split.
      - intros b Hb. rewrite C3 by auto. rewrite nth_repeat, sum_at_nz. unfold real_writes, sum_at. rewrite map_app, rsum_app.
        fold (sum_at (combine (map bin_r basis) (map (fun x => Rt / rsum kept_R * x) kept_R)) b).
        fold (sum_at (combine (map bin_t basis) kept_T) b).
        rewrite !sum_at_combine by (rewrite ?map_length; lia). lra.
      - rewrite C4, rsum_repeat, rsum_nz. unfold real_writes. rewrite map_app, rsum_app.
        rewrite !map_snd_combine by (rewrite ?map_length; lia).
        replace (rsum (map (fun x => Rt / rsum kept_R * x) kept_R)) with (Rt / rsum kept_R * rsum kept_R).
        + field. auto.
        + rewrite (rsum_map_scal _ (fun x => x)), map_id. auto.
    Qed.
  End Dir.
End Bins.
