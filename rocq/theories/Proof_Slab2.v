(* Directions in a slab with plane surfaces: the stored matrices keep a single channel. *)
From Coq Require Import Reals List ZArith Bool Lia Lra.
From Verif Require Import Base Lib Model_Angles Proof_Angles Spec_Angles Proof_AnglesProps Model_Ideal Proof_Ideal Model_MatMul Model_TMM Model_Slab
  Spec_Matrix Spec_MatMul Spec_Series Spec_TMM Spec_Slab Proof_IdealProps Proof_OutIn Proof_OutInProps Proof_TMM Proof_Slab.
Import ListNotations.
Open Scope R_scope.

(* ---------- tables built from columns ---------- *)

Lemma fc_shape nr cols : has_shape (from_columns nr cols) nr (length cols).
Proof.
  unfold from_columns. split; [rewrite map_length, seq_length; auto|]. intros row H. apply in_map_iff in H.
  destruct H as [r [<- _]]. apply map_length.
Qed.

Lemma fc_entry nr cols r k : (r < nr)%nat -> (k < length cols)%nat -> entry (from_columns nr cols) r k = nth r (nth k cols []) 0.
Proof.
  intros Hr Hk. unfold entry, from_columns. rewrite nth_map_lt with (da := 0%nat) by (rewrite seq_length; auto).
  rewrite seq_nth by auto. cbn [Nat.add]. rewrite nth_map_lt with (da := []) by auto. auto.
Qed.

Lemma sum_split_half (f : nat -> R) h : rsum (map f (seq 0 (2 * h))) = rsum (map f (seq 0 h)) + rsum (map f (seq h h)).
Proof. replace (2 * h)%nat with (h + h)%nat by lia. rewrite seq_app, map_app, rsum_app. auto. Qed.

Lemma first_entry (m : matrix) h r k : (r < h)%nat -> entry (firstn h m) r k = entry m r k.
Proof. intros H. unfold entry. rewrite nth_firstn_lt by auto. auto. Qed.
Lemma skip_entry (m : matrix) h r k : entry (skipn h m) r k = entry m (h + r) k.
Proof. unfold entry. rewrite nth_skipn_add. auto. Qed.

Lemma first_total (m : matrix) h k : length m = (2 * h)%nat -> col_total (firstn h m) k = rsum (map (fun r => entry m r k) (seq 0 h)).
Proof.
  intros L. rewrite (col_total_tab _ h) by (rewrite firstn_length; lia). f_equal. apply map_ext_in. intros r Hr. apply in_seq in Hr.
  apply first_entry. lia.
Qed.
Lemma skip_total (m : matrix) h k : length m = (2 * h)%nat -> col_total (skipn h m) k = rsum (map (fun r => entry m r k) (seq h h)).
Proof.
  intros L. rewrite (col_total_tab _ h) by (rewrite skipn_length; lia). f_equal.
  replace (seq h h) with (map (fun r => h + r)%nat (seq 0 h)).
  - rewrite map_map. apply map_ext. intros r. apply skip_entry.
  - clear. generalize h at 2 4. intros m. induction m; [auto|]. rewrite !seq_S, map_app, IHm. auto.
Qed.

Section Even.
  Variables (n : nat) (phi_sym c : R) (sp : spacing) (g : grid) (h m : nat).
  Hypothesis Hv : valid_request n phi_sym c.
  Hypothesis Hg : make_angle_vector n phi_sym c sp = Ok g.
  Hypothesis Hh : length (g_av g) = (2 * h)%nat.
  Hypothesis Hm : m_fold m phi_sym.
  Hypothesis He : Nat.even m = true.

  Lemma h_off : h = off n c n.
  Proof. pose proof (g_len n phi_sym c sp g Hv Hg). lia. Qed.

  Lemma tau_bin i j : (i < 2 * n)%nat -> (j < ring_count n c i)%nat ->
    phi_edge n phi_sym c i j < fold_phi (phi_mid n phi_sym c i j + PI) (nudge_sym phi_sym) <= phi_edge n phi_sym c i (S j).
  Proof.
    pose proof Hv as [Hn [Hc Hs]]. intros Hi Hj. rewrite (bin_even n phi_sym c Hn Hc Hs m) by auto.
    destruct (phi_mid_inside n phi_sym c Hn Hc Hs i j Hi). lra.
  Qed.

  Definition opp (k : nat) : nat := dest phi_sym g k.

  (* the relabelling matrices turn channel k into the opposite one, and back *)
  Lemma opposite : exists u d, out_to_in_matrix g phi_sym = Ok (u, d) /\ has_shape u h h /\ has_shape d h h /\
    (forall k, (k < h)%nat -> column_is_unit u h k (opp k - h)) /\ (forall k, (k < h)%nat -> column_is_unit d h k (opp (h + k))) /\
    (forall k, (k < h)%nat -> (h <= opp k < 2 * h)%nat) /\ (forall k, (h <= k < 2 * h)%nat -> (opp k < h)%nat) /\
    (forall k, (k < 2 * h)%nat -> opp (opp k) = k) /\
    (forall k r, nth_error (g_av g) k = Some r -> exists r', nth_error (g_av g) (opp k) = Some r' /\
       a_theta r' = PI - a_theta r /\ a_phi r' = a_phi r).
  Proof.
    pose proof Hv as [Hn [Hc Hs]]. pose proof h_off as HO.
    assert (Ht : forall i j, (i < 2 * n)%nat -> (j < ring_count n c i)%nat -> (j < ring_count n c i)%nat) by auto.
    assert (Hi : forall i j j' : nat, (i < 2 * n)%nat -> (j < ring_count n c i)%nat -> (j' < ring_count n c i)%nat -> j = j' -> j = j') by auto.
    destruct (oi_matrices n phi_sym c sp g Hv Hg (fun _ j => j) Ht Hi tau_bin) as [u [d [E [Pu [Pd [Cu Cd]]]]]].
    rewrite <- HO in *.
    exists u, d. split; auto. split; [apply Pu|]. split; [apply Pd|]. split; [exact Cu|]. split; [exact Cd|].
    split. { intros k Hk. rewrite HO in *. apply (dest_up n phi_sym c sp g Hv Hg (fun _ j => j) Ht tau_bin k Hk). }
    split. { intros k Hk. rewrite HO in *. apply (dest_down n phi_sym c sp g Hv Hg (fun _ j => j) Ht tau_bin k Hk). }
    split.
    - intros k Hk. rewrite HO in Hk. destruct (oi_rows n phi_sym c sp g Hv Hg k Hk) as [i [j [Ii [Jj [Ek _]]]]].
      unfold opp. rewrite (dest_eq n phi_sym c sp g Hv Hg (fun _ j => j) Ht tau_bin i j k Ii Jj Ek).
      rewrite (dest_eq n phi_sym c sp g Hv Hg (fun _ j => j) Ht tau_bin (2 * n - 1 - i) j _ ltac:(lia)
        ltac:(rewrite ring_count_sym by auto; auto) eq_refl).
      rewrite Ek. f_equal. f_equal. lia.
    - intros k r Hr. assert (Hk : (k < 2 * h)%nat) by (rewrite <- Hh; apply nth_error_Some; congruence). rewrite HO in Hk.
      destruct (dest_row n phi_sym c sp g Hv Hg (fun _ j => j) Ht tau_bin k r Hk Hr) as [i [j [Ii [Jj [-> E2]]]]].
      eexists. split; [exact E2|]. cbn [a_theta a_phi]. auto.
  Qed.

  Lemma own_bin k r : nth_error (g_av g) k = Some r -> bin_contains g k (a_theta r) (a_phi r).
  Proof.
    intros Hr. assert (Hk : (k < length (g_av g))%nat) by (apply nth_error_Some; congruence).
    destruct (proj1 (proj2 (C01_rows _ _ _ _ _ Hv Hg)) k Hk) as [i [j [r' [E [R1 [R2 R3]]]]]].
    assert (r' = r) by congruence. subst r'. exists i, j. split; [exists r; auto|].
    destruct R2, R3. split; (split; [auto|lra]).
  Qed.

  Lemma row_range k r : nth_error (g_av g) k = Some r -> 0 < a_theta r < PI /\ 0 < a_phi r < phi_sym.
  Proof.
    pose proof Hv as [Hn [Hc Hs]]. intros Hr.
    assert (Hk : (k < 2 * off n c n)%nat).
    { rewrite <- h_off, <- Hh. apply nth_error_Some. congruence. }
    destruct (oi_rows n phi_sym c sp g Hv Hg k Hk) as [i [j [Ii [Jj [Ek [E2 _]]]]]].
    apply nth_error_nth with (d := default_row) in Hr. rewrite E2 in Hr.
    split.
    - destruct (proj1 (C01_rows _ _ _ _ _ Hv Hg)) as [h' [Hh' Q]].
      assert (h' = h) by lia. subst h'.
      assert (Hr' : nth_error (g_av g) k = Some r).
      { rewrite (nth_error_nth' (g_av g) default_row) by (rewrite Hh, h_off; lia). rewrite E2, Hr. auto. }
      destruct (Q k r Hr') as [Q1 [Q2 _]]. pose proof PI_RGT_0.
      destruct (Nat.lt_ge_cases k h) as [L|L]; [apply Q1 in L|apply Q2 in L]; lra.
    - rewrite <- Hr. cbn [a_phi]. apply (phi_mid_range n phi_sym c Hn Hc Hs i j); auto.
  Qed.

  Lemma half_turn k r : nth_error (g_av g) k = Some r -> fold_phi (a_phi r + PI) phi_sym = a_phi r.
  Proof.
    pose proof Hv as [Hn [Hc Hs]]. intros Hr.
    assert (Hk : (k < 2 * off n c n)%nat).
    { rewrite <- h_off, <- Hh. apply nth_error_Some. congruence. }
    destruct (oi_rows n phi_sym c sp g Hv Hg k Hk) as [i [j [Ii [Jj [Ek [E2 _]]]]]].
    apply nth_error_nth with (d := default_row) in Hr. rewrite E2 in Hr. subst r. cbn [a_phi].
    rewrite <- (bin_even n phi_sym c Hn Hc Hs m i j Hm He Ii Jj) at 2.
    rewrite nudge_other; auto. apply (m_fold_not_full m); auto. destruct Hm as [M1 _].
    destruct m as [|[|m']]; cbn in He; try discriminate; lia.
  Qed.

  Lemma same_bin k k' r : nth_error (g_av g) k = Some r -> bin_contains g k' (a_theta r) (a_phi r) -> k' = k.
  Proof.
    intros Hr Hb. destruct (row_range k r Hr) as [A B]. 
    destruct (C03_unique n phi_sym c sp g Hv Hg (a_theta r) (a_phi r) ltac:(lra) ltac:(lra)) as [k1 [_ [_ [_ U]]]].
    rewrite (U k' Hb). symmetry. apply U. apply own_bin. auto.
  Qed.

  (* one column of a plane interface *)
  Section Column.
    Variables (M : Type) (SV : solver M) (mem : list R) (idx : M -> R) (a : tmm_args M) (s : side) (i : nat) (r : arow) (Rp Tp : R) (Al : list R).
    Let n1 := idx (from_medium a s).
    Let n2 := idx (into_medium a s).
    Let theta := incoming s (a_theta r).
    Hypothesis Hphi : 1 / 10 ^ 10 <= phi_sym.
    Hypothesis Hn1 : 0 < n1.
    Hypothesis Hn2 : 0 < n2.
    Hypothesis Hi : (i < h)%nat.
    Hypothesis Hr : nth_error (g_av g) (channel_row s h i) = Some r.
    Hypothesis Hent : tmm_entry SV mem a s theta = Ok (Rp, Tp, Al).
    Hypothesis Hkept : kept n1 n2 theta Tp.

    Definition half_start (o : bool) : nat := match s, o with Front, false => 0%nat | Front, true => h | Rear, false => h | Rear, true => 0%nat end.

    Lemma specular : exists col, tmm_matrix_column SV mem idx a s g phi_sym i = Ok (col, Al) /\ length col = (2 * h)%nat /\
      (forall k, same_half s h k -> nth k col 0 = if Nat.eqb k (channel_row s h i) then Rp else 0) /\
      rsum (map (fun k => nth k col 0) (seq (half_start false) h)) = Rp /\
      rsum (map (fun k => nth k col 0) (seq (half_start true) h)) = Tp /\
      (n1 * sin theta < n2 -> exists psi kt, refracts n1 n2 theta psi /\ bin_contains g kt (onward s psi) (a_phi r) /\ other_half s h kt /\
         forall k, other_half s h k -> nth k col 0 = if Nat.eqb k kt then Tp else 0).
    Proof.
      assert (E1 : n1 = idx (fst (snell_media a s))) by (unfold n1; destruct s; reflexivity).
      assert (E2 : n2 = idx (snd (snell_media a s))) by (unfold n2; destruct s; reflexivity).
      assert (P1 : 0 < idx (fst (snell_media a s))) by (rewrite <- E1; auto).
      assert (P2 : 0 < idx (snd (snell_media a s))) by (rewrite <- E2; auto).
      assert (TF : forall f, turned (a_phi r) phi_sym f -> f = a_phi r).
      { intros f [[_ ->]|[Z _]]; [apply (half_turn _ _ Hr)|]. rewrite (half_turn _ _ Hr) in Z. destruct (row_range _ _ Hr). lra. }
      assert (OH : forall (f : nat -> R) (A : nat) k y, (A <= k < A + h)%nat -> (forall k', (A <= k' < A + h)%nat -> f k' = if Nat.eqb k' k then y else 0) ->
        rsum (map f (seq A h)) = y).
      { intros f A k y Hk Hf.
        replace (seq A h) with (map (fun x => A + x)%nat (seq 0 h)).
        2:{ clear. induction h as [|h' IH]; [auto|]. rewrite !seq_S, map_app, IH. auto. }
        rewrite map_map. rewrite (rsum_map_single (fun x => f (A + x)%nat) h (k - A)%nat); [|lia|intros x Hx Hne; rewrite Hf by lia; destruct (Nat.eqb_spec (A + x) k); [lia|auto]].
        rewrite Hf by lia. replace (A + (k - A))%nat with k by lia. rewrite Nat.eqb_refl. auto. }
      assert (FIN : forall col f kr kt, tmm_matrix_column SV mem idx a s g phi_sym i = Ok (col, Al) -> length col = (2 * h)%nat ->
        turned (a_phi r) phi_sym f -> bin_contains g kr (a_theta r) f -> same_half s h kr -> other_half s h kt ->
        (forall k, nth k col 0 = if Nat.eqb k kr then Rp else if Nat.eqb k kt then Tp else 0) ->
        kr = channel_row s h i /\ f = a_phi r /\
        (forall k, same_half s h k -> nth k col 0 = if Nat.eqb k (channel_row s h i) then Rp else 0) /\
        (forall k, other_half s h k -> nth k col 0 = if Nat.eqb k kt then Tp else 0) /\
        rsum (map (fun k => nth k col 0) (seq (half_start false) h)) = Rp /\
        rsum (map (fun k => nth k col 0) (seq (half_start true) h)) = Tp).
      { intros col f kr kt C1 C2 C3 C4 C5 C6 C7. assert (Ef := TF f C3). subst f.
        assert (Ek : kr = channel_row s h i) by (apply (same_bin _ _ _ Hr C4)). split; auto. split; auto.
        assert (S1 : forall k, same_half s h k -> nth k col 0 = if Nat.eqb k (channel_row s h i) then Rp else 0).
        { intros k Hk. rewrite C7, Ek. destruct (Nat.eqb_spec k (channel_row s h i)); auto. destruct (Nat.eqb_spec k kt); auto.
          exfalso. subst k. destruct s; cbn [same_half other_half] in *; lia. }
        assert (S2 : forall k, other_half s h k -> nth k col 0 = if Nat.eqb k kt then Tp else 0).
        { intros k Hk. rewrite C7. destruct (Nat.eqb_spec k kr); auto. exfalso. subst k. destruct s; cbn [same_half other_half] in *; lia. }
        split; auto. split; auto. split.
        - apply (OH (fun k => nth k col 0) _ (channel_row s h i)).
          + rewrite <- Ek. unfold half_start. destruct s; cbn [same_half] in C5; lia.
          + intros k Hk. apply S1. unfold half_start in Hk. destruct s; cbn [same_half]; lia.
        - apply (OH (fun k => nth k col 0) _ kt).
          + unfold half_start. destruct s; cbn [other_half] in C6; lia.
          + intros k Hk. apply S2. unfold half_start in Hk. destruct s; cbn [other_half]; lia. }
      destruct Hkept as [K|[K KT]].
      - rewrite E1, E2 in K.
        destruct (column_below n phi_sym c sp g h Hv Hg Hh Hphi M SV mem idx a s i r Rp Tp Al P1 P2 Hi Hr Hent K)
          as (col & f & psi & kr & kt & C1 & C2 & C3 & C4 & C5 & C6 & C7 & C8 & [C9 C9'] & C10).
        exists col. destruct (FIN col f kr kt C1 C2 C3 C5 C6 C8 C9') as [A1 [A2 [A3 [A4 [A5 A6]]]]].
        split; auto. split; auto. split; auto. split; auto. split; auto. intros _. exists psi, kt. rewrite E1, E2. subst f. auto.
      - rewrite E1, E2 in K. destruct KT as [KT|KT].
        + destruct (column_beyond n phi_sym c sp g h Hv Hg Hh Hphi M SV mem idx a s i r Rp Tp Al P1 P2 Hi Hr Hent K KT)
            as (col & f & kr & kt & C1 & C2 & C3 & C5 & C6 & C7 & C8 & [C9 C9'] & C10).
          exists col. destruct (FIN col f kr kt C1 C2 C3 C5 C6 C8 C9') as [A1 [A2 [A3 [A4 [A5 A6]]]]].
          split; auto. split; auto. split; auto. split; auto. split; auto. intros K'. rewrite E1, E2 in K'. lra.
        + assert (KT' : Tp <= 1 / 10 ^ 8) by (rewrite KT; lra).
          destruct (column_dropped n phi_sym c sp g h Hv Hg Hh Hphi M SV mem idx a s i r Rp Tp Al P1 P2 Hi Hr Hent K KT')
            as (col & f & kr & C1 & C2 & C3 & C5 & C6 & C7 & C8).
          exists col.
          destruct (FIN col f kr (match s with Front => h | Rear => 0%nat end) C1 C2 C3 C5 C6) as [A1 [A2 [A3 [A4 [A5 A6]]]]].
          { destruct s; cbn [other_half]; lia. }
          { intros k. rewrite C7. destruct (Nat.eqb k kr); auto. rewrite KT. destruct (Nat.eqb k _); auto. }
          split; auto. split; auto. split; auto. split; auto. split; auto. intros K'. rewrite E1, E2 in K'. lra.
    Qed.
  End Column.
End Even.
