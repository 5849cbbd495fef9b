(* RT with only_incidence_angle (C138, C139) and from the rear (C140) *)
From Coq Require Import Reals List ZArith Bool Lia Lra.
From Verif Require Import Base Lib Model_Angles Spec_Angles Proof_Angles Proof_AnglesProps Model_Ideal Model_MatMul Proof_RAT3
  Model_Optics Model_RayIface Model_RayStack Model_RT Proof_RT Model_RTStruct Spec_RTStruct Proof_RTStruct.
Import ListNotations.
Local Notation length := List.length.
Open Scope list_scope.
Open Scope R_scope.

Definition nudged (x : R) : R := if Reqb x 0 then 1 / 10 ^ 4 else x.

Lemma directions_num g n_angles theta phi : (0 < length (g_av g) / 2)%nat ->
  exists ds, incidence_directions g n_angles theta (PhiNum phi) = Ok ds /\
    (forall d, In d ds -> d = (nudged theta, nudged phi)) /\
    (n_angles <= length ds * (length (g_av g) / 2) < n_angles + length (g_av g) / 2)%nat.
Proof.
  intros H. unfold incidence_directions. eexists. split; [reflexivity|]. split.
  - intros d Hd. apply repeat_spec in Hd. auto.
  - rewrite repeat_length. rewrite firstn_length_le by (apply Nat.div_le_upper_bound; lia).
    destruct (ceil_div n_angles (length (g_av g) / 2) H) as [A B]. lia.
Qed.

Lemma directions_all g n_angles theta : (0 < n_angles)%nat -> (0 < length (g_av g) / 2)%nat ->
  incidence_directions g n_angles theta PhiAll = Err TypeError.
Proof.
  intros Hn H. unfold incidence_directions. rewrite firstn_length_le by (apply Nat.div_le_upper_bound; lia).
  destruct (ceil_div n_angles (length (g_av g) / 2) H) as [A B].
  destruct (Z.to_nat _); [lia|reflexivity].
Qed.

Section Column.
  Variables (n : nat) (phi_sym c : R) (sp : spacing) (g : grid) (m : nat).
  Hypothesis Hv : valid_request n phi_sym c.
  Hypothesis Hg : make_angle_vector n phi_sym c sp = Ok g.
  Hypothesis Hm : m_fold m phi_sym.

  Lemma inside_bin e i x : strictly_increasing e -> in_bin_left e i x -> (x = 0 \/ off_edges e x) ->
    (forall j, (j < length e)%nat -> 0 < nth j e 0 -> 1 / 10 ^ 4 < nth j e 0) -> in_bin e i (nudged x).
  Proof.
    intros Inc [Hi Hx] Ho He. split; auto. unfold nudged. destruct (Reqb x 0) eqn:E.
    - apply Reqb_true in E. subst x. split; [lra|]. left. apply He; auto. lra.
    - destruct Ho as [->|Ho]; [rewrite Reqb_refl in E; discriminate|].
      specialize (Ho i ltac:(lia)). lra.
  Qed.

  Lemma same_rep a b (q : Z) : 0 <= a < phi_sym -> 0 <= b < phi_sym -> a = b + IZR q * phi_sym -> a = b.
  Proof.
    intros Ha Hb E. destruct Hv as [_ [_ Hs]].
    assert (q = 0%Z); [|subst q; lra].
    destruct (Z.lt_trichotomy q 0) as [H|[H|H]]; auto.
    - apply IZR_le with (m := (-1)%Z) in H || (assert (IZR q <= -1) by (apply IZR_le; lia)). nra.
    - assert (1 <= IZR q) by (apply IZR_le; lia). nra.
  Qed.

  Lemma column theta phi psi (q : Z) tmm nwl : 0 <= theta < PI / 2 -> 0 <= phi ->
    0 <= psi < phi_sym -> phi = psi + IZR q * phi_sym -> (psi = 0 -> phi = 0) ->
    (theta = 0 \/ off_edges (g_theta_intv g) theta) -> (psi = 0 \/ off_azimuths g psi) ->
    (forall j, (j < length (g_theta_intv g))%nat -> 0 < nth j (g_theta_intv g) 0 -> 1 / 10 ^ 4 < nth j (g_theta_intv g) 0) ->
    (forall i j, (j < length (phi_edges_of g i))%nat -> 0 < nth j (phi_edges_of g i) 0 -> 1 / 10 ^ 4 < nth j (phi_edges_of g i) 0) ->
    exists k row, full_bin tmm g (nudged theta) (fold_phi (nudged phi) phi_sym) = Ok (Z.of_nat k) /\
      make_v0 g theta (fold_phi_in (PhiNum phi) phi_sym) nwl = Ok (repeat row nwl) /\
      (k < length row)%nat /\ length (g_av g) = (2 * length row)%nat /\
      forall k', nth k' row 0 = if Nat.eqb k' k then 1 else 0.
  Proof.
    intros Ht Hp Hpsi Eq H0 Ot Op Et Ep. pose proof Hv as [Hn [Hc Hs]].
    assert (Hne : phi <> phi_sym).
    { intros E. assert (psi = 0); [|rewrite H0 in E by auto; lra].
      symmetry. apply (same_rep 0 psi (q - 1)); [lra|auto|]. rewrite minus_IZR, Rmult_minus_distr_r. lra. }
    destruct (C07_num n phi_sym c sp g m theta phi nwl Hv Hg Hm Ht Hp Hne)
      as (k & i & j & q' & row & Hrow & Hi & Hj & E & L & Hk & One).
    destruct (C01_edges _ _ _ _ _ Hv Hg) as [LE [Inc [E0 [EH [E2 _]]]]].
    assert (Hi2 : (i < 2 * n)%nat) by (destruct Hi; lia).
    assert (PE : strictly_increasing (phi_edges_of g i) /\ nth 0 (phi_edges_of g i) 0 = 0 /\
       nth (length (phi_edges_of g i) - 1) (phi_edges_of g i) 0 = phi_sym).
    { destruct (C01_rings n phi_sym c sp g Hv Hg) as [_ X]. destruct (X i Hi2) as [_ [X1 [X2 [X3 _]]]]. auto. }
    destruct PE as [PI1 [PI2 PI3]].
    assert (Lp0 : (S j < length (phi_edges_of g i))%nat) by (destruct Hj; auto).
    assert (Bnd : forall l, (l < length (phi_edges_of g i))%nat -> 0 <= nth l (phi_edges_of g i) 0 <= phi_sym).
    { intros l Hl. split.
      - destruct (Nat.eq_dec l 0) as [->|]; [lra|]. pose proof (PI1 0%nat l ltac:(lia)). lra.
      - destruct (Nat.eq_dec l (length (phi_edges_of g i) - 1)) as [->|]; [lra|]. pose proof (PI1 l (length (phi_edges_of g i) - 1)%nat ltac:(lia)). lra. }
    assert (Erep : phi + IZR q' * phi_sym = psi).
    { apply (same_rep _ _ (q + q')); auto; [|rewrite Eq, plus_IZR; ring]. destruct Hj as [Hj1 Hj2].
      pose proof (Bnd j ltac:(lia)). pose proof (Bnd (S j) ltac:(lia)). lra. }
    rewrite Erep in Hj.
    assert (Li : (i < length (g_phi_intv g))%nat).
    { destruct (Nat.lt_ge_cases i (length (g_phi_intv g))) as [|Hge]; auto. exfalso.
      unfold phi_edges_of in Lp0. rewrite nth_overflow in Lp0 by auto. cbn in Lp0. lia. }
    assert (Bt : in_bin (g_theta_intv g) i (nudged theta)) by (apply inside_bin; auto).
    assert (Bp : in_bin (phi_edges_of g i) j (nudged psi)).
    { apply inside_bin; auto. destruct Op as [|Op]; [left; auto|right; apply Op; auto]. }
    assert (Ef : fold_phi (nudged phi) phi_sym = nudged psi).
    { destruct (Req_dec psi 0) as [Z|Z].
      - rewrite (H0 Z), Z. unfold nudged. rewrite Reqb_refl. apply (C02_all m phi_sym (1 / 10 ^ 4) Hm).
        destruct Bp as [_ Bp]. rewrite Z in Bp. unfold nudged in Bp. rewrite Reqb_refl in Bp.
        split; [lra|].
        assert (0 < nth (S j) (phi_edges_of g i) 0) by lra.
        pose proof (Ep i (S j) Lp0 H). pose proof (Bnd (S j) Lp0). lra.
      - assert (phi <> 0). { intros X. apply Z. symmetry. apply (same_rep 0 psi q); [lra|auto|lra]. }
        unfold nudged. rewrite !(proj2 (Reqb_false _ _)) by auto.
        destruct (C02_all m phi_sym psi Hm) as [_ [_ [F [_ F2]]]]. rewrite Eq, F. apply F2. auto. }
    assert (Hk2 : bin_contains g k (nudged theta) (nudged psi)) by (exists i, j; auto).
    assert (T1 : 0 < nudged theta <= PI).
    { destruct Bt as [B1 B2]. pose proof PI_RGT_0. split.
      - assert (0 <= nth i (g_theta_intv g) 0); [|lra]. destruct (Nat.eq_dec i 0) as [->|]; [lra|]. pose proof (Inc 0%nat i ltac:(lia)). lra.
      - assert (nth (S i) (g_theta_intv g) 0 <= PI); [|lra]. destruct (Nat.eq_dec (S i) (2 * n)) as [->|]; [lra|].
        pose proof (Inc (S i) (2 * n)%nat ltac:(lia)). lra. }
    assert (P1 : 0 < nudged psi <= phi_sym).
    { destruct Bp as [B1 B2]. pose proof (Bnd j ltac:(lia)). pose proof (Bnd (S j) ltac:(lia)). lra. }
    destruct (C03_unique n phi_sym c sp g Hv Hg _ _ T1 P1) as [k' [B [_ [_ U]]]].
    exists k, row. split; [|auto 10].
    rewrite Ef. apply (full_bin_ext n phi_sym c sp g Hv Hg); auto. rewrite B. rewrite (U k Hk2). auto.
  Qed.

  (* a polar angle on the edge between two rings: the rays are in the lower, the incident power in the upper *)
  Lemma column_edge i phi tmm nwl : (1 <= i < n)%nat -> 0 < phi < phi_sym ->
    let theta := nth i (g_theta_intv g) 0 in
    exists kr r row, full_bin tmm g (nudged theta) (fold_phi (nudged phi) phi_sym) = Ok (Z.of_nat kr) /\
      nth_error (g_av g) kr = Some r /\ a_ring r = (i - 1)%nat /\ (kr < length row)%nat /\
      make_v0 g theta (fold_phi_in (PhiNum phi) phi_sym) nwl = Ok (repeat row nwl) /\
      nth kr row 0 = 0 /\ rsum row = 1.
  Proof.
    intros Hi Hphi theta. pose proof Hv as [Hn [Hc Hs]].
    destruct (C01_edges _ _ _ _ _ Hv Hg) as [LE [Inc [E0 [EH [E2 _]]]]].
    assert (T : 0 < theta < PI / 2).
    { unfold theta. pose proof (Inc 0%nat i ltac:(lia)). pose proof (Inc i n ltac:(lia)). lra. }
    destruct (C07_num n phi_sym c sp g m theta phi nwl Hv Hg Hm) as (k & i' & j & q' & row & Hrow & Hi' & Hj & E & L & Hk & One); [lra|lra|lra|].
    assert (Ei : i' = i).
    { destruct Hi' as [H1 [H2 H3]]. unfold theta in *.
      destruct (Nat.lt_trichotomy i' i) as [X|[X|X]]; auto; exfalso.
      - destruct (Nat.eq_dec (S i') i) as [<-|]; [lra|]. pose proof (Inc (S i') i ltac:(lia)). lra.
      - pose proof (Inc i i' ltac:(lia)). lra. }
    subst i'.
    assert (N1 : nudged theta = theta) by (unfold nudged; rewrite (proj2 (Reqb_false _ _)); auto; lra).
    assert (N2 : nudged phi = phi) by (unfold nudged; rewrite (proj2 (Reqb_false _ _)); auto; lra).
    assert (Ef : fold_phi phi phi_sym = phi) by (apply (C02_all m phi_sym phi Hm); lra).
    pose proof PI_RGT_0.
    destruct (C03_unique n phi_sym c sp g Hv Hg theta phi) as [kr [B [Hkr [Hb _]]]]; [lra|lra|].
    destruct Hb as [ir [jr [Hr [Hr2 _]]]]. destruct Hr as [r [Er [Ra _]]].
    assert (Eir : ir = (i - 1)%nat).
    { destruct Hr2 as [H1 [H2 H3]]. unfold theta in *. destruct (Nat.lt_trichotomy ir (i - 1)) as [X|[X|X]]; auto; exfalso.
      - pose proof (Inc (S ir) i ltac:(lia)). lra.
      - destruct (Nat.eq_dec ir i) as [->|]; [lra|]. pose proof (Inc i ir ltac:(lia)). lra. }
    destruct Hrow as [rk [Ek [Rk _]]].
    assert (Dk : kr <> k) by (intros ->; rewrite Ek in Er; injection Er as ->; lia).
    assert (Hkr2 : (kr < length row)%nat).
    { destruct (C01_rows n phi_sym c sp g Hv Hg) as [[h [Hh Hs2]] _].
      assert (kr < h)%nat by (apply (Hs2 kr r Er); lia). rewrite Hh in L. lia. }
    exists kr, r, row. rewrite N1, N2, Ef. split; [apply (full_bin_ext n phi_sym c sp g Hv Hg); auto; lra|].
    split; auto. split; [congruence|]. split; auto. split; [exact E|]. split.
    { rewrite One. destruct (Nat.eqb_spec kr k); [contradiction|auto]. }
    assert (G : forall l s, (forall k', (k' < length l)%nat -> nth k' l 0 = if Nat.eqb (s + k') k then 1 else 0) -> (s <= k < s + length l)%nat -> rsum l = 1).
    { clear. induction l as [|a l IH]; intros s H Hk; cbn [length] in *; [lia|].
      change (rsum (a :: l)) with (a + rsum l). pose proof (H 0%nat ltac:(lia)) as Ha. cbn [nth] in Ha.
      destruct (Nat.eqb_spec (s + 0) k) as [X|X].
      - assert (rsum l = 0); [|lra]. assert (Z : forall y, In y l -> y = 0).
        { intros y Hy. apply In_nth with (d := 0) in Hy. destruct Hy as [t [Ht <-]]. change (nth t l 0) with (nth (S t) (a :: l) 0). rewrite (H (S t) ltac:(lia)).
          destruct (Nat.eqb_spec (s + S t) k); [lia|auto]. }
        clear - Z. induction l as [|b l IH]; auto. change (rsum (b :: l)) with (b + rsum l).
        rewrite IH by (intros; apply Z; right; auto). rewrite (Z b) by (left; auto). lra.
      - rewrite (IH (S s)); [lra| |lia]. intros k' Hk'. change (nth k' l 0) with (nth (S k') (a :: l) 0). rewrite (H (S k') ltac:(lia)).
        replace (s + S k')%nat with (S s + k')%nat by lia. auto. }
    apply (G row 0%nat); [intros; apply One|lia].
  Qed.
End Column.

(* ---------- rear ---------- *)

Lemma rear_media {M} (inc trn : M) l : rt_media Rear inc trn l = rt_media Front trn inc l.
Proof. reflexivity. Qed.

Lemma rear_single {M S} (inc trn : M) (x y : S) :
  rt_media Rear inc trn None = rev (rt_media Front inc trn None) /\
  rt_surfaces Front [(x, y)] = [x] /\ rt_surfaces Rear [(x, y)] = [y].
Proof. repeat split. Qed.

Lemma rear_order {M} (inc trn : M) l : rt_media Rear inc trn (Some l) = rev (rt_media Front inc trn (Some l)) <-> l = rev l.
Proof.
  unfold rt_media. cbn [app]. rewrite rev_unit || idtac. change (inc :: l ++ [trn]) with ([inc] ++ l ++ [trn]).
  rewrite !rev_app_distr. cbn [rev app]. split; intros H.
  - injection H as H. apply app_inv_tail in H. auto.
  - rewrite <- H. auto.
Qed.

Lemma rear_surfaces {S} (l : list (S * S)) : rt_surfaces Rear l = rev (map snd l) <-> map snd l = rev (map snd l).
Proof. unfold rt_surfaces. reflexivity. Qed.

Lemma sides : table_side Front 1 = Ok 1%Z /\ table_side Front (-1) = Ok (-1)%Z /\
  table_side Rear 1 = Ok (-1)%Z /\ table_side Rear (-1) = Ok 1%Z.
Proof. repeat split. Qed.

Lemma repeated g n_angles theta phi ds : incidence_directions g n_angles theta (PhiNum phi) = Ok ds ->
  forall d, In d ds -> d = (nudged theta, nudged phi).
Proof. unfold incidence_directions. intros H d Hd. injection H as <-. apply repeat_spec in Hd. auto. Qed.

Lemma half_pos n phi_sym c sp : (1 <= n)%nat -> 0 < c -> 0 < phi_sym ->
  (0 < length (g_av (grid_of_edges (theta_edges sp n) phi_sym c)) / 2)%nat.
Proof.
  intros Hn Hc Hs. rewrite av_half by auto.
  replace (2 * off n c n)%nat with (off n c n * 2)%nat by lia. rewrite Nat.div_mul by lia.
  pose proof (off_le n c Hn 1 n ltac:(lia)). rewrite off_S in H by lia. pose proof (ring_count_pos n c Hn Hc 0 ltac:(lia)). lia.
Qed.
