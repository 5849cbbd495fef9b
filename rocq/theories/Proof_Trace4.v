(* Ray-traced flat surfaces with the default ray directions; comparison with the transfer matrix. *)
From Coq Require Import Reals List ZArith Bool Lia Lra.
From Verif Require Import Base Lib Model_Angles Spec_Angles Model_Ideal Model_MatMul Model_Optics Model_RayIface Model_RT Model_Surface Model_Trace Model_TMM
  Spec_Matrix Spec_TMM Spec_RT Spec_Surface Spec_Trace Proof_Angles Proof_AnglesProps Proof_Optics Proof_RT Proof_RT2 Proof_TMM Proof_Slab2 Proof_Trace2 Proof_Trace3 Prop_Angles.
Import ListNotations.
Open Scope R_scope.

Lemma nth_column m k i : nth i (map (fun row => nth k row 0) m) 0 = entry m i k.
Proof.
  unfold entry. replace 0 with ((fun row : list R => nth k row 0) []) at 1 by (destruct k; reflexivity). rewrite (map_nth (fun row : list R => nth k row 0) m [] i). reflexivity.
Qed.

Lemma column_two m nr nc k k1 x1 k2 x2 : has_shape m nr nc -> (k1 < nr)%nat -> (k2 < nr)%nat -> k1 <> k2 ->
  (forall r, (r < nr)%nat -> entry m r k = if Nat.eqb r k1 then x1 else if Nat.eqb r k2 then x2 else 0) ->
  holds_two (map (fun row => nth k row 0) m) k1 x1 k2 x2.
Proof.
  intros [L _] H1 H2 Hne H. split; auto. intros i. destruct (Nat.lt_ge_cases i nr) as [Hi|Hi].
  - rewrite nth_column. auto.
  - rewrite nth_overflow by (rewrite map_length; lia). destruct (Nat.eqb_spec i k1); [lia|]. destruct (Nat.eqb_spec i k2); [lia|]. auto.
Qed.

Lemma column_one m nr nc k k1 x1 : has_shape m nr nc -> (k1 < nr)%nat ->
  (forall r, (r < nr)%nat -> entry m r k = if Nat.eqb r k1 then x1 else 0) ->
  holds_one (map (fun row => nth k row 0) m) k1 x1.
Proof.
  intros [L _] H1 H i. destruct (Nat.lt_ge_cases i nr) as [Hi|Hi].
  - rewrite nth_column. auto.
  - rewrite nth_overflow by (rewrite map_length; lia). destruct (Nat.eqb_spec i k1); [lia|]. auto.
Qed.

Lemma draws_in l t f u : In u (draws_at l t f) -> exists q sh, In q l /\ In sh (snd q) /\ fst q = (t, f) /\ sh_rnd sh 0%nat = u.
Proof.
  unfold draws_at. intros H. apply in_flat_map in H. destruct H as [q [Hq H]]. unfold Reqb in H.
  destruct (Req_EM_T (fst (fst q)) t) as [E1|]; [destruct (Req_EM_T (snd (fst q)) f) as [E2|]|]; cbn [andb] in H; try (destruct H; fail).
  apply in_map_iff in H. destruct H as [sh [E Hs]]. exists q, sh. split; auto. split; auto. split; auto. destruct q as [[t' f'] x]. cbn in *. congruence.
Qed.

Lemma draws_some l t f q : In q l -> fst q = (t, f) -> snd q <> [] -> draws_at l t f <> [].
Proof.
  intros Hq E Hs. destruct (snd q) as [|sh ss] eqn:S; [congruence|]. intros N.
  assert (In (sh_rnd sh 0%nat) (draws_at l t f)).
  { unfold draws_at. apply in_flat_map. exists q. split; auto. rewrite E, S. cbn [fst snd]. unfold Reqb.
    destruct (Req_EM_T t t); [|congruence]. destruct (Req_EM_T f f); [|congruence]. now left. }
  rewrite N in H. destruct H.
Qed.

Lemma share_all f l : l <> [] -> (forall u, In u l -> f u = true) -> share f l = 1.
Proof.
  intros Hl H. unfold share. replace (filter f l) with l.
  - unfold Rdiv. apply Rinv_r. apply not_0_INR. destruct l; [congruence|discriminate].
  - clear Hl. induction l as [|a l IH]; [reflexivity|]. cbn [filter]. rewrite (H a) by now left. f_equal. apply IH. intros; apply H; now right.
Qed.

Lemma share_ext f f' l : (forall u, In u l -> f u = f' u) -> share f l = share f' l.
Proof. intros H. unfold share. rewrite (filter_ext_in _ _ _ H). reflexivity. Qed.

Lemma share_not f l : l <> [] -> share (fun u => negb (f u)) l = 1 - share f l.
Proof.
  intros Hl. unfold share. assert (E : INR (length (filter (fun u => negb (f u)) l)) = INR (length l) - INR (length (filter f l))).
  { clear Hl. induction l as [|a l IH]; [cbn; lra|]. cbn [filter]. destruct (f a); cbn [negb length]; rewrite ?S_INR, IH; lra. }
  rewrite E. field. apply not_0_INR. destruct l; [congruence|discriminate].
Qed.

Section Default.
  Variables (n : nat) (phi_sym c : R) (sp : spacing) (g : grid) (h m : nat).
  Hypothesis Hv : valid_request n phi_sym c.
  Hypothesis Hg : make_angle_vector n phi_sym c sp = Ok g.
  Hypothesis Hh : length (g_av g) = (2 * h)%nat.
  Hypothesis Hm : m_fold m phi_sym.
  Hypothesis He : Nat.even m = true.

  Variables (s : side) (l : plan) (n_rays nx ny : nat) (G : garbage) (n1 n2 : R) (surf : rtsurf) (z0 a b : R) (outer fuel : nat).
  Hypothesis Hn1 : 0 < n1.
  Hypothesis Hn2 : 0 < n2.
  Hypothesis Hs : flat_surface z0 a b surf.
  Hypothesis Ha : 0 < a.
  Hypothesis Hb : 0 < b.
  Hypothesis Hz : z0 + 1 / 10 ^ 8 <> 0.
  Hypothesis Hxy : (1 <= nx * ny)%nat.
  Hypothesis Hrays : (h * (nx * ny) <= n_rays)%nat.
  Hypothesis Hl : map fst l = regular_directions g (n_angles_of n_rays nx ny).
  Hypothesis Hshots : forall q, In q l -> length (snd q) = (nx * ny)%nat /\ forall sh, In sh (snd q) -> sh_rnd sh 0%nat < 1.

  Lemma plan_rows q : In q l -> exists k r, (k < h)%nat /\ nth_error (g_av g) k = Some r /\ fst q = (a_theta r, a_phi r).
  Proof.
    intros Hq. assert (In (fst q) (regular_directions g (n_angles_of n_rays nx ny))) by (rewrite <- Hl; now apply in_map).
    destruct (regular_in g h Hh _ _ H) as [k [r [A [B C]]]]. exists k, r. auto.
  Qed.

  Lemma plan_theta q : In q l -> 0 <= fst (fst q) < PI / 2.
  Proof. intros Hq. destruct (plan_rows q Hq) as (k & r & Hk & Hr & ->). cbn [fst]. pose proof (upper n phi_sym c sp g h Hv Hg Hh k r Hk Hr). lra. Qed.

  Section Col.
    Variables (k : nat) (r : arow).
    Hypothesis Hk : (k < h)%nat.
    Hypothesis Hr : nth_error (g_av g) (channel_row s h k) = Some r.
    Let theta := incoming s (a_theta r).

    Lemma theta_up : 0 < theta < PI / 2.
    Proof. exact (proj2 (channel_theta n phi_sym c sp g h Hv Hg Hh s k r Hk Hr)). Qed.

    Lemma draws_here : draws_at l theta (a_phi r) <> [].
    Proof.
      destruct (front_row n phi_sym c sp g h m Hv Hg Hh Hm He s k r Hk Hr) as (k0 & r0 & K0 & R0 & E1 & E2).
      assert (Hin : In (a_theta r0, a_phi r0) (map fst l)).
      { rewrite Hl. apply (regular_all n phi_sym c sp g h Hv Hg Hh _ k0); auto. apply n_angles_enough; auto. }
      apply in_map_iff in Hin. destruct Hin as [q [Eq Hq]]. apply (draws_some _ _ _ q Hq).
      - rewrite Eq, E1, E2. reflexivity.
      - destruct (Hshots q Hq) as [L _]. intros E. rewrite E in L. cbn in L. lia.
    Qed.

    (* where Snell's law leads *)
    Lemma snell_bin : n1 * sin theta < n2 -> exists psi kt, refracts n1 n2 theta psi /\ psi < PI / 2 /\
      bin_contains g kt (onward s psi) (a_phi r) /\ other_half s h kt /\ (kt < 2 * h)%nat.
    Proof.
      intros Hc. pose proof theta_up as Ht. pose proof PI_RGT_0.
      destruct (trans_below s n1 n2 theta 0 Hn1 Hn2 Ht Hc) as [psi [P1 [P2 _]]].
      assert (P3 : psi < PI / 2).
      { destruct P1 as [P1 P1']. destruct (Req_dec psi (PI / 2)) as [E|]; [|lra]. rewrite E, sin_PI2 in P1'. lra. }
      assert (P4 : 0 < psi).
      { exact (psi_pos n phi_sym c sp g h m Hv Hg Hh Hm He s n1 n2 Hn1 k r Hk Hr psi P1). }
      destruct (row_range n phi_sym c sp g h Hv Hg Hh _ r Hr) as [_ B].
      destruct (C03_unique n phi_sym c sp g Hv Hg (onward s psi) (a_phi r)) as [kt [_ [K1 [K2 _]]]]; [destruct s; cbn [onward]; lra|lra|].
      exists psi, kt. split; auto. split; auto. split; auto. rewrite Hh in K1. split; auto.
      destruct (bin_in_half n phi_sym c sp g h Hv Hg Hh kt _ _ K2 K1) as [B1 B2].
      destruct s; cbn [other_half onward] in *; [apply B2|apply B1]; lra.
    Qed.

    Lemma kr_same : same_half s h (channel_row s h k).
    Proof. destruct s; cbn [same_half channel_row]; lia. Qed.
  End Col.

  Section Fresnel.
    Variables (p : pol) (beams : list beam).
    Hypothesis Hf : Forall2 (fired (S outer) (3 + fuel) surf (fresnel_decision n1 n2 p)) l beams.
    Let fR := fun t u => Rleb u (fresnel_R n1 n2 t p).
    Let fT := fun t u => negb (Rleb u (fresnel_R n1 n2 t p)).
    Let fA := fun (t u : R) => false.

    Lemma fresnel_part : forall t u, (fR t u = true /\ fT t u = false /\ fA t u = false) \/
      (fR t u = false /\ fT t u = true /\ fA t u = false) \/ (fR t u = false /\ fT t u = false /\ fA t u = true).
    Proof. intros t u. unfold fR, fT, fA. destruct (Rleb u (fresnel_R n1 n2 t p)); cbn [negb]; auto. Qed.

    Lemma fresnel_behaves : Forall2 (fun q b => b_theta b = fst (fst q) /\ b_phi b = snd (fst q) /\
      Forall2 (behaves false 0 n1 n2 fR fT fA (fun _ => []) (fst q)) (snd q) (b_rays b)) l beams.
    Proof.
      pose proof plan_theta as PT. pose proof Hshots as SH. clear Hl Hshots.
      induction Hf as [|q b' l' bs Hq F IH]; constructor.
      - destruct Hq as (E1 & E2 & F2). split; auto. split; auto. pose proof (PT q (or_introl eq_refl)) as Ht.
        destruct (SH q (or_introl eq_refl)) as [_ SH']. destruct q as [[t f] shots]. cbn [fst snd] in *. clear - F2 SH' Ht Hn1 Hn2 Hs Ha Hb Hz.
        induction F2 as [|sh y shots ys H F2 IH]; constructor.
        + destruct (flat_fresnel z0 a b surf Hs Ha Hb n1 n2 p t f sh outer fuel Hn1 Hn2 Ht Hz (SH' sh (or_introl eq_refl))) as (y' & Ey & A & B).
          assert (y' = y) by congruence. subst y'. unfold behaves, fR, fT, fA. split; [|split; [|discriminate]].
          * intros L. apply A. now apply Rleb_true in L.
          * intros L. apply B. destruct (Rleb (sh_rnd sh 0%nat) (fresnel_R n1 n2 t p)) eqn:Q; [discriminate|]. now apply Rleb_false in Q.
        + apply IH. intros; apply SH'; now right.
      - apply IH; auto; intros; [apply PT|apply SH]; now right.
    Qed.

    Lemma fresnel_matrix : exists res, RT_wl s false phi_sym g 0 beams G = Ok res /\
      forall k r, (k < h)%nat -> nth_error (g_av g) (channel_row s h k) = Some r ->
      let theta := incoming s (a_theta r) in
      let col := map (fun row => nth k row 0) (o_mat res) in
      let Rt := share (fun u => Rleb u (fresnel_R n1 n2 theta p)) (draws_at l theta (a_phi r)) in
      (n1 * sin theta < n2 -> exists psi kt, refracts n1 n2 theta psi /\ bin_contains g kt (onward s psi) (a_phi r) /\ other_half s h kt /\
         holds_two col (channel_row s h k) Rt kt (1 - Rt)) /\
      (n2 <= n1 * sin theta -> holds_one col (channel_row s h k) 1).
    Proof.
      pose proof fresnel_behaves as FB.
      pose proof (all_good n phi_sym c sp g h m Hv Hg Hh Hm He false 0 l beams n1 n2 fR fT fA (fun _ => []) Hn1 plan_rows fresnel_part FB) as AG.
      destruct (rt_fractions n phi_sym c sp g h s false 0 beams G Hv Hg Hh AG) as [_ [res [E _]]].
      exists res. split; auto. intros k r Hk Hr theta col Rt.
      pose proof (draws_here k r Hk Hr) as Hd. fold theta in Hd. pose proof (theta_up k r Hk Hr) as Ht. fold theta in Ht.
      assert (KR : (channel_row s h k < 2 * h)%nat) by (destruct s; cbn [channel_row]; lia).
      pose proof (fun kt Hkt Hkk => column_entries n phi_sym c sp g h m Hv Hg Hh Hm He s false 0 l beams G n1 n2 fR fT fA (fun _ => []) Hn1 plan_rows
        fresnel_part FB k r Hk Hr kt Hkt Hkk res E Hd) as CE. fold theta in CE.
      split.
      - intros Hc. destruct (snell_bin k r Hk Hr Hc) as (psi & kt & S1 & S2 & S3 & S4 & S5). fold theta in S1. exists psi, kt. split; auto. split; auto. split; auto.
        assert (Hne : channel_row s h k <> kt).
        { pose proof (kr_same k r Hk Hr). destruct s; cbn [same_half other_half] in *; lia. }
        destruct (CE kt) as (C1 & C2 & _); auto.
        { intros psi' Hp' _. rewrite (refracts_unique n1 n2 theta psi' psi); auto. }
        unfold col. apply (column_two _ (2 * h) h); auto. intros r' Hr'. rewrite (C2 r' Hr'). unfold Rt, fT.
        rewrite (share_not (fun u => Rleb u (fresnel_R n1 n2 theta p))) by auto. reflexivity.
      - intros Hc. destruct (CE (2 * h)%nat) as (C1 & C2 & _); [|lia|].
        { intros psi' [P1 P2] P3. exfalso. assert (sin psi' < 1). { rewrite <- sin_PI2. apply sin_increasing_1; lra. } nra. }
        unfold col. apply (column_one _ (2 * h) h); auto. intros r' Hr'. rewrite (C2 r' Hr').
        destruct (Nat.eqb r' (channel_row s h k)).
        + apply share_all; auto. intros u Hu. destruct (draws_in _ _ _ _ Hu) as (q & sh & Hq & Hsh & _ & <-).
          destruct (Hshots q Hq) as [_ L]. specialize (L sh Hsh). unfold fR.
          assert (Ht0 : 0 <= theta < PI / 2) by lra.
          destruct (fresnel_R_cases n1 n2 theta p Hn1 Hn2 Ht0) as [T1 T2].
          assert (FR : fresnel_R n1 n2 theta p = 1).
          { destruct (Req_dec (n1 * sin theta) n2) as [Q|Q]; [rewrite T2 by lra; now apply calc_R_critical|apply T1; lra]. }
          rewrite FR. destruct (Rleb (sh_rnd sh 0%nat) 1) eqn:B; auto. apply Rleb_false in B. lra.
        + destruct (Nat.eqb_spec r' (2 * h)); auto. lia.
    Qed.
  End Fresnel.

  (* every plan can be carried out *)
  Lemma fresnel_runs p : exists beams, Forall2 (fired (S outer) (3 + fuel) surf (fresnel_decision n1 n2 p)) l beams.
  Proof.
    pose proof plan_theta as PT. pose proof Hshots as SH. clear Hl Hshots. induction l as [|q l' IH]; [exists []; constructor|].
    destruct IH as [bs F]; [intros; apply PT; now right|intros; apply SH; now right|].
    pose proof (PT q (or_introl eq_refl)) as Ht. destruct (SH q (or_introl eq_refl)) as [_ SH'].
    assert (exists ys, Forall2 (fun sh y => trace_shot (S outer) (3 + fuel) surf (fresnel_decision n1 n2 p) (fst (fst q)) (snd (fst q)) sh = Some (Ok y)) (snd q) ys).
    { clear - Ht SH' Hn1 Hn2 Hs Ha Hb Hz. induction (snd q) as [|sh ss IH]; [exists []; constructor|].
      destruct IH as [ys F]; [intros; apply SH'; now right|].
      destruct (flat_fresnel z0 a b surf Hs Ha Hb n1 n2 p _ (snd (fst q)) sh outer fuel Hn1 Hn2 Ht Hz (SH' sh (or_introl eq_refl))) as (y & Ey & _).
      exists (y :: ys). constructor; auto. }
    destruct H as [ys Hy]. exists ({| b_theta := fst (fst q); b_phi := snd (fst q); b_rays := ys |} :: bs). constructor; auto. split; auto.
  Qed.

  Section Table.
    Variables (ent : Z -> R -> Model_Optics.table_entry) (n_abs : nat) (beams : list beam).
    Hypothesis Hf : Forall2 (fired (S outer) (3 + fuel) surf (table_decision n1 n2 ent)) l beams.
    Hypothesis Hent : forall t, 0 <= t < PI / 2 -> 0 <= te_T (ent 1%Z t) /\ length (te_A (ent 1%Z t)) = n_abs /\ 0 < rsum (te_A (ent 1%Z t)) /\
      (n2 <= n1 * sin t -> te_T (ent 1%Z t) = 0).
    Let fR := fun t u => Rleb u (te_R (ent 1%Z t)).
    Let fT := fun t u => Rltb (te_R (ent 1%Z t)) u && Rleb u (te_R (ent 1%Z t) + te_T (ent 1%Z t)).
    Let fA := fun t u => Rltb (Rmax (te_R (ent 1%Z t)) (te_R (ent 1%Z t) + te_T (ent 1%Z t))) u.

    Lemma table_part : forall t u, (fR t u = true /\ fT t u = false /\ fA t u = false) \/
      (fR t u = false /\ fT t u = true /\ fA t u = false) \/ (fR t u = false /\ fT t u = false /\ fA t u = true).
    Proof.
      intros t u. unfold fR, fT, fA. set (x := te_R (ent 1%Z t)). set (y := x + te_T (ent 1%Z t)). clearbody x y.
      pose proof (Rmax_l x y). pose proof (Rmax_r x y).
      destruct (Rleb u x) eqn:A; [apply Rleb_true in A|apply Rleb_false in A].
      - left. split; auto. split.
        + destruct (Rltb x u) eqn:B; auto. apply Rltb_true in B. lra.
        + destruct (Rltb (Rmax x y) u) eqn:B; auto. apply Rltb_true in B. lra.
      - right. destruct (Rltb x u) eqn:B; [|apply Rltb_false in B; lra]. cbn [andb].
        destruct (Rleb u y) eqn:C; [apply Rleb_true in C|apply Rleb_false in C].
        + left. split; auto. split; auto. destruct (Rltb (Rmax x y) u) eqn:D; auto. apply Rltb_true in D. lra.
        + right. split; auto. split; auto. destruct (Rltb (Rmax x y) u) eqn:D; auto. apply Rltb_false in D.
          exfalso. unfold Rmax in D. destruct (Rle_dec x y); lra.
    Qed.

    Lemma table_behaves : Forall2 (fun q b => b_theta b = fst (fst q) /\ b_phi b = snd (fst q) /\
      Forall2 (behaves true n_abs n1 n2 fR fT fA (fun t => te_A (ent 1%Z t)) (fst q)) (snd q) (b_rays b)) l beams.
    Proof.
      pose proof plan_theta as PT. clear Hl Hshots.
      induction Hf as [|q b' l' bs Hq F IH]; constructor.
      - destruct Hq as (E1 & E2 & F2). split; auto. split; auto. pose proof (PT q (or_introl eq_refl)) as Ht.
        destruct q as [[t f] shots]. cbn [fst snd] in *. clear - F2 Ht Hn1 Hn2 Hs Ha Hb Hz Hent.
        induction F2 as [|sh y shots ys H F2 IH]; constructor; auto.
        destruct (Hent t Ht) as (T0 & A0 & A1 & T1).
        assert (HC : sh_rnd sh 0%nat <= te_R (ent 1%Z t) \/ te_R (ent 1%Z t) + te_T (ent 1%Z t) < sh_rnd sh 0%nat \/ n1 * sin t < n2).
        { destruct (Rlt_le_dec (n1 * sin t) n2) as [Q|Q]; auto. rewrite (T1 Q). destruct (Rle_lt_dec (sh_rnd sh 0%nat) (te_R (ent 1%Z t))); auto. right. left. lra. }
        destruct (flat_table z0 a b surf Hs Ha Hb n1 n2 ent t f sh outer fuel Hn1 Hn2 Ht Hz HC T0) as (y' & Ey & A & B & C).
        assert (y' = y) by congruence. subst y'. unfold behaves, fR, fT, fA. split; [|split].
        + intros L. apply A. now apply Rleb_true in L.
        + intros L. apply andb_true_iff in L. destruct L as [L1 L2]. apply Rltb_true in L1. apply Rleb_true in L2. apply B. lra.
        + intros L. apply Rltb_true in L. pose proof (Rmax_r (te_R (ent 1%Z t)) (te_R (ent 1%Z t) + te_T (ent 1%Z t))).
          split; [apply C; lra|auto].
      - apply IH; auto; intros; apply PT; now right.
    Qed.

    Lemma table_matrix : exists res, RT_wl s true phi_sym g n_abs beams G = Ok res /\
      forall k r, (k < h)%nat -> nth_error (g_av g) (channel_row s h k) = Some r ->
      let theta := incoming s (a_theta r) in
      let e := ent 1%Z theta in
      let col := map (fun row => nth k row 0) (o_mat res) in
      let d := draws_at l theta (a_phi r) in
      col_total (o_Amat res) k = share (fun u => Rltb (te_R e + te_T e) u) d /\
      (n1 * sin theta < n2 -> exists psi kt, refracts n1 n2 theta psi /\ bin_contains g kt (onward s psi) (a_phi r) /\ other_half s h kt /\
         holds_two col (channel_row s h k) (share (fun u => Rleb u (te_R e)) d) kt (share (fun u => Rltb (te_R e) u && Rleb u (te_R e + te_T e)) d)) /\
      (n2 <= n1 * sin theta -> holds_one col (channel_row s h k) (share (fun u => Rleb u (te_R e)) d)).
    Proof.
      pose proof table_behaves as FB.
      pose proof (all_good n phi_sym c sp g h m Hv Hg Hh Hm He true n_abs l beams n1 n2 fR fT fA (fun t => te_A (ent 1%Z t)) Hn1 plan_rows table_part FB) as AG.
      destruct (rt_fractions n phi_sym c sp g h s true n_abs beams G Hv Hg Hh AG) as [_ [res [E _]]].
      exists res. split; auto. intros k r Hk Hr theta e col d.
      pose proof (draws_here k r Hk Hr) as Hd. fold theta in Hd. pose proof (theta_up k r Hk Hr) as Ht. fold theta in Ht.
      assert (KR : (channel_row s h k < 2 * h)%nat) by (destruct s; cbn [channel_row]; lia).
      pose proof (fun kt Hkt Hkk => column_entries n phi_sym c sp g h m Hv Hg Hh Hm He s true n_abs l beams G n1 n2 fR fT fA (fun t => te_A (ent 1%Z t)) Hn1 plan_rows
        table_part FB k r Hk Hr kt Hkt Hkk res E Hd) as CE. fold theta in CE. fold d in CE.
      destruct (Hent theta ltac:(lra)) as (T0 & _ & _ & T1). fold e in T0, T1.
      assert (AE : share (fA theta) d = share (fun u => Rltb (te_R e + te_T e) u) d).
      { apply share_ext. intros u _. unfold fA. fold e. rewrite Rmax_right by lra. reflexivity. }
      rewrite AE in CE. split; [|split].
      - destruct (Rlt_le_dec (n1 * sin theta) n2) as [Hc|Hc].
        + destruct (snell_bin k r Hk Hr Hc) as (psi & kt & S1 & S2 & S3 & S4 & S5). fold theta in S1.
          apply (CE kt); [|pose proof (kr_same k r Hk Hr); destruct s; cbn [same_half other_half] in *; lia].
          intros psi' Hp' _. rewrite (refracts_unique n1 n2 theta psi' psi); auto.
        + apply (CE (2 * h)%nat); [|lia].
          intros psi' [P1 P2] P3. exfalso. assert (sin psi' < 1). { rewrite <- sin_PI2. apply sin_increasing_1; lra. } nra.
      - intros Hc. destruct (snell_bin k r Hk Hr Hc) as (psi & kt & S1 & S2 & S3 & S4 & S5). fold theta in S1. exists psi, kt. split; auto. split; auto. split; auto.
        assert (Hne : channel_row s h k <> kt).
        { pose proof (kr_same k r Hk Hr). destruct s; cbn [same_half other_half] in *; lia. }
        destruct (CE kt) as (C1 & C2 & _); auto.
        { intros psi' Hp' _. rewrite (refracts_unique n1 n2 theta psi' psi); auto. }
        unfold col. apply (column_two _ (2 * h) h); auto.
      - intros Hc. destruct (CE (2 * h)%nat) as (C1 & C2 & _); [|lia|].
        { intros psi' [P1 P2] P3. exfalso. assert (sin psi' < 1). { rewrite <- sin_PI2. apply sin_increasing_1; lra. } nra. }
        unfold col. apply (column_one _ (2 * h) h); auto. intros r' Hr'. rewrite (C2 r' Hr').
        destruct (Nat.eqb r' (channel_row s h k)); [reflexivity|]. destruct (Nat.eqb_spec r' (2 * h)); auto. lia.
    Qed.
  End Table.
End Default.
