(* RT through the tracer: every ray that ends is counted. *)
From Coq Require Import Reals List Bool ZArith Lia Lra.
From Verif Require Import Base Lib Model_Angles Model_Ideal Model_MatMul Model_Optics Model_OpticsC Model_RayIface Model_RT Model_Surface Model_RTStruct
  Model_Trace Model_StackCalc Model_RTCalc
  Spec_Angles Spec_Matrix Spec_Optics Spec_OpticsC Spec_RayIface Spec_RT Spec_RTCalc
  Proof_Angles Proof_AnglesProps Proof_RT Proof_RT2 Proof_RTRows Proof_RTStruct Proof_StackCalc Prop_RayIface.
Import ListNotations.
Open Scope R_scope.

(* ---------- directions ---------- *)

Lemma nth_error_firstn_lt {A} : forall (l : list A) n i, (i < n)%nat -> nth_error (firstn n l) i = nth_error l i.
Proof. induction l as [|a l IH]; intros [|n] [|i] H; cbn; try lia; auto. apply IH. lia. Qed.

Lemma concat_repeat_nth {A} (l : list A) : forall q i, (i < q * length l)%nat -> nth_error (concat (repeat l q)) i = nth_error l (i mod length l).
Proof.
  induction q as [|q IH]; intros i Hi; [cbn in Hi; lia|]. cbn [repeat concat]. destruct (Nat.lt_ge_cases i (length l)) as [L|L].
  - rewrite nth_error_app1 by exact L. now rewrite Nat.mod_small.
  - rewrite nth_error_app2 by exact L. rewrite IH by (cbn [Nat.mul] in Hi; lia). f_equal.
    replace i with ((i - length l) + 1 * length l)%nat at 2 by lia. rewrite Nat.mod_add by (intros E; rewrite E in *; lia). reflexivity.
Qed.

Lemma ceil_enough N h : (0 < h)%nat -> (N <= Z.to_nat (Zceil (INR N / INR h)) * h)%nat.
Proof.
  intros Hh. assert (P : 0 < INR h) by (now apply lt_0_INR). pose proof (Zceil_bounds (INR N / INR h)) as [_ B].
  assert (Q : INR N <= IZR (Zceil (INR N / INR h)) * INR h).
  { apply Rmult_le_compat_r with (r := INR h) in B; [|lra]. unfold Rdiv in B at 1. rewrite Rmult_assoc, Rinv_l, Rmult_1_r in B by lra. exact B. }
  assert (Z0 : (0 <= Zceil (INR N / INR h))%Z).
  { destruct (Z_lt_le_dec (Zceil (INR N / INR h)) 0) as [L|L]; [|exact L]. apply IZR_lt in L. pose proof (pos_INR N).
    assert (0 <= INR N / INR h) by (apply Rmult_le_pos; [lra|left; now apply Rinv_0_lt_compat]). lra. }
  apply INR_le. rewrite mult_INR. rewrite (INR_IZR_INZ (Z.to_nat _)), Z2Nat.id by exact Z0. exact Q.
Qed.

Lemma regular_nth g h N i : length (g_av g) = (2 * h)%nat -> (0 < h)%nat -> (i < N)%nat ->
  nth_error (regular_directions g N) i = option_map (fun r => (a_theta r, a_phi r)) (nth_error (g_av g) (i mod h)).
Proof.
  intros Hh H0 Hi. unfold regular_directions, tile. rewrite (half_len g h Hh).
  assert (L : length (firstn h (g_av g)) = h) by (rewrite firstn_length; lia). rewrite L.
  pose proof (ceil_enough N h H0) as C. set (q := Z.to_nat _) in *.
  rewrite nth_error_firstn_lt by exact Hi. rewrite concat_repeat_nth by (rewrite map_length, L; lia). rewrite map_length, L, nth_error_map.
  f_equal. rewrite nth_error_firstn_lt; [reflexivity|]. apply Nat.mod_upper_bound. lia.
Qed.

(* ---------- loops ---------- *)

Lemma enumerate_nth {A} (l : list A) i : nth_error (enumerate l) i = option_map (pair i) (nth_error l i).
Proof.
  unfold enumerate. assert (Q : forall (l : list A) s i, nth_error (combine (seq s (length l)) l) i = option_map (pair (s + i)%nat) (nth_error l i)).
  { clear. induction l as [|a l IH]; intros s [|i]; cbn [length seq combine nth_error option_map]; auto; [f_equal; f_equal; lia|].
    rewrite IH. destruct (nth_error l i); cbn [option_map]; auto. f_equal. f_equal. lia. }
  apply (Q l 0%nat).
Qed.
Lemma enumerate_length {A} (l : list A) : length (enumerate l) = length l.
Proof. unfold enumerate. rewrite combine_length, seq_length. lia. Qed.

Lemma done_nth {A B} (f : nat * A -> option (res B)) l out : (forall i a, nth_error l i = Some a -> forall e, f (i, a) <> Some (Err e)) ->
  all_done (map f (enumerate l)) = Some out ->
  exists r, out = Ok r /\ length r = length l /\ forall i a, nth_error l i = Some a -> exists b, nth_error r i = Some b /\ f (i, a) = Some (Ok b).
Proof.
  intros H E. destruct (all_done_ok (map f (enumerate l)) out) as (r & -> & M); [|exact E|].
  - intros x Hx e Q. apply in_map_iff in Hx. destruct Hx as ([i a] & Ef & Hi). apply In_nth_error in Hi. destruct Hi as [j Hj]. rewrite enumerate_nth in Hj.
    destruct (nth_error l j) as [a'|] eqn:En; [|discriminate]. cbn [option_map] in Hj. injection Hj as -> ->. apply (H i a En e). congruence.
  - exists r. split; [reflexivity|]. assert (L : length r = length l). { rewrite <- (enumerate_length l), <- (map_length f), M, map_length. reflexivity. }
    split; [exact L|]. intros i a Ha. assert (Q : nth_error (map f (enumerate l)) i = Some (f (i, a))) by (rewrite nth_error_map, enumerate_nth, Ha; reflexivity).
    rewrite M, nth_error_map in Q. destruct (nth_error r i) as [b|]; [|discriminate]. cbn [option_map] in Q. exists b. split; [reflexivity|congruence].
Qed.

Lemma in_enumerated {A} (l : list A) x : In x l <-> exists i, nth_error l i = Some x.
Proof. split; [apply In_nth_error|]. intros [i H]. exact (nth_error_In _ _ H). Qed.

(* ---------- one ray ---------- *)

Lemma vertical_phi o : unit (ro_dir o) -> cos (ro_theta o) = vz (ro_dir o) -> ro_A o = None -> ro_theta o = 0 \/ ro_theta o = PI -> out_phi o = 0.
Proof.
  intros U C A H. unfold out_phi. rewrite A. unfold unit, dot in U.
  assert (V : vz (ro_dir o) * vz (ro_dir o) = 1) by (rewrite <- C; destruct H as [-> | ->]; rewrite ?cos_0, ?cos_PI; lra).
  assert (X : vx (ro_dir o) = 0 /\ vy (ro_dir o) = 0) by (split; nra). destruct X as [-> ->]. unfold atan2.
  rewrite (proj2 (Rltb_false 0 0)) by lra. reflexivity.
Qed.

Lemma table_side_pm s k : (k = 1 \/ k = -1)%Z -> table_side s k = Ok (match s with Front => k | Rear => (- k)%Z end).
Proof. intros [-> | ->]; destruct s; reflexivity. Qed.

Lemma as_seen_in s theta : 0 < theta < PI / 2 -> 0 < as_seen s theta <= PI.
Proof. intros H. pose proof PI_RGT_0. destruct s; cbn [as_seen]; lra. Qed.
Lemma column_row_back s h k : (k < h)%nat -> (column_row s h k - match s with Front => 0 | Rear => h end)%nat = k.
Proof. intros H. destruct s; cbn [column_row]; lia. Qed.

Section Calc.
  Variables (outer fuel : nat) (s : side) (only : bool) (o : rm_options) (table : option (Z -> R -> table_entry)) (n_abs : nat) (inc trn : material)
    (texture : rtsurf * rtsurf) (z : rm_draws) (G : garbage).
  Hypothesis HQ : sound_request s o table n_abs inc trn texture z.
  Let surf := facing_surface s texture.
  Let dec := rm_decision s o table inc trn.
  Let tmm := match table with Some _ => true | None => false end.
  Let nb := (m_nx o * m_ny o)%nat.

  Lemma dec_real : real_decision dec.
  Proof.
    unfold dec, rm_decision, chosen. destruct (sq_media _ _ _ _ _ _ _ _ HQ) as [M1 M2].
    assert (N : exists a b, optical_medium a /\ optical_medium b /\ map (fun m => m (m_wl o)) (rt_media s inc trn None) = [a; b]) by (destruct s; cbn; eauto 6).
    destruct N as (a & b & A & B & ->). cbn [nth]. destruct table as [ent|]; cbn [option_map]; constructor; assumption.
  Qed.

  Lemma absorbed_entry th rnd A : - (PI / 2) < th < PI / 2 -> rnd < 1 -> absorbs dec th rnd A -> tmm = true /\ length A = n_abs /\ 0 < rsum A.
  Proof.
    intros Hth Hr (sd & d & N & P & _ & _ & E). unfold dec, rm_decision, chosen in E. unfold tmm.
    destruct table as [ent|] eqn:T; cbn [option_map] in E.
    - split; [reflexivity|]. set (ni := nth 0 _ _) in E. set (nj := nth 1 _ _) in E.
      assert (Q : exists k', (k' = 1 \/ k' = -1)%Z /\ seen_table s ent sd (Rabs th) = ent k' (Rabs th)).
      { assert (P' : (sd = 1 \/ sd = -1)%Z) by (exact P). unfold seen_table. rewrite (table_side_pm s _ P'). destruct s; eexists; (split; [|reflexivity]); destruct P'; lia. }
      destruct Q as (k' & Hk & Q). assert (RT : 0 <= Rabs th < PI / 2) by (split; [apply Rabs_pos|apply Rabs_def1; lra]).
      destruct (sq_table _ _ _ _ _ _ _ _ HQ ent eq_refl k' (Rabs th) Hk RT) as [LE AE]. rewrite <- Q in LE, AE. set (e := seen_table s ent sd (Rabs th)) in *.
      unfold table_decision_c, decide_RT_TMM_c in E. fold e in E.
      assert (F : A = te_A e /\ te_R e + te_T e < rnd).
      { destruct (Z.eqb sd 1); (destruct (Rleb rnd (te_R e)) eqn:L1; [discriminate|]); apply Rleb_false in L1; rewrite (proj2 (Rltb_true _ _) L1) in E; cbn [andb] in E;
          (destruct (Rleb rnd (te_R e + te_T e)) eqn:L2; [discriminate|]); apply Rleb_false in L2; cbn [snd] in E; split; congruence || lra. }
      destruct F as [-> F]. split; [exact LE|]. destruct AE; lra.
    - exfalso. unfold fresnel_decision_c, decide_RT_Fresnel_c in E. destruct (Z.eqb sd 1), (Rleb _ _); discriminate.
  Qed.

  Lemma start_up theta phi : 0 < theta < PI / 2 -> 0 < vz (start_vector (lmax (zs_of (su_pts surf))) theta phi).
  Proof.
    intros Ht. pose proof (sq_high _ _ _ _ _ _ _ _ HQ) as Hh. fold surf in Hh.
    assert (C : 0 < cos theta) by (apply cos_gt_0; lra). unfold start_vector. cbn [vz].
    apply Rmult_lt_0_compat; auto. apply Rabs_pos_lt.
    assert (0 < (lmax (zs_of (su_pts surf)) + 1 / 10 ^ 8) / cos theta) by (apply Rdiv_lt_0_compat; lra). lra.
  Qed.

  Lemma traced_fine theta phi k x y r : 0 < theta < PI / 2 -> rm_ray outer fuel surf dec theta phi z k x y = Some r ->
    exists ry, r = Ok ry /\ fine_ray tmm n_abs ry.
  Proof.
    intros Ht E. unfold rm_ray, launch in E. set (sf := refreshed surf (z_hs z) (z_seen z k)) in *. set (sh := rm_shot z k x y) in *.
    destruct (single_ray_interface outer fuel [(env_of sf dec sh, su_zcov sf)] (start_vector (lmax (zs_of (su_pts surf))) theta phi) (sh_x sh) (sh_y sh)) as [q|] eqn:T; [|discriminate].
    destruct (C69_one_interaction (env_of sf dec sh) (su_zcov sf) outer fuel _ (sh_x sh) (sh_y sh) q dec_real (start_up theta phi Ht) T) as (out & -> & (_ & U & K) & C).
    injection E as <-. eexists. split; [reflexivity|]. unfold fine_ray. cbn [y_out y_phi]. pose proof PI_RGT_0 as PP.
    destruct K as [(A & T1 & _)|[(A & T1 & _)|(A & j & EA & AB & T1 & LO)]].
    - rewrite A. split; [lra|]. intros V. apply vertical_phi; auto.
    - rewrite A. split; [lra|]. intros V. apply vertical_phi; auto.
    - rewrite EA. cbn [env_of e_dec e_rnd] in AB. destruct (absorbed_entry _ _ _ LO (sq_rnd _ _ _ _ _ _ _ _ HQ k j) AB) as (Q1 & Q2 & Q3).
      split; [exact Q1|]. split; [exact T1|]. split; [exact Q2|]. split; [exact Q3|]. left. apply Rabs_def1; lra.
  Qed.

  (* ---------- all rays ---------- *)

  Let pos := positions (rm_xs surf o z) (rm_ys surf o z).
  Definition xy_of (c : nat) : R * R := nth c pos (0, 0).
  Lemma pos_length : length pos = nb.
  Proof. unfold pos, positions, rm_xs, rm_ys. rewrite prod_length, !coords_length. reflexivity. Qed.

  Lemma beam_fine i theta phi r : 0 < theta < PI / 2 -> rm_beam outer fuel surf dec o z (i, (theta, phi)) = Some r ->
    exists b, r = Ok b /\ b_theta b = theta /\ b_phi b = phi /\ length (b_rays b) = nb /\
      forall c, (c < nb)%nat -> exists y, nth_error (b_rays b) c = Some y /\ rm_ray outer fuel surf dec theta phi z (i * nb + c) (fst (xy_of c)) (snd (xy_of c)) = Some (Ok y) /\ fine_ray tmm n_abs y.
  Proof.
    intros Ht E. unfold rm_beam in E. fold pos nb in E.
    destruct (all_done (map (fun cv => rm_ray outer fuel surf dec theta phi z (i * nb + fst cv) (fst (snd cv)) (snd (snd cv))) (enumerate pos))) as [q|] eqn:D; [|discriminate].
    apply done_nth in D.
    2:{ intros c v Hc e Q. cbn [fst snd] in Q. destruct (traced_fine _ _ _ _ _ _ Ht Q) as (y & Ey & _). discriminate. }
    destruct D as (rays & -> & L & D). injection E as <-. eexists. split; [reflexivity|]. cbn [b_theta b_phi b_rays]. rewrite pos_length in L.
    split; [reflexivity|]. split; [reflexivity|]. split; [exact L|]. intros c Hc.
    assert (P : nth_error pos c = Some (xy_of c)) by (apply nth_error_nth'; rewrite pos_length; exact Hc).
    destruct (D c _ P) as (y & Y1 & Y2). cbn [fst snd] in Y2. exists y. split; [exact Y1|]. split; [exact Y2|].
    destruct (traced_fine _ _ _ _ _ _ Ht Y2) as (y' & E' & F). injection E' as <-. exact F.
  Qed.

  Variables (g : grid) (h : nat).
  Hypothesis HG : angular_grid o g.
  Hypothesis Hh : length (g_av g) = (2 * h)%nat.

  Lemma matrices_beams dirs out : rm_directions only o z g = Ok dirs -> (forall d, In d dirs -> 0 < fst d < PI / 2) ->
    RT_matrices outer fuel s only o table n_abs inc trn texture z G = Some out ->
    exists beams, out = RT_wl s tmm (m_phisym o) g n_abs beams G /\ length beams = length dirs /\
      forall i d, nth_error dirs i = Some d -> exists b, nth_error beams i = Some b /\ b_theta b = fst d /\ b_phi b = snd d /\ length (b_rays b) = nb /\
        forall c, (c < nb)%nat -> exists y, nth_error (b_rays b) c = Some y /\ rm_ray outer fuel surf dec (fst d) (snd d) z (i * nb + c) (fst (xy_of c)) (snd (xy_of c)) = Some (Ok y) /\ fine_ray tmm n_abs y.
  Proof.
    intros HD HT E. unfold RT_matrices in E. pose proof (sq_rays _ _ _ _ _ _ _ _ HQ) as NB. destruct (Nat.eqb_spec (m_nx o * m_ny o) 0); [lia|].
    unfold rm_grid in E. rewrite HG, HD in E. change (match s with Front => fst texture | Rear => snd texture end) with surf in E. fold dec in E.
    destruct (all_done (map (rm_beam outer fuel surf dec o z) (enumerate dirs))) as [q|] eqn:D; [|discriminate].
    apply done_nth in D.
    2:{ intros i [th ph] Hi e Q. apply nth_error_In in Hi. destruct (beam_fine _ _ _ _ (HT _ Hi) Q) as (b & Eb & _). discriminate. }
    destruct D as (beams & -> & L & D). injection E as <-. exists beams. split; [reflexivity|]. split; [exact L|].
    intros i [th ph] Hi. destruct (D _ _ Hi) as (b & B1 & B2). exists b. split; [exact B1|].
    destruct (beam_fine _ _ _ _ (HT _ (nth_error_In _ _ Hi)) B2) as (b' & Eb & F). injection Eb as <-. exact F.
  Qed.

  Lemma beams_fine dirs beams : (forall d, In d dirs -> 0 < fst d < PI / 2 /\ fold_phi (snd d) (m_phisym o) <> 0) -> length beams = length dirs ->
    (forall i d, nth_error dirs i = Some d -> exists b, nth_error beams i = Some b /\ b_theta b = fst d /\ b_phi b = snd d /\ length (b_rays b) = nb /\
        forall c, (c < nb)%nat -> exists y, nth_error (b_rays b) c = Some y /\ rm_ray outer fuel surf dec (fst d) (snd d) z (i * nb + c) (fst (xy_of c)) (snd (xy_of c)) = Some (Ok y) /\ fine_ray tmm n_abs y) ->
    forall b, In b beams -> good_beam (m_phisym o) b /\ forall y, In y (b_rays b) -> fine_ray tmm n_abs y.
  Proof.
    intros HD L HB b Hb. apply In_nth_error in Hb. destruct Hb as [i Hi].
    destruct (nth_error dirs i) as [d|] eqn:Ed; [|apply nth_error_None in Ed; assert (nth_error beams i <> None) by congruence; apply nth_error_Some in H; lia].
    destruct (HB _ _ Ed) as (b' & B1 & B2 & B3 & B4 & B5). rewrite Hi in B1. injection B1 as <-. destruct (HD d (nth_error_In _ _ Ed)) as [D1 D2].
    split; [unfold good_beam; rewrite B2, B3; split; [lra|exact D2]|]. intros y Hy. apply In_nth_error in Hy. destruct Hy as [c Hc].
    assert (C : (c < nb)%nat) by (rewrite <- B4; apply nth_error_Some; congruence). destruct (B5 c C) as (y' & Y1 & _ & Y3). rewrite Hc in Y1. injection Y1 as <-. exact Y3.
  Qed.

  (* ---------- the directions ---------- *)

  Lemma grid_half : (length (g_av g) / 2)%nat = h.
  Proof. exact (half_len g h Hh). Qed.
  Lemma h_positive : (0 < h)%nat.
  Proof. destruct (sq_fold _ _ _ _ _ _ _ _ HQ) as [m M]. exact (h_pos' _ _ _ _ _ h (sq_grid _ _ _ _ _ _ _ _ HQ) HG Hh). Qed.

  Lemma dirs_inclined dirs : inclined only o z -> rm_directions only o z g = Ok dirs ->
    (forall d, In d dirs -> 0 < fst d < PI / 2 /\ fold_phi (snd d) (m_phisym o) <> 0).
  Proof.
    intros HI E d Hd. destruct (sq_fold _ _ _ _ _ _ _ _ HQ) as [m M]. pose proof (sq_grid _ _ _ _ _ _ _ _ HQ) as V. unfold rm_directions, inclined in *. destruct only.
    - destruct HI as (ph & Ep & H1 & H2). unfold incidence_directions in E. rewrite Ep in E. injection E as <-. apply repeat_spec in Hd. subst d. cbn [fst snd]. auto.
    - injection E as <-. destruct (m_random_angles o).
      + specialize (HI eq_refl). apply in_map_iff in Hd. destruct Hd as (i & <- & _). cbn [fst snd]. destruct (HI i) as [H1 H2]. split; [|exact H2]. pose proof PI_RGT_0. split; nra.
      + apply In_nth_error in Hd. destruct Hd as [i Hi].
        assert (L : (i < n_angles_of (m_nrays o) (m_nx o) (m_ny o))%nat).
        { assert (Q : nth_error (regular_directions g (n_angles_of (m_nrays o) (m_nx o) (m_ny o))) i <> None) by congruence. apply nth_error_Some in Q.
          unfold regular_directions, tile in Q. rewrite firstn_length in Q. lia. }
        rewrite (regular_nth g h _ i Hh h_positive L) in Hi. pose proof (Nat.mod_upper_bound i h ltac:(pose proof h_positive; lia)) as MB.
        destruct (nth_error (g_av g) (i mod h)) as [r|] eqn:Er; [|discriminate]. cbn [option_map] in Hi. injection Hi as <-. cbn [fst snd].
        destruct (C01_rows _ _ _ _ _ V HG) as [_ [R1 _]]. destruct (R1 (i mod h)%nat ltac:(lia)) as (a & b & Hab).
        destruct (row_direction _ m _ _ _ g h V M HG Hh _ r a b Er MB Hab) as (D1 & D2 & D3). rewrite D3. split; lra.
  Qed.

  Lemma comes_in dirs theta phi : rm_directions only o z g = Ok dirs -> comes_from only o z g theta phi -> In (theta, phi) dirs.
  Proof.
    intros E H. unfold rm_directions in E. destruct H as [k r Ho Hr Hk Hn En|i Ho Hr Hi|ph Ho Hp Hn]; rewrite Ho in E.
    - rewrite Hr in E. injection E as <-. rewrite grid_half in Hk. apply in_enumerated. exists k.
      rewrite (regular_nth g h _ k Hh h_positive Hn), Nat.mod_small, En by exact Hk. reflexivity.
    - rewrite Hr in E. injection E as <-. apply in_map_iff. exists i. split; [reflexivity|]. apply in_seq. lia.
    - assert (L : length (firstn (length (g_av g) / 2) (g_av g)) = h) by (rewrite grid_half, firstn_length; lia).
      unfold incidence_directions in E. cbv zeta in E. rewrite Hp, L in E. injection E as <-. fold (nudged (m_theta o)) (nudged ph).
      pose proof (ceil_enough (n_angles_of (m_nrays o) (m_nx o) (m_ny o)) h h_positive) as C. destruct (Z.to_nat _) as [|q]; [lia|]. now left.
  Qed.

  Lemma dirs_given : inclined only o z -> exists dirs, rm_directions only o z g = Ok dirs.
  Proof.
    intros HI. unfold rm_directions, inclined in *. destruct only; [|eauto]. destruct HI as (ph & Ep & _). unfold incidence_directions. rewrite Ep. eauto.
  Qed.

  (* ---------- columns ---------- *)

  (* a column that light belongs to has rays *)
  Lemma column_lit dirs beams k theta phi : inclined only o z -> rm_directions only o z g = Ok dirs -> length beams = length dirs ->
    (forall i d, nth_error dirs i = Some d -> exists b, nth_error beams i = Some b /\ b_theta b = fst d /\ b_phi b = snd d /\ length (b_rays b) = nb) ->
    comes_from only o z g theta phi -> in_its_column s (m_phisym o) g k theta phi -> 0 < n_rays_in (col_of (m_phisym o) g h s) k beams.
  Proof.
    intros HI HD L HB HC [Hk HK]. rewrite grid_half in Hk, HK. pose proof (dirs_inclined dirs HI HD) as DI. pose proof (sq_grid _ _ _ _ _ _ _ _ HQ) as V.
    pose proof (comes_in dirs theta phi HD HC) as Hin. destruct (DI _ Hin) as [D1 D2]. cbn [fst snd] in D1, D2. apply In_nth_error in Hin. destruct Hin as [i Hi].
    destruct (HB _ _ Hi) as (b & B1 & B2 & B3 & B4). cbn [fst snd] in B2, B3.
    assert (CK : col_of (m_phisym o) g h s b = k).
    { unfold col_of. rewrite B2, B3. pose proof (as_seen_in s theta D1) as T.
      assert (P : 0 < fold_phi phi (m_phisym o) <= m_phisym o). { pose proof (fold_phi_range phi (m_phisym o) ltac:(destruct V; tauto)). lra. }
      rewrite <- (proj1 (row_at_bin _ _ _ _ g h V HG Hh _ _ _ T P) HK). apply column_row_back. exact Hk. }
    assert (NR : forall bs, (forall b', In b' bs -> In b' beams) -> In b bs -> 0 < n_rays_in (col_of (m_phisym o) g h s) k bs).
    { intros bs _ Hb. destruct (in_split _ _ Hb) as (l1 & l2 & ->). unfold n_rays_in, pairs, in_column. rewrite flat_map_app, map_app, rsum_app. cbn [flat_map]. rewrite map_app, rsum_app.
      assert (NN : forall l, 0 <= rsum (map (fun p : beam * ray => if Nat.eqb (col_of (m_phisym o) g h s (fst p)) k then 1 else 0) l)).
      { intros l. apply rsum_nonneg. intros a Ha. apply in_map_iff in Ha. destruct Ha as (p & <- & _). destruct (Nat.eqb _ _); lra. }
      assert (ONE : rsum (map (fun p : beam * ray => if Nat.eqb (col_of (m_phisym o) g h s (fst p)) k then 1 else 0) (map (pair b) (b_rays b))) = INR nb).
      { rewrite <- B4, map_map. cbn [fst]. rewrite CK, Nat.eqb_refl. clear. induction (b_rays b) as [|y l IH]; [reflexivity|]. cbn [map rsum length]. rewrite IH, S_INR. ring. }
      pose proof (NN (flat_map (fun b => map (pair b) (b_rays b)) l1)). pose proof (NN (flat_map (fun b => map (pair b) (b_rays b)) l2)).
      assert (0 < INR nb) by (apply lt_0_INR; exact (sq_rays _ _ _ _ _ _ _ _ HQ)). rewrite ONE. lra. }
    exact (NR beams (fun b' H => H) (nth_error_In _ _ B1)).
  Qed.

  Lemma columns out : inclined only o z -> RT_matrices outer fuel s only o table n_abs inc trn texture z G = Some out ->
    exists res, out = Ok res /\ has_shape (o_mat res) (2 * h) h /\ has_shape (o_Amat res) n_abs h /\
      forall k theta phi, comes_from only o z g theta phi -> in_its_column s (m_phisym o) g k theta phi ->
        (forall r, (r < 2 * h)%nat -> 0 <= entry (o_mat res) r k <= 1) /\ 0 <= col_total (o_Amat res) k <= 1 /\ col_total (o_mat res) k + col_total (o_Amat res) k = 1.
  Proof.
    intros HI E. destruct (dirs_given HI) as [dirs HD]. pose proof (dirs_inclined dirs HI HD) as DI.
    destruct (matrices_beams dirs out HD (fun d Hd => proj1 (DI d Hd)) E) as (beams & -> & L & HB). pose proof (beams_fine dirs beams DI L HB) as FB.
    destruct (sq_fold _ _ _ _ _ _ _ _ HQ) as [m M]. pose proof (sq_grid _ _ _ _ _ _ _ _ HQ) as V.
    destruct (fine_main _ m _ _ _ g h V M HG Hh s tmm n_abs beams G FB) as (res & -> & S1 & S2 & F).
    exists res. split; [reflexivity|]. split; [exact S1|]. split; [exact S2|]. intros k theta phi HC [Hk HK]. rewrite grid_half in Hk, HK.
    assert (NR : 0 < n_rays_in (col_of (m_phisym o) g h s) k beams).
    { apply (column_lit dirs beams k theta phi HI HD L); [|exact HC|split; [rewrite grid_half; exact Hk|rewrite grid_half; exact HK]].
      intros i d Hi. destruct (HB i d Hi) as (b & B1 & B2 & B3 & B4 & _). exists b. auto. }
    destruct (F k Hk NR) as (F1 & F2 & _ & F3).
    assert (LE : forall W, (forall y, 0 <= W y <= 1) -> 0 <= in_column (col_of (m_phisym o) g h s) k W (pairs beams) / n_rays_in (col_of (m_phisym o) g h s) k beams <= 1).
    { intros W HW. assert (A : 0 <= in_column (col_of (m_phisym o) g h s) k W (pairs beams) <= n_rays_in (col_of (m_phisym o) g h s) k beams).
      { unfold n_rays_in, in_column. generalize (pairs beams). intros l. induction l as [|p l IH]; [cbn; lra|]. cbn [map rsum]. specialize (HW (snd p)). destruct (Nat.eqb _ _); lra. }
      split; [apply Rmult_le_pos; [lra|left; now apply Rinv_0_lt_compat]|]. apply Rmult_le_reg_r with (n_rays_in (col_of (m_phisym o) g h s) k beams); [exact NR|].
      unfold Rdiv. rewrite Rmult_assoc, Rinv_l by lra. lra. }
    split; [intros r Hr; rewrite F1 by exact Hr; apply LE; intros y; destruct (leaves y && _); lra|]. split; [|exact F3]. rewrite F2. apply LE. intros y. destruct (leaves y); lra.
  Qed.
End Calc.

(* the row of the upper half whose light belongs to column k *)
Lemma column_source n m phi_sym c sp g h s k : valid_request n phi_sym c -> m_fold m phi_sym -> make_angle_vector n phi_sym c sp = Ok g -> length (g_av g) = (2 * h)%nat -> (k < h)%nat ->
  exists k' r, (k' < h)%nat /\ nth_error (g_av g) k' = Some r /\ bin_contains g (column_row s h k) (as_seen s (a_theta r)) (a_phi r) /\
    0 < as_seen s (a_theta r) <= PI /\ 0 < a_phi r <= phi_sym /\ fold_phi (a_phi r) phi_sym = a_phi r.
Proof.
  intros Hv Hm Hg Hh Hk. destruct (C01_rows _ _ _ _ _ Hv Hg) as [[h' [L Hrow]] [R1 [R2 R3]]]. assert (h' = h) by lia. subst h'.
        destruct s.
        - destruct (R1 k ltac:(lia)) as [i [j Hij]]. pose proof Hij as [r [Hr [Hi [T P]]]].
          exists k, r. split; auto. split; auto.
          destruct (row_direction n m phi_sym c sp g h Hv Hm Hg Hh k r i j Hr Hk Hij) as [D1 [D2 D3]]. cbn [as_seen].
          split; [|split; [lra|split; [lra|auto]]].
          exists i, j. split; auto. unfold in_bin, strictly_in_bin in *. split; split; try tauto; lra.
        - destruct (R1 (h + k)%nat ltac:(lia)) as [i [j Hij]]. pose proof Hij as [r0 [Hr0 [Hi0 [[T1 T2] [P1 P2]]]]].
          destruct (C01_edges _ _ _ _ _ Hv Hg) as [LE [Inc [_ [_ [_ [Sym _]]]]]].
          assert (Hi : (i < 2 * n)%nat) by lia.
          assert (Hin : (n <= i)%nat).
          { destruct (Nat.lt_ge_cases i n) as [Hlt|]; auto. rewrite <- Hi0 in Hlt. apply (Hrow _ _ Hr0) in Hlt. lia. }
          destruct (R2 (2 * n - 1 - i)%nat j) as [k' [Hk' _]]; [lia | rewrite (phi_edges_mirror n phi_sym c sp g h Hv Hg Hh) by auto; auto |].
          pose proof Hk' as [r [Hr [Hi' [[T3 T4] [P3 P4]]]]].
          assert (Hk'h : (k' < h)%nat) by (apply (Hrow _ _ Hr); lia).
          exists k', r. split; auto. split; auto.
          destruct (row_direction n m phi_sym c sp g h Hv Hm Hg Hh k' r _ _ Hr Hk'h Hk') as [D1 [D2 D3]]. cbn [as_seen].
          split; [|split; [lra|split; [lra|auto]]].
          exists i, j. split; auto. rewrite (phi_edges_mirror n phi_sym c sp g h Hv Hg Hh) in P3, P4 by auto.
          pose proof (Sym (S i) ltac:(lia)) as Y1. pose proof (Sym i ltac:(lia)) as Y2.
          replace (2 * n - S i)%nat with (2 * n - 1 - i)%nat in Y1 by lia.
          replace (S (2 * n - 1 - i)) with (2 * n - i)%nat in T4 by lia.
          split; split; try lia; try lra.
Qed.
