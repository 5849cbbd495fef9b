(* Matrices of ray-traced surfaces as calculate_RAT reads them. *)
From Coq Require Import Reals List Bool ZArith Lia Lra.
From Verif Require Import Base Lib Model_Angles Model_Ideal Model_MatMul Model_Optics Model_OpticsC Model_RayIface Model_RT Model_Surface Model_RTStruct
  Model_Trace Model_StackCalc Model_RTCalc Model_RTSlab
  Spec_Angles Spec_Matrix Spec_MatMul Spec_Optics Spec_OpticsC Spec_RayIface Spec_RT Spec_RTCalc Spec_RTSlab
  Proof_Angles Proof_AnglesProps Proof_RT Proof_RT2 Proof_RTRows Proof_RTStruct Proof_StackCalc Proof_RTCalc Prop_RayIface Prop_RTCalc.
Import ListNotations.
Open Scope R_scope.

Section Layers.
  Variables (outer fuel : nat) (s : side) (only : bool) (o : rm_options) (table : option (Z -> R -> table_entry)) (n_abs : nat) (inc trn : material)
    (texture : rtsurf * rtsurf) (z : rm_draws) (G : garbage).
  Hypothesis HQ : sound_request s o table n_abs inc trn texture z.
  Hypothesis HA : absorbing_layers table.
  Let surf := facing_surface s texture.
  Let dec := rm_decision s o table inc trn.
  Let tmm := match table with Some _ => true | None => false end.

  Lemma entry_layers th rnd A : - (PI / 2) < th < PI / 2 -> absorbs dec th rnd A -> forall x, In x A -> 0 <= x.
  Proof.
    intros Hth (sd & d & N & P & _ & _ & E) x Hx. unfold dec, rm_decision, chosen in E.
    destruct table as [ent|] eqn:T; cbn [option_map] in E.
    - set (ni := nth 0 _ _) in E. set (nj := nth 1 _ _) in E.
      assert (Q : exists k', (k' = 1 \/ k' = -1)%Z /\ seen_table s ent sd (Rabs th) = ent k' (Rabs th)).
      { assert (P' : (sd = 1 \/ sd = -1)%Z) by (exact P). unfold seen_table. rewrite (table_side_pm s _ P'). destruct s; eexists; (split; [|reflexivity]); destruct P'; lia. }
      destruct Q as (k' & Hk & Q). assert (RT : 0 <= Rabs th < PI / 2) by (split; [apply Rabs_pos|apply Rabs_def1; lra]).
      apply (HA ent k' (Rabs th) x eq_refl Hk RT). rewrite <- Q. set (e := seen_table s ent sd (Rabs th)) in *.
      unfold table_decision_c, decide_RT_TMM_c in E. fold e in E.
      destruct (Z.eqb sd 1); (destruct (Rleb rnd (te_R e)) eqn:L1; [discriminate|]); apply Rleb_false in L1; rewrite (proj2 (Rltb_true _ _) L1) in E; cbn [andb] in E;
          (destruct (Rleb rnd (te_R e + te_T e)) eqn:L2; [discriminate|]); cbn [snd] in E; congruence.
    - exfalso. unfold fresnel_decision_c, decide_RT_Fresnel_c in E. destruct (Z.eqb sd 1), (Rleb _ _); discriminate.
  Qed.

  Lemma ray_layers theta phi k x y ry : 0 < theta < PI / 2 -> rm_ray outer fuel surf dec theta phi z k x y = Some (Ok ry) -> forall a, In a (absorption ry) -> 0 <= a.
  Proof.
    intros Ht E. unfold rm_ray, launch in E. set (sf := refreshed surf (z_hs z) (z_seen z k)) in *. set (sh := rm_shot z k x y) in *.
    destruct (single_ray_interface outer fuel [(env_of sf dec sh, su_zcov sf)] (start_vector (lmax (zs_of (su_pts surf))) theta phi) (sh_x sh) (sh_y sh)) as [q|] eqn:T; [|discriminate].
    destruct (C69_one_interaction (env_of sf dec sh) (su_zcov sf) outer fuel _ (sh_x sh) (sh_y sh) q
      (dec_real s o table n_abs inc trn texture z HQ) (start_up s o table n_abs inc trn texture z HQ theta phi Ht) T) as (out & -> & (_ & U & K) & C).
    injection E as <-. unfold absorption. cbn [y_out].
    destruct K as [(A & T1 & _)|[(A & T1 & _)|(A & j & EA & AB & T1 & LO)]]; rewrite ?A, ?EA; try (intros a []).
    cbn [env_of e_dec e_rnd] in AB. exact (entry_layers _ _ _ LO AB).
  Qed.

  Variables (g : grid) (h : nat).
  Hypothesis HG : angular_grid o g.
  Hypothesis Hh : length (g_av g) = (2 * h)%nat.

  (* entries of the absorption matrix *)
  Lemma layers_nonneg res : inclined only o z -> RT_matrices outer fuel s only o table n_abs inc trn texture z G = Some (Ok res) ->
    forall k theta phi, comes_from only o z g theta phi -> in_its_column s (m_phisym o) g k theta phi -> forall l, (l < n_abs)%nat -> 0 <= entry (o_Amat res) l k.
  Proof.
    intros HI E k theta phi HC HK l Hl.
    destruct (dirs_given only o z g HI) as [dirs HD]. pose proof (dirs_inclined s only o table n_abs inc trn texture z HQ g h HG Hh dirs HI HD) as DI.
    destruct (columns outer fuel s only o table n_abs inc trn texture z G HQ g h HG Hh _ HI E) as (res' & E' & _ & _ & C).
    injection E' as <-.
    destruct (matrices_beams outer fuel s only o table n_abs inc trn texture z G HQ g h HG Hh dirs _ HD (fun d Hd => proj1 (DI d Hd)) E) as (beams & W & L & HB).
    pose proof (beams_fine outer fuel s o table n_abs inc trn texture z g h Hh dirs beams DI L HB) as FB.
    destruct (sq_fold _ _ _ _ _ _ _ _ HQ) as [m M]. pose proof (sq_grid _ _ _ _ _ _ _ _ HQ) as V.
    assert (NR : 0 < n_rays_in (col_of (m_phisym o) g h s) k beams).
    { apply (column_lit s only o table n_abs inc trn texture z HQ g h HG Hh dirs beams k theta phi HI HD L); [|exact HC|exact HK].
      intros i d Hi. destruct (HB i d Hi) as (b & B1 & B2 & B3 & B4 & _). exists b. auto. }
    destruct (fine_main _ m _ _ _ g h V M HG Hh s tmm n_abs beams G FB) as (res' & E' & S1 & S2 & F). fold tmm in W. rewrite E' in W. injection W as <-.
    assert (Hk : (k < h)%nat) by (destruct HK as [Hk _]; rewrite (half_len g h Hh) in Hk; exact Hk).
    destruct (F k Hk NR) as (_ & _ & F3 & _). rewrite F3 by exact Hl.
    assert (NL : forall b y, In (b, y) (pairs beams) -> forall a, In a (absorption y) -> 0 <= a).
    { intros b y Hp. unfold pairs in Hp. apply in_flat_map in Hp. destruct Hp as (b' & Hb & Hp). apply in_map_iff in Hp. destruct Hp as (y' & Q & Hy). injection Q as -> ->.
      apply In_nth_error in Hb. destruct Hb as [i Hi]. destruct (nth_error dirs i) as [d|] eqn:Ed.
      2:{ apply nth_error_None in Ed. assert (X : nth_error beams i <> None) by congruence. apply nth_error_Some in X. lia. }
      destruct (HB i d Ed) as (b0 & B1 & B2 & B3 & B4 & B5). rewrite Hi in B1. injection B1 as <-.
      apply In_nth_error in Hy. destruct Hy as [c Hc]. assert (Lc : (c < length (b_rays b))%nat) by (apply nth_error_Some; congruence). rewrite B4 in Lc.
      destruct (B5 c Lc) as (y0 & Y1 & Y2 & _). rewrite Hc in Y1. injection Y1 as <-.
      exact (ray_layers _ _ _ _ _ _ (proj1 (DI d (nth_error_In _ _ Ed))) Y2). }
    assert (DP : forall a b, 0 <= a -> 0 <= b -> 0 <= a / b).
    { intros a b Ha Hb. destruct (Req_dec b 0) as [->|Nz]; [unfold Rdiv; rewrite Rinv_0; lra|]. apply Rmult_le_pos; [exact Ha|]. left. apply Rinv_0_lt_compat. lra. }
    apply Rmult_le_pos; apply DP.
    - unfold n_absorbed_in. apply in_column_nonneg. intros b y _. destruct (leaves y); lra.
    - unfold n_rays_in. apply in_column_nonneg. intros. lra.
    - apply in_column_nonneg. intros b y Hp. destruct (Nat.lt_ge_cases l (length (absorption y))) as [X|X]; [apply (NL b y Hp), nth_In; exact X|rewrite nth_overflow by exact X; lra].
    - apply in_column_nonneg. intros b y Hp. apply rsum_nonneg. exact (NL b y Hp).
  Qed.
End Layers.

Lemma nonneg_entries m nr nc : has_shape m nr nc -> (forall r k, (r < nr)%nat -> (k < nc)%nat -> 0 <= entry m r k) -> nonneg_matrix m.
Proof.
  intros [L1 L2] P row x Hrow Hx. apply In_nth with (d := []) in Hrow. destruct Hrow as [r [Hr <-]].
  apply In_nth with (d := 0) in Hx. destruct Hx as [k [Hk <-]]. rewrite (L2 (nth r m [])) in Hk by (apply nth_In; auto). apply P; lia.
Qed.

Lemma traceable_sound s o n_abs inc trn texture z wls v : traceable s o n_abs inc trn texture wls -> In v wls ->
  sound_request s (wave_options o v) (v_table v) n_abs inc trn texture (wave_draws z v) /\ absorbing_layers (v_table v).
Proof.
  intros (H1 & H2 & H3 & H4 & HW) Hv. destruct (HW v Hv) as (W1 & W2 & W3 & W4 & W5). split; [|exact W4].
  constructor; cbn [wave_options m_ntheta m_phisym m_caz m_nx m_ny m_wl wave_draws z_rnd]; auto.
Qed.

(* the matrices of a surface lit from one side account for all light *)
Lemma traced_conserves outer fuel s o n_abs inc trn texture z wls g h out :
  traceable s o n_abs inc trn texture wls -> wls <> [] -> angular_grid o g -> length (g_av g) = (2 * h)%nat -> enough_rays o g ->
  rt_stored outer fuel s false o n_abs inc trn texture z wls = Some out ->
  exists f, out = Ok f /\ file_conserves (length wls) h f /\ file_passive (length wls) h f.
Proof.
  intros HT HN HG Hh [HR HL] E. unfold rt_stored in E.
  set (run := fun v => RT_matrices outer fuel s false (wave_options o v) (v_table v) n_abs inc trn texture (wave_draws z v) (v_garbage v)) in E.
  assert (COL : forall v q, In v wls -> run v = Some q -> exists res, q = Ok res /\ has_shape (o_mat res) (2 * h) h /\ has_shape (o_Amat res) n_abs h /\
    (forall k, (k < h)%nat -> col_total (o_mat res) k + col_total (o_Amat res) k = 1) /\ nonneg_matrix (o_mat res) /\ nonneg_matrix (o_Amat res)).
  { intros v q Hv Q. destruct (traceable_sound _ _ _ _ _ _ z _ v HT Hv) as [SQ SA]. assert (HI : inclined false (wave_options o v) (wave_draws z v)) by (unfold inclined; cbn [wave_options m_random_angles]; rewrite HR; discriminate).
    unfold run in Q. destruct (columns _ _ _ _ _ _ _ _ _ _ _ _ SQ g h HG Hh q HI Q) as (res & -> & S1 & S2 & C). exists res. split; [reflexivity|]. split; [exact S1|]. split; [exact S2|].
    assert (SRC : forall k, (k < h)%nat -> exists theta phi, comes_from false (wave_options o v) (wave_draws z v) g theta phi /\ in_its_column s (m_phisym (wave_options o v)) g k theta phi).
    { intros k Hk. destruct (sq_fold _ _ _ _ _ _ _ _ SQ) as [m M]. pose proof (half_len g h Hh) as HLF.
      destruct (column_source _ m _ _ _ g h s k (sq_grid _ _ _ _ _ _ _ _ SQ) M HG Hh Hk) as (k' & r & Hk' & Hr & B & _ & _ & F).
      exists (a_theta r), (a_phi r). split.
      - apply (cf_row false (wave_options o v) (wave_draws z v) g k' r); auto; [lia|]. pose proof (sq_rays _ _ _ _ _ _ _ _ SQ) as NR. cbn [wave_options m_nx m_ny m_nrays] in NR |- *.
        rewrite HLF in HL. pose proof (n_angles_enough (m_nrays o) (m_nx o) (m_ny o) h ltac:(lia) HL). lia.
      - split; rewrite HLF; [exact Hk|]. rewrite F. exact B. }
    split; [|split].
    - intros k Hk. destruct (SRC k Hk) as (th & ph & S3 & S4). apply (C k th ph S3 S4).
    - apply (nonneg_entries _ _ _ S1). intros r k Hr Hk. destruct (SRC k Hk) as (th & ph & S3 & S4). apply (proj1 (C k th ph S3 S4) r Hr).
    - apply (nonneg_entries _ _ _ S2). intros r k Hr Hk. destruct (SRC k Hk) as (th & ph & S3 & S4).
      exact (layers_nonneg outer fuel s false (wave_options o v) (v_table v) n_abs inc trn texture (wave_draws z v) (v_garbage v) SQ SA g h HG Hh res HI Q k th ph S3 S4 r Hr). }
  destruct (all_done (map run wls)) as [q|] eqn:D; [|discriminate].
  destruct (all_done_ok (map run wls) q) as (l & -> & M); [|exact D|].
  { intros x Hx e Q. apply in_map_iff in Hx. destruct Hx as (v & <- & Hv). destruct (COL v _ Hv Q) as (res & X & _). discriminate. }
  assert (LL : length l = length wls) by (rewrite <- (map_length run wls), M, map_length; reflexivity).
  assert (ALL : forall w, (w < length wls)%nat -> exists res, nth_error l w = Some res /\ has_shape (o_mat res) (2 * h) h /\ has_shape (o_Amat res) n_abs h /\
    (forall k, (k < h)%nat -> col_total (o_mat res) k + col_total (o_Amat res) k = 1) /\ nonneg_matrix (o_mat res) /\ nonneg_matrix (o_Amat res)).
  { intros w Hw. destruct (nth_error wls w) as [v|] eqn:Ev; [|apply nth_error_None in Ev; lia].
    destruct (nth_error l w) as [res|] eqn:El; [|apply nth_error_None in El; lia]. exists res. split; [reflexivity|].
    assert (Q : run v = Some (Ok res)). { assert (X : nth_error (map run wls) w = Some (run v)) by (rewrite nth_error_map, Ev; reflexivity). rewrite M, nth_error_map, El in X. cbn [option_map] in X. injection X as X. exact (eq_sym X). }
    destruct (COL v _ (nth_error_In _ _ Ev) Q) as (res' & X & Y). injection X as <-. exact Y. }
  destruct l as [|r0 l]; [destruct wls; [congruence|discriminate]|]. injection E as <-. eexists. split; [reflexivity|].
  change (o_mat r0 :: map o_mat l) with (map o_mat (r0 :: l)). change (o_Amat r0 :: map o_Amat l) with (map o_Amat (r0 :: l)).
  remember (r0 :: l) as L eqn:EL. clear EL.
  assert (SH : file_shaped (length wls) h (mk_stored (M3 (map o_mat L)) (M3 (map o_Amat L)))).
  { split; cbn [f_RT f_A stored_for abs_stored]; [|exists n_abs]; (split; [rewrite map_length; exact LL|]); intros x Hx; apply in_map_iff in Hx; destruct Hx as (res & <- & Hr);
      apply In_nth_error in Hr; destruct Hr as [w Hw]; (assert (Lw : (w < length L)%nat) by (apply nth_error_Some; congruence)); rewrite LL in Lw;
      destruct (ALL w Lw) as (res' & Q & S1 & S2 & _); rewrite Hw in Q; injection Q as <-; assumption. }
  assert (AT : forall w res, nth_error L w = Some res -> at_wl (M3 (map o_mat L)) w = o_mat res /\ at_wl (M3 (map o_Amat L)) w = o_Amat res).
  { intros w res Q. cbn [at_wl]. split; apply nth_error_nth; rewrite nth_error_map, Q; reflexivity. }
  split; (split; [exact SH|]).
  - intros w k Hw Hk. destruct (ALL w Hw) as (res & Q & _ & _ & C & _). destruct (AT w res Q) as [A1 A2]. cbn [f_RT f_A]. rewrite A1, A2. apply C. exact Hk.
  - split; [intros w Hw|intros w k Hw Hk]; destruct (ALL w Hw) as (res & Q & _ & _ & C & N1 & N2); destruct (AT w res Q) as [A1 A2]; cbn [f_RT f_A]; rewrite A1, A2; [auto|rewrite C by exact Hk; lra].
Qed.

(* matrices exist when each wavelength is traced to its end *)
Lemma traced_exists outer fuel s only o n_abs inc trn texture z wls :
  (forall v, In v wls -> exists q, RT_matrices outer fuel s only (wave_options o v) (v_table v) n_abs inc trn texture (wave_draws z v) (v_garbage v) = Some q) ->
  exists out, rt_stored outer fuel s only o n_abs inc trn texture z wls = Some out.
Proof.
  intros H. unfold rt_stored. assert (Q : exists q, all_done (map (fun v => RT_matrices outer fuel s only (wave_options o v) (v_table v) n_abs inc trn texture (wave_draws z v) (v_garbage v)) wls) = Some q).
  { induction wls as [|v l IH]; [exists (Ok []); reflexivity|]. cbn [map all_done]. destruct (H v (or_introl eq_refl)) as [q ->]. destruct q; [|eauto].
    destruct IH as [q ->]; [intros; apply H; now right|]. destruct q; eauto. }
  destruct Q as [q ->]. destruct q as [[|]|]; eauto.
Qed.
