(* C200: where rays start. *)
From Coq Require Import Reals List Bool ZArith Lra Lia.
From Verif Require Import Base Lib Model_Optics Spec_Optics Model_Angles Model_Ideal Model_MatMul Model_RayIface Model_RayStack Model_RT Model_Surface Model_RTStruct
  Spec_RTStruct Proof_RTStruct3 Model_StackRay Model_StackCalc Spec_StackCalc Proof_StackCalc Model_RTCalc Spec_Surface Spec_Trace Spec_RTCalc Spec_Place Proof_Place Spec_Angles Proof_AnglesProps Proof_RTRows
  Proof_RTCalc Prop_StackCalc Prop_RTCalc.
Import ListNotations.
Open Scope R_scope.

(* rt_structure.calculate: n_rays rounded up to whole grids; the points are those of x_limits and y_limits, by default those of the cell
   of the first surface without a hundredth at either end; x changes slower than y *)
Theorem C200_calculate_partial : forall outer fuel S textures materials widths inc trn surfs tables o w rays q0 s del p cov dist x0 x1 y0 y1,
  let mats := inc :: materials ++ [trn] in
  built_structure S textures materials widths inc trn surfs -> (forall q, In q textures -> exists s, surface_at S q = Some s) ->
  nth_error textures 0 = Some q0 -> surface_at S q0 = Some s -> mk_surface del p cov dist = Ok s -> covers p x0 x1 y0 y1 -> (0 < c_nx o)%nat -> (0 < c_ny o)%nat ->
  calc_rays outer fuel surfs mats widths tables o w = Some (Ok rays) ->
  exists X Y, placed (c_random_pos o) (c_xlim o) x0 x1 (c_nx o) (w_x w) X /\ placed (c_random_pos o) (c_ylim o) y0 y1 (c_ny o) (w_y w) Y /\
    (c_nrays o <= length rays < c_nrays o + c_nx o * c_ny o)%nat /\
    forall k f, nth_error rays k = Some f ->
      trace_stack outer fuel (calc_setup surfs mats widths tables o w k) (start_vector (lmax (map vz p)) (c_theta o) (c_phi o))
        (X ((k mod (c_nx o * c_ny o)) / c_ny o)%nat) (Y (k mod c_ny o)%nat) (match c_mat o with Some m => m | None => 0%Z end)
        (match c_dir o with Some d => d | None => 1%Z end) = Some (Ok f).
Proof.
  intros outer fuel S textures materials widths inc trn surfs tables o w rays q0 s del p cov dist x0 x1 y0 y1 mats HB HT Q0 SA ES HC Hx Hy E.
  destruct (bs_new _ _ _ _ _ _ _ HB) as (S' & su & cw & N & Rd).
  destruct (structure_ok S textures materials widths inc trn HT) as (S2 & su2 & cw2 & N2 & L & _ & B); [rewrite (bs_textures _ _ _ _ _ _ _ HB); lia|].
  rewrite N in N2. injection N2 as <- <- <-. destruct (B 0%nat q0 Q0) as (q & s1 & s2 & H1 & H2 & H3 & H4). rewrite SA in H2. injection H2 as <-.
  destruct (read_all_nth _ _ _ 0 q Rd H1) as (s0 & Es & E0). rewrite H3 in Es. injection Es as ->.
  destruct H4 as (PT & _ & _ & _ & _ & _ & _ & A1 & A2 & A3 & A4 & A5 & A6 & _).
  destruct (cell_limits _ _ _ _ _ _ _ _ _ ES HC) as (B1 & B2 & B3 & B4 & B5 & B6).
  destruct (calc_from _ _ _ _ _ _ _ _ _ _ E0 Hx Hy ltac:(rewrite A1, A3, A4, B1, B2; exact B3) ltac:(rewrite A2, A5, A6, B4, B5; exact B6) E) as (X & Y & PX & PY & NR & F).
  rewrite A3, A4, B1, B2 in PX. rewrite A5, A6, B4, B5 in PY. exists X, Y.
  assert (ZS : zs_of (su_pts s0) = map vz p).
  { rewrite PT, (surface_points _ _ _ _ _ ES). unfold zs_of. rewrite map_map. apply map_ext. intros v. cbn [vz]. unfold depth. cbn [firstn rsum]. ring. }
  rewrite ZS in F. auto.
Qed.
Print Assumptions C200_calculate_partial.

(* RT: all of the points for each direction of incidence; n_rays rounded up to whole grids *)
Theorem C200_matrices_partial : forall outer fuel s only o table n_abs inc trn texture z G out del p cov dist x0 x1 y0 y1,
  let surf := match s with Model_Ideal.Front => fst texture | Model_Ideal.Rear => snd texture end in
  valid_request (m_ntheta o) (m_phisym o) (m_caz o) ->
  mk_surface del p cov dist = Ok surf -> covers p x0 x1 y0 y1 -> (0 < m_nx o)%nat -> (0 < m_ny o)%nat ->
  RT_matrices outer fuel s only o table n_abs inc trn texture z G = Some (Ok out) ->
  exists g h beams X Y, angular_grid o g /\ length (g_av g) = (2 * h)%nat /\
    RT_wl s (match table with Some _ => true | None => false end) (m_phisym o) g n_abs beams G = Ok out /\
    (only = false -> (m_nrays o <= length beams * (m_nx o * m_ny o) < m_nrays o + m_nx o * m_ny o)%nat) /\
    placed (m_random_pos o) (m_xlim o) x0 x1 (m_nx o) (z_x z) X /\ placed (m_random_pos o) (m_ylim o) y0 y1 (m_ny o) (z_y z) Y /\
    forall i b, nth_error beams i = Some b -> sent only o z g h i (b_theta b) (b_phi b) /\ length (b_rays b) = (m_nx o * m_ny o)%nat /\
      forall c y, nth_error (b_rays b) c = Some y ->
        rm_ray outer fuel surf (rm_decision s o table inc trn) (b_theta b) (b_phi b) z (i * (m_nx o * m_ny o) + c) (X (c / m_ny o)%nat) (Y (c mod m_ny o)%nat) = Some (Ok y).
Proof.
  intros outer fuel s only o table n_abs inc trn texture z G out del p cov dist x0 x1 y0 y1 surf HV ES HC Hx Hy E.
  destruct (cell_limits _ _ _ _ _ _ _ _ _ ES HC) as (B1 & B2 & B3 & B4 & B5 & B6).
  pose proof (rt_from outer fuel s only o table n_abs inc trn texture z G out Hx Hy) as T. cbv zeta in T. fold surf in T.
  rewrite B1, B2, B4, B5 in T. destruct (T B3 B6 E) as (g & dirs & beams & X & Y & EG & ED & EW & LB & PX & PY & F).
  destruct (proj1 (C01_rows _ _ _ _ _ HV EG)) as [h [Hh _]]. pose proof (h_pos' _ _ _ _ _ h HV EG Hh) as Hp.
  destruct (directions_sent only o z g h dirs Hx Hy Hh Hp ED) as [D1 D2].
  exists g, h, beams, X, Y. rewrite LB. split; [exact EG|]. split; [exact Hh|]. split; [exact EW|]. split; [exact D1|]. split; [exact PX|]. split; [exact PY|].
  intros i b Hb. destruct (F i b Hb) as (F1 & F2 & F3). split; [exact (D2 _ _ F1)|]. auto.
Qed.
Print Assumptions C200_matrices_partial.

(* without random positions and limits of one's own: as much of the grid on one side of the middle of the cell as on the other *)
Theorem C200_middle_partial : forall mn mx n u x, (2 <= n)%nat -> placed false None mn mx n u x ->
  forall i, (i < n)%nat -> x i + x (n - 1 - i)%nat = mn + mx.
Proof. exact centred. Qed.
Print Assumptions C200_middle_partial.

(* the points have equal shares of the repeated cell for 50 points only *)
Theorem C200_even_refuted : forall mn mx n u x, mn < mx -> (2 <= n)%nat -> placed false None mn mx n u x -> (equal_shares mn mx n x <-> n = 50%nat).
Proof. exact shares_50. Qed.
Print Assumptions C200_even_refuted.

(* one point: not in the middle but at the edge *)
Theorem C200_single_refuted : forall mn mx u x, placed false None mn mx 1 u x -> x 0%nat = mn + (mx - mn) / 100.
Proof. intros mn mx u x (a & b & I & _ & S). destruct (default_interval _ _ _ _ I) as [<- _]. apply (S eq_refl). Qed.
Print Assumptions C200_single_refuted.

(* a cell of 10 by 10 um, two points: 9.8 um apart inside the cell and 0.2 um across its edge *)
Example C200_case : forall u, let x i := nth i (coords false (limits None 0 10 (10 - 0)) 2 u) 0 in
  placed false None 0 10 2 u x /\ x 0%nat = 1 / 10 /\ x 1%nat = 99 / 10 /\ ~ equal_shares 0 10 2 x.
Proof.
  intros u x. assert (P : placed false None 0 10 2 u x) by (apply coords_placed; lia). split; [exact P|].
  split; [unfold x; cbn; lra|]. split; [unfold x; cbn; lra|]. intros E. apply (C200_even_refuted 0 10 2 u x ltac:(lra) ltac:(lia) P) in E. discriminate.
Qed.

Lemma filled_covers p a b : fills_cell p a b -> covers p 0 a 0 b.
Proof.
  intros (A & B & C & D). split; [|repeat split].
  - intros v Hv. pose proof (in_map vx _ _ Hv). pose proof (in_map vy _ _ Hv). repeat split; [apply A | apply B | apply C | apply D]; assumption.
  - destruct A as [I _]. apply in_map_iff in I. destruct I as (v & E & Hv). eauto.
  - destruct B as [I _]. apply in_map_iff in I. destruct I as (v & E & Hv). eauto.
  - destruct C as [I _]. apply in_map_iff in I. destruct I as (v & E & Hv). eauto.
  - destruct D as [I _]. apply in_map_iff in I. destruct I as (v & E & Hv). eauto.
Qed.

(* RT with a planar surface, light from below, 5 by 2 positions *)
Example C200_matrices_case : exists g h s del p out, let o := sample_options (h * (5 * 2)) in valid_request (m_ntheta o) (m_phisym o) (m_caz o) /\ mk_surface del p None None = Ok s /\ covers p 0 1 0 1 /\ angular_grid (sample_options (h * (5 * 2))) g /\ (0 < h)%nat /\
  RT_matrices 1 3 Model_Ideal.Rear false (sample_options (h * (5 * 2))) None 0 air glass (s, s) sample_draws no_garbage = Some (Ok out).
Proof.
  destruct C182_case as (g & h & s & out & A & B & C & D & E & F & G). destruct (C182_columns _ _ _ _ _ _ _ _ _ _ _ _ _ _ E A F G) as (r & -> & _).
  destruct D as (del & p & M & FC & _). exists g, h, s, del, p, r. split; [exact (sq_grid _ _ _ _ _ _ _ _ E)|]. split; [exact M|]. split; [now apply filled_covers|]. auto.
Qed.

(* a planar layer, one ray *)
Example C200_calculate_case : exists S surfs rays s del p a b, built_structure S [0; 0]%nat eg_mats eg_widths eg_inc eg_trn surfs /\
  (forall q, In q [0; 0]%nat -> exists s, surface_at S q = Some s) /\ surface_at S 0%nat = Some s /\ mk_surface del p None None = Ok s /\ covers p 0 a 0 b /\
  calc_rays 1 3 surfs (eg_inc :: eg_mats ++ [eg_trn]) eg_widths eg_tables eg_options eg_draws = Some (Ok rays).
Proof.
  destruct (eg_run 0) as (S & surfs & t & rays & HB & HO & HF & E). pose proof (fl_textures _ _ _ _ _ _ _ HF) as FT.
  destruct (FT 0%nat (or_introl eq_refl)) as (s & a & b & SA & _ & _ & del & p & M & FC & _). exists S, surfs, rays, s, del, p, a, b.
  split; [exact HB|]. split; [intros q Hq; destruct (FT q Hq) as (s' & _ & _ & Hs & _); eauto|]. split; [exact SA|]. split; [exact M|]. split; [now apply filled_covers|].
  unfold calculate in E. change (3 + 0)%nat with 3%nat in E. destruct (calc_rays _ _ _ _ _ _ _ _) as [[r|e]|]; [|discriminate|discriminate]. now injection E as _ ->.
Qed.
