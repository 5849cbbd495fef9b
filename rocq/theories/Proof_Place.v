(* Positions rays are traced from (C200). *)
From Coq Require Import Reals List Bool ZArith Lra Lia.
From Verif Require Import Base Lib Model_Optics Model_RayIface Model_RayStack Model_RT Model_Surface Model_RTStruct Proof_RTStruct Proof_Surface Model_StackRay Model_StackCalc
  Model_Angles Model_Ideal Model_MatMul Model_RTCalc Spec_RTCalc Proof_RTCalc Proof_RTChance Spec_Place.
Import ListNotations.
Open Scope R_scope.

Lemma all_done_map {A} : forall (l : list (option (res A))) r, all_done l = Some (Ok r) -> l = map (fun x => Some (Ok x)) r.
Proof.
  induction l as [|x l IH]; intros r H; cbn [all_done] in H; [injection H as <-; reflexivity|].
  destruct x as [[x|e]|]; [|discriminate|discriminate]. destruct (all_done l) as [[l'|e]|] eqn:E; [|discriminate|discriminate].
  injection H as <-. cbn [map]. now rewrite (IH l' eq_refl).
Qed.

Lemma coords_placed random given mn mx n u : (0 < n)%nat ->
  placed random given mn mx n u (fun i => nth i (coords random (limits given mn mx (mx - mn)) n u) 0).
Proof.
  intros Hn. set (L := limits given mn mx (mx - mn)). exists (fst L), (snd L). split.
  - unfold interval, L, limits. destruct given as [[a b]|]; [now left|right]. cbn [fst snd]. repeat split; lra.
  - split; intros ->.
    + intros i Hi. unfold coords. rewrite nth_indep with (d' := (fun i => fst L + u i * (snd L - fst L)) 0%nat) by (rewrite map_length, seq_length; exact Hi).
      rewrite (map_nth (fun i => fst L + u i * (snd L - fst L))), seq_nth by exact Hi. cbn [Nat.add]. lra.
    + split.
      * unfold coords. apply linspace_first. lia.
      * intros H2. destruct (coords_even L n u 0 H2 ltac:(lia)) as (_ & B & _). split; [exact B|]. intros i Hi. now destruct (coords_even L n u i H2 Hi) as (_ & _ & C).
Qed.

Lemma cell_limits del p cov dist s x0 x1 y0 y1 : mk_surface del p cov dist = Ok s -> covers p x0 x1 y0 y1 ->
  su_xmin s = x0 /\ su_xmax s = x1 /\ su_Lx s = x1 - x0 /\ su_ymin s = y0 /\ su_ymax s = y1 /\ su_Ly s = y1 - y0.
Proof.
  intros E (B & (v0 & I0 & E0) & (v1 & I1 & E1) & (w0 & J0 & F0) & (w1 & J1 & F1)).
  assert (Nx : xs_of p <> []) by (unfold xs_of; destruct p; [destruct I0|discriminate]).
  assert (Ny : ys_of p <> []) by (unfold ys_of; destruct p; [destruct I0|discriminate]).
  assert (A1 : lmin (xs_of p) = x0).
  { apply Rle_antisym; [rewrite <- E0; apply (proj2 (lmin_spec _ Nx)); now apply in_map|]. destruct (proj1 (in_map_iff vx p _) (proj1 (lmin_spec _ Nx))) as (v & <- & Hv). apply B, Hv. }
  assert (A2 : lmax (xs_of p) = x1).
  { apply Rle_antisym; [|rewrite <- E1; apply (proj2 (lmax_spec _ Nx)); now apply in_map]. destruct (proj1 (in_map_iff vx p _) (proj1 (lmax_spec _ Nx))) as (v & <- & Hv). apply B, Hv. }
  assert (A3 : lmin (ys_of p) = y0).
  { apply Rle_antisym; [rewrite <- F0; apply (proj2 (lmin_spec _ Ny)); now apply in_map|]. destruct (proj1 (in_map_iff vy p _) (proj1 (lmin_spec _ Ny))) as (v & <- & Hv). apply B, Hv. }
  assert (A4 : lmax (ys_of p) = y1).
  { apply Rle_antisym; [|rewrite <- F1; apply (proj2 (lmax_spec _ Ny)); now apply in_map]. destruct (proj1 (in_map_iff vy p _) (proj1 (lmax_spec _ Ny))) as (v & <- & Hv). apply B, Hv. }
  unfold mk_surface in E. destruct (argmax (map Rabs (zs_of p))) as [h|e]; [|discriminate]. cbn [rbind] in E.
  destruct (match cov with Some c => Ok c | None => find_zcov p end) as [z|e]; [|discriminate]. cbn [rbind] in E. injection E as <-.
  cbn [su_xmin su_xmax su_Lx su_ymin su_ymax su_Ly]. rewrite A1, A2, A3, A4.
  pose proof (proj1 (B _ I0)). pose proof (proj2 (B _ J0)). rewrite !Rabs_minus_sym with (x := x0), !Rabs_minus_sym with (x := y0), !Rabs_pos_eq by lra. repeat split.
Qed.

Lemma surface_points del p cov dist s : mk_surface del p cov dist = Ok s -> su_pts s = p.
Proof.
  intros E. unfold mk_surface in E. destruct (argmax (map Rabs (zs_of p))) as [h|e]; [|discriminate]. cbn [rbind] in E.
  destruct (match cov with Some c => Ok c | None => find_zcov p end) as [z|e]; [|discriminate]. cbn [rbind] in E. injection E as <-. reflexivity.
Qed.

Lemma nth_error_map_some {A B} (f : A -> B) : forall l k y, nth_error (map f l) k = Some y -> exists x, nth_error l k = Some x /\ y = f x.
Proof. induction l as [|a l IH]; intros [|k] y H; cbn in H; try discriminate; [injection H as <-; exists a; auto|apply IH, H]. Qed.

Lemma prod_nth_error {A B} : forall (xs : list A) (ys : list B) c, (c < length xs * length ys)%nat -> forall dx dy,
  nth_error (list_prod xs ys) c = Some (nth (c / length ys) xs dx, nth (c mod length ys) ys dy).
Proof.
  induction xs as [|x xs IH]; intros ys c Hc dx dy; cbn [length] in Hc; [lia|]. cbn [list_prod].
  assert (Hn : length ys <> 0%nat) by (intros E; rewrite E in Hc; lia).
  destruct (Nat.lt_ge_cases c (length ys)) as [L|G].
  - rewrite nth_error_app1 by (rewrite map_length; exact L). rewrite Nat.div_small, Nat.mod_small by exact L. cbn [nth].
    rewrite nth_error_nth' with (d := (x, dy)) by (rewrite map_length; exact L). f_equal. now rewrite (map_nth (fun y => (x, y))).
  - rewrite nth_error_app2 by (rewrite map_length; exact G). rewrite map_length, (IH ys (c - length ys)%nat ltac:(lia) dx dy).
    assert (E : c = (c - length ys + 1 * length ys)%nat) by lia. rewrite E at 3 4. rewrite Nat.div_add, Nat.mod_add by exact Hn. rewrite Nat.add_1_r. reflexivity.
Qed.

Lemma enumerate_nth_error {A} (l : list A) c v : nth_error l c = Some v -> nth_error (enumerate l) c = Some (c, v).
Proof.
  unfold enumerate. assert (K : forall s, nth_error l c = Some v -> nth_error (combine (seq s (length l)) l) c = Some ((s + c)%nat, v)).
  { revert c. induction l as [|a l IH]; intros [|c] s H; cbn in H; try discriminate; cbn [length seq combine nth_error].
    - injection H as <-. now rewrite Nat.add_0_r.
    - rewrite (IH c (S s) H). f_equal. f_equal. lia. }
  apply (K 0%nat).
Qed.

(* the rays of calculate *)
Lemma calc_from outer fuel surfs mats widths tables o w rays s0 : nth_error surfs 0 = Some s0 -> (0 < c_nx o)%nat -> (0 < c_ny o)%nat ->
  su_Lx s0 = su_xmax s0 - su_xmin s0 -> su_Ly s0 = su_ymax s0 - su_ymin s0 ->
  calc_rays outer fuel surfs mats widths tables o w = Some (Ok rays) ->
  exists X Y, placed (c_random_pos o) (c_xlim o) (su_xmin s0) (su_xmax s0) (c_nx o) (w_x w) X /\
    placed (c_random_pos o) (c_ylim o) (su_ymin s0) (su_ymax s0) (c_ny o) (w_y w) Y /\
    (c_nrays o <= length rays < c_nrays o + c_nx o * c_ny o)%nat /\
    forall k f, nth_error rays k = Some f ->
      trace_stack outer fuel (calc_setup surfs mats widths tables o w k) (start_vector (lmax (zs_of (su_pts s0))) (c_theta o) (c_phi o))
        (X ((k mod (c_nx o * c_ny o)) / c_ny o)%nat) (Y (k mod c_ny o)%nat) (match c_mat o with Some m => m | None => 0%Z end)
        (match c_dir o with Some d => d | None => 1%Z end) = Some (Ok f).
Proof.
  intros E0 Hx Hy Lx Ly E. unfold calc_rays in E. rewrite E0, Lx, Ly in E. apply all_done_map in E.
  do 2 eexists. split; [apply coords_placed, Hx|]. split; [apply coords_placed, Hy|].
  set (xs := coords _ _ _ _) in *. set (ys := coords _ (limits (c_ylim o) _ _ _) _ _) in *.
  match type of E with fill_rays ?z ?t ?n ?a ?b ?c ?d = _ =>
    destruct (rays_all z t (c_nrays o) a b c d (coords_length _ _ _ _) (coords_length _ _ _ _) ltac:(nia)) as (A1 & A2 & A3) end.
  rewrite E in A2, A3. rewrite map_length in A2, A3. split; [exact A2|]. intros k f Hk.
  assert (K : (k < length rays)%nat) by (apply nth_error_Some; congruence). specialize (A3 k K).
  rewrite <- A3. apply nth_error_nth. now rewrite nth_error_map, Hk.
Qed.

(* the rays of RT *)
Lemma rt_from outer fuel s only o table n_abs inc trn texture z G out : (0 < m_nx o)%nat -> (0 < m_ny o)%nat ->
  let surf := match s with Front => fst texture | Rear => snd texture end in
  su_Lx surf = su_xmax surf - su_xmin surf -> su_Ly surf = su_ymax surf - su_ymin surf ->
  RT_matrices outer fuel s only o table n_abs inc trn texture z G = Some (Ok out) ->
  exists g dirs beams X Y, rm_grid o = Ok g /\ rm_directions only o z g = Ok dirs /\
    RT_wl s (match table with Some _ => true | None => false end) (m_phisym o) g n_abs beams G = Ok out /\ length beams = length dirs /\
    placed (m_random_pos o) (m_xlim o) (su_xmin surf) (su_xmax surf) (m_nx o) (z_x z) X /\
    placed (m_random_pos o) (m_ylim o) (su_ymin surf) (su_ymax surf) (m_ny o) (z_y z) Y /\
    forall i b, nth_error beams i = Some b -> nth_error dirs i = Some (b_theta b, b_phi b) /\ length (b_rays b) = (m_nx o * m_ny o)%nat /\
      forall c y, nth_error (b_rays b) c = Some y ->
        rm_ray outer fuel surf (rm_decision s o table inc trn) (b_theta b) (b_phi b) z (i * (m_nx o * m_ny o) + c) (X (c / m_ny o)%nat) (Y (c mod m_ny o)%nat) = Some (Ok y).
Proof.
  intros Hx Hy surf Lx Ly E. unfold RT_matrices in E. destruct (Nat.eqb_spec (m_nx o * m_ny o) 0); [nia|].
  destruct (rm_grid o) as [g|e] eqn:EG; [|discriminate]. destruct (rm_directions only o z g) as [dirs|e] eqn:ED; [|discriminate]. fold surf in E.
  destruct (all_done (map (rm_beam outer fuel surf (rm_decision s o table inc trn) o z) (enumerate dirs))) as [[beams|e]|] eqn:D; [|discriminate|discriminate].
  injection E as E. apply all_done_map in D. exists g, dirs, beams, (fun i => nth i (rm_xs surf o z) 0), (fun i => nth i (rm_ys surf o z) 0).
  split; [reflexivity|]. split; [exact ED|]. split; [exact E|].
  assert (LD : length beams = length dirs).
  { apply (f_equal (@length _)) in D. rewrite !map_length in D. unfold enumerate in D. rewrite combine_length, seq_length, Nat.min_id in D. now symmetry. }
  split; [exact LD|].
  split; [unfold rm_xs; rewrite Lx; apply coords_placed, Hx|]. split; [unfold rm_ys; rewrite Ly; apply coords_placed, Hy|].
  intros i b Hb. assert (Hi : (i < length dirs)%nat) by (rewrite <- LD; apply nth_error_Some; congruence).
  destruct (nth_error dirs i) as [[th ph]|] eqn:Ed; [|apply nth_error_None in Ed; lia].
  assert (B : rm_beam outer fuel surf (rm_decision s o table inc trn) o z (i, (th, ph)) = Some (Ok b)).
  { pose proof (f_equal (fun l => nth_error l i) D) as N. cbv beta in N. rewrite !nth_error_map, Hb, (enumerate_nth_error _ _ _ Ed) in N. cbn [option_map] in N. now injection N. }
  unfold rm_beam in B.
  destruct (all_done (map _ (enumerate (positions (rm_xs surf o z) (rm_ys surf o z))))) as [[rays|e]|] eqn:Q; [|discriminate|discriminate].
  injection B as <-. cbn [b_theta b_phi b_rays]. split; [reflexivity|]. apply all_done_map in Q.
  assert (NX : length (rm_xs surf o z) = m_nx o) by apply coords_length. assert (NY : length (rm_ys surf o z) = m_ny o) by apply coords_length.
  assert (LR : length rays = (m_nx o * m_ny o)%nat).
  { apply (f_equal (@length _)) in Q. rewrite !map_length in Q. unfold enumerate in Q. rewrite combine_length, seq_length, Nat.min_id in Q.
    unfold positions in Q. rewrite prod_length, NX, NY in Q. now symmetry. }
  split; [exact LR|]. intros c y Hc. assert (C : (c < m_nx o * m_ny o)%nat) by (rewrite <- LR; apply nth_error_Some; congruence).
  pose proof (f_equal (fun l => nth_error l c) Q) as N. cbv beta in N. rewrite !nth_error_map, Hc in N.
  assert (PE := prod_nth_error (rm_xs surf o z) (rm_ys surf o z) c ltac:(rewrite NX, NY; exact C) 0 0).
  unfold positions in N. rewrite (enumerate_nth_error _ _ _ PE) in N. cbn [option_map fst snd] in N. rewrite NY in N. now injection N.
Qed.

Lemma spread_at a b n x : (2 <= n)%nat -> spread a b n x -> forall i, (i < n)%nat -> x i = a + INR i * ((b - a) / INR (n - 1)).
Proof.
  intros Hn [A B]. destruct (B Hn) as [_ S1]. induction i as [|i IH]; intros Hi; [cbn [INR]; rewrite A; lra|].
  specialize (S1 i Hi). rewrite S_INR. specialize (IH ltac:(lia)). lra.
Qed.

Lemma default_interval mn mx a b : interval None mn mx a b -> a = mn + (mx - mn) / 100 /\ b = mx - (mx - mn) / 100.
Proof. intros [E|(_ & A & B)]; [discriminate|auto]. Qed.

Lemma shares_50 mn mx n u x : mn < mx -> (2 <= n)%nat -> placed false None mn mx n u x -> equal_shares mn mx n x <-> n = 50%nat.
Proof.
  intros Hm Hn (a & b & I & _ & S). destruct (default_interval _ _ _ _ I) as [Ea Eb]. destruct (S eq_refl) as [A B]. destruct (B Hn) as [B1 B2].
  assert (P : 0 < INR (n - 1)) by (apply lt_0_INR; lia).
  assert (K : forall i, (Datatypes.S i < n)%nat -> (x (Datatypes.S i) - x i = x 0%nat + (mx - mn) - x (n - 1)%nat <-> n = 50%nat)).
  { intros i Hi. rewrite (B2 i Hi), A, B1, Ea, Eb. split.
    - intros E. apply (f_equal (fun r => r * INR (n - 1))) in E. unfold Rdiv in E at 1. rewrite Rmult_assoc, Rinv_l in E by lra.
      assert (INR (n - 1) = 49) by nra. assert (INR (n - 1) = INR 49) by (rewrite H; cbn; lra). apply INR_eq in H0. lia.
    - intros ->. change (INR (50 - 1)) with (INR 49). replace (INR 49) with 49 by (cbn; lra). field. }
  split; [intros E; apply (K 0%nat); [lia|apply E; lia]|]. intros E i Hi. now apply K.
Qed.

Lemma centred mn mx n u x : (2 <= n)%nat -> placed false None mn mx n u x -> forall i, (i < n)%nat -> x i + x (n - 1 - i)%nat = mn + mx.
Proof.
  intros Hn (a & b & I & _ & S) i Hi. destruct (default_interval _ _ _ _ I) as [Ea Eb]. specialize (S eq_refl).
  rewrite (spread_at _ _ _ _ Hn S i Hi), (spread_at _ _ _ _ Hn S (n - 1 - i)%nat ltac:(lia)), (minus_INR (n - 1) i) by lia.
  assert (P : 0 < INR (n - 1)) by (apply lt_0_INR; lia). subst a b. field. lra.
Qed.

Lemma directions_sent only o z g h dirs : (0 < m_nx o)%nat -> (0 < m_ny o)%nat -> length (g_av g) = (2 * h)%nat -> (0 < h)%nat -> rm_directions only o z g = Ok dirs ->
  (only = false -> (m_nrays o <= length dirs * (m_nx o * m_ny o) < m_nrays o + m_nx o * m_ny o)%nat) /\
  forall i d, nth_error dirs i = Some d -> sent only o z g h i (fst d) (snd d).
Proof.
  intros Hx Hy Hh Hp E. assert (HL : (length (g_av g) / 2)%nat = h) by (rewrite Hh, Nat.mul_comm; apply Nat.div_mul; lia).
  pose proof (ceil_div (m_nrays o) (m_nx o * m_ny o) ltac:(nia)) as CD. cbv zeta in CD. fold (n_angles_of (m_nrays o) (m_nx o) (m_ny o)) in CD.
  unfold rm_directions, sent in *. cbv zeta in E. set (N := n_angles_of (m_nrays o) (m_nx o) (m_ny o)) in *. destruct only.
  - split; [discriminate|]. unfold incidence_directions in E. cbv zeta in E. destruct (m_phi o) as [|p].
    + destruct (Z.to_nat _); [injection E as <-; intros [|i] d H; discriminate|discriminate].
    + injection E as <-. intros i d H. apply nth_error_In, repeat_spec in H. subst d. cbn [fst snd]. exists p. auto.
  - destruct (m_random_angles o); injection E as <-.
    + rewrite map_length, seq_length. split; [intros _; exact CD|]. intros i d H. rewrite nth_error_map in H. destruct (nth_error (seq 0 N) i) as [j|] eqn:Ej; [|discriminate].
      assert (Hi : (i < N)%nat) by (rewrite <- (seq_length N 0); apply nth_error_Some; congruence).
      rewrite (nth_error_nth' _ 0%nat) in Ej by (rewrite seq_length; exact Hi). rewrite seq_nth in Ej by exact Hi. injection Ej as <-. injection H as <-. cbn [fst snd Nat.add]. split; lra.
    + assert (L : length (regular_directions g N) = N).
      { unfold regular_directions, tile. rewrite firstn_length, HL. assert (Q : length (firstn h (g_av g)) = h) by (rewrite firstn_length; lia). rewrite Q.
        match goal with |- Nat.min _ (length ?l) = _ => assert (N <= length l)%nat end; [|lia]. rewrite repeats_length, map_length, Q. apply ceil_enough. exact Hp. }
      rewrite L. split; [intros _; exact CD|]. intros i d H. assert (Hi : (i < N)%nat) by (rewrite <- L; apply nth_error_Some; congruence).
      rewrite (regular_nth g h _ i Hh Hp Hi) in H. destruct (nth_error (g_av g) (i mod h)) as [r|]; [|discriminate]. injection H as <-. cbn [fst snd]. eauto.
Qed.
