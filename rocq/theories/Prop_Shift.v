(* C201: with periodic boundaries it does not matter in which cell of the texture a ray comes down. *)
From Coq Require Import Reals List Bool ZArith Lra Lia FunctionalExtensionality.
From Verif Require Import Base Lib Model_Angles Model_Optics Model_OpticsC Model_RayIface Model_RayStack Model_Surface Model_RTStruct Model_Trace
  Model_StackRay Model_StackCalc Model_Ideal Model_MatMul Model_RT Model_RTCalc
  Spec_Optics Spec_OpticsC Spec_RayIface Spec_RayStack Spec_Surface Spec_RTStruct Spec_Trace Spec_StackRay Spec_StackCalc
  Proof_Optics Proof_OpticsC Proof_OpticsC2 Proof_RayStack Proof_RTStruct Proof_RTStruct2 Proof_RTStruct3 Proof_StackRay Proof_StackFlat Proof_StackPlanar
  Proof_StackCalc Proof_StackCalc2 Prop_StackCalc Proof_Cell Prop_Randomize Proof_Surface2 Prop_Surface.
Import ListNotations.
Open Scope R_scope.

(* the point i cells further along x and j along y *)
Definition cells_on (Lx Ly : R) (i j : Z) (p : vec) : vec := mkv (vx p + IZR i * Lx) (vy p + IZR j * Ly) (vz p).

(* the same options with positions from these intervals *)
Definition from_area (o : rt_options) (a b c e : R) : rt_options :=
  {| c_wl := c_wl o; c_theta := c_theta o; c_phi := c_phi o; c_thresh := c_thresh o; c_dz := c_dz o; c_pol := c_pol o;
     c_nx := c_nx o; c_ny := c_ny o; c_nrays := c_nrays o; c_xlim := Some (a, b); c_ylim := Some (c, e);
     c_random_pos := c_random_pos o; c_randomize := c_randomize o; c_periodic := c_periodic o; c_mat := c_mat o; c_dir := c_dir o |}.

Lemma floordiv_cells x L i : L <> 0 -> pyfloordiv (x + IZR i * L) L = pyfloordiv x L + IZR i.
Proof. intros HL. unfold pyfloordiv. replace ((x + IZR i * L) / L) with (x / L + IZR i) by (field; exact HL). rewrite Zfloor_add_Z. apply plus_IZR. Qed.

Lemma place_cells Lx Ly zcov i j p d : Lx <> 0 -> Ly <> 0 -> place Lx Ly zcov (Some (cells_on Lx Ly i j p)) d = place Lx Ly zcov (Some p) d.
Proof.
  intros HX HY. unfold place, cells_on. cbn [vx vy vz]. destruct (Reqb (vz d) 0); [reflexivity|]. cbv zeta.
  replace (vx p + IZR i * Lx + vx d * (zcov - vz p) / vz d) with ((vx p + vx d * (zcov - vz p) / vz d) + IZR i * Lx) by ring.
  replace (vy p + IZR j * Ly + vy d * (zcov - vz p) / vz d) with ((vy p + vy d * (zcov - vz p) / vz d) + IZR j * Ly) by ring.
  rewrite !floordiv_cells by assumption. do 2 f_equal; ring.
Qed.

(* a ray anywhere on its way: whole cells of the surface ahead *)
Theorem C201_on_the_way : forall outer fuel surfs mats widths tables o w k st p i j f, let U := calc_setup surfs mats widths tables o w k in
  c_periodic o <> Some false -> py_index (u_faces U) (s_surf (x_st st)) = Ok f -> f_Lx f <> 0 -> f_Ly f <> 0 -> x_pos st = Some p ->
  frun outer fuel U (elsewhere st (Some (cells_on (f_Lx f) (f_Ly f) i j p))) = frun outer fuel U st.
Proof.
  intros outer fuel surfs mats widths tables o w k st p i j f U HP Ef HX HY Ep. destruct outer as [|n]; [reflexivity|]. cbn [frun].
  assert (PU : u_periodic U = true). { unfold U, calc_setup. cbn [u_periodic]. destruct (c_periodic o) as [[|]|]; congruence. }
  assert (E : fstep fuel U (elsewhere st (Some (cells_on (f_Lx f) (f_Ly f) i j p))) = fstep fuel U st); [|now rewrite E].
  clearbody U. unfold fstep. cbn [elsewhere x_st x_pos x_dir x_nint x_checks]. rewrite Ef, Ep. unfold face_ray. rewrite PU.
  destruct (u_randomize U && Nat.ltb 0 (s_passes (x_st st)))%bool; [reflexivity|]. cbv beta iota. rewrite place_cells by assumption. reflexivity.
Qed.
Print Assumptions C201_on_the_way.

Lemma first_ray_from r x y : first_ray r x y = (vadd r (mkv x y 0), vscale (/ norm (mkv (- vx r) (- vy r) (- vz r))) (mkv (- vx r) (- vy r) (- vz r))).
Proof.
  unfold first_ray. cbv zeta. assert (E : vsub (mkv x y 0) (vadd r (mkv x y 0)) = mkv (- vx r) (- vy r) (- vz r)).
  { apply vec_ext; unfold vsub, vadd; cbn; ring. } now rewrite E.
Qed.

Lemma start_cells ws r x y m d Lx Ly i j : stack_start ws r (x + IZR i * Lx) (y + IZR j * Ly) m d =
  match stack_start ws r x y m d with Ok (p, v, s) => Ok (cells_on Lx Ly i j p, v, s) | Err e => Err e end.
Proof.
  unfold stack_start. cbv zeta. destruct (if (Z.eqb d 1 && (0 <? m)%Z)%bool then _ else _) as [sz|e]; cbn [rbind]; [|reflexivity].
  rewrite !first_ray_from. set (dv := vscale _ _). clearbody dv. do 3 f_equal.
  unfold cells_on, set_z, vadd, vscale. cbn [vx vy vz]. apply vec_ext; cbn [vx vy vz]; [|..]; try ring; f_equal; ring.
Qed.

Lemma enumerate_from {A B} (f : A -> B) l n : combine (seq n (length (map f l))) (map f l) = map (fun q => (fst q, f (snd q))) (combine (seq n (length l)) l).
Proof. revert n. induction l as [|a l IH]; intros n; [reflexivity|]. cbn [map length seq combine fst snd]. f_equal. apply IH. Qed.

Lemma prod_map {A B} (f : A -> B) (g : A -> B) xs ys : list_prod (map f xs) (map g ys) = map (fun q => (f (fst q), g (snd q))) (list_prod xs ys).
Proof.
  induction xs as [|x xs IH]; [reflexivity|]. cbn [map list_prod]. rewrite map_app, IH. f_equal. rewrite !map_map. reflexivity.
Qed.

Lemma fold_left_map {A B C} (f : A -> B -> A) (g : C -> B) l a : fold_left f (map g l) a = fold_left (fun a c => f a (g c)) l a.
Proof. revert a. induction l as [|c l IH]; intros a; [reflexivity|]. apply IH. Qed.
Lemma fold_left_same {A B} (f g : A -> B -> A) l a : (forall a b, f a b = g a b) -> fold_left f l a = fold_left g l a.
Proof. intros H. revert a. induction l as [|b l IH]; intros a; [reflexivity|]. cbn [fold_left]. now rewrite H, IH. Qed.

Lemma fill_moved {A} (zero : A) T T' n nx ny xs ys u v : (forall k x y, T k (x + u) (y + v) = T' k x y) ->
  fill_rays zero T n nx ny (map (fun x => x + u) xs) (map (fun y => y + v) ys) = fill_rays zero T' n nx ny xs ys.
Proof.
  intros H. unfold fill_rays. apply fold_left_same. intros arr jj. unfold positions. rewrite prod_map. unfold enumerate. rewrite enumerate_from, fold_left_map.
  apply fold_left_same. intros a [c [x y]]. cbn [fst snd]. now rewrite H.
Qed.

Lemma coords_moved rnd a b n u t : coords rnd (a + t, b + t) n u = map (fun x => x + t) (coords rnd (a, b) n u).
Proof.
  unfold coords, linspace. cbn [fst snd]. destruct rnd; rewrite map_map; apply map_ext; intros q; [ring|]. replace (b + t - (a + t)) with (b - a) by ring. ring.
Qed.

(* the surface the first check is made with *)
Lemma first_face surfs mats widths tables o w k j f : py_index (u_faces (calc_setup surfs mats widths tables o w k)) j = Ok f ->
  exists s, In s surfs /\ f_Lx f = su_Lx s /\ f_Ly f = su_Ly s /\ (j = 0%Z -> nth_error surfs 0 = Some s).
Proof.
  assert (G : forall n (l : list (rtsurf * option (Z -> R -> table_entry))) g,
    In g (map2 (fun i st => facing_of (fst st) (w_seen w k i) (w_hs w i) (chosen (c_pol o) (snd st))) n l) ->
    exists st, In st l /\ f_Lx g = su_Lx (fst st) /\ f_Ly g = su_Ly (fst st)).
  { induction n as [|a n IH]; intros [|st l] g Hg; try (destruct Hg; fail). destruct Hg as [<-|Hg]; [exists st; cbn; auto|].
    destruct (IH l g Hg) as (st' & Hin & E). exists st'. split; [now right|exact E]. }
  intros H. cbn [calc_setup u_faces] in H. destruct surfs as [|s0 r].
  { exfalso. apply py_index_In in H. destruct H. }
  destruct (Z.eq_dec j 0) as [->|Hj].
  - destruct tables as [|t ts]; [unfold py_index in H; cbn in H; discriminate|]. exists s0. split; [now left|].
    unfold py_index in H. cbn in H. injection H as <-. cbn. auto.
  - apply py_index_In in H. destruct (G _ _ _ H) as ([s t] & Hin & E1 & E2). apply in_combine_l in Hin. exists s. repeat split; auto. intros; contradiction.
Qed.

(* the whole of calculate: rays from an area whole cells away.  The cell is that of the surface met first; from inside or below that of all of them *)
Theorem C201_calculate : forall outer fuel surfs mats widths tables o w a b c e i j Lx Ly,
  c_periodic o <> Some false -> Lx <> 0 -> Ly <> 0 ->
  (forall s, (nth_error surfs 0 = Some s \/ ((start_mat o <> 0 \/ start_dir o <> 1)%Z /\ In s surfs)) -> su_Lx s = Lx /\ su_Ly s = Ly) ->
  calculate outer fuel surfs mats widths tables (from_area o (a + IZR i * Lx) (b + IZR i * Lx) (c + IZR j * Ly) (e + IZR j * Ly)) w =
  calculate outer fuel surfs mats widths tables (from_area o a b c e) w.
Proof.
  intros outer fuel surfs mats widths tables o w a b c e i j Lx Ly HP HX HY HC.
  unfold calculate, calc_rays. destruct (nth_error surfs 0) as [s0|] eqn:E0; [|reflexivity].
  cbn [from_area c_xlim c_ylim c_random_pos c_nx c_ny c_nrays c_mat c_dir c_theta c_phi limits].
  fold (start_mat o) (start_dir o). rewrite !coords_moved. erewrite fill_moved; [reflexivity|]. intros k x y. cbv beta.
  change (calc_setup surfs mats widths tables (from_area o (a + IZR i * Lx) (b + IZR i * Lx) (c + IZR j * Ly) (e + IZR j * Ly)) w k)
    with (calc_setup surfs mats widths tables (from_area o a b c e) w k).
  set (r := start_vector _ _ _). set (o' := from_area o a b c e). set (U := calc_setup surfs mats widths tables o' w k).
  unfold trace_stack, fstart. rewrite (start_cells _ _ _ _ _ _ Lx Ly). destruct (stack_start (k_widths (u_K U)) r x y (start_mat o) (start_dir o)) as [[[p d] s]|er]; [|reflexivity].
  cbn [rbind fst snd]. set (st := {| x_st := sstart (u_K U) (start_mat o) (start_dir o); x_pos := Some p; x_dir := d; x_nint := 0; x_checks := 0; x_phi := 0; x_loc := 0 |}).
  change (frun outer fuel U (elsewhere st (Some (cells_on Lx Ly i j p))) = frun outer fuel U st).
  destruct (py_index (u_faces U) (s_surf (x_st st))) as [f|er] eqn:Ef.
  - destruct (first_face _ _ _ _ _ _ _ _ _ Ef) as (s' & Hin & EX & EY & H0).
    assert (C : su_Lx s' = Lx /\ su_Ly s' = Ly).
    { apply HC. destruct (Z.eq_dec (start_mat o) 0) as [M|M]; [|right; auto]. destruct (Z.eq_dec (start_dir o) 1) as [D|D]; [|right; auto].
      left. apply eq_trans with (2 := H0 ltac:(cbn [st x_st sstart s_surf]; rewrite D, M; reflexivity)). symmetry. exact E0. }
    destruct C as [CX CY]. rewrite <- EX in CX. rewrite <- EY in CY. rewrite <- CX, <- CY in *.
    apply (C201_on_the_way outer fuel surfs mats widths tables o' w k st p i j f); auto.
  - destruct outer as [|n]; [reflexivity|]. cbn [frun]. unfold fstep. cbn [elsewhere x_st]. rewrite Ef. reflexivity.
Qed.
Print Assumptions C201_calculate.

(* a ray of the redistribution matrices; the surface as it is for the first check *)
Theorem C201_interface : forall outer fuel E zcov rest r x y i j, e_Lx E <> 0 -> e_Ly E <> 0 ->
  single_ray_interface outer fuel ((E, zcov) :: rest) r (x + IZR i * e_Lx E) (y + IZR j * e_Ly E) =
  single_ray_interface outer fuel ((E, zcov) :: rest) r x y.
Proof.
  intros outer fuel E zcov rest r x y i j HX HY. unfold single_ray_interface. cbv zeta.
  assert (D : forall x y, vsub (mkv x y 0) (vadd r (mkv x y 0)) = mkv (- vx r) (- vy r) (- vz r)) by (intros; apply vec_ext; unfold vsub, vadd; cbn; ring).
  rewrite !D. set (d := vscale _ _). clearbody d.
  assert (P : vadd r (mkv (x + IZR i * e_Lx E) (y + IZR j * e_Ly E) 0) = cells_on (e_Lx E) (e_Ly E) i j (vadd r (mkv x y 0))).
  { apply vec_ext; unfold vadd, cells_on; cbn; ring. }
  rewrite P. destruct outer as [|n]; [reflexivity|]. cbn [ray_iface]. change (py_index ((E, zcov) :: rest) 0) with (Ok (E, zcov)). cbv beta iota.
  rewrite place_cells by assumption. reflexivity.
Qed.
Print Assumptions C201_interface.

(* the layer of C173_example: from a part of the cell, and from the same part three cells along x and two back along y *)
Example C201_case : exists S surfs Lx Ly, built_structure S [0; 0]%nat eg_mats eg_widths eg_inc eg_trn surfs /\ c_periodic eg_options <> Some false /\ 0 < Lx /\ 0 < Ly /\
  (forall s, (nth_error surfs 0 = Some s \/ ((start_mat eg_options <> 0 \/ start_dir eg_options <> 1)%Z /\ In s surfs)) -> su_Lx s = Lx /\ su_Ly s = Ly) /\
  calculate 1 3 surfs (eg_inc :: eg_mats ++ [eg_trn]) eg_widths eg_tables
    (from_area eg_options (Lx / 4 + 3 * Lx) (Lx / 2 + 3 * Lx) (Ly / 4 + -2 * Ly) (Ly / 3 + -2 * Ly)) eg_draws =
  calculate 1 3 surfs (eg_inc :: eg_mats ++ [eg_trn]) eg_widths eg_tables (from_area eg_options (Lx / 4) (Lx / 2) (Ly / 4) (Ly / 3)) eg_draws.
Proof.
  destruct eg_structure as (S & surfs & HB & HO & HF). set (mats := eg_inc :: eg_mats ++ [eg_trn]) in *.
  pose proof (calc_planar S _ _ _ _ _ surfs eg_tables eg_options eg_draws HB HO HF 0) as HP. fold mats in HP.
  set (U := calc_setup surfs mats eg_widths eg_tables eg_options eg_draws 0) in *.
  destruct (pl_faces _ _ _ _ _ HP 0%nat) as (f & Nf & (HX & HY & _) & _); [cbn; lia|].
  assert (Ef : py_index (u_faces U) 0 = Ok f). { change 0%Z with (Z.of_nat 0). now apply py_index_nat. }
  destruct (first_face _ _ _ _ _ _ _ _ _ Ef) as (s0 & _ & EX & EY & N0). specialize (N0 eq_refl).
  exists S, surfs, (f_Lx f), (f_Ly f). split; [exact HB|]. split; [discriminate|]. split; [exact HX|]. split; [exact HY|].
  assert (HC : forall s, (nth_error surfs 0 = Some s \/ ((start_mat eg_options <> 0 \/ start_dir eg_options <> 1)%Z /\ In s surfs)) -> su_Lx s = f_Lx f /\ su_Ly s = f_Ly f).
  { intros s [H|[[H|H] _]]; [|exfalso; now apply H..]. rewrite N0 in H. injection H as <-. auto. }
  split; [exact HC|]. apply (C201_calculate 1 3 surfs mats eg_widths eg_tables eg_options eg_draws _ _ _ _ 3 (-2)); try lra; [discriminate|exact HC].
Qed.

(* ... and its ray in the layer, on its way to the second surface *)
Example C201_layer_case : exists surfs f, let U := calc_setup surfs (eg_inc :: eg_mats ++ [eg_trn]) eg_widths eg_tables (eg_opts false 0) eg_draws 0 in
  c_periodic (eg_opts false 0) <> Some false /\ py_index (u_faces U) (s_surf (x_st in_layer)) = Ok f /\ 0 < f_Lx f /\ 0 < f_Ly f /\
  x_pos in_layer = Some (mkv (1 / 3) (1 / 3) (- (1 / 2))) /\
  frun 4 3 U (elsewhere in_layer (Some (mkv (1 / 3 + 5 * f_Lx f) (1 / 3 + -7 * f_Ly f) (- (1 / 2))))) = frun 4 3 U in_layer.
Proof.
  destruct (eg_structure_of 1 false 0 eg_tables) as (S & surfs & HB & HO & HF); [lra|now left|]. set (mats := eg_inc :: eg_mats ++ [eg_trn]) in *.
  pose proof (calc_planar S _ _ _ _ _ surfs eg_tables (eg_opts false 0) eg_draws HB HO HF 0) as HP. fold mats in HP.
  destruct (pl_faces _ _ _ _ _ HP 1%nat) as (f & Nf & (HX & HY & _) & _); [cbn; lia|].
  set (U := calc_setup surfs mats eg_widths eg_tables (eg_opts false 0) eg_draws 0) in *.
  assert (Ef : py_index (u_faces U) 1 = Ok f). { change 1%Z with (Z.of_nat 1). now apply py_index_nat. }
  exists surfs, f. cbv zeta. fold U. split; [discriminate|]. split; [exact Ef|]. split; [exact HX|]. split; [exact HY|]. split; [reflexivity|].
  apply (C201_on_the_way 4 3 surfs mats eg_widths eg_tables (eg_opts false 0) eg_draws 0 in_layer (mkv (1 / 3) (1 / 3) (- (1 / 2))) 5 (-7) f); try (apply Rgt_not_eq; assumption);
    [discriminate|exact Ef|reflexivity].
Qed.

(* inverted pyramids with a cell of 3 um, and a ray one cell along x and four back along y *)
Example C201_interface_case : exists fr re, regular_pyramids del4 55 3 false None None 0 = Ok (fr, re) /\ forall dec sh outer fuel theta phi x y,
  single_ray_interface outer fuel [(env_of fr dec sh, su_zcov fr)] (start_vector 1 theta phi) (x + 3) (y - 12) =
  single_ray_interface outer fuel [(env_of fr dec sh, su_zcov fr)] (start_vector 1 theta phi) x y.
Proof.
  destruct C43_example as (fr & re & E). exists fr, re. split; [exact E|]. intros dec sh outer fuel theta phi x y.
  destruct (C43_pyramids del4 55 3 false None fr re ltac:(lra) ltac:(lra) E) as [C _]. destruct (C fr _ (or_introl (conj eq_refl eq_refl))) as (_ & LX & LY & _).
  pose proof (C201_interface outer fuel (env_of fr dec sh) (su_zcov fr) [] (start_vector 1 theta phi) x y 1 (-4)) as M.
  cbn [env_of e_Lx e_Ly] in M. rewrite LX, LY in M. replace (x + 1 * 3) with (x + 3) in M by ring. replace (y + -4 * 3) with (y - 12) in M by ring. apply M; lra.
Qed.

(* the same options of RT with positions from these intervals *)
Definition rays_from (o : rm_options) (a b c e : R) : rm_options :=
  {| m_wl := m_wl o; m_pol := m_pol o; m_nx := m_nx o; m_ny := m_ny o; m_nrays := m_nrays o;
     m_ntheta := m_ntheta o; m_phisym := m_phisym o; m_caz := m_caz o; m_spacing := m_spacing o;
     m_theta := m_theta o; m_phi := m_phi o; m_xlim := Some (a, b); m_ylim := Some (c, e);
     m_random_pos := m_random_pos o; m_random_angles := m_random_angles o |}.

Lemma refreshed_cell s hs k : su_Lx (refreshed s hs k) = su_Lx s /\ su_Ly (refreshed s hs k) = su_Ly s.
Proof.
  unfold refreshed. generalize (seq 0 k). intros l. revert s. induction l as [|i l IH]; intros s; [split; reflexivity|]. cbn [fold_left].
  destruct (IH (Model_Surface.refresh (hs i) s)) as [-> ->]. unfold Model_Surface.refresh. destruct (su_dist s); split; reflexivity.
Qed.

(* the redistribution matrices as a whole; the surface is the one on the side of incidence *)
Theorem C201_matrices : forall outer fuel s only o table n_abs inc trn texture z G a b c e i j,
  let surf := match s with Model_Ideal.Front => fst texture | Model_Ideal.Rear => snd texture end in su_Lx surf <> 0 -> su_Ly surf <> 0 ->
  RT_matrices outer fuel s only
    (rays_from o (a + IZR i * su_Lx surf) (b + IZR i * su_Lx surf) (c + IZR j * su_Ly surf) (e + IZR j * su_Ly surf)) table n_abs inc trn texture z G =
  RT_matrices outer fuel s only (rays_from o a b c e) table n_abs inc trn texture z G.
Proof.
  intros outer fuel s only o table n_abs inc trn texture z G a b c e i j surf HX HY.
  unfold RT_matrices. fold surf. cbn [rays_from m_nx m_ny m_phisym].
  change (rm_grid (rays_from o (a + IZR i * su_Lx surf) (b + IZR i * su_Lx surf) (c + IZR j * su_Ly surf) (e + IZR j * su_Ly surf))) with (rm_grid o).
  change (rm_grid (rays_from o a b c e)) with (rm_grid o).
  destruct (Nat.eqb (m_nx o * m_ny o) 0); [reflexivity|]. destruct (rm_grid o) as [g|er]; [|reflexivity].
  change (rm_directions only (rays_from o (a + IZR i * su_Lx surf) (b + IZR i * su_Lx surf) (c + IZR j * su_Ly surf) (e + IZR j * su_Ly surf)) z g) with (rm_directions only o z g).
  change (rm_directions only (rays_from o a b c e) z g) with (rm_directions only o z g).
  destruct (rm_directions only o z g) as [dirs|er]; [|reflexivity].
  change (rm_decision s (rays_from o (a + IZR i * su_Lx surf) (b + IZR i * su_Lx surf) (c + IZR j * su_Ly surf) (e + IZR j * su_Ly surf)) table inc trn) with (rm_decision s o table inc trn).
  change (rm_decision s (rays_from o a b c e) table inc trn) with (rm_decision s o table inc trn).
  erewrite map_ext; [reflexivity|]. intros [q [theta phi]]. unfold rm_beam, rm_xs, rm_ys.
  cbn [rays_from m_xlim m_ylim m_random_pos m_nx m_ny limits]. rewrite !coords_moved. unfold positions. rewrite prod_map. unfold enumerate. rewrite enumerate_from, map_map.
  erewrite map_ext; [reflexivity|]. intros [n [x y]]. cbn [fst snd]. unfold rm_ray, launch. cbn [rm_shot sh_x sh_y].
  destruct (refreshed_cell surf (z_hs z) (z_seen z (q * (m_nx o * m_ny o) + n))) as [EX EY].
  set (s' := refreshed surf (z_hs z) (z_seen z (q * (m_nx o * m_ny o) + n))) in *.
  set (E := env_of s' (rm_decision s o table inc trn) (rm_shot z (q * (m_nx o * m_ny o) + n) x y)).
  change (env_of s' (rm_decision s o table inc trn) (rm_shot z (q * (m_nx o * m_ny o) + n) (x + IZR i * su_Lx surf) (y + IZR j * su_Ly surf))) with E.
  rewrite <- EX, <- EY. change (su_Lx s') with (e_Lx E). change (su_Ly s') with (e_Ly E).
  rewrite C201_interface; [reflexivity| |]; cbn [E env_of e_Lx e_Ly]; congruence.
Qed.
Print Assumptions C201_matrices.

Example C201_matrices_case : exists fr re, regular_pyramids del4 55 3 false None None 0 = Ok (fr, re) /\ su_Lx fr <> 0 /\ su_Ly fr <> 0 /\
  forall outer fuel only o table n_abs inc trn z G,
  RT_matrices outer fuel Model_Ideal.Front only (rays_from o (1 + 3) (2 + 3) (1 / 2 - 6) (1 - 6)) table n_abs inc trn (fr, re) z G =
  RT_matrices outer fuel Model_Ideal.Front only (rays_from o 1 2 (1 / 2) 1) table n_abs inc trn (fr, re) z G.
Proof.
  destruct C43_example as (fr & re & E). exists fr, re. split; [exact E|].
  destruct (C43_pyramids del4 55 3 false None fr re ltac:(lra) ltac:(lra) E) as [C _]. destruct (C fr _ (or_introl (conj eq_refl eq_refl))) as (_ & LX & LY & _).
  split; [lra|]. split; [lra|]. intros.
  pose proof (C201_matrices outer fuel Model_Ideal.Front only o table n_abs inc trn (fr, re) z G 1 2 (1 / 2) 1 1 (-2)) as M. cbv zeta in M. cbn [fst] in M. rewrite LX, LY in M.
  replace (1 + 3) with (1 + 1 * 3) by ring. replace (2 + 3) with (2 + 1 * 3) by ring. replace (1 / 2 - 6) with (1 / 2 + -2 * 3) by ring. replace (1 - 6) with (1 + -2 * 3) by ring.
  apply M; lra.
Qed.
