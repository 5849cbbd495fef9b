(* process_structure, get_savepath and the default options: C141-C148. *)
From Coq Require Import Reals List ZArith Bool String Lia Lra.
From Verif Require Import Base Lib Model_Structure Model_Angles Model_Cache Model_Ideal Model_Optics Model_RayIface Model_RT
  Model_Process Spec_Angles Spec_Matrix Spec_RT Spec_Process Proof_Process Proof_Process2 Proof_Process3 Proof_Process4.
Import ListNotations.
Local Notation length := List.length.
Open Scope list_scope.
Open Scope R_scope.

(* ---------------- C141 ---------------- *)

(* fewer incidence directions than channels: some column of the matrix holds what was in memory *)
Theorem C141_too_few_directions_refuted : forall n phi_sym c sp g h s tmm n_abs beams x,
  valid_request n phi_sym c -> make_angle_vector n phi_sym c sp = Ok g -> length (g_av g) = (2 * h)%nat -> (length beams < h)%nat ->
  (forall b, In b beams -> good_beam phi_sym b /\ forall y, In y (b_rays b) -> good_ray tmm phi_sym n_abs y) ->
  exists G res k, RT_wl s tmm phi_sym g n_abs beams G = Ok res /\ (k < h)%nat /\
    (forall col row, bins_of_rays s phi_sym g h beams col row -> n_rays_in col k beams = 0) /\
    forall r, (r < 2 * h)%nat -> entry (o_mat res) r k = x.
Proof. exact rt_underpopulated. Qed.
Print Assumptions C141_too_few_directions_refuted.

(* the default options give 100 directions for 338 channels *)
Theorem C141_default_population_refuted : forall g s tmm n_abs beams x,
  make_angle_vector (opt_n_theta default_options) (opt_phi_sym default_options)
    (opt_c_azimuth default_options) (opt_spacing default_options) = Ok g ->
  map (fun b => (b_theta b, b_phi b)) beams =
    regular_directions g (n_angles_of (opt_n_rays default_options) (opt_nx default_options) (opt_ny default_options)) ->
  (forall b y, In b beams -> In y (b_rays b) -> good_ray tmm (opt_phi_sym default_options) n_abs y) ->
  exists G res k, RT_wl s tmm (opt_phi_sym default_options) g n_abs beams G = Ok res /\ (k < length (g_av g) / 2)%nat /\
    forall r, (r < length (g_av g))%nat -> entry (o_mat res) r k = x.
Proof. exact defaults_leave_gaps. Qed.
Print Assumptions C141_default_population_refuted.

(* 33800 rays, the other options as they are, set every column *)
Theorem C141_default_population_partial : forall g s tmm n_abs n_rays beams G,
  make_angle_vector (opt_n_theta default_options) (opt_phi_sym default_options)
    (opt_c_azimuth default_options) (opt_spacing default_options) = Ok g ->
  (338 * (opt_nx default_options * opt_ny default_options) <= n_rays)%nat ->
  map (fun b => (b_theta b, b_phi b)) beams = regular_directions g (n_angles_of n_rays (opt_nx default_options) (opt_ny default_options)) ->
  (forall b, In b beams -> length (b_rays b) = (opt_nx default_options * opt_ny default_options)%nat /\
     forall y, In y (b_rays b) -> good_ray tmm (opt_phi_sym default_options) n_abs y) ->
  exists res, RT_wl s tmm (opt_phi_sym default_options) g n_abs beams G = Ok res /\
    forall k, (k < length (g_av g) / 2)%nat -> col_total (o_mat res) k + col_total (o_Amat res) k = 1.
Proof. exact more_rays. Qed.
Print Assumptions C141_default_population_partial.

(* every ray transmitted at polar angle 2: the hypotheses hold for any number of rays *)
Example C141_case : forall n_rays, exists g beams,
  make_angle_vector (opt_n_theta default_options) (opt_phi_sym default_options)
    (opt_c_azimuth default_options) (opt_spacing default_options) = Ok g /\
  map (fun b => (b_theta b, b_phi b)) beams =
    regular_directions g (n_angles_of n_rays (opt_nx default_options) (opt_ny default_options)) /\
  forall b, In b beams -> length (b_rays b) = 100%nat /\ forall y, In y (b_rays b) -> good_ray false (opt_phi_sym default_options) 0 y.
Proof.
  intros n_rays. eexists. exists (map (fun d => {| b_theta := fst d; b_phi := snd d;
      b_rays := repeat {| y_out := {| ro_theta := 2; ro_A := None; ro_loc := 10; ro_dir := mkv 0 0 (-1); ro_checks := 1 |}; y_phi := 1 |} 100 |})
    (regular_directions (grid_of_edges (theta_edges SpSin 50) (PI / 2) (1 / 4)) (n_angles_of n_rays 10 10))).
  split; [reflexivity|]. split.
  - rewrite map_map. cbn [b_theta b_phi]. etransitivity; [|apply map_id]. apply map_ext. intros [a b]. reflexivity.
  - intros b Hb. apply in_map_iff in Hb. destruct Hb as [d [<- _]]. cbn [b_rays]. split; [apply repeat_length|].
    intros y Hy. apply repeat_spec in Hy. subst y. unfold good_ray. cbn [y_out ro_A ro_theta y_phi opt_phi_sym default_options].
    pose proof PI2_3_2. pose proof PI_4. split; [lra|].
    rewrite (Proof_Angles.fold_phi_unique 1 (PI / 2) 1 4 0); lra.
Qed.

(* ---------------- C142 ---------------- *)

(* every calculation is made for an interface of the structure, with its name, its method and the media on its two
   sides *)
Theorem C142_media : forall (M V T : Type) inc tr (SC : list (item M V T)) oi ow c, In c (calls_of inc tr SC oi ow) ->
  exists i f, nth_error SC i = Some (OIface f) /\ has_value f "name" (c_name c) /\ c_method c = i_method f /\ c_overwrites c = ow /\
    forall a b, c_media c = Some (a, b) -> above inc SC i a /\ below tr SC i b.
Proof. intros M V T. exact calls_media. Qed.
Print Assumptions C142_media.

(* a matrix is calculated for every side that light can come from *)
Theorem C142_sides : forall (M V T : Type) inc tr (SC : list (item M V T)) oi ow i f s,
  completes inc tr SC oi ow -> nth_error SC i = Some (OIface f) -> optical (i_method f) -> lit SC i s ->
  exists c, In c (calls_of inc tr SC oi ow) /\ c_side c = Some s /\ has_value f "name" (c_name c) /\ c_method c = i_method f /\
    exists a b, c_media c = Some (a, b) /\ above inc SC i a /\ below tr SC i b.
Proof. intros M V T. exact sides_calculated. Qed.
Print Assumptions C142_sides.

(* a lookup table is made with the same media *)
Theorem C142_tables : forall (M V T : Type) inc tr (SC : list (item M V T)) oi ow i f,
  completes inc tr SC oi ow -> nth_error SC i = Some (OIface f) -> i_method f = "RT_TMM"%string ->
  exists c, In c (calls_of inc tr SC oi ow) /\ c_side c = None /\ has_value f "name" (c_name c) /\ describes f c /\
    exists a b, c_media c = Some (a, b) /\ above inc SC i a /\ below tr SC i b.
Proof. intros M V T. exact table_calculated. Qed.
Print Assumptions C142_tables.

(* materials and keyword values are numbers; three interfaces and two bulk layers *)
Definition ex_iface (method : string) (name : nat) : interface nat nat nat :=
  mk_interface method (Some [LLayer 7%nat (1 / 10 ^ 7); LList (Some (50, [3; 4]%nat))]) 5%nat (Some [1%Z])
    [MMat 7; MData [3; 4]]%nat [1 / 10 ^ 7; 50 * / 10 ^ 9] false [("name"%string, name); ("coherency_list"%string, 9%nat)].
Definition ex_bulk (m : nat) : bulk nat nat := mk_bulk (1 / 10 ^ 4) m [].
Definition ex_SC : list (item nat nat nat) :=
  [OIface (ex_iface "TMM" 1); OBulk (ex_bulk 10); OIface (ex_iface "RT_TMM" 2); OBulk (ex_bulk 11); OIface (ex_iface "Mirror" 3)].

Example C142_case : completes (Some 20%nat) (Some 21%nat) ex_SC true false /\
  nth_error ex_SC 2 = Some (OIface (ex_iface "RT_TMM" 2)) /\ optical "RT_TMM" /\ lit ex_SC 2 Model_Cache.Rear /\
  map (fun c => (c_name c, c_media c, c_side c)) (calls_of (Some 20%nat) (Some 21%nat) ex_SC true false) =
    [(2, Some (10, 11), None); (1, Some (20, 10), Some Model_Cache.Front); (1, Some (20, 10), Some Model_Cache.Rear);
     (2, Some (10, 11), Some Model_Cache.Front); (2, Some (10, 11), Some Model_Cache.Rear); (3, None, Some Model_Cache.Front)]%nat.
Proof.
  split; [reflexivity|]. split; [reflexivity|]. split; [cbn; auto|]. split; [cbn; lia|]. reflexivity.
Qed.

(* ---------------- C143 ---------------- *)

(* process_structure followed by the loading in calculate_RAT accepts exactly the structures in which interfaces and
   bulk layers alternate and everything that the methods need was given *)
Theorem C143_accepted : forall (M V T : Type) inc tr (SC : list (item M V T)) oi ow,
  (forall f, In (OIface f) SC -> In (i_method f) valid_methods) ->
  ((completes inc tr SC oi ow /\ exists l, names_loaded SC = Ok l) <->
   (alternates SC /\ inc <> None /\ tr <> None /\ forall f, In (OIface f) SC -> equipped f)).
Proof. intros M V T. exact accepted_iff. Qed.
Print Assumptions C143_accepted.

Example C143_case : (forall f, In (OIface f) ex_SC -> In (i_method f) valid_methods) /\ alternates ex_SC /\
  (forall f, In (OIface f) ex_SC -> equipped f) /\
  (* two interfaces next to each other, a bulk layer at the top, two bulk layers next to each other *)
  ~ completes (Some 20%nat) (Some 21%nat) (OIface (ex_iface "TMM" 1) :: ex_SC) true false /\
  names_loaded (OBulk (ex_bulk 10) :: ex_SC) = Err IndexError /\
  names_loaded [OIface (ex_iface "TMM" 1); OBulk (ex_bulk 10); OBulk (ex_bulk 10); OIface (ex_iface "TMM" 1)] = Err IndexError.
Proof.
  assert (I : forall f, In (OIface f) ex_SC -> f = ex_iface "TMM" 1 \/ f = ex_iface "RT_TMM" 2 \/ f = ex_iface "Mirror" 3).
  { intros f [H|[H|[H|[H|[H|[]]]]]]; try discriminate; injection H as <-; auto. }
  split; [intros f Hf; destruct (I f Hf) as [-> |[-> | ->]]; cbn; auto 8|].
  split. { split; [reflexivity|]. intros [|[|[|[|[|i]]]]] e H; cbn in H; try (destruct i; discriminate); injection H as <-; eexists; reflexivity. }
  split. { intros f Hf. destruct (I f Hf) as [-> |[-> | ->]]; (split; [left; reflexivity|]; split; [intros _; right; right; left; reflexivity|];
      split; [intros _; discriminate|intros; discriminate]). }
  split; [cbv; discriminate|]. split; reflexivity.
Qed.

(* ---------------- C144 ---------------- *)

(* ray tracing: calculating one direction only happens if it was asked for, and then for light falling on the front of
   the first element; and there it does happen *)
Theorem C144_only_incidence_partial : forall (M V T : Type) inc tr (SC : list (item M V T)) oi ow c,
  In c (calls_of inc tr SC oi ow) -> c_only c = true ->
  oi = true /\ c_side c = Some Model_Cache.Front /\ exists f, nth_error SC 0 = Some (OIface f) /\ has_value f "name" (c_name c).
Proof. intros M V T. exact only_incidence_rt. Qed.
Print Assumptions C144_only_incidence_partial.

Theorem C144_only_incidence_rt_partial : forall (M V T : Type) inc tr (SC : list (item M V T)) ow f,
  completes inc tr SC true ow -> nth_error SC 0 = Some (OIface f) ->
  (i_method f = "RT_TMM" \/ i_method f = "RT_Fresnel")%string ->
  exists c, In c (calls_of inc tr SC true ow) /\ c_side c = Some Model_Cache.Front /\ has_value f "name" (c_name c) /\ c_only c = true.
Proof. intros M V T. exact only_incidence_front. Qed.
Print Assumptions C144_only_incidence_rt_partial.

(* a front surface treated with TMM or RCWA is calculated for all directions although one was asked for *)
Theorem C144_only_incidence_refuted : forall (M V T : Type) inc tr (SC : list (item M V T)) ow f,
  completes inc tr SC true ow -> nth_error SC 0 = Some (OIface f) ->
  (i_method f = "TMM" \/ i_method f = "RCWA")%string ->
  exists c, In c (calls_of inc tr SC true ow) /\ c_side c = Some Model_Cache.Front /\ has_value f "name" (c_name c) /\ c_only c = false.
Proof. intros M V T. exact only_ignored. Qed.
Print Assumptions C144_only_incidence_refuted.

Example C144_case : completes (Some 20%nat) (Some 21%nat) ex_SC true false /\ nth_error ex_SC 0 = Some (OIface (ex_iface "TMM" 1)) /\
  completes (Some 20%nat) (Some 21%nat) (OIface (ex_iface "RT_TMM" 4) :: tl ex_SC) true false /\
  filter c_only (calls_of (Some 20%nat) (Some 21%nat) (OIface (ex_iface "RT_TMM" 4) :: tl ex_SC) true false) <> [].
Proof. split; [reflexivity|]. split; [reflexivity|]. split; [reflexivity|]. cbn. discriminate. Qed.

(* ---------------- C145 ---------------- *)

Theorem C145_arguments : forall (M V T : Type) inc tr (SC : list (item M V T)) oi ow c,
  (forall e, In e SC -> is_iface e \/ is_bulk e) -> In c (calls_of inc tr SC oi ow) ->
  exists i f, nth_error SC i = Some (OIface f) /\ has_value f "name" (c_name c) /\ c_method c = i_method f /\ describes f c.
Proof. intros M V T. exact calls_describe. Qed.
Print Assumptions C145_arguments.

(* a layer given as a list has its width in nm already *)
Theorem C145_widths : forall (M V T : Type) method (layers : list (larg M V)) (texture : T) prof coherent kwargs f,
  new_interface method (Some layers) texture prof coherent kwargs = Ok f ->
  map (fun w => w * 10 ^ 9) (i_widths f) = map width_nm layers.
Proof. intros M V T. exact widths_nm. Qed.
Print Assumptions C145_widths.

Example C145_case : (forall e, In e ex_SC -> is_iface e \/ is_bulk e) /\
  exists c, In c (calls_of (Some 20%nat) (Some 21%nat) ex_SC true false) /\ c_method c = "RT_TMM"%string /\ c_side c = Some Model_Cache.Rear /\
  new_interface "RT_TMM" (Some [LLayer 7%nat (1 / 10 ^ 7); LList (Some (50, [3; 4]%nat))]) 5%nat (Some [1%Z]) false
    [("name"%string, 2%nat); ("coherency_list"%string, 9%nat)] = Ok (ex_iface "RT_TMM" 2).
Proof.
  split.
  - intros e [<-|[<-|[<-|[<-|[<-|[]]]]]]; (left; eexists; reflexivity) || (right; eexists; reflexivity).
  - eexists. split; [right; right; right; right; left; reflexivity|]. split; [reflexivity|]. split; reflexivity.
Qed.

(* ---------------- C146 ---------------- *)

(* if the directory above exists and no file is in the way: the returned directory exists afterwards, at most it and the
   location itself are new, and calling again changes nothing *)
Theorem C146_savepath : forall fs cwd home loc name, fs cwd = Some Dir -> fs home = Some Dir ->
  can_be fs (base_dir cwd home loc) -> fs (base_dir cwd home loc ++ [name]) <> Some File ->
  exists fs', get_savepath fs cwd home loc [name] = (fs', inl (base_dir cwd home loc ++ [name])) /\
    fs' (base_dir cwd home loc ++ [name]) = Some Dir /\ grown fs fs' /\
    (forall p, fs' p <> fs p -> p = base_dir cwd home loc \/ p = base_dir cwd home loc ++ [name]) /\
    get_savepath fs' cwd home loc [name] = (fs', inl (base_dir cwd home loc ++ [name])).
Proof. exact savepath_made. Qed.
Print Assumptions C146_savepath.

Definition ex_fs : dirs := fun p => match p with [] => Some Dir | ["home"%string] => Some Dir | _ => None end.

Example C146_case : ex_fs [] = Some Dir /\ ex_fs ["home"%string] = Some Dir /\
  can_be ex_fs (base_dir [] ["home"%string] Default) /\ ex_fs (base_dir [] ["home"%string] Default ++ ["project"%string]) <> Some File /\
  can_be ex_fs (base_dir [] ["home"%string] (Path ["data"%string])).
Proof. split; [reflexivity|]. split; [reflexivity|]. split; [right; split; reflexivity|]. split; [discriminate|]. right. split; reflexivity. Qed.

(* ---------------- C147 ---------------- *)

(* a location whose parent does not exist yet *)
Theorem C147_nested_refuted : forall fs cwd home p project, fs p = None -> fs (removelast p) = None ->
  get_savepath fs cwd home (Path p) project = (fs, inr NotFound).
Proof. exact nested_fails. Qed.
Print Assumptions C147_nested_refuted.

(* a project name with a / in it *)
Theorem C147_project_refuted : forall fs cwd home p a b, fs p = Some Dir -> fs (p ++ [a]) = None -> fs (p ++ [a; b]) = None ->
  get_savepath fs cwd home (Path p) [a; b] = (fs, inr NotFound).
Proof. exact project_fails. Qed.
Print Assumptions C147_project_refuted.

Example C147_case : ex_fs ["data"; "results"]%string = None /\ ex_fs (removelast ["data"; "results"]%string) = None /\
  ex_fs (["home"%string] ++ ["a"%string]) = None /\ ex_fs (["home"%string] ++ ["a"; "b"]%string) = None.
Proof. repeat split. Qed.

(* ---------------- C148 ---------------- *)

(* any number of runs at the same time, in any order of their operations, if the directories exist already *)
Theorem C148_existing_partial : forall fs cwd home loc project n ks,
  (forall d, In d (wanted_dirs cwd home loc project) -> fs d = Some Dir) ->
  fst (schedule fs (repeat (pstart (wanted_dirs cwd home loc project)) n) ks) = fs /\
  forall p, In p (snd (schedule fs (repeat (pstart (wanted_dirs cwd home loc project)) n) ks)) -> p_err p = None.
Proof. exact existing_no_race. Qed.
Print Assumptions C148_existing_partial.

(* two first runs at the same time: one of them can fail *)
Theorem C148_race_refuted : forall fs cwd home name, fs cwd = Some Dir -> fs (cwd ++ [name]) = None ->
  exists ks p, In p (snd (schedule fs (repeat (pstart (wanted_dirs cwd home Current [name])) 2) ks)) /\ p_err p = Some FileExists.
Proof. exact race. Qed.
Print Assumptions C148_race_refuted.

Example C148_case : ex_fs [] = Some Dir /\ ex_fs ([] ++ ["project"%string]) = None /\
  (forall d, In d (wanted_dirs [] [] (Path []) ["home"%string]) -> ex_fs d = Some Dir).
Proof. split; [reflexivity|]. split; [reflexivity|]. intros d [<-|[<-|[]]]; reflexivity. Qed.
