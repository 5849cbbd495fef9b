(* What rt_structure.calculate is asked to do, and the light in planar structures told from the materials. *)
From Coq Require Import Reals List Bool ZArith.
From Verif Require Import Base Model_Optics Model_OpticsC Model_RayIface Model_RayStack Model_Surface Model_RTStruct Model_Trace Model_StackRay Model_StackCalc
  Spec_OpticsC Spec_RayIface Spec_RayStack Spec_Surface Spec_RTStruct Spec_Trace Spec_StackRay.
Import ListNotations.
Open Scope R_scope.

Definition start_mat (o : rt_options) : Z := match c_mat o with Some m => m | None => 0%Z end.
Definition start_dir (o : rt_options) : Z := match c_dir o with Some d => d | None => 1%Z end.

(* absorbing entries absorb something, and nothing negative *)
Definition usable_table (ent : Z -> R -> table_entry) : Prop :=
  forall side th, te_R (ent side th) + te_T (ent side th) < 1 -> (forall a, In a (te_A (ent side th)) -> 0 <= a) /\ 0 < rsum (te_A (ent side th)).

(* a structure as built by rt_structure: textures of the store S, one material per width (m), surfaces surfs *)
Record built_structure (S : store) (textures : list nat) (materials : list material) (widths : list R) (inc trn : material)
    (surfs : list rtsurf) : Prop := {
  bs_new : exists S' su cw, new_rt_structure S textures materials widths inc trn = Ok (S', su, inc :: materials ++ [trn], cw) /\ read_all S' su = Some surfs;
  bs_textures : length textures = Datatypes.S (length widths);
  bs_materials : length materials = length widths;
  bs_widths : forall x, In x widths -> 0 < x }.

(* options and random numbers for it *)
Record sound_options (mats : list material) (widths : list R) (tables : list (option (Z -> R -> table_entry))) (surfs : list rtsurf)
    (o : rt_options) (w : rt_draws) : Prop := {
  op_wl : 0 < c_wl o;
  op_thresh : 0 < c_thresh o;
  op_theta : 0 <= c_theta o < PI / 2;
  op_start : good_start widths (start_mat o) (start_dir o);
  op_media : forall m, In m mats -> optical_medium (m (c_wl o));
  op_tables : length tables = Datatypes.S (length widths);
  op_usable : forall ent, In (Some ent) tables -> usable_table ent;
  op_high : forall s, nth_error surfs 0 = Some s -> 0 <= lmax (zs_of (su_pts s));
  op_grid : (0 < c_nx o * c_ny o)%nat;
  op_rays : (0 < c_nrays o)%nat;
  op_rnd : forall k n, dr_rnd (w_ray w k) n < 1 }.

(* no surface sends any of the rays off exactly horizontally *)
Definition none_level (fuel : nat) (surfs : list rtsurf) (mats : list material) (widths : list R)
    (tables : list (option (Z -> R -> table_entry))) (o : rt_options) (w : rt_draws) : Prop :=
  forall s k x y st, nth_error surfs 0 = Some s -> let U := calc_setup surfs mats widths tables o w k in
    fstart U (start_vector (lmax (zs_of (su_pts s))) (c_theta o) (c_phi o)) x y (start_mat o) (start_dir o) = Ok st -> never_level fuel U st.

(* ---------- planar structures ---------- *)

(* what is on the surfaces *)
Definition coated (p : pol) (t : option (Z -> R -> table_entry)) : film := match t with None => Bare p | Some ent => Coated ent end.
Definition films_on (p : pol) (tables : list (option (Z -> R -> table_entry))) : list film := map (coated p) tables.

(* the media and headings of ray k *)
Definition media (mats : list material) (o : rt_options) : list cplx := map (fun m => m (c_wl o)) mats.
Definition route (mats : list material) (tables : list (option (Z -> R -> table_entry))) (o : rt_options) (w : rt_draws) (k : nat) : nat -> Z * Z :=
  planar_at (media mats o) (films_on (c_pol o) tables) (start_mat o) (start_dir o) (c_theta o) (dr_rnd (w_ray w k)).
(* what happens to it at the n-th surface it meets (counted from 0) *)
Definition fate_of (mats : list material) (tables : list (option (Z -> R -> table_entry))) (o : rt_options) (w : rt_draws) (k n : nat) : fate :=
  next_fate (media mats o) (films_on (c_pol o) tables) (start_mat o) (c_theta o) (dr_rnd (w_ray w k))
    (fst (route mats tables o w k n)) (snd (route mats tables o w k n)) n.
(* the surface ahead of light in medium m heading d *)
Definition surface_ahead (m d : Z) : Z := if Z.eqb d 1 then m else (m - 1)%Z.

(* Beer-Lambert in SI units: layer i absorbs with 4 pi k / wavelength over its width / cos(angle in it) *)
Definition si_loss (mats : list material) (widths : list R) (o : rt_options) (m : Z) : R :=
  4 * PI * im (nk_of (media mats o) m) / c_wl o * nth (Z.to_nat m) (0 :: widths ++ [0]) 0 /
  cos (snell (media mats o) (start_mat o) (c_theta o) m).

Section Light.
Variables (mats : list material) (widths : list R) (tables : list (option (Z -> R -> table_entry))) (o : rt_options) (w : rt_draws).

Definition si_power (k n : nat) : R :=
  exp (- rsum (map (fun j => si_loss mats widths o (fst (route mats tables o w k (S j)))) (seq 0 n))).

Definition si_lost_in (k i p : nat) : R :=
  rsum (map (fun j => if Z.eqb (fst (route mats tables o w k (S j))) (Z.of_nat i) then si_power k j - si_power k (S j) else 0) (seq 0 p)).

(* the n-th surface met by ray k (counted from 0) is its last: it leaves there, the layers on the surface absorb it, or the
   next layer of the structure takes it below the threshold *)
Inductive finish := Front | Rear | Film (A : list R) | Bulk.
Definition ends_at (k n : nat) (f : finish) : Prop :=
  (forall j, (1 <= j <= n)%nat -> (1 <= fst (route mats tables o w k j) <= Z.of_nat (length widths))%Z /\ c_thresh o <= si_power k j) /\
  (forall j A, (j <= n)%nat -> fate_of mats tables o w k j = Stays A <-> j = n /\ f = Film A) /\
  match f with
  | Front => route mats tables o w k (S n) = (0, -1)%Z
  | Rear => route mats tables o w k (S n) = (Z.of_nat (length widths) + 1, 1)%Z
  | Film _ => True
  | Bulk => (1 <= fst (route mats tables o w k (S n)) <= Z.of_nat (length widths))%Z /\ si_power k (S n) < c_thresh o
  end.
End Light.
(* layers crossed by then *)
Definition crossed (n : nat) (f : finish) : nat := match f with Bulk => S n | _ => n end.

(* Flat textures, bare or with lookup tables; periodic boundaries; layers thicker than the 1e-8 um rays are moved by; no medium
   at whose surface the light arrives exactly at the critical angle.  The entries of the tables are probabilities, they let
   nothing through beyond the critical angle, and the media on both sides of a table are in phase or the light falls straight
   on (C172). *)
Record flat_structure (S : store) (textures : list nat) (widths : list R) (mats : list material) (tables : list (option (Z -> R -> table_entry)))
    (o : rt_options) (w : rt_draws) : Prop := {
  fl_textures : forall q, In q textures -> exists s a b, surface_at S q = Some s /\ 0 < a /\ 0 < b /\ flat_surface 0 a b s;
  fl_tables : forall ent side th, In (Some ent) tables ->
    0 <= te_R (ent side th) /\ 0 <= te_T (ent side th) /\ te_R (ent side th) + te_T (ent side th) <= 1;
  fl_beyond : forall m d ent, (d = 1 \/ d = -1)%Z -> (0 <= m <= Z.of_nat (length widths) + 1)%Z -> (0 <= m + d <= Z.of_nat (length widths) + 1)%Z ->
    film_ahead (films_on (c_pol o) tables) m d = Coated ent ->
    index_of (media mats o) (m + d) <= index_of (media mats o) (start_mat o) * sin (c_theta o) ->
    te_T (ent d (snell (media mats o) (start_mat o) (c_theta o) m)) = 0;
  fl_phase : forall m d ent, (d = 1 \/ d = -1)%Z -> (0 <= m <= Z.of_nat (length widths) + 1)%Z -> (0 <= m + d <= Z.of_nat (length widths) + 1)%Z ->
    film_ahead (films_on (c_pol o) tables) m d = Coated ent ->
    in_phase (nk_of (media mats o) m) (nk_of (media mats o) (m + d)) \/ c_theta o = 0;
  fl_periodic : c_periodic o = None \/ c_periodic o = Some true;
  fl_thick : forall x, In x widths -> 1 / 10 ^ 14 < x;
  fl_start : (start_mat o <= Z.of_nat (length widths))%Z;
  fl_critical : forall m, In m mats -> re (m (c_wl o)) <> index_of (media mats o) (start_mat o) * sin (c_theta o);
  fl_uv : forall k n, 0 <= fst (dr_uv (w_ray w k) n) < 1 /\ 0 <= snd (dr_uv (w_ray w k) n) < 1 }.
