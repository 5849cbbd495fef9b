(* Properties of the set-up of ray tracing: C128-C140. *)
From Coq Require Import Reals List ZArith Bool String Lia Lra.
From Verif Require Import Base Lib Model_Cache Model_Angles Spec_Angles Proof_AnglesProps Model_Ideal Model_MatMul
  Model_Optics Spec_Optics Model_RayIface Model_RayStack Model_RT Model_Surface Model_RTStruct Spec_RTStruct
  Proof_RTStruct Proof_RTStruct2 Proof_RTStruct3 Proof_RTStruct4.
Import ListNotations.
Local Notation length := List.length.
Open Scope list_scope.
Open Scope R_scope.

(* ---------- C128 ---------- *)

(* n_rays rounded up to whole grids; ray k is traced from one position of the grid and its result is
   stored as the k-th entry *)
Theorem C128_every_ray_traced : forall A (zero : A) (trace : nat -> R -> R -> A) n_rays nx ny xs ys,
  length xs = nx -> length ys = ny -> (0 < nx * ny)%nat ->
  let n_reps := n_reps_of n_rays nx ny in
  let arr := fill_rays zero trace n_reps nx ny xs ys in
  length arr = (n_reps * nx * ny)%nat /\ (n_rays <= length arr < n_rays + nx * ny)%nat /\
  forall k, (k < length arr)%nat -> nth k arr zero = trace k (nth ((k mod (nx * ny)) / ny) xs 0) (nth (k mod ny) ys 0).
Proof. exact @rays_all. Qed.
Print Assumptions C128_every_ray_traced.

(* default limits: strictly inside the cell *)
Theorem C128_positions_inside : forall random mn mx n u x, mn < mx -> (forall i, 0 <= u i < 1) ->
  In x (coords random (limits None mn mx (Rabs (mn - mx))) n u) -> mn < x < mx.
Proof. exact default_inside. Qed.
Print Assumptions C128_positions_inside.

(* without random positions: equally spaced from one limit to the other *)
Theorem C128_positions_even : forall lim n u i, (2 <= n)%nat -> (S i < n)%nat ->
  length (coords false lim n u) = n /\
  nth 0 (coords false lim n u) 0 = fst lim /\ nth (n - 1) (coords false lim n u) 0 = snd lim /\
  nth (S i) (coords false lim n u) 0 - nth i (coords false lim n u) 0 = (snd lim - fst lim) / INR (n - 1).
Proof. intros lim n u i H1 H2. split; [apply coords_length|]. apply coords_even; auto. Qed.
Print Assumptions C128_positions_even.

(* 7 rays on a 2 x 2 grid: 8 rays, the sixth from (x0, y1) *)
Example C128_example : let arr := fill_rays (0, 0, 0%nat) (fun k x y => (x, y, k)) (n_reps_of 7 2 2) 2 2 [1; 2] [3; 4] in
  length arr = 8%nat /\ nth 5 arr (0, 0, 0%nat) = (1, 4, 5%nat).
Proof.
  intros arr. destruct (rays_all (0, 0, 0%nat) (fun k x y => (x, y, k)) 7 2 2 [1; 2] [3; 4] eq_refl eq_refl ltac:(lia)) as [A [B C]].
  fold arr in A, B, C. assert (L : length arr = 8%nat) by lia. split; auto. rewrite C by lia. reflexivity.
Qed.

(* ---------- C129 ---------- *)

(* any coordinates within the limits can be drawn, and only those *)
Theorem C129_random_positions_partial : forall lim xs, fst lim < snd lim ->
  ((forall x, In x xs -> fst lim <= x < snd lim) <->
   exists u, (forall i, 0 <= u i < 1) /\ coords true lim (length xs) u = xs).
Proof.
  intros lim xs H. split; [apply coords_any; auto|]. intros [u [Hu E]] x Hx. rewrite <- E in Hx.
  unfold coords in Hx. apply in_map_iff in Hx. destruct Hx as [i [<- _]]. specialize (Hu i). nra.
Qed.
Print Assumptions C129_random_positions_partial.

(* nx * ny points with different x are impossible, whatever is drawn; and all repetitions use the same points *)
Theorem C129_random_positions_refuted : forall random xlim ylim nx ny u v, (1 <= nx)%nat -> (2 <= ny)%nat ->
  let xs := coords random xlim nx u in let ys := coords random ylim ny v in
  ~ NoDup (map fst (positions xs ys)) /\
  forall A (zero : A) (trace : R -> R -> A) n_rays, let arr := fill_rays zero (fun _ => trace) (n_reps_of n_rays nx ny) nx ny xs ys in
    forall k, (k + nx * ny < length arr)%nat -> nth (k + nx * ny) arr zero = nth k arr zero.
Proof.
  intros random xlim ylim nx ny u v Hx Hy xs ys.
  assert (Lx : length xs = nx) by apply coords_length. assert (Ly : length ys = ny) by apply coords_length. split.
  - unfold positions. destruct xs as [|a xs]; [cbn in Lx; lia|]. destruct ys as [|b [|b2 ys]]; cbn in Ly; try lia.
    cbn [list_prod map app fst]. intros N. inversion N as [|? ? H _]. apply H. left. reflexivity.
  - intros A zero trace n_rays arr k Hk.
    destruct (rays_all zero (fun _ => trace) n_rays nx ny xs ys Lx Ly ltac:(nia)) as [_ [_ C]]. fold arr in C.
    rewrite !C by lia. f_equal.
    + rewrite <- (Nat.add_mod_idemp_r k (nx * ny)) by nia. rewrite Nat.mod_same by nia. rewrite Nat.add_0_r. reflexivity.
    + rewrite Nat.mod_add by lia. reflexivity.
Qed.
Print Assumptions C129_random_positions_refuted.

Example C129_example : exists u, (forall i, 0 <= u i < 1) /\ coords true (0, 10) 3 u = [1; 9; 5].
Proof. apply (C129_random_positions_partial (0, 10) [1; 9; 5]); cbn; [lra|]. intros x [<-|[<-|[<-|[]]]]; lra. Qed.

(* ---------- C130 ---------- *)

(* redistribution matrices: a unit ray from above the highest point h, in the asked direction, aimed at (x, y, 0) *)
Theorem C130_incident_ray : forall h theta phi x y, 0 <= theta < PI / 2 -> h <> - (1 / 10 ^ 8) ->
  let '(p, d) := first_ray (start_vector h theta phi) x y in
  heads_down theta phi d /\ unit d /\ h < vz p /\ exists t, 0 < t /\ vadd p (vscale t d) = mkv x y 0.
Proof. exact first_ok. Qed.
Print Assumptions C130_incident_ray.

(* rt_structure: the ray starts over (x, y) *)
Theorem C130_incident_ray_stack : forall h theta phi x y, 0 <= theta < PI / 2 -> h <> - (1 / 10 ^ 8) -> forall widths,
  exists z d, stack_start widths (start_vector h theta phi) x y 0 1 = Ok (mkv x y z, d, 0%Z) /\ h < z /\ heads_down theta phi d.
Proof. exact stack_first. Qed.
Print Assumptions C130_incident_ray_stack.

Example C130_example : exists z d, stack_start [0; 300; 0] (start_vector 5 (PI / 4) (PI / 2)) 2 3 0 1 = Ok (mkv 2 3 z, d, 0%Z) /\ 5 < z /\ vz d < 0.
Proof.
  pose proof PI_RGT_0. destruct (stack_first 5 (PI / 4) (PI / 2) 2 3) with (widths := [0; 300; 0]) as [z [d [A [B C]]]]; try lra.
  exists z, d. split; auto. split; auto. rewrite C. cbn [vz]. assert (0 < cos (PI / 4)) by (apply cos_gt_0; lra). lra.
Qed.

(* ---------- C131 ---------- *)

(* started in a layer thicker than 1e-8 um: inside that layer, towards the next surface in the asked direction *)
Theorem C131_start_inside_down_partial : forall h theta phi x y, 0 <= theta < PI / 2 -> h <> - (1 / 10 ^ 8) ->
  forall ws m, (m < length ws)%nat -> 1 / 10 ^ 8 < nth m ws 0 -> exists z d,
    stack_start (padded ws) (start_vector h theta phi) x y (Z.of_nat (S m)) 1 = Ok (mkv x y z, d, Z.of_nat (S m)) /\
    - depth ws (S m) < z < - depth ws m /\ heads_down theta phi d.
Proof. exact stack_down. Qed.
Print Assumptions C131_start_inside_down_partial.

Theorem C131_start_inside_up_partial : forall h theta phi x y, 0 <= theta < PI / 2 -> h <> - (1 / 10 ^ 8) ->
  forall ws m, (m < length ws)%nat -> 1 / 10 ^ 8 < nth m ws 0 -> exists z d,
    stack_start (padded ws) (start_vector h theta phi) x y (Z.of_nat (S m)) (-1) = Ok (mkv x y z, d, Z.of_nat m) /\
    - depth ws (S m) < z < - depth ws m /\ heads_up theta phi d.
Proof. exact stack_up. Qed.
Print Assumptions C131_start_inside_up_partial.

(* started in the transmission medium, upwards: the ray starts above the last surface, which, if flat, it never meets *)
Theorem C131_start_below_refuted : forall h theta phi x y ws, 0 <= theta < PI / 2 -> h <> - (1 / 10 ^ 8) -> exists p d,
  stack_start (padded ws) (start_vector h theta phi) x y (Z.of_nat (S (length ws))) (-1) = Ok (p, d, Z.of_nat (length ws)) /\
  - depth ws (length ws) < vz p /\ 0 < vz d /\
  forall tris, (forall T, In T tris -> vz (t_P0 T) = - depth ws (length ws) /\ vz (t_P1 T) = - depth ws (length ws) /\
                                       vz (t_P2 T) = - depth ws (length ws)) ->
    check_intersect p d tris = None.
Proof. exact stack_rear_wrong. Qed.
Print Assumptions C131_start_below_refuted.

(* started in the incidence medium, upwards: surface number -1, which python takes for the last one *)
Theorem C131_start_above_refuted : forall h theta phi x y ws, 0 <= theta < PI / 2 -> h <> - (1 / 10 ^ 8) -> exists p d,
  stack_start (padded ws) (start_vector h theta phi) x y 0 (-1) = Ok (p, d, (-1)%Z) /\
  forall S (surfaces : list S) s, py_index (surfaces ++ [s]) (-1) = Ok s.
Proof.
  intros h theta phi x y ws Ht Hh. destruct (stack_up_gen h theta phi x y Ht Hh ws 0) as [d [E _]]; [lia|].
  eexists. exists d. split; [exact E|]. intros S surfaces s. unfold py_index. cbn [Z.ltb Z.compare]. rewrite app_length. cbn [length].
  destruct (Z.ltb_spec (-1 + Z.of_nat (length surfaces + 1)) 0); [lia|].
  replace (Z.to_nat (-1 + Z.of_nat (length surfaces + 1))) with (length surfaces) by lia.
  rewrite nth_error_app2, Nat.sub_diag by lia. reflexivity.
Qed.
Print Assumptions C131_start_above_refuted.

(* second of two layers of 10 and 300 um: between the depths 10 and 310 *)
Example C131_example : exists z d, stack_start (padded [10; 300]) (start_vector 5 0 0) 2 3 2 1 = Ok (mkv 2 3 z, d, 2%Z) /\ -310 < z < -10.
Proof.
  pose proof PI_RGT_0. destruct (stack_down 5 0 0 2 3) with (ws := [10; 300]) (m := 1%nat) as [z [d [A [B _]]]]; cbn [length nth]; try lra; try lia.
  exists z, d. split; [exact A|]. unfold depth in B. cbn in B. lra.
Qed.

(* ---------- C132 ---------- *)

(* the translation leaves the height and the direction, moves by whole periods, and brings the crossing of the height
   zcov into the cell when the cell starts at (0, 0) *)
Theorem C132_moved_into_cell_partial : forall Lx Ly zcov r d, 0 < Lx -> 0 < Ly -> vz d <> 0 ->
  exists p, place Lx Ly zcov (Some r) d = Some p /\ vz p = vz r /\ crosses_cell 0 0 Lx Ly zcov p d /\
    exists j k : Z, vx p = vx r + IZR j * Lx /\ vy p = vy r + IZR k * Ly.
Proof. exact place_zero. Qed.
Print Assumptions C132_moved_into_cell_partial.

(* and only then: a cell with another corner (x0, y0) is missed by some ray *)
Theorem C132_moved_into_cell_refuted : forall x0 y0 Lx Ly zcov, 0 < Lx -> 0 < Ly -> x0 <> 0 \/ y0 <> 0 ->
  exists r d p, vz d <> 0 /\ place Lx Ly zcov (Some r) d = Some p /\ ~ crosses_cell x0 y0 Lx Ly zcov p d.
Proof. exact place_misses. Qed.
Print Assumptions C132_moved_into_cell_refuted.

Example C132_example : exists p, place 2 2 0 (Some (mkv 5 (-1) 3)) (mkv 0 0 (-1)) = Some p /\ vx p = 1 /\ vy p = 1.
Proof.
  destruct (place_zero 2 2 0 (mkv 5 (-1) 3) (mkv 0 0 (-1))) as [p [A [B [C [j [k [D E]]]]]]]; cbn [vz]; try lra.
  exists p. split; auto. destruct C as [t [_ [C1 C2]]]. cbn [vx vy vz] in *.
  assert (j = (-2)%Z). { assert (-3 < j < -1)%Z; [|lia]. split; apply lt_IZR; lra. }
  assert (k = 1%Z). { assert (0 < k < 2)%Z; [|lia]. split; apply lt_IZR; lra. }
  subst. lra.
Qed.

(* ---------- C133 ---------- *)

(* the new start is on the side of the surface the ray comes from, beyond all its points; the ray crosses the height
   zcov at (u Lx, v Ly); its direction is kept (a horizontal ray gets a slope towards the surface); the translation
   that follows does nothing *)
Theorem C133_randomized_start : forall Lx Ly zmin zmax zcov u v direction d,
  0 < Lx -> 0 < Ly -> zmin <= zcov <= zmax -> 0 <= u < 1 -> 0 <= v < 1 -> (direction = 1 \/ direction = -1)%Z ->
  let '(p, d') := randomized Lx Ly zmin zmax zcov u v direction d in
  (vz d <> 0 -> d' = d) /\ vz d' <> 0 /\ vx d' = vx d /\ vy d' = vy d /\
  (vz d = 0 -> (direction = 1%Z -> vz d' < 0) /\ (direction = (-1)%Z -> 0 < vz d')) /\
  (vz d' < 0 -> zmax < vz p) /\ (0 < vz d' -> vz p < zmin) /\
  (exists t, 0 < t /\ vadd p (vscale t d') = mkv (u * Lx) (v * Ly) zcov) /\
  place Lx Ly zcov (Some p) d' = Some p.
Proof. exact randomized_ok. Qed.
Print Assumptions C133_randomized_start.

Example C133_example : vz (fst (randomized 4 4 (-3) 0 0 (1 / 2) (1 / 4) (-1) (mkv 0 0 1))) < -3.
Proof.
  pose proof (randomized_ok 4 4 (-3) 0 0 (1 / 2) (1 / 4) (-1) (mkv 0 0 1)) as H.
  destruct (randomized 4 4 (-3) 0 0 (1 / 2) (1 / 4) (-1) (mkv 0 0 1)) as [p d]. cbn [fst].
  destruct H as [A [_ [_ [_ [_ [_ [B _]]]]]]]; try lra; auto. apply B. rewrite A; cbn [vz]; lra.
Qed.

(* ---------- C134 ---------- *)

(* no object that existed before is changed, in particular no texture; surface i is texture i lowered by the widths
   above it (um); also when a texture is used several times *)
Theorem C134_structure_copies_textures : forall M S textures (materials : list M) widths incidence transmission,
  (forall o, In o textures -> exists s, surface_at S o = Some s) -> (length textures <= length widths + 1)%nat ->
  exists S' surfaces cw, new_rt_structure S textures materials widths incidence transmission =
      Ok (S', surfaces, incidence :: materials ++ [transmission], cw) /\
    length surfaces = length textures /\
    (forall o s, surface_at S o = Some s -> surface_at S' o = Some s) /\
    (forall i o, nth_error textures i = Some o -> exists q s s', nth_error surfaces i = Some q /\
       surface_at S o = Some s /\ surface_at S' q = Some s' /\ lowered (10 ^ 6 * depth widths i) s s').
Proof. exact @structure_ok. Qed.
Print Assumptions C134_structure_copies_textures.

(* one flat texture used twice, the second time 300 um down *)
Definition flat_surface : rtsurf :=
  {| su_simp := [(0, 1, 2)%nat]; su_pts := [mkv 0 0 0; mkv 1 0 0; mkv 0 1 0]; su_orig := []; su_hind := 0;
     su_tris := []; su_cross := []; su_N := []; su_Lx := 1; su_Ly := 1; su_xmin := 0; su_xmax := 1; su_ymin := 0; su_ymax := 1;
     su_zmin := 0; su_zmax := 0; su_zcov := 0; su_dist := None |}.
Example C134_example : exists S' a b s' cw,
  new_rt_structure {| arrays := [su_pts flat_surface]; objects := [{| so_pts := 0; so_rest := flat_surface |}] |}
    [0; 0]%nat ["Si"%string] [3 / 10 ^ 4] "Air"%string "Air"%string = Ok (S', [a; b], ["Air"; "Si"; "Air"]%string, cw) /\
  surface_at S' 0%nat = Some flat_surface /\ surface_at S' b = Some s' /\ su_zcov s' = -300.
Proof.
  destruct (structure_ok {| arrays := [su_pts flat_surface]; objects := [{| so_pts := 0; so_rest := flat_surface |}] |}
    [0; 0]%nat ["Si"%string] [3 / 10 ^ 4] "Air"%string "Air"%string) as [S' [su [cw [E [L [K1 K2]]]]]].
  { intros o [<-|[<-|[]]]; exists flat_surface; reflexivity. }
  { cbn. lia. }
  destruct su as [|a [|b [|]]]; try discriminate L.
  destruct (K2 1%nat 0%nat eq_refl) as [q [s [s' [H1 [H2 [H3 H4]]]]]]. injection H1 as <-.
  exists S', a, b, s', cw. split; [exact E|]. split; [apply K1; reflexivity|]. split; auto.
  injection H2 as <-. destruct H4 as [_ [_ [H4 _]]]. rewrite H4. unfold depth. cbn. lra.
Qed.

(* ---------- C135 ---------- *)

(* with one material between every two textures: one table for each interface with layers, for its layers and the media
   above and below it in the list of media of the structure; the lists for the other interfaces stay aligned *)
Theorem C135_tables_requested : forall M L (lw : L -> R) textures (materials : list M) inc trn,
  length textures = S (length materials) ->
  exists qs infos, make_lookuptable_rt_structure lw textures materials inc trn = Ok (qs, infos) /\
    length infos = length textures /\
    (forall q, In q qs -> exists i t, nth_error textures i = Some t /\ q_name q = rt_lookup_name (x_name t) i) /\
    (forall i t, nth_error textures i = Some t -> exists f, nth_error infos i = Some f /\
      match x_layers t with
      | None => ii_tmm f = 0%nat /\ ii_n f = 0%nat
      | Some layers => ii_tmm f = 1%nat /\ ii_n f = length layers /\
          ii_widths f = Some (map (fun l => lw l * 10 ^ 9) layers) /\ ii_prof f = x_prof t /\
          exists q, In q qs /\ q_layers q = layers /\ q_name q = rt_lookup_name (x_name t) i /\
            nth_error (inc :: materials ++ [trn]) i = Some (q_inc q) /\
            nth_error (inc :: materials ++ [trn]) (S i) = Some (q_trn q) /\
            q_coh q = x_coh t /\ q_prof q = x_prof t /\ (q_coherent q = true <-> x_coh t = None)
      end).
Proof. exact @tables_ok. Qed.
Print Assumptions C135_tables_requested.

Definition coated : texture R := {| x_name := "top"; x_layers := Some [1 / 10 ^ 7]; x_coh := None; x_prof := Some [1%Z] |}.
Definition bare : texture R := {| x_name := "mid"; x_layers := None; x_coh := None; x_prof := None |}.
Example C135_example : exists qs infos q, make_lookuptable_rt_structure (fun w => w) [bare; coated] ["Si"%string] "Air"%string "Ag"%string = Ok (qs, infos) /\
  In q qs /\ q_name q = "topint_1"%string /\ q_inc q = "Si"%string /\ q_trn q = "Ag"%string.
Proof.
  destruct (tables_ok (fun w : R => w) [bare; coated] ["Si"%string] "Air"%string "Ag"%string eq_refl) as [qs [infos [E [_ [_ H]]]]].
  destruct (H 1%nat coated eq_refl) as [f [_ [_ [_ [_ [_ [q [Q1 [_ [Q2 [Q3 [Q4 _]]]]]]]]]]]].
  exists qs, infos, q. injection Q3 as Q3. injection Q4 as Q4. rewrite Q2. auto.
Qed.

(* ---------- C136 ---------- *)

(* too few widths are noticed, as IndexError *)
Theorem C136_counts_checked_partial : forall M S textures (materials : list M) widths incidence transmission,
  (forall o, In o textures -> exists s, surface_at S o = Some s) -> (length widths + 1 < length textures)%nat ->
  new_rt_structure S textures materials widths incidence transmission = Err IndexError.
Proof. exact @structure_too_many. Qed.
Print Assumptions C136_counts_checked_partial.

(* as many materials as textures: the structure is built without error; the table of the last interface is for the
   given transmission medium, the list of media has the last material at that place *)
Theorem C136_counts_checked_refuted : forall M L (lw : L -> R) S objs textures (materials : list M) widths inc trn t l,
  (forall o, In o objs -> exists s, surface_at S o = Some s) -> length objs = length textures ->
  length materials = length textures -> length widths = length materials -> textures <> [] ->
  last textures t = t -> x_layers t = Some l ->
  exists S' surfaces mats cw qs infos q,
    new_rt_structure S objs materials widths inc trn = Ok (S', surfaces, mats, cw) /\
    make_lookuptable_rt_structure lw textures materials inc trn = Ok (qs, infos) /\ In q qs /\
    q_name q = rt_lookup_name (x_name t) (length textures - 1) /\ q_trn q = trn /\
    nth_error mats (length textures) = Some (last materials inc).
Proof.
  intros M L lw S objs textures materials widths inc trn t l H1 H2 H3 H4 H5 H6 H7.
  destruct (structure_ok S objs materials widths inc trn H1) as [S' [su [cw [E _]]]]; [lia|].
  destruct (tables_extra lw textures materials inc trn t l) as [qs [infos [q [A [B [C [D F]]]]]]]; auto.
  exists S', su, (inc :: materials ++ [trn]), cw, qs, infos, q. auto 10.
Qed.
Print Assumptions C136_counts_checked_refuted.

Example C136_example : exists qs infos q, make_lookuptable_rt_structure (fun w => w) [coated] ["Si"%string] "Air"%string "Ag"%string = Ok (qs, infos) /\
  In q qs /\ q_trn q = "Ag"%string /\ nth_error ["Air"; "Si"; "Ag"]%string 1 = Some "Si"%string.
Proof.
  destruct (tables_extra (fun w : R => w) [coated] ["Si"%string] "Air"%string "Ag"%string coated [1 / 10 ^ 7]) as [qs [infos [q [A [B [_ [D _]]]]]]];
    auto; [discriminate|]. exists qs, infos, q. auto.
Qed.

(* ---------- C137 ---------- *)

(* row i of the absorption and of the profile of interface j is what wavelength i gave for interface j; an interface
   without profile has none at any wavelength *)
Theorem C137_results_by_wavelength : forall P n_layers (wls : list (list (list R) * list (list P))) m,
  (forall w, In w wls -> length (fst w) = length n_layers /\ length (snd w) = length n_layers /\
     forall j, (j < length n_layers)%nat -> length (nth j (fst w) []) = nth j n_layers 0%nat /\ length (nth j (snd w) []) = m j) ->
  exists A Q, assemble n_layers wls = Ok (A, Q) /\ length A = length n_layers /\ length Q = length n_layers /\
    forall j, (j < length n_layers)%nat -> nth j A [] = map (fun w => nth j (fst w) []) wls /\
      nth j Q [] = if Nat.ltb 0 (m j) then map (fun w => nth j (snd w) []) wls else [].
Proof. exact @assemble_ok. Qed.
Print Assumptions C137_results_by_wavelength.

Example C137_example : assemble [0; 2]%nat [([[]; [1; 2]], [[]; [5]]); ([[]; [3; 4]], [[]; [6]])] =
  Ok ([[[]; []]; [[1; 2]; [3; 4]]], [[]; [[5]; [6]]]).
Proof. reflexivity. Qed.

(* ---------- C138 ---------- *)

(* all rays have the incidence direction (0 replaced by 1e-4); as many directions as every bin would get *)
Theorem C138_only_incidence_partial : forall g n_angles theta phi, (0 < length (g_av g) / 2)%nat ->
  exists ds, incidence_directions g n_angles theta (PhiNum phi) = Ok ds /\
    (forall d, In d ds -> d = (if Reqb theta 0 then 1 / 10 ^ 4 else theta, if Reqb phi 0 then 1 / 10 ^ 4 else phi)) /\
    (n_angles <= length ds * (length (g_av g) / 2) < n_angles + length (g_av g) / 2)%nat.
Proof. exact directions_num. Qed.
Print Assumptions C138_only_incidence_partial.

(* phi_in = "all" *)
Theorem C138_only_incidence_refuted : forall g n_angles theta, (0 < n_angles)%nat -> (0 < length (g_av g) / 2)%nat ->
  incidence_directions g n_angles theta PhiAll = Err TypeError.
Proof. exact directions_all. Qed.
Print Assumptions C138_only_incidence_refuted.

Example C138_example : exists g ds, make_angle_vector 2 (PI / 2) (1 / 4) SpSin = Ok g /\ (0 < length (g_av g) / 2)%nat /\
  incidence_directions g 10 0 (PhiNum 1) = Ok ds /\ forall d, In d ds -> d = (1 / 10 ^ 4, 1).
Proof.
  pose proof PI_RGT_0. eexists. destruct (directions_num (grid_of_edges (theta_edges SpSin 2) (PI / 2) (1 / 4)) 10 0 1) as [ds [A [B _]]]; [apply half_pos; lia || lra|].
  exists ds. split; [reflexivity|]. split; [apply half_pos; lia || lra|]. split; [exact A|]. intros d Hd. rewrite (B d Hd).
  unfold nudged. rewrite Reqb_refl. rewrite (proj2 (Reqb_false 1 0)) by lra. auto.
Qed.

(* ---------- C139 ---------- *)

(* off the edges of the bins (or at 0, when no bin ends below 1e-4) the rays are counted in the column that carries the
   incident power in calculate_RAT *)
Theorem C139_incidence_column_partial : forall n phi_sym c sp g m,
  valid_request n phi_sym c -> make_angle_vector n phi_sym c sp = Ok g -> m_fold m phi_sym ->
  forall theta phi psi (q : Z) tmm nwl, 0 <= theta < PI / 2 -> 0 <= phi ->
    0 <= psi < phi_sym -> phi = psi + IZR q * phi_sym -> (psi = 0 -> phi = 0) ->
    (theta = 0 \/ off_edges (g_theta_intv g) theta) -> (psi = 0 \/ off_azimuths g psi) ->
    (forall j, (j < length (g_theta_intv g))%nat -> 0 < nth j (g_theta_intv g) 0 -> 1 / 10 ^ 4 < nth j (g_theta_intv g) 0) ->
    (forall i j, (j < length (phi_edges_of g i))%nat -> 0 < nth j (phi_edges_of g i) 0 -> 1 / 10 ^ 4 < nth j (phi_edges_of g i) 0) ->
    exists k row, (forall ds n_angles d, incidence_directions g n_angles theta (PhiNum phi) = Ok ds -> In d ds ->
        full_bin tmm g (fst d) (fold_phi (snd d) phi_sym) = Ok (Z.of_nat k)) /\
      make_v0 g theta (fold_phi_in (PhiNum phi) phi_sym) nwl = Ok (repeat row nwl) /\
      (k < length row)%nat /\ length (g_av g) = (2 * length row)%nat /\
      forall k', nth k' row 0 = if Nat.eqb k' k then 1 else 0.
Proof.
  intros n phi_sym c sp g m Hv Hg Hm theta phi psi q tmm nwl H1 H2 H3 H4 H5 H6 H7 H8 H9.
  destruct (column n phi_sym c sp g m Hv Hg Hm theta phi psi q tmm nwl) as [k [row [A B]]]; auto.
  exists k, row. split; [|exact B]. intros ds n_angles d Hd Hin. rewrite (repeated _ _ _ _ _ Hd d Hin). exact A.
Qed.
Print Assumptions C139_incidence_column_partial.

(* theta_in on an edge between two polar bins: every ray is counted in the lower bin, in a column without incident power *)
Theorem C139_incidence_column_refuted : forall n phi_sym c sp g m,
  valid_request n phi_sym c -> make_angle_vector n phi_sym c sp = Ok g -> m_fold m phi_sym ->
  forall i phi tmm nwl, (1 <= i < n)%nat -> 0 < phi < phi_sym -> let theta := nth i (g_theta_intv g) 0 in
    exists kr r row, (forall ds n_angles d, incidence_directions g n_angles theta (PhiNum phi) = Ok ds -> In d ds ->
        full_bin tmm g (fst d) (fold_phi (snd d) phi_sym) = Ok (Z.of_nat kr)) /\
      nth_error (g_av g) kr = Some r /\ a_ring r = (i - 1)%nat /\ (kr < length row)%nat /\
      make_v0 g theta (fold_phi_in (PhiNum phi) phi_sym) nwl = Ok (repeat row nwl) /\
      nth kr row 0 = 0 /\ rsum row = 1.
Proof.
  intros n phi_sym c sp g m Hv Hg Hm i phi tmm nwl Hi Hphi theta.
  destruct (column_edge n phi_sym c sp g m Hv Hg Hm i phi tmm nwl Hi Hphi) as [kr [r [row [A B]]]].
  exists kr, r, row. split; [|exact B]. intros ds n_angles d Hd Hin. rewrite (repeated _ _ _ _ _ Hd d Hin). exact A.
Qed.
Print Assumptions C139_incidence_column_refuted.

(* 30 degrees with two polar bins spaced in the sine *)
Example C139_example : exists g, make_angle_vector 2 (PI / 2) (1 / 4) SpSin = Ok g /\ nth 1 (g_theta_intv g) 0 = PI / 6 /\
  valid_request 2 (PI / 2) (1 / 4) /\ m_fold 4 (PI / 2).
Proof.
  pose proof PI_RGT_0. eexists. split; [reflexivity|].
  assert (V : valid_request 2 (PI / 2) (1 / 4)) by (split; [lia|split; lra]).
  split.
  - pose proof (C01_edges 2 (PI / 2) (1 / 4) SpSin _ V eq_refl) as [_ [_ [_ [_ [_ [_ H1]]]]]]. specialize (H1 1%nat ltac:(lia)).
    cbn beta iota in H1.
    change (nth 1 (g_theta_intv (grid_of_edges (theta_edges SpSin 2) (PI / 2) (1 / 4))) 0) with (asin (0 + INR 1 * ((1 - 0) / INR 2))).
    replace (0 + INR 1 * ((1 - 0) / INR 2)) with (1 / 2) by (cbn; lra). rewrite <- sin_PI6. apply asin_sin. lra.
  - split; auto. split; [lia|]. cbn. lra.
Qed.

(* normal incidence, azimuth 0 *)
Example C139_example_normal : exists g k row, make_angle_vector 2 (PI / 2) (1 / 4) SpSin = Ok g /\
  (forall ds n_angles d, incidence_directions g n_angles 0 (PhiNum 0) = Ok ds -> In d ds ->
     full_bin false g (fst d) (fold_phi (snd d) (PI / 2)) = Ok (Z.of_nat k)) /\
  make_v0 g 0 (fold_phi_in (PhiNum 0) (PI / 2)) 1 = Ok [row] /\ nth k row 0 = 1.
Proof.
  pose proof PI_RGT_0. pose proof PI2_1.
  assert (V : valid_request 2 (PI / 2) (1 / 4)) by (split; [lia|split; lra]).
  set (g := grid_of_edges (theta_edges SpSin 2) (PI / 2) (1 / 4)).
  assert (E : make_angle_vector 2 (PI / 2) (1 / 4) SpSin = Ok g) by reflexivity.
  destruct (C01_edges 2 (PI / 2) (1 / 4) SpSin g V E) as [L [Inc [E0 [E1 [_ [_ Es]]]]]].
  destruct (C01_rings 2 (PI / 2) (1 / 4) SpSin g V E) as [LP PR].
  assert (T1 : 1 / 10 ^ 4 < nth 1 (g_theta_intv g) 0).
  { specialize (Es 1%nat ltac:(lia)). cbn beta iota in Es. pose proof (Inc 0%nat 1%nat ltac:(lia)).
    assert (sin (nth 1 (g_theta_intv g) 0) < nth 1 (g_theta_intv g) 0) by (apply sin_lt_x; lra). cbn [INR] in Es. lra. }
  destruct (C139_incidence_column_partial 2 (PI / 2) (1 / 4) SpSin g 4 V E) with (theta := 0) (phi := 0) (psi := 0) (q := 0%Z) (tmm := false) (nwl := 1%nat)
    as [k [row [A [B [Hk [_ One]]]]]]; try lra; auto.
  - split; [lia|]. cbn [INR]. lra.
  - intros j Hj Hp. destruct j as [|[|j]]; [lra|auto|]. pose proof (Inc 1%nat (S (S j)) ltac:(lia)). lra.
  - intros i j Hj Hp.
    assert (Hi : (i < 4)%nat).
    { destruct (Nat.lt_ge_cases i 4); auto. unfold phi_edges_of in Hj. rewrite nth_overflow in Hj by (rewrite LP; lia). cbn in Hj. lia. }
    destruct (PR i ltac:(lia)) as [_ [_ [P0 [P1 _]]]].
    assert (Len : (length (phi_edges_of g i) <= 2)%nat).
    { assert (G : forall i, (i < 2)%nat -> (length (phi_edges_of g i) <= 2)%nat).
      { intros i' Hi'. destruct (PR i' ltac:(lia)) as [_ [_ [_ [_ B]]]]. specialize (B Hi'). destruct B as [_ B].
        assert (INR (i' + 1) <= 2) by (apply (le_INR (i' + 1) 2); lia).
        destruct (Nat.le_gt_cases (length (phi_edges_of g i')) 2) as [|X]; auto. exfalso.
        assert (2 <= INR (length (phi_edges_of g i') - 1)) by (apply (le_INR 2); lia). lra. }
      destruct (Nat.lt_ge_cases i 2); [auto|]. destruct (PR (3 - i)%nat ltac:(lia)) as [B _].
      replace (2 * 2 - 1 - (3 - i))%nat with i in B by lia. rewrite B. apply G. lia. }
    destruct j as [|j]; [lra|]. assert (j = 0)%nat by lia. subst j.
    replace (length (phi_edges_of g i) - 1)%nat with 1%nat in P1 by lia. rewrite P1. lra.
  - exists g, k, row. split; [exact E|]. split; [exact A|]. split; [exact B|]. rewrite One, Nat.eqb_refl. auto.
Qed.

(* ---------- C140 ---------- *)

(* an interface with one texture: from the rear, the media change places, the flipped texture is used and the sides of
   the lookup table are exchanged *)
Theorem C140_rear_incidence_partial : forall M S (inc trn : M) (front rear : S) k, (k = 1 \/ k = -1)%Z ->
  rt_media Rear inc trn None = rev (rt_media Front inc trn None) /\
  rt_surfaces Front [(front, rear)] = [front] /\ rt_surfaces Rear [(front, rear)] = [rear] /\
  table_side Front k = Ok k /\ table_side Rear k = Ok (- k)%Z.
Proof. intros M S inc trn front rear k [-> | ->]; repeat split. Qed.
Print Assumptions C140_rear_incidence_partial.

(* several textures: the inner media and the textures are met in the same order as from the front, so the order is
   reversed only for a symmetric list *)
Theorem C140_rear_incidence_refuted : forall M S (inc trn : M) inner (textures : list (S * S)),
  (rt_media Rear inc trn (Some inner) = rev (rt_media Front inc trn (Some inner)) <-> inner = rev inner) /\
  (rt_surfaces Rear textures = rev (map snd textures) <-> map snd textures = rev (map snd textures)).
Proof. intros. split; [apply rear_order|apply rear_surfaces]. Qed.
Print Assumptions C140_rear_incidence_refuted.

Example C140_example : rt_media Rear 1 4 (Some [2; 3]) = [4; 2; 3; 1].
Proof. reflexivity. Qed.
