(* C27-C32, C77-C79: rays through a stack of layers. *)
From Coq Require Import Reals List Bool ZArith Lra Lia.
From Verif Require Import Base Lib Model_RayIface Model_RayStack Spec_RayIface Spec_RayStack
  Proof_RayStack Proof_RayEnergy Proof_RayProfile Proof_RayProfile2 Proof_RayStackEx Proof_RayStackProps.
Import ListNotations.
Open Scope R_scope.

(* C27: power out + bulk absorption + interface absorption = 1; every share is >= 0; only a ray cut
   off in a bulk layer is written off, and then it holds less than I_thresh. *)
Theorem C27_energy : forall K ws m0 d0 outs fuel st,
  stack_of K ws -> good_start ws m0 d0 -> proper_path d0 outs ->
  single_ray_stack fuel K m0 d0 outs = Some (Ok st) ->
  s_I st + rsum (s_A st) + rsum (s_Aint st) = 1 /\
  0 <= s_I st <= 1 /\ (forall i, 0 <= nth i (s_A st) 0) /\ (forall a, In a (s_Aint st) -> 0 <= a) /\
  (s_theta st = None -> s_I st < k_thresh K /\ (s_Aint st <> [] -> s_I st = 0)).
Proof. exact ray_energy_full. Qed.
Print Assumptions C27_energy.
Example C27_energy_ex : stack_of ex_K [1] /\ good_start [1] 0 1 /\ proper_path 1 ex_outs /\
  exists st, single_ray_stack 2 ex_K 0 1 ex_outs = Some (Ok st) /\ s_I st = exp (-1).
Proof. exact ex_energy. Qed.

(* C28: at the head of the loop, direction, medium and next surface are those of the path told by the
   outcomes, and inside the structure. *)
Theorem C28_bookkeeping : forall K ws m0 d0 outs k st,
  stack_of K ws -> good_start ws m0 d0 -> reach K m0 d0 outs k st ->
  s_dir st = heading d0 outs k /\ s_mat st = medium m0 d0 outs k /\ s_surf st = ahead m0 d0 outs k /\
  (0 <= ahead m0 d0 outs k <= Z.of_nat (length ws))%Z /\ pm1 (heading d0 outs k) /\
  ((1 <= k)%nat -> (1 <= medium m0 d0 outs k <= Z.of_nat (length ws))%Z).
Proof. exact bookkeeping. Qed.
Print Assumptions C28_bookkeeping.
Example C28_bookkeeping_ex : exists st, reach trap_K 0 1 trap_outs 7 st /\ s_dir st = 1%Z /\ s_mat st = 1%Z.
Proof. exact ex_bookkeeping. Qed.

(* C28: no exception; the ray ends by leaving at the front or rear or by absorption, has been in bulk
   layers in between, and nothing is absorbed in the outer media. *)
Theorem C28_ending : forall K ws m0 d0 outs fuel o,
  stack_of K ws -> good_start ws m0 d0 -> proper_path d0 outs ->
  single_ray_stack fuel K m0 d0 outs = Some o ->
  exists k st, o = Ok st /\ (k < fuel)%nat /\ ending K ws m0 d0 outs k st /\
    (forall j, (1 <= j <= k)%nat -> (1 <= medium m0 d0 outs j <= Z.of_nat (length ws))%Z) /\
    nth 0 (s_A st) 0 = 0 /\ nth (S (length ws)) (s_A st) 0 = 0.
Proof. exact ending_full. Qed.
Print Assumptions C28_ending.
Example C28_ending_ex : exists st, single_ray_stack 2 ex_K 0 1 ex_outs = Some (Ok st) /\
  ending ex_K [1] 0 1 ex_outs 1 st /\ s_theta st = Some PI.
Proof. exact ex_ending. Qed.

(* C29: R + T + A over the traced rays; what is missing belongs to rays cut off in a bulk layer. *)
Theorem C29_totals : forall K ws rays, stack_of K ws -> rays <> [] ->
  (forall r, In r rays -> traced K ws r) ->
  let t := calculate_totals K rays in
  let total := t_R t + t_T t + rsum (t_A t) + rsum (t_Aint t) in
  1 - k_thresh K <= total <= 1 /\ 0 <= t_R0 t <= t_R t /\ 0 <= t_T t /\
  length (t_A t) = length ws /\ (forall a, In a (t_A t) -> 0 <= a) /\
  (forall a, In a (t_Aint t) -> 0 <= a) /\
  (total < 1 -> exists r, In r rays /\ s_theta r = None /\ s_Aint r = []).
Proof. exact totals_energy. Qed.
Print Assumptions C29_totals.
Example C29_totals_ex : exists r, traced ex_K [1] r.
Proof. exact ex_traced. Qed.

(* C29: R counts the rays that left at the front, T those that left at the rear. *)
Theorem C29_sides : forall K ws m0 d0 outs k st,
  good_start ws m0 d0 -> proper_path d0 outs -> ending K ws m0 d0 outs k st ->
  (refl st = true <-> (medium m0 d0 outs (S k) = 0%Z /\ heading d0 outs (S k) = (-1)%Z /\
                       s_theta st <> None)) /\
  (trns st = true <-> (medium m0 d0 outs (S k) = (Z.of_nat (length ws) + 1)%Z /\
                       heading d0 outs (S k) = 1%Z /\ s_theta st <> None)).
Proof. exact exit_side_angle. Qed.
Print Assumptions C29_sides.
Example C29_sides_ex : exists st, ending ex_K [1] 0 1 ex_outs 1 st /\ trns st = true /\ refl st = false.
Proof. exact ex_sides. Qed.

(* C29: R, T, R0 and the layer and interface absorption are the means of what the single rays carry. *)
Theorem C29_means : forall K ws rays, stack_of K ws ->
  let t := calculate_totals K rays in
  let mean f := rsum (map f rays) / INR (length rays) in
  t_R t = mean (fun r => if refl r then s_I r else 0) /\
  t_T t = mean (fun r => if trns r then s_I r else 0) /\
  t_R0 t = mean (fun r => if refl r then (if Nat.eqb (s_passes r) 0 then s_I r else 0) else 0) /\
  (forall i, (i < length ws)%nat -> nth i (t_A t) 0 = mean (fun r => nth (S i) (s_A r) 0)) /\
  length (t_Aint t) = S (length ws) /\
  (forall i, (i <= length ws)%nat ->
     nth i (t_Aint t) 0 = mean (fun r => if Z.eqb (s_Aidx r) (Z.of_nat i + 1) then rsum (s_Aint r) else 0)).
Proof. exact totals_means. Qed.
Print Assumptions C29_means.
Example C29_means_ex : stack_of ex_K [1] /\ exists r, traced ex_K [1] r.
Proof. split; [exact ex_stack|exact ex_traced]. Qed.

(* C30: for one ray and for the result of calculate (per nm, depths in nm). *)
Theorem C30_ray : forall K ws m0 d0 outs,
  stack_of K ws -> good_start ws m0 d0 -> proper_path d0 outs ->
  (forall j, (S j < length (k_zpos K))%nat -> nth j (k_zpos K) 0 < nth (S j) (k_zpos K) 0) ->
  forall fuel st i, single_ray_stack fuel K m0 d0 outs = Some (Ok st) ->
  (1 <= i <= length ws)%nat -> (2 <= length (layer_depths ws (k_zpos K) i))%nat ->
  trapz (layer_values ws (k_zpos K) (s_profile st) i) (layer_depths ws (k_zpos K) i) = nth i (s_A st) 0.
Proof. exact ray_profile. Qed.
Print Assumptions C30_ray.
Theorem C30_calculate : forall K ws rays i, stack_of K ws ->
  (forall j, (S j < length (k_zpos K))%nat -> nth j (k_zpos K) 0 < nth (S j) (k_zpos K) 0) ->
  (forall r, In r rays -> traced K ws r) ->
  (1 <= i <= length ws)%nat -> (2 <= length (layer_depths ws (k_zpos K) i))%nat ->
  let t := calculate_totals K rays in
  trapz (layer_values ws (k_zpos K) (t_profile t) i)
        (map (fun z => 1000 * z) (layer_depths ws (k_zpos K) i)) = nth (i - 1) (t_A t) 0.
Proof. exact totals_profile. Qed.
Print Assumptions C30_calculate.
Example C30_ex : (forall j, (S j < length (k_zpos ex_K))%nat ->
    nth j (k_zpos ex_K) 0 < nth (S j) (k_zpos ex_K) 0) /\
  layer_depths [1] (k_zpos ex_K) 1 = [0; 1 / 4; 1 / 2; 3 / 4].
Proof. split; [exact ex_increasing|exact ex_depths]. Qed.

(* Why two depth points are needed: with fewer the profile stays zero while power is absorbed. *)
Theorem C30_thin_layer : forall width theta alpha I0 pos th d, (length pos < 2)%nat ->
  forall x, In x (tr_DA (traverse width theta alpha I0 pos th d)) -> x = 0.
Proof. exact traverse_thin. Qed.
Print Assumptions C30_thin_layer.
Example C30_thin_layer_ex : exists t, t = traverse 1 PI 1 1 [0] (1 / 100) 1 /\
  tr_I t < 1 /\ tr_DA t = [0].
Proof. exact thin_traverse. Qed.

(* C31 *)
Theorem C31_partition : forall ws sp, (forall w, In w ws -> 0 < w) -> 0 < sp ->
  let z_pos := depth_grid ws sp in
  (forall j, (j < length z_pos)%nat ->
     exists i, (1 <= i <= length ws)%nat /\
       top_of ws i <= nth j z_pos 0 < top_of ws i + nth (i - 1) ws 0 /\
       forall i', (i' < length (padded ws))%nat ->
         (nth j (depth_mask (padded ws) z_pos i') false = true <-> i' = i)) /\
  (forall i, (1 <= i <= length ws)%nat ->
     depths_of (padded ws) z_pos i = layer_depths ws z_pos i).
Proof. exact grid_partition. Qed.
Print Assumptions C31_partition.
Example C31_partition_ex : (3 < length (depth_grid [1%R; (1 / 2)%R] (1 / 4)%R))%nat.
Proof. exact ex_grid. Qed.

(* C32 *)
Theorem C32_attenuation : forall width theta alpha I0 pos th d,
  let t := traverse width theta alpha I0 pos th d in
  tr_I t = I0 * exp (- (alpha * width / Rabs (cos theta))) /\
  (tr_stop t = true <-> tr_I t < th) /\
  tr_theta t = (if Rltb (tr_I t) th then None else Some theta) /\
  length (tr_DA t) = length pos.
Proof. exact traverse_power. Qed.
Print Assumptions C32_attenuation.
Theorem C32_profile : forall width theta alpha I0 pos th d,
  0 <= width -> 0 <= alpha -> 0 < I0 -> cos theta <> 0 ->
  (2 <= length pos)%nat -> (forall i, (S i < length pos)%nat -> nth i pos 0 < nth (S i) pos 0) ->
  let t := traverse width theta alpha I0 pos th d in
  0 < tr_I t <= I0 /\ (forall x, In x (tr_DA t) -> 0 <= x) /\ trapz (tr_DA t) pos = I0 - tr_I t.
Proof. exact traverse_profile. Qed.
Print Assumptions C32_profile.
(* the profile decays along the direction of travel; upwards it is read from the last point back *)
Theorem C32_shape : forall width theta alpha I0 pos th d,
  0 <= alpha -> 0 < I0 -> 0 <= width -> cos theta <> 0 ->
  exists c, 0 <= c /\ forall j, (j < length pos)%nat ->
    nth j (tr_DA (traverse width theta alpha I0 pos th d)) 0 =
    c * exp (- (alpha / Rabs (cos theta)) * nth (if Z.eqb d (-1) then length pos - 1 - j else j) pos 0).
Proof. exact traverse_shape. Qed.
Print Assumptions C32_shape.
Example C32_ex : cos PI <> 0 /\ tr_I (traverse 1 PI 1 1 [0; 1 / 2] (1 / 100) 1) = exp (-1).
Proof. exact ex_traverse. Qed.

(* C77: power after each crossing and absorption of each layer, from the outcomes alone. *)
Theorem C77_path_attenuation : forall K ws m0 d0 outs k st,
  stack_of K ws -> good_start ws m0 d0 -> reach K m0 d0 outs k st ->
  s_I st = power m0 d0 outs K k /\ s_passes st = k /\
  forall i, (i <= S (length ws))%nat -> nth i (s_A st) 0 = lost_in m0 d0 outs K i k.
Proof. exact path_attenuation. Qed.
Print Assumptions C77_path_attenuation.
Theorem C77_final_absorption : forall K ws m0 d0 outs fuel st,
  stack_of K ws -> good_start ws m0 d0 -> proper_path d0 outs ->
  single_ray_stack fuel K m0 d0 outs = Some (Ok st) ->
  forall i, (i <= S (length ws))%nat -> nth i (s_A st) 0 = lost_in m0 d0 outs K i (s_passes st).
Proof. exact final_absorption. Qed.
Print Assumptions C77_final_absorption.
Example C77_ex : power 0 1 ex_outs ex_K 1 = exp (-1) /\
  exists st, single_ray_stack 2 ex_K 0 1 ex_outs = Some (Ok st) /\ nth 1 (s_A st) 0 = 1 - exp (-1).
Proof. exact ex_attenuation. Qed.

(* C78: if every layer absorbs, the number of surface interactions is bounded. *)
Theorem C78_terminates : forall K ws m0 d0 outs c fuel,
  stack_of K ws -> good_start ws m0 d0 -> proper_path d0 outs ->
  0 < c -> (forall i, (i < length ws)%nat -> c <= nth (S i) (k_alphas K) 0 * nth i ws 0) ->
  (1 <= fuel)%nat -> - ln (k_thresh K) < INR fuel * c ->
  exists st, single_ray_stack fuel K m0 d0 outs = Some (Ok st).
Proof. exact absorbing_terminates. Qed.
Print Assumptions C78_terminates.
Example C78_terminates_ex : forall i, (i < length [1])%nat -> 1 <= nth (S i) (k_alphas ex_K) 0 * nth i [1] 0.
Proof. exact ex_absorbing. Qed.
(* A ray trapped between totally reflecting faces of a transparent layer is traced forever. *)
Theorem C78_transparent_never_ends : stack_of trap_K [1] /\ good_start [1] 0 1 /\
  proper_path 1 trap_outs /\ forall fuel, single_ray_stack fuel trap_K 0 1 trap_outs = None.
Proof. exact trapped. Qed.
Print Assumptions C78_transparent_never_ends.

(* C79: a ray started inside an absorbing layer reaches the first surface unattenuated. *)
Theorem C79_start_inside_refuted : exists st,
  stack_of ex_K [1] /\ good_start [1] 1 1 /\ proper_path 1 ex_outs /\
  single_ray_stack 1 ex_K 1 1 ex_outs = Some (Ok st) /\
  s_I st = 1 /\ rsum (s_A st) = 0 /\ exp (- (1 * 1 / Rabs (cos PI))) < 1.
Proof. exact inside_start. Qed.
Print Assumptions C79_start_inside_refuted.
Theorem C79_after_first_surface_partial : forall K ws m0 d0 outs k st,
  stack_of K ws -> good_start ws m0 d0 -> reach K m0 d0 outs (S k) st ->
  s_I st = exp (- rsum (map (crossing m0 d0 outs K) (seq 0 (S k)))).
Proof. exact after_first_surface. Qed.
Print Assumptions C79_after_first_surface_partial.
