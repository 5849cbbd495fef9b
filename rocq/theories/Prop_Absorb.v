(* C64, C119, C120, C121, C126, C127 *)
From Coq Require Import Reals List ZArith Bool Lia Lra.
From Verif Require Import Base Lib Model_TMM Model_Absorb Model_RTProfile Spec_Absorb Spec_RTProfile Proof_Absorb Proof_Absorb2 Proof_Absorb3
  Proof_Absorb4 Proof_Absorb5 Proof_Absorb6 Proof_RTProfile.
Import ListNotations.
Open Scope R_scope.

(* ---------------- C64 ---------------- *)

Theorem C64_generation_matrix_partial : forall (o : aopts) (wf wk : list R) (wb : R) (pf pk : option (list nat)) rest
    (gf gb gk : list (nat -> R -> R)) (nf nb nk : nat),
  0 < ao_d o -> 0 < ao_db o -> ao_bulk o = true -> 0 <= rsum wf ->
  valid_layers wf (layers_of pf) -> valid_layers wk (layers_of pk) ->
  n_points (rsum (nm wf)) (ao_d o * 10 ^ 9) (/ 10 ^ 12) nf ->
  n_points (rsum (nm wk)) (ao_d o * 10 ^ 9) (/ 10 ^ 12) nk ->
  n_points (wb * 10 ^ 6) (ao_db o * 10 ^ 6) (/ 10 ^ 12) nb ->
  0 <= wb -> gf <> [] -> gb <> [] -> gk <> [] ->
  exists g,
    make_absorption_function
      (RMatrix (mm_result true
         [map (fun f => sampled (ao_nwl o) f (depths_in (nm wf) (layers_of pf) (mults (ao_d o * 10 ^ 9) nf))) gf;
          map (fun f => sampled (ao_nwl o) f (depths_in (nm wk) (layers_of pk) (mults (ao_d o * 10 ^ 9) nk))) gk]
         [map (fun f => sampled (ao_nwl o) f (mults (ao_db o) nb)) gb]))
      (SMatrix (EIface wf (option_map (map Z.of_nat) pf) :: EBulk wb :: EIface wk (option_map (map Z.of_nat) pk) :: rest)) o = Ok g /\
    proper (ao_nwl o) g /\
    forall i, (i < ao_nwl o)%nat -> forall x v, node g i x v <->
      (exists m, (m < nf)%nat /\ x = INR m * ao_d o /\
         shown (nm wf) (layers_of pf) (positive_sum gf i) (INR m * (ao_d o * 10 ^ 9)) v) \/
      (exists m, (m < nb)%nat /\ x = rsum wf + INR m * ao_db o /\ v = plain_sum gb i (INR m * ao_db o)) \/
      (exists m, (m < nk)%nat /\ x = rsum wf + wb + INR m * ao_d o /\
         shown (nm wk) (layers_of pk) (positive_sum gk i) (INR m * (ao_d o * 10 ^ 9)) v).
Proof. exact matrix_spec. Qed.
Print Assumptions C64_generation_matrix_partial.

(* the depths at which an interface calculated with TMM tabulates its profile are those assumed above *)
Theorem C64_tmm_layout : forall w d n layers, 0 < d -> n_points (rsum w) d 0 n -> valid_layers w layers ->
  profile_depths w d layers = Ok (depths_in w layers (mults d n)).
Proof. exact tmm_layout. Qed.
Print Assumptions C64_tmm_layout.

Example C64_ex : exists g,
  make_absorption_function
    (RMatrix (mm_result true [[[[5]]; [[-1]]]; [[[7; 8]]]] [[[[1; 2]]]]))
    (SMatrix [EIface [/ 10 ^ 9; / 10 ^ 9] (Some [2%Z]); EBulk 2; EIface [2 / 10 ^ 9] (Some [1%Z])]) (one_nm 1) = Ok g /\
  node g 0 (/ 10 ^ 9) (10 ^ 9 * 5) /\ node g 0 (2 / 10 ^ 9 + 1) 2 /\ node g 0 (2 / 10 ^ 9 + 2 + / 10 ^ 9) (10 ^ 9 * 8).
Proof.
  set (gf := [fun (_ : nat) (_ : R) => 5; fun _ _ => -1]). set (gb := [fun (_ : nat) (x : R) => x + 1]). set (gk := [fun (_ : nat) (x : R) => 7 + x]).
  assert (E2 : / 10 ^ 9 * 10 ^ 9 = 1) by field. assert (E3 : 2 / 10 ^ 9 * 10 ^ 9 = 2) by field.
  assert (P9 : 0 < / 10 ^ 9) by (apply Rinv_0_lt_compat, pow_lt; lra).
  destruct (C64_generation_matrix_partial (one_nm 1) [/ 10 ^ 9; / 10 ^ 9] [2 / 10 ^ 9] 2 (Some [2%nat]) (Some [1%nat]) [] gf gb gk 2 2 2) as (g & G1 & _ & G2);
    try discriminate; auto.
  - cbn [one_nm ao_db]. lra.
  - cbn [rsum]. lra.
  - intros k [<-|[]]; cbn; lia.
  - intros k [<-|[]]; cbn; lia.
  - rewrite one_nm_d. unfold nm. cbn [map rsum]. rewrite E2. split; [simpl; lra|]. right. simpl. lra.
  - rewrite one_nm_d. unfold nm. cbn [map rsum]. rewrite E3. split; [simpl; lra|]. right. simpl. lra.
  - cbn [one_nm ao_db]. split; [simpl; lra|]. right. simpl. lra.
  - lra.
  - exists g. split; [|split; [|split]].
    + rewrite <- G1. f_equal. rewrite one_nm_d. unfold nm. cbn [map layers_of]. rewrite E2, E3, !depths_in_eq, mults2. unfold inb, inside. cbn -[Rleb Rltb Rplus].
      rdec. unfold mm_result, mults. cbn -[Rplus].
      replace (7 + 0) with 7 by lra. replace (7 + 1) with 8 by lra. replace (0 * 1 + 1) with 1 by lra. replace (1 * 1 + 1) with 2 by lra. reflexivity.
    + apply G2; [cbn; lia|]. left. exists 1%nat. split; [lia|]. split; [simpl; lra|]. rewrite one_nm_d. unfold nm. cbn [map]. rewrite E2. split.
      * intros _. unfold positive_sum, gf. cbn [map rsum]. rewrite Rmax_right, Rmax_left by lra. lra.
      * intros H. destruct H. exists 2%nat. split; [left; auto|]. split; [cbn; lia|]. simpl. lra.
    + apply G2; [cbn; lia|]. right. left. exists 1%nat. split; [lia|]. split; [simpl; field|]. unfold plain_sum, gb. simpl. lra.
    + apply G2; [cbn; lia|]. right. right. exists 1%nat. split; [lia|]. split; [simpl; field|]. rewrite one_nm_d. unfold nm. cbn [map]. rewrite E3. split.
      * intros _. unfold positive_sum, gk. cbn [map rsum]. rewrite Rmax_right by (simpl; lra). simpl. lra.
      * intros H. destruct H. exists 1%nat. split; [left; auto|]. split; [cbn; lia|]. simpl. lra.
Qed.

(* with recorded passes for one interface only (or none) there is no result *)
Theorem C64_generation_one_interface_refuted :
  (forall r A_prof structure o a_prof,
    (length (filter (fun l : list table => negb (Nat.eqb (length l) 0)) a_prof) < 2)%nat -> A_prof <> [] ->
    make_absorption_function (RMatrix (mm_result r a_prof A_prof)) (SMatrix structure) o = Err IndexError) /\
  exists structure o, make_absorption_function (RMatrix (mm_result true [[[[5]]]; []] [[[[1; 2]]]])) (SMatrix structure) o = Err IndexError.
Proof. split; [exact matrix_needs_both|]. exists [EIface [/ 10 ^ 9] (Some [1%Z]); EBulk 2; EIface [] None], (one_nm 1). reflexivity. Qed.
Print Assumptions C64_generation_one_interface_refuted.

(* ---------------- C127 ---------------- *)

Theorem C127_generation_without_bulk_refuted : forall result structure o g,
  ao_bulk o = false -> make_absorption_function (RMatrix result) (SMatrix structure) o <> Ok g.
Proof. exact matrix_needs_bulk. Qed.
Print Assumptions C127_generation_without_bulk_refuted.

Example C127_ex : exists e, make_absorption_function (RMatrix (mm_result true [[[[5]]]; [[[7]]]] [[[[1; 2]]]]))
    (SMatrix [EIface [/ 10 ^ 9] (Some [1%Z]); EBulk 2; EIface [/ 10 ^ 9] (Some [1%Z])]) (mk_aopts 1 (/ 10 ^ 9) 1 false) = Err e.
Proof.
  destruct (make_absorption_function _ _ _) eqn:E; [|eauto]. exfalso. revert E. apply C127_generation_without_bulk_refuted. reflexivity.
Qed.

(* ---------------- C119 ---------------- *)

Theorem C119_generation_rays_partial : forall (o : aopts) (surfs : list surf) (widths : list R) (ifaces : list (option table))
    (fi : nat -> nat -> R -> R) (fb : nat -> R -> R) (ni np : nat -> nat),
  0 < ao_d o -> 0 < ao_db o -> length surfs = S (length widths) -> bulk_grid widths (ao_db o) np ->
  existsb is_tmm (map to_surface surfs) = true ->
  (forall i ws p, nth_error surfs i = Some (Some ws, p) ->
     multiples (ao_d o * 10 ^ 9) ws /\ n_points (rsum ws) (ao_d o * 10 ^ 9) 0 (ni i) /\
     forall l, p = Some l -> ascending l /\ valid_layers ws l /\
       nth_error ifaces i = Some (Some (sampled (ao_nwl o) (fi i) (sample_depths ws (ao_d o * 10 ^ 9) l)))) ->
  let st := mk_rt (map to_surface surfs) widths in
  exists g, make_absorption_function (RRays (mk_rtres (sampled (ao_nwl o) fb (mults (ao_db o) (np (length widths)))) ifaces)) (SRays st (rsum widths)) o = Ok g /\
    proper (ao_nwl o) g /\
    forall w, (w < ao_nwl o)%nat -> forall x v, node g w x v <->
      (exists i ws p m, nth_error surfs i = Some (Some ws, p) /\ (m < ni i)%nat /\ x = depth_of st i + INR m * ao_d o /\
         shown ws (layers_of p) (fi i w) (INR m * (ao_d o * 10 ^ 9)) v) \/
      (exists i m, (i < length widths)%nat /\ (np i <= m < np (S i))%nat /\ x = bulk_top st i + INR (m - np i) * ao_db o /\
         v = 10 ^ 9 * fb w (INR m * ao_db o)).
Proof.
  intros o surfs widths ifaces fi fb ni np H1 H2 H3 H4 H5 H6 st. rewrite dispatch_rays by exact H5. apply rt_ray_spec; assumption.
Qed.
Print Assumptions C119_generation_rays_partial.

Example C119_ex : exists g,
  make_absorption_function (RRays (mk_rtres [[3; 4]] [Some [[5; 6]]; None]))
    (SRays (mk_rt (map to_surface [(Some [1; 2], Some [2%nat]); (None, None)]) [2]) (rsum [2])) (one_nm 1) = Ok g /\
  node g 0 0 0 /\ node g 0 (2 * / 10 ^ 9) (10 ^ 9 * 6) /\ node g 0 (3 / 10 ^ 9 + 1) (10 ^ 9 * 4).
Proof.
  set (np := fun i => match i with 0 => 0 | _ => 2 end%nat).
  assert (P9 : 0 < / 10 ^ 9) by (apply Rinv_0_lt_compat, pow_lt; lra).
  destruct (C119_generation_rays_partial (one_nm 1) [(Some [1; 2], Some [2%nat]); (None, None)] [2] [Some [[5; 6]]; None]
    (fun _ _ x => 4 + x) (fun _ x => 3 + x) (fun _ => 3%nat) np) as (g & G1 & _ & G2); auto.
  - cbn [one_nm ao_db]. lra.
  - cbn [one_nm ao_db]. split; intros i Hi; cbn [length] in Hi.
    + destruct i as [|[|i]]; [| |lia]; (split; [simpl; lra|]); [left; reflexivity|right; simpl; lra].
    + destruct i; [|lia]. cbn. lia.
  - intros [|[|[|i]]] ws p E; try discriminate. injection E as <- <-. rewrite one_nm_d. split; [intros w [<-|[<-|[]]]; [exists 1%nat|exists 2%nat]; simpl; lra|].
    split; [split; [simpl; lra|right; simpl; lra]|]. intros l E. injection E as <-. split; [apply (asc_seq 1 2)|]. split; [intros k [<-|[]]; cbn; lia|].
    unfold sample_depths, z_layer, z_offset. cbn -[arange0 Rplus]. rewrite (arange_n 2 2) by (split; [simpl; lra|right; simpl; lra]). rewrite mults2. cbn -[Rplus].
    do 4 f_equal; [lra|f_equal; lra].
  - assert (D : depth_of (mk_rt (map to_surface [(Some [1; 2], Some [2%nat]); (None, None)]) [2]) 0 = 0) by (unfold depth_of; cbn; lra).
    exists g. split; [|split; [|split]].
    + rewrite <- G1. do 3 f_equal. unfold sampled, mults. cbn -[Rplus]. do 2 f_equal; [lra|f_equal; lra].
    + apply G2; [cbn; lia|]. left. exists 0%nat, [1; 2], (Some [2%nat]), 0%nat. split; auto. split; [lia|]. rewrite D, one_nm_d. split; [simpl; lra|]. split; auto.
      intros (k & [<-|[]] & _ & H). simpl in H. lra.
    + apply G2; [cbn; lia|]. left. exists 0%nat, [1; 2], (Some [2%nat]), 2%nat. split; auto. split; [lia|]. rewrite D, one_nm_d. cbn [one_nm ao_d]. split; [simpl; lra|]. split.
      * intros _. simpl. lra.
      * intros H. destruct H. exists 2%nat. split; [left; auto|]. split; [cbn; lia|]. simpl. lra.
    + apply G2; [cbn; lia|]. right. exists 0%nat, 1%nat. split; [cbn; lia|]. split; [cbn; lia|]. unfold bulk_top. cbn. split; [field|lra].
Qed.

(* without lookup tables: one grid through all layers *)
Theorem C119_generation_fresnel : forall (o : aopts) (widths : list R) ifaces (fb : nat -> R -> R) N n, 0 < ao_db o -> n_points (rsum widths) (ao_db o) 0 N ->
  exists g, make_absorption_function (RRays (mk_rtres (sampled (ao_nwl o) fb (mults (ao_db o) N)) ifaces))
      (SRays (mk_rt (map to_surface (repeat (None, None) n)) widths) (rsum widths)) o = Ok g /\ proper (ao_nwl o) g /\
    forall w, (w < ao_nwl o)%nat -> forall x v, node g w x v <-> exists m, (m < N)%nat /\ x = INR m * ao_db o /\ v = 10 ^ 9 * fb w (INR m * ao_db o).
Proof. exact fresnel_rays. Qed.
Print Assumptions C119_generation_fresnel.

Example C119_fresnel_ex : n_points (rsum [1; 3 / 2]) (ao_db (one_nm 1)) 0 3.
Proof. cbn [one_nm ao_db]. split; [simpl; lra|right; simpl; lra]. Qed.

(* the requested layers in another order: the samples are swapped *)
Theorem C119_generation_layer_order_refuted :
  exists (o : aopts) (ws : list R) (l : list nat) (f : nat -> R -> R) (g : generation) (x v : R),
  0 < ao_d o /\ 0 < ao_db o /\ multiples (ao_d o * 10 ^ 9) ws /\ valid_layers ws l /\ NoDup l /\
  make_absorption_function (RRays (mk_rtres [[]] [Some (sampled 1 f (sample_depths ws (ao_d o * 10 ^ 9) l))])) (SRays (mk_rt [to_surface (Some ws, Some l)] []) 0) o = Ok g /\
  node g 0 x v /\ ~ shown ws l (f 0%nat) (x * 10 ^ 9) v.
Proof. exact order_refuted. Qed.
Print Assumptions C119_generation_layer_order_refuted.

(* widths that are not multiples of the spacing: a depth in layer k shows the sample of another layer *)
Theorem C119_generation_layer_grid_refuted :
  exists (o : aopts) (ws : list R) (l : list nat) (f : nat -> R -> R) (g : generation) (x z : R) (k : nat),
  0 < ao_d o /\ 0 < ao_db o /\ (forall w, In w ws -> 0 < w) /\ valid_layers ws l /\ ascending l /\
  make_absorption_function (RRays (mk_rtres [[]] [Some (sampled 1 f (sample_depths ws (ao_d o * 10 ^ 9) l))])) (SRays (mk_rt [to_surface (Some ws, Some l)] []) 0) o = Ok g /\
  In k l /\ in_layer ws k (x * 10 ^ 9) /\ ~ in_layer ws k z /\ node g 0 x (10 ^ 9 * f 0%nat z) /\ ~ shown ws l (f 0%nat) (x * 10 ^ 9) (10 ^ 9 * f 0%nat z).
Proof. exact grid_refuted. Qed.
Print Assumptions C119_generation_layer_grid_refuted.

(* ---------------- C120 ---------------- *)

(* sample m of the bulk grid belongs at true_at and is shown (C119) at shown_at *)
Theorem C120_bulk_depth_partial : forall (st : rt_object) d np i m,
  0 < d -> bulk_grid (rt_widths st) d np -> (i < length (rt_widths st))%nat -> (np i <= m < np (S i))%nat ->
  let shown_at := bulk_top st i + INR (m - np i) * d in
  let true_at := bulk_top st i + (INR m * d - rsum (firstn i (rt_widths st))) in
  0 <= true_at - shown_at < d /\ (true_at = shown_at <-> rsum (firstn i (rt_widths st)) = INR (np i) * d).
Proof. exact bulk_shift. Qed.
Print Assumptions C120_bulk_depth_partial.

Theorem C120_bulk_depth_refuted :
  exists (o : aopts) (surfs : list surf) (widths : list R) (np : nat -> nat) (fb : nat -> R -> R) (g : generation) (x v : R),
  0 < ao_d o /\ 0 < ao_db o /\ length surfs = S (length widths) /\ bulk_grid widths (ao_db o) np /\
  make_absorption_function (RRays (mk_rtres (sampled 1 fb (mults (ao_db o) (np (length widths)))) [None; None; None]))
    (SRays (mk_rt (map to_surface surfs) widths) (rsum widths)) o = Ok g /\
  node g 0 x v /\ rsum (firstn 1 widths) <= x < rsum widths /\
  bulk_top (mk_rt (map to_surface surfs) widths) 1 = rsum (firstn 1 widths) /\ v <> 10 ^ 9 * fb 0%nat x.
Proof.
  destruct bulk_refuted as (o & surfs & widths & np & fb & g & x & v & H1 & H2 & H3 & H4 & H5 & H6 & H7). exists o, surfs, widths, np, fb, g, x, v.
  rewrite dispatch_rays by exact H5. auto 10.
Qed.
Print Assumptions C120_bulk_depth_refuted.

(* a bulk layer without a grid point: no result *)
Theorem C120_thin_bulk_refuted : exists (o : aopts) (surfs : list surf) (widths : list R) (res : rt_result),
  0 < ao_d o /\ 0 < ao_db o /\ length surfs = S (length widths) /\ (forall w, In w widths -> 0 < w) /\
  existsb is_tmm (map to_surface surfs) = true /\ (forall s, In s surfs -> snd s = None) /\
  make_absorption_function (RRays res) (SRays (mk_rt (map to_surface surfs) widths) (rsum widths)) o = Err ValueError.
Proof.
  destruct thin_bulk_refuted as (o & surfs & widths & res & H1 & H2 & H3 & H4 & H5 & H6 & H7). exists o, surfs, widths, res.
  rewrite dispatch_rays by exact H5. auto 10.
Qed.
Print Assumptions C120_thin_bulk_refuted.

Example C120_ex : bulk_grid [3 / 2; 3 / 2] 1 (fun i => match i with 0 => 0 | 1 => 2 | _ => 3 end%nat).
Proof.
  split; intros i Hi; cbn [length] in Hi.
  - destruct i as [|[|[|i]]]; [| | |lia]; (split; [simpl; lra|]); try (left; reflexivity); right; simpl; lra.
  - destruct i as [|[|i]]; [| |lia]; cbn; lia.
Qed.

(* ---------------- C121 ---------------- *)

Theorem C121_positions_increasing : forall r s o g, 0 < ao_d o -> 0 < ao_db o -> nonneg s -> make_absorption_function r s o = Ok g ->
  increasing_pos (g_pos g) /\ forall x, In x (g_pos g) -> 0 <= x < thickness s.
Proof. exact positions_range. Qed.
Print Assumptions C121_positions_increasing.

Example C121_ex : exists g, make_absorption_function (RProfile [[5; 6]]) (SStack (2 / 10 ^ 9)) (one_nm 1) = Ok g /\ node g 0 (/ 10 ^ 9) (10 ^ 9 * 6).
Proof.
  assert (P9 : 0 < / 10 ^ 9) by (apply Rinv_0_lt_compat, pow_lt; lra).
  destruct (plain_spec 1 (fun _ x => 5 + x) 2 (/ 10 ^ 9) 2 P9) as (g & G1 & _ & G2).
  - rewrite one_d. split; [simpl; lra|right; simpl; lra].
  - exists g. split.
    + cbn [make_absorption_function]. rewrite <- G1. rewrite one_d, mults2. cbn [one_nm ao_d]. f_equal. unfold sampled. cbn -[Rplus]. do 2 f_equal; [lra|f_equal; lra].
    + apply G2; [lia|]. exists 1%nat. split; [lia|]. rewrite one_d. simpl. split; lra.
Qed.

(* ---------------- C126 ---------------- *)

Theorem C126_generation_tmm_partial : forall (M : Type) (st : ostack M) n o (f : nat -> R -> R) N,
  let d := ao_d o in 0 < d -> (forall w, In w (widths_of st) -> 0 <= w) -> n_points (rsum (widths_of st)) (d * 10 ^ 9) 0 N ->
  exists pts g, profile_depths (widths_of st) (d * 10 ^ 9) (all_layers (length (widths_of st))) = Ok pts /\
    make_absorption_function (RProfile (sampled n f pts)) (SStack (ob_width (new_tobj st))) o = Ok g /\ proper n g /\
    forall i, (i < n)%nat -> forall x v, node g i x v <-> exists m, (m < N)%nat /\ x = INR m * d /\ v = 10 ^ 9 * f i (INR m * (d * 10 ^ 9)).
Proof. intros M st n o. exact (fresh_object st n (ao_d o)). Qed.
Print Assumptions C126_generation_tmm_partial.

Example C126_ex : n_points (rsum (widths_of (mk_stack tt [(tt, 1); (tt, 3 / 2)] tt))) (/ 10 ^ 9 * 10 ^ 9) 0 3.
Proof. rewrite one_d. split; [simpl; lra|right; simpl; lra]. Qed.

(* after set_widths *)
Theorem C126_generation_new_widths_refuted : exists (st : ostack unit) (ws pts : list R) (o : aopts) (f : nat -> R -> R),
  let d := ao_d o in 0 < d /\ (forall w, In w ws -> 0 < w) /\ length ws = length (o_layers st) /\
  profile_depths (widths_of (ob_stack (set_widths (new_tobj st) ws))) (d * 10 ^ 9) (all_layers (length ws)) = Ok pts /\
  make_absorption_function (RProfile (sampled 1 f pts)) (SStack (ob_width (set_widths (new_tobj st) ws))) o = Err ValueError.
Proof. destruct stale_width as (st & ws & pts & d & f & H). exists st, ws, pts, (mk_aopts 1 d 1 true), f. exact H. Qed.
Print Assumptions C126_generation_new_widths_refuted.

(* with a profile calculated in some of the layers *)
Theorem C126_generation_some_layers_refuted : exists (st : ostack unit) (layers : list nat) (pts : list R) (o : aopts) (f : nat -> R -> R),
  let d := ao_d o in 0 < d /\ (forall w, In w (widths_of st) -> 0 < w) /\ valid_layers (widths_of st) layers /\
  profile_depths (widths_of st) (d * 10 ^ 9) layers = Ok pts /\
  make_absorption_function (RProfile (sampled 1 f pts)) (SStack (ob_width (new_tobj st))) o = Err ValueError.
Proof. destruct some_layers as (st & l & pts & d & f & H). exists st, l, pts, (mk_aopts 1 d 1 true), f. exact H. Qed.
Print Assumptions C126_generation_some_layers_refuted.
