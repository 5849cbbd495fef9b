(* Witnesses and refutations for the transfer-matrix claims. *)
From Coq Require Import Reals List ZArith Bool Lia Lra String.
From Verif Require Import Base Lib Model_Angles Spec_Angles Proof_AnglesProps Model_Ideal Model_TMM Spec_TMM
  Proof_TMM Proof_TMM2 Proof_TMM3 Proof_RayProfile Proof_RT2.
Import ListNotations.
Local Notation length := List.length.
Open Scope R_scope.

Definition zero_coefs : coefs := mk_coefs 0 0 0 0 0 0.

(* a solver that answers s for s and p for p light, whatever the stack *)
Definition fixed_solver {M} (s p : sol) (alpha : M -> R) : solver M :=
  mk_solver (fun q _ _ => Ok (if String.eqb q "s" then s else p)) (fun q _ _ _ => Ok (if String.eqb q "s" then s else p)) alpha.

Lemma inner_repeat {A} (x : A) n : inner (repeat x (n + 2)) = repeat x n.
Proof.
  apply list_ext with (d := x); rewrite inner_length, repeat_length; [rewrite repeat_length; lia|].
  intros i Hi. rewrite inner_nth by (rewrite repeat_length; lia). rewrite !nth_repeat. auto.
Qed.

Definition transparent (n : nat) : sol := mk_sol 0 1 (repeat 0 (n + 2)) (fun _ => zero_coefs) (fun _ => 0).

Lemma transparent_balanced n : balanced n (transparent n).
Proof.
  split; [apply repeat_length|]. split.
  - intros x Hx. apply repeat_spec in Hx. lra.
  - cbn [transparent s_abs s_R s_T]. rewrite inner_repeat, rsum_repeat. lra.
Qed.

Lemma transparent_u {M} (st : ostack M) l theta memory : length l = length (o_layers st) ->
  exists SV s p u, let cl := false :: l ++ [false] in
    answers SV st false cl theta "s" s /\ answers SV st false cl theta "p" p /\
    balanced (length l) s /\ balanced (length l) p /\
    calculate SV memory false st (mk_topts "u" theta false (Some l)) = Ok u /\ t_Al u = memory /\ t_A u = 0.
Proof.
  intros HL. set (s := transparent (length l)). exists (fixed_solver s s (fun _ => 0)), s, s.
  unfold calculate, coh_for, build_coh_list. cbn [p_coherent p_coh p_pol]. rewrite HL, Nat.eqb_refl. cbn [rbind app].
  rewrite u_not_sp. unfold solve. cbn [p_coherent fixed_solver sv_inc String.eqb Ascii.eqb Bool.eqb rbind].
  eexists. split; [reflexivity|]. split; [reflexivity|]. rewrite <- HL. split; [apply transparent_balanced|].
  split; [apply transparent_balanced|]. split; [reflexivity|]. unfold calc_u_inc. cbn [t_Al t_A].
  split; [|unfold half_sum; cbn [s transparent s_R s_T]; lra].
  rewrite (proj2 (Reqb_true _ _)); auto. rewrite rsum_map2_half by auto.
  unfold s, transparent. cbn [s_abs]. rewrite inner_repeat, rsum_repeat. unfold half_sum. lra.
Qed.

(* the analytic functions of unpolarised light in a partly coherent stack ignore p *)
Definition coef_s : coefs := mk_coefs 1 0 0 0 1 0.
Definition coef_p : coefs := mk_coefs 0 0 0 0 1 0.
Definition sol_of (k : coefs) : sol := mk_sol 0 (1 / 2) [0; 1 / 2; 1 / 2] (fun _ => k) (fun _ => 0).

Lemma u_coef_wrong :
  let st := mk_stack 0%nat [(1%nat, 10)] 2%nat in
  let o := mk_topts "u" 0 false (Some [true]) in
  exists (SV : solver nat), profile_coeff SV false st (with_pol o "s") [1%nat] = Ok [coef_s] /\
    profile_coeff SV false st (with_pol o "p") [1%nat] = Ok [coef_p] /\
    exists c, profile_coeff SV false st (with_pol o "u") [1%nat] = Ok [c] /\ c_A1 c = 1 /\ ~ coef_means c coef_s coef_p.
Proof.
  intros st o. exists (fixed_solver (sol_of coef_s) (sol_of coef_p) (fun _ => 0)). split; [reflexivity|]. split; [reflexivity|].
  eexists. split; [reflexivity|]. unfold coef_half_sum, coef_means, mean_of, half_sum, coef_s, coef_p, sol_of. cbn. split; [lra|].
  intros [H _]. lra.
Qed.

(* ---------- light reaching an incoherent layer ---------- *)

Lemma one_minus_nth l i : (i < length l)%nat -> py_index (one_minus_cumsum l) (Z.of_nat i) = Ok (1 - rsum (firstn (S i) l)).
Proof.
  intros H. unfold one_minus_cumsum, cumsum. rewrite (py_index_ok _ _ 0) by (rewrite map_length, cumsum_go_length; lia).
  rewrite Nat2Z.id. rewrite nth_map_lt with (da := 0) by (rewrite cumsum_go_length; auto).
  rewrite cumsum_go_nth by auto. f_equal. lra.
Qed.

Lemma firstn_inner (l : list R) k : (k + 2 <= length l)%nat -> firstn k (inner l) = firstn k (tl l).
Proof.
  intros H. unfold inner. destruct l as [|x l]; [reflexivity|]. cbn [tl length] in *. rewrite removelast_firstn_len.
  rewrite firstn_firstn. f_equal. lia.
Qed.

Lemma rsum_firstn_S (l : list R) k : (k < length l)%nat -> rsum (firstn (S k) l) = rsum (firstn k l) + nth k l 0.
Proof.
  revert k. induction l as [|x l IH]; intros k H; simpl in H; [lia|]. destruct k as [|k]; [simpl; lra|].
  change (firstn (S (S k)) (x :: l)) with (x :: firstn (S k) l). change (x + rsum (firstn (S k) l) = x + rsum (firstn k l) + nth k l 0). rewrite IH by lia. lra.
Qed.

Section Reaching.
  Variables (M : Type) (SV : solver M) (st : ostack M) (theta : R) (l0 : list bool) (l : nat) (m : M) (s p : sol).
  Let n := length (o_layers st).
  Let cl := false :: l0 ++ [false].
  Hypothesis Hl0 : length l0 = n.
  Hypothesis Hl : (1 <= l <= n)%nat.
  Hypothesis Hinc : nth (l - 1) l0 true = false.
  Hypothesis Hm : nth_error (map fst (o_layers st)) (l - 1) = Some m.

  Lemma coh_ok q : coh_for false st (mk_topts q theta false (Some l0)) = Ok cl.
  Proof. unfold coh_for. cbn [p_coherent p_coh]. unfold build_coh_list. fold n. rewrite Hl0, Nat.eqb_refl. reflexivity. Qed.

  Lemma beer_coef reaching fn f : py_index reaching (Z.of_nat l - 1) = Ok f ->
    coef_inc SV st cl reaching fn l = Ok (coef_beer (sv_alpha SV m) f).
  Proof.
    intros Hf. unfold coef_inc.
    rewrite (py_index_ok cl _ true) by (unfold cl; cbn [length]; rewrite app_length; cbn [length]; lia). rewrite Nat2Z.id. cbn [rbind].
    replace (nth l cl true) with false.
    2:{ unfold cl. destruct l as [|k]; [lia|]. cbn [nth]. rewrite app_nth1 by lia. rewrite <- Hinc. f_equal. lia. }
    assert (E : py_index (media st) (Z.of_nat l) = Ok m).
    { rewrite (py_index_ok _ _ m). 2:{ unfold media. cbn [length]. rewrite app_length, map_length. cbn [length]. fold n. lia. }
      rewrite Nat2Z.id. f_equal. unfold media. destruct l as [|k]; [lia|]. cbn [nth].
      rewrite app_nth1 by (rewrite map_length; fold n; lia). apply nth_error_nth with (d := m) in Hm. rewrite <- Hm at 2. f_equal. lia. }
    rewrite E. cbn [rbind]. rewrite Hf. reflexivity.
  Qed.

  Lemma reaching_u : answers SV st false cl theta "s" s -> answers SV st false cl theta "p" p ->
    length (s_abs s) = (n + 2)%nat -> nth 0 (s_abs s) 0 = s_R s ->
    profile_coeff SV false st (mk_topts "u" theta false (Some l0)) [l] =
    Ok [mk_coefs 0 (sv_alpha SV m * reaching_layer (s_R s) (inner (s_abs s)) l) 0 0 (sv_alpha SV m) 0].
  Proof.
    intros Hs Hp HL HR. unfold profile_coeff. rewrite coh_ok. cbn [rbind p_pol]. rewrite u_not_sp.
    unfold solve, answers in *. cbn [p_coherent p_theta]. rewrite Hs, Hp. cbn [rbind rmap].
    rewrite (beer_coef _ _ (1 - rsum (firstn l (s_abs s)))).
    - cbn [rbind]. unfold coef_beer, reaching_layer.
      replace (1 - rsum (firstn l (s_abs s))) with (1 - s_R s - rsum (firstn (l - 1) (inner (s_abs s)))); [reflexivity|].
      rewrite firstn_inner by lia. rewrite <- HR. clear -HL Hl. destruct l as [|k]; [lia|]. replace (S k - 1)%nat with k by lia.
      destruct (s_abs s) as [|x xs]; [simpl in HL; lia|]. cbn [firstn tl nth].
      change (rsum (x :: firstn k xs)) with (x + rsum (firstn k xs)). lra.
    - replace (Z.of_nat l - 1)%Z with (Z.of_nat (l - 1)) by lia.
      set (q := one_minus_cumsum (s_abs s)).
      assert (Lq : length q = (n + 2)%nat) by (unfold q, one_minus_cumsum, cumsum; rewrite map_length, cumsum_go_length; auto).
      rewrite (py_index_ok _ _ 0) by (rewrite map2_length; lia). rewrite Nat2Z.id.
      rewrite map2_nth with (da := 0) (db := 0) by lia.
      pose proof (one_minus_nth (s_abs s) (l - 1) ltac:(lia)) as E. fold q in E.
      rewrite (py_index_ok _ _ 0) in E by lia. rewrite Nat2Z.id in E. 
      replace (S (l - 1)) with l in E by lia.
      replace (nth (l - 1) q 0) with (1 - rsum (firstn l (s_abs s))) by congruence. unfold half_sum. f_equal. lra.
  Qed.

  Lemma reaching_sp q : (q = "s" \/ q = "p")%string -> answers SV st false cl theta q s -> balanced n s ->
    profile_coeff SV false st (mk_topts q theta false (Some l0)) [l] =
    Ok [mk_coefs 0 (sv_alpha SV m * (reaching_layer (s_R s) (inner (s_abs s)) l + s_R s - nth (l - 1) (inner (s_abs s)) 0))
          0 0 (sv_alpha SV m) 0].
  Proof.
    intros Hq Hs Hb. destruct (calc_inc_balanced n s Hb) as [E _]. destruct Hb as [HL _].
    unfold profile_coeff. rewrite coh_ok. cbn [rbind p_pol].
    replace (in_sp q) with true by (destruct Hq as [-> | ->]; reflexivity).
    unfold solve, answers in *. cbn [p_coherent p_theta]. rewrite Hs. cbn [rbind rmap]. rewrite E.
    assert (Li : length (inner (s_abs s)) = n) by (rewrite inner_length; lia).
    rewrite (beer_coef _ _ (1 - rsum (firstn l (inner (s_abs s))))).
    - cbn [rbind]. unfold coef_beer, reaching_layer.
      replace (1 - rsum (firstn l (inner (s_abs s)))) with
        (1 - s_R s - rsum (firstn (l - 1) (inner (s_abs s))) + s_R s - nth (l - 1) (inner (s_abs s)) 0); [reflexivity|].
      clear -Li Hl. destruct l as [|k]; [lia|]. replace (S k - 1)%nat with k by lia. rewrite rsum_firstn_S by lia. lra.
    - replace (Z.of_nat l - 1)%Z with (Z.of_nat (l - 1)) by lia. rewrite one_minus_nth by lia.
      replace (S (l - 1)) with l by lia. auto.
  Qed.
End Reaching.

(* ---------- sides ---------- *)

Definition top_solver : solver nat :=
  mk_solver (fun _ st _ => Ok (mk_sol (INR (o_inc st)) 0 (repeat 0 (length (o_layers st) + 2)) (fun _ => zero_coefs) (fun _ => 0)))
            (fun _ st _ _ => Ok (transparent 0)) (fun _ => 0).

Lemma sides_wrong :
  let a := mk_args 0%nat [(2%nat, 5)] 1%nat true None "s" in
  exists e e', table_entry top_solver [] a [] [1%Z; (-1)%Z] (-1) "s" 0 = Ok e /\ e_R e = 1 /\
    table_entry top_solver [] a [] [(-1)%Z; 1%Z] (-1) "s" 0 = Ok e' /\ e_R e' = 0 /\
    table_entry top_solver [] a [] [1%Z] 1 "s" 0 = Err ValueError.
Proof.
  intros a. do 2 eexists. split; [reflexivity|]. cbn [e_R calc_coh t_R s_R o_inc table_stack a ar_inc ar_trn].
  split; [rewrite clip_id; simpl; lra|]. split; [reflexivity|]. cbn [e_R]. split; [|reflexivity].
  simpl. apply clip_id. lra.
Qed.

(* ---------- z coordinate of a rear profile ---------- *)

Definition depth_solver : solver nat :=
  mk_solver (fun _ _ _ => Ok (mk_sol 0 0 [0; 1; 0] (fun _ => zero_coefs) (fun z => z))) (fun _ _ _ _ => Ok (transparent 0)) (fun _ => 0).

Lemma rear_z_wrong :
  let a := mk_args 0%nat [(2%nat, 8); (3%nat, 22)] 1%nat true None "s" in
  exists z data, tmm_profile depth_solver a Rear 4 [1%nat] "s" 0 = Ok (z, data) /\
    z = [26; 30] /\ data = [30; 26].
Proof.
  intros a. unfold tmm_profile, tmm_dist, rlift, profile_depths. cbn [a ar_layers map snd].
  assert (E : arange0 (rsum [8; 22]) 4 = [0; 4; 8; 12; 16; 20; 24; 28]).
  { unfold arange0. replace (Zceil (rsum [8; 22] / 4)) with 8%Z by (symmetry; apply Zceil_unique; simpl; lra).
    change (Z.to_nat 8) with 8%nat. cbn [seq map INR]. repeat (apply f_equal2; [lra|]). reflexivity. }
  rewrite E. rewrite points_in_layer by (simpl; lia). cbn [firstn Nat.sub rsum]. cbn [filter].
  repeat match goal with
  | |- context [Rleb ?x ?y] => first [rewrite (proj2 (Rleb_true x y)) by lra | rewrite (proj2 (Rleb_false x y)) by lra]
  | |- context [Rltb ?x ?y] => first [rewrite (proj2 (Rltb_true x y)) by lra | rewrite (proj2 (Rltb_false x y)) by lra]
  end. cbn [andb rbind map rev app]. unfold profile_at, coh_for, tmm_opts. cbn [p_coherent p_pol a ar_coherent rbind]. rewrite s_sp.
  unfold solve. cbn [p_coherent depth_solver sv_coh rbind s_prof map rev app flip_rear p_theta].
  do 2 eexists. split; [reflexivity|]. split.
  - repeat (apply f_equal2; [lra|]). reflexivity.
  - repeat (apply f_equal2; [rewrite !clip_id; try lra; rewrite clip_id; lra|]). reflexivity.
Qed.

(* ---------- exactly critical incidence ---------- *)

Definition half_solver : solver nat :=
  fixed_solver (mk_sol (1 / 2) (1 / 2) [1 / 2; 1 / 2] (fun _ => zero_coefs) (fun _ => 0))
               (mk_sol (1 / 2) (1 / 2) [1 / 2; 1 / 2] (fun _ => zero_coefs) (fun _ => 0)) (fun _ => 0).

Lemma half_entry sd inc trn theta : tmm_entry half_solver [] (mk_args inc [] trn true None "s") sd theta = Ok (1 / 2, 1 / 2, []).
Proof.
  unfold tmm_entry, tmm_one. cbn [ar_pol String.eqb Ascii.eqb Bool.eqb]. unfold calculate, coh_for, tmm_opts. cbn [p_coherent p_pol ar_coherent rbind].
  rewrite s_sp. unfold solve, rlift. cbn [p_coherent half_solver fixed_solver sv_coh String.eqb Ascii.eqb Bool.eqb rbind].
  unfold calc_coh. cbn [t_R t_T t_Al s_R s_T s_abs]. rewrite !clip_id by lra. destruct sd; reflexivity.
Qed.

Lemma some_grid : exists g h, make_angle_vector 1 (2 * PI) 1 SpSin = Ok g /\ length (g_av g) = (2 * h)%nat /\ (0 < h)%nat /\
  valid_request 1 (2 * PI) 1 /\ exists r, nth_error (g_av g) 0 = Some r /\ a_ring r = 0%nat /\ 0 < a_theta r < PI / 2.
Proof.
  pose proof PI_RGT_0. assert (Hv : valid_request 1 (2 * PI) 1) by (repeat split; try lia; lra).
  destruct (make_angle_vector 1 (2 * PI) 1 SpSin) as [g|] eqn:Hg; [|discriminate].
  destruct (C01_rows _ _ _ _ _ Hv Hg) as [[h [L Hrow]] _]. exists g, h. split; auto. split; auto.
  destruct (first_row _ _ _ _ _ Hv Hg) as [r [l [El Er]]].
  assert (Hh : (0 < h)%nat) by (rewrite El in L; simpl in L; lia).
  split; auto. split; auto. exists r. rewrite El. split; auto. split; auto.
  apply (proj1 (Hrow 0%nat r ltac:(rewrite El; auto))). auto.
Qed.

Lemma critical_wrong : exists g h r (idx : nat -> R),
  make_angle_vector 1 (2 * PI) 1 SpSin = Ok g /\ length (g_av g) = (2 * h)%nat /\ nth_error (g_av g) 0 = Some r /\
  0 < idx 0%nat /\ 0 < idx 1%nat /\ refracts (idx 0%nat) (idx 1%nat) (a_theta r) (PI / 2) /\
  exists col, tmm_matrix_column half_solver [] idx (mk_args 0%nat [] 1%nat true None "s") Front g (2 * PI) 0 = Ok (col, []) /\
    rsum col = 1 / 2.
Proof.
  destruct some_grid as [g [h [Hg [Hh [Hp [Hv [r [Hr [Hring Ht]]]]]]]]]. pose proof PI_RGT_0. pose proof PI2_3_2.
  assert (Hs : 0 < sin (a_theta r)) by (apply sin_gt_0; lra).
  exists g, h, r, (fun k => match k with O => 1 | _ => sin (a_theta r) end). split; auto. split; auto. split; auto.
  split; [lra|]. split; auto. split; [split; [lra|]; rewrite sin_PI2; lra|].
  destruct (critical_front 1 (2 * PI) 1 SpSin g h Hv Hg Hh ltac:(lra) nat half_solver []
    (fun k => match k with O => 1 | _ => sin (a_theta r) end) (mk_args 0%nat [] 1%nat true None "s") Front 0%nat r
    (1 / 2) (1 / 2) []) as [col [C1 [C2 C3]]]; auto.
  - apply half_entry.
  - cbn [snell_media fst snd ar_inc ar_trn incoming]. lra.
  - exists col. split; auto.
Qed.
