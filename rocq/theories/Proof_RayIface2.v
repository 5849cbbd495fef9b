(* single_cell_check, single_ray_interface and concrete cases (C39, C69). *)
From Coq Require Import Reals List Bool ZArith Lra Lia Psatz.
From Verif Require Import Base Lib Model_Optics Spec_Optics Proof_Optics Proof_Geom Proof_OpticsProps
  Proof_OpticsEx Model_OpticsC Spec_OpticsC Model_RayIface Spec_RayIface Proof_RayIface Proof_RayLaps.
Import ListNotations.
Open Scope R_scope.

Lemma nan_unchecked E d0z st : (0 < i_i1 st)%nat -> i_theta st <> None -> i_r st = None -> finishes E d0z 2 st.
Proof.
  intros Hi Hth Hr. destruct (i_checked st) eqn:Hc.
  - destruct (nan_finishes E d0z st Hc Hth Hr) as (k & Hk & H). exists k. split; [lia|exact H].
  - apply finishes_step. unfold istep. rewrite Hc, Hr. cbn [check_pos negb].
    replace (Nat.ltb 1 (S (i_i1 st))) with true by (symmetry; apply Nat.ltb_lt; lia).
    right. split; [reflexivity|]. apply nan_finishes; cbn; auto.
Qed.

Lemma isteps_inv E d0 side0 n0 : real_decision (e_dec E) -> vz d0 <> 0 ->
  forall k st st', iinv d0 side0 n0 st -> isteps k E (vz d0) st = inl st' -> iinv d0 side0 n0 st'.
Proof.
  intros Hr Hz. induction k as [|k IH]; intros st st' Hi H; cbn [isteps] in H.
  - injection H as <-. exact Hi.
  - pose proof (istep_inv E d0 side0 n0 st Hr Hz Hi) as Hs.
    destruct (istep E (vz d0) st) as [st1|]; [|discriminate]. exact (IH st1 st' Hs H).
Qed.

Lemma bounded_misses E zlo zhi r d side n k st :
  real_decision (e_dec E) -> 0 < e_Lx E -> 0 < e_Ly E ->
  (forall j, zlo <= s_zmin (e_surf E j)) -> (forall j, s_zmax (e_surf E j) <= zhi) ->
  unit d -> vz d <> 0 -> pm1 side ->
  isteps k E (vz d) (istart r d side n) = inl st -> (n < i_nint st)%nat ->
  finishes E (vz d)
    (3 + lap_bound (e_Lx E) (e_Ly E) zlo zhi (match i_r st with Some p => vz p | None => 0 end) (i_d st))
    st.
Proof.
  intros Hr HLx HLy Hlo Hhi Hu Hz Hs Hk Hn.
  pose proof (isteps_inv E d side n Hr Hz k _ _ (istart_inv r d side n Hu Hs) Hk) as (_ & _ & _ & Hc).
  destruct Hc as [(_ & _ & _ & _ & _ & Hni)|(Hi & _ & th & Hth & _)]; [lia|].
  assert (Hthn : i_theta st <> None) by (rewrite Hth; discriminate).
  destruct (i_r st) as [p|] eqn:Er.
  - destruct (Req_dec (vz (i_d st)) 0) as [H0|H0].
    + destruct (horizontal_finishes E (vz d) st Hi Hthn H0) as (j & Hj & H).
      exists j. split; [lia|exact H].
    + exact (after_hit_finishes E zlo zhi (i_d st) (vz d) HLx HLy Hlo Hhi st Hi Hthn eq_refl H0 p Er).
  - destruct (nan_unchecked E (vz d) st Hi Hthn Er) as (j & Hj & H).
    exists j. split; [lia|exact H].
Qed.

(* ---------- single_cell_check ---------- *)

Lemma cell_contract E d0 n0 : real_decision (e_dec E) -> vz d0 <> 0 ->
  forall fuel r d side th n res, unit d -> pm1 side -> (n0 <= n)%nat -> - (PI / 2) < th < PI / 2 ->
  cell_run fuel E (vz d0) r d side th n = Some res ->
  unit (r_dir res) /\ pm1 (r_side res) /\ (n0 <= r_nint res)%nat /\
  - (PI / 2) < r_loc res < PI / 2 /\
  match r_out res with
  | OReflected t => t = acos (vz (r_dir res)) /\ turned_back (vz d0) (r_dir res)
  | OTransmitted t => t = acos (vz (r_dir res)) /\ went_on (vz d0) (r_dir res)
  | OAbsorbed A => absorbs (e_dec E) (r_loc res) (e_rnd E (r_nint res - 1)) A /\ (n0 < r_nint res)%nat
  end.
Proof.
  intros Hr Hz. induction fuel as [|f IH]; intros r d side th n res Hu Hs Hn Hth H; [discriminate|].
  cbn [cell_run] in H. destruct (check_pos r d (e_surf E 0)) as [h|] eqn:Eh.
  - destruct (hit_N_unit _ _ _ _ _ Hu Hs Eh) as [HN Hth'].
    pose proof (decision_keeps (e_dec E) side (h_theta h) d
                  (vscale (IZR side) (h_N h)) (e_rnd E n) Hr Hu HN Hs) as Hd.
    destruct (e_dec E side (h_theta h) d _ _) as [[d' s'] [A|]].
    + destruct Hd as (H1 & H2 & H3). injection H as <-. cbn [r_dir r_side r_nint r_loc r_out].
      split; [exact H1|]. split; [exact H2|]. split; [lia|]. split; [exact Hth'|].
      rewrite Nat.sub_1_r, Nat.pred_succ. split; [apply H3; reflexivity|lia].
    + destruct Hd as (H1 & H2 & _).
      exact (IH _ _ _ _ (S n) res H1 H2 ltac:(lia) Hth' H).
  - injection H as <-. cbn [r_dir r_side r_nint r_loc r_out].
    split; [exact Hu|]. split; [exact Hs|]. split; [exact Hn|]. split; [exact Hth|].
    destruct (Z.eqb _ _) eqn:Es; (split; [apply polar_unit, Hu|]).
    + apply sgn_same; assumption.
    + apply sgn_diff, Es.
Qed.

(* ---------- absorption ---------- *)

Lemma absorbs_iff dec th rnd A : real_decision dec ->
  (absorbs dec th rnd A <-> exists entry side, uses_table entry dec /\ pm1 side /\
     let e := entry side (Rabs th) in te_R e < rnd /\ te_R e + te_T e < rnd /\ A = te_A e).
Proof.
  intros Hr.
  assert (T : forall e (d' : vec) N (side : Z) (dt : vec), snd (if Rleb rnd (te_R e) then (normalise (reflect d' N), side, None)
      else if Rltb (te_R e) rnd && Rleb rnd (te_R e + te_T e) then (dt, (- side)%Z, None) else (d', side, Some (te_A e))) = Some A
      <-> te_R e < rnd /\ te_R e + te_T e < rnd /\ A = te_A e).
  { intros e d' N side dt. destruct (Rleb rnd (te_R e)) eqn:L1; [apply Rleb_true in L1|apply Rleb_false in L1].
    - split; [discriminate|]. intros (Q & _). lra.
    - rewrite (proj2 (Rltb_true _ _) L1). cbn [andb]. destruct (Rleb rnd (te_R e + te_T e)) eqn:L2; [apply Rleb_true in L2|apply Rleb_false in L2].
      + split; [discriminate|]. intros (_ & Q & _). lra.
      + cbn [snd]. split; [intros [= <-]; auto|intros (_ & _ & ->); reflexivity]. }
  split.
  - intros (side & d & N & Hs & _ & _ & E). destruct Hr as [ni nj p|ni nj entry|ni nj p|ni nj entry M0 M1].
    + exfalso. unfold fresnel_decision, decide_RT_Fresnel in E. destruct (Z.eqb side 1), (Rleb _ _); discriminate.
    + exists entry, side. split; [constructor|]. split; [exact Hs|]. cbv zeta. unfold table_decision in E.
      destruct (Z.eqb side 1); eapply T; exact E.
    + exfalso. unfold fresnel_decision_c, decide_RT_Fresnel_c in E. destruct (Z.eqb side 1), (Rleb _ _); discriminate.
    + exists entry, side. split; [constructor; assumption|]. split; [exact Hs|]. cbv zeta. unfold table_decision_c in E.
      destruct (Z.eqb side 1); eapply T; exact E.
  - intros (entry & side & UT & Hs & Q). assert (U1 : unit (mkv 0 0 1)) by (unfold unit, dot; cbn [vx vy vz]; ring).
    exists side, (mkv 0 0 1), (mkv 0 0 1). split; [exact Hs|]. split; [exact U1|]. split; [exact U1|].
    destruct UT as [ni nj|ni nj M0 M1]; [unfold table_decision|unfold table_decision_c]; destruct (Z.eqb side 1); apply T; exact Q.
Qed.

(* ---------- hemispheres ---------- *)

Lemma acos_up z : 0 <= z <= 1 -> 0 <= acos z <= PI / 2.
Proof.
  intros Hz. pose proof (acos_bound z) as Hb. split; [lra|].
  destruct (Rle_or_lt (acos z) (PI / 2)) as [|Hgt]; [assumption|]. exfalso.
  assert (cos (acos z) < 0) by (apply cos_lt_0; lra). rewrite cos_acos in H by lra. lra.
Qed.

Lemma acos_down z : -1 <= z < 0 -> PI / 2 < acos z <= PI.
Proof.
  intros Hz. pose proof (acos_bound z) as Hb. split; [|lra].
  destruct (Rle_or_lt (acos z) (PI / 2)) as [Hle|]; [|assumption]. exfalso.
  assert (0 <= cos (acos z)) by (apply cos_ge_0; lra). rewrite cos_acos in H by lra. lra.
Qed.

Lemma unit_z d : unit d -> -1 <= vz d <= 1.
Proof. unfold unit, dot. intros H. nra. Qed.

Definition ray_contract (E : env) (out : ray_out) : Prop :=
  ro_checks out = 1%nat /\ unit (ro_dir out) /\
  ((ro_A out = None /\ 0 <= ro_theta out <= PI / 2 /\ 0 <= vz (ro_dir out)) \/
   (ro_A out = None /\ PI / 2 < ro_theta out <= PI /\ vz (ro_dir out) < 0) \/
   (exists A k, ro_A out = Some A /\ absorbs (e_dec E) (ro_loc out) (e_rnd E k) A /\ ro_theta out = 10 /\
              - (PI / 2) < ro_loc out < PI / 2)).

Lemma ray_interface_contract E zcov outer fuel r_a_0 x y o :
  real_decision (e_dec E) -> 0 < vz r_a_0 ->
  single_ray_interface outer fuel [(E, zcov)] r_a_0 x y = Some o ->
  exists out, o = Ok out /\ ray_contract E out /\
    (ro_A out = None -> cos (ro_theta out) = vz (ro_dir out)).
Proof.
  intros Hr Hz H. unfold single_ray_interface in H.
  set (v := vsub (mkv x y 0) (vadd r_a_0 (mkv x y 0))) in H.
  assert (Hv : vz v = - vz r_a_0) by (unfold v, vsub, vadd; cbn [vz]; ring).
  assert (Hvv : 0 < dot v v).
  { unfold dot. rewrite Hv. nra. }
  set (d := vscale (/ norm v) v) in H.
  assert (Hu : unit d) by (apply (normalise_nonzero v Hvv)).
  assert (Hdz : vz d < 0).
  { unfold d, vscale. cbn [vz]. rewrite Hv.
    assert (0 < / norm v) by (apply Rinv_0_lt_compat; unfold norm; apply sqrt_lt_R0, Hvv). nra. }
  destruct outer as [|outer]; [discriminate|].
  cbn [ray_iface] in H. change (py_index [(E, zcov)] 0) with (Ok (A:=env * R) (E, zcov)) in H.
  cbn iota beta in H.
  set (r := place _ _ _ _ _) in H. clearbody r.
  destruct (single_interface_check fuel E r d 1 0) as [o'|] eqn:Ei; [|discriminate].
  pose proof (interface_contract E r d 1 0 fuel o' Hr Hu ltac:(lra) (or_introl eq_refl) Ei) as Hc.
  destruct Hc as (rs & -> & Hud & _ & _ & Hloc & Hout).
  pose proof (unit_z _ Hud) as Hzr. cbn iota in H.
  destruct (r_out rs) as [th|th|A].
  - destruct Hout as [-> Htb]. cbn in H. injection H as <-. eexists. split; [reflexivity|].
    unfold turned_back in Htb. assert (H0 : 0 <= vz (r_dir rs)) by nra.
    unfold ray_contract. cbn [ro_checks ro_A ro_theta ro_dir ro_loc].
    split.
    + split; [reflexivity|]. split; [exact Hud|]. left. split; [reflexivity|].
      split; [apply acos_up; lra|exact H0].
    + intros _. apply cos_acos. lra.
  - destruct Hout as [-> [Htb _]]. cbn in H. injection H as <-. eexists. split; [reflexivity|].
    unfold went_on in Htb. assert (H0 : vz (r_dir rs) < 0) by nra.
    unfold ray_contract. cbn [ro_checks ro_A ro_theta ro_dir ro_loc].
    split.
    + split; [reflexivity|]. split; [exact Hud|]. right. left. split; [reflexivity|].
      split; [apply acos_down; lra|exact H0].
    + intros _. apply cos_acos. lra.
  - destruct Hout as [HA _]. cbn in H. injection H as <-. eexists. split; [reflexivity|].
    unfold ray_contract. cbn [ro_checks ro_A ro_theta ro_dir ro_loc].
    split; [|discriminate].
    split; [reflexivity|]. split; [exact Hud|]. right. right. exists A, (r_nint rs - 1)%nat.
    repeat apply conj; try reflexivity; try assumption; lra.
Qed.

(* ---------- concrete cases: a flat surface made of two triangles ---------- *)

Definition flat : surface :=
  {| s_tris := [{| t_P0 := mkv (-1) (-1) 0; t_P1 := mkv 5 (-1) 0; t_P2 := mkv (-1) 5 0 |}];
     s_zmin := 0; s_zmax := 0 |}.

(* air above glass (index 3), unpolarised, every draw 1/2 *)
Definition flat_env : env :=
  {| e_surf := fun _ => flat; e_rnd := fun _ => 1 / 2; e_xy := fun _ => (1 / 2, 1 / 2);
     e_Lx := 1; e_Ly := 1; e_dec := fresnel_decision 1 3 PolU |}.

Lemma flat_env_real : real_decision (e_dec flat_env).
Proof. exact (rd_fresnel 1 3 PolU). Qed.

Lemma flat_hit : exists h, check_pos (Some ex_r) ex_d flat = Some h.
Proof.
  cbn [check_pos]. destruct (check_intersect ex_r ex_d (s_tris flat)) as [h|] eqn:E; [exists h; reflexivity|].
  exfalso. rewrite check_intersect_none in E. cbn [s_tris flat] in E.
  apply (E _ 1 (or_introl eq_refl)). unfold meets, on_tri, ex_r, ex_d, tol. cbn [t_P0 t_P1 t_P2].
  split; [lra|]. split.
  - exists (5 / 24), (5 / 24). repeat apply conj; try lra. apply vec_ext; vexp; lra.
  - vexp. lra.
Qed.

Lemma flat_first_step : exists st, isteps 1 flat_env (vz ex_d) (istart (Some ex_r) ex_d 1 0) = inl st /\
  (0 < i_nint st)%nat.
Proof.
  cbn [isteps]. unfold istep. cbn [istart i_r i_d i_side i_checked i_misses i_i1 i_theta i_nint i_ref].
  change (e_surf flat_env 0) with flat. destruct flat_hit as [h ->].
  cbn [e_dec flat_env]. unfold fresnel_decision. cbn [Z.eqb Pos.eqb].
  destruct (decide_RT_Fresnel _ _ _ _ _ _ _ _) as [[d' s'] A] eqn:Ed.
  assert (A = None).
  { unfold decide_RT_Fresnel in Ed. destruct (Rleb _ _); injection Ed as <- <- <-; reflexivity. }
  subst A. eexists. split; [reflexivity|]. cbn [i_nint]. lia.
Qed.

(* above an empty surface every start position misses *)
Definition void_env : env :=
  {| e_surf := fun _ => {| s_tris := []; s_zmin := 0; s_zmax := 0 |}; e_rnd := fun _ => 1 / 2;
     e_xy := fun _ => (1 / 2, 1 / 2); e_Lx := 1; e_Ly := 1; e_dec := fresnel_decision 1 3 PolU |}.

Lemma void_misses k : check_pos (start_pos void_env (Some ex_r) ex_d k) ex_d (e_surf void_env 0) = None.
Proof. destruct k; reflexivity. Qed.

Lemma void_result : exists res,
  single_interface_check 101 void_env (Some ex_r) ex_d 1 0 = Some (Ok res) /\ r_dir res = mkv 0 0 1.
Proof.
  eexists. split; [apply (gives_up void_env (Some ex_r) ex_d 1 0); [intros; apply void_misses|lia]|].
  cbn [given_up r_dir]. unfold ex_d; cbn [vx vy vz]. f_equal. lra.
Qed.

Lemma void_ray : exists out,
  single_ray_interface 1 101 [(void_env, 0)] (mkv 0 0 1) (1 / 2) (1 / 2) = Some (Ok out).
Proof.
  unfold single_ray_interface. set (d := vscale _ _). cbn [ray_iface].
  change (py_index [(void_env, 0)] 0) with (Ok (A:=env * R) (void_env, 0)). cbn iota beta.
  set (r := place _ _ _ _ _).
  rewrite (gives_up void_env r d 1 0); [|intros k _; destruct k; cbn [start_pos]; [destruct r|]; reflexivity|lia].
  cbn [given_up r_out]. eexists. reflexivity.
Qed.
