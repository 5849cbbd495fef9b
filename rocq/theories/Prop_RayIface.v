(* C39, C69: one interaction of a ray with a surface. *)
From Coq Require Import Reals List Bool ZArith Lra Lia.
From Verif Require Import Base Lib Model_Optics Spec_Optics Proof_OpticsEx Model_RayIface Spec_RayIface
  Proof_RayIface Proof_RayLaps Proof_RayIface2.
Import ListNotations.
Open Scope R_scope.

(* C39: whatever the surface, the random numbers and the number of iterations, what is returned is a
   reflected ray that turned back, a transmitted ray that went on, or absorbed with what the surface
   handed over for the local angle and the last random number; the local angle is always defined. *)
Theorem C39_contract : forall E r d side n fuel o,
  real_decision (e_dec E) -> unit d -> vz d <> 0 -> pm1 side ->
  single_interface_check fuel E r d side n = Some o ->
  exists res, o = Ok res /\ unit (r_dir res) /\ pm1 (r_side res) /\
    (n <= r_nint res)%nat /\ - (PI / 2) < r_loc res < PI / 2 /\
    match r_out res with
    | OReflected th => th = acos (vz (r_dir res)) /\ turned_back (vz d) (r_dir res)
    | OTransmitted th => th = acos (vz (r_dir res)) /\ went_on (vz d) (r_dir res) /\ (n < r_nint res)%nat
    | OAbsorbed A => absorbs (e_dec E) (r_loc res) (e_rnd E (r_nint res - 1)) A /\ (n < r_nint res)%nat
    end.
Proof. exact interface_contract. Qed.
Print Assumptions C39_contract.
Example C39_contract_ex : exists res,
  single_interface_check 101 void_env (Some ex_r) ex_d 1 0 = Some (Ok res) /\ r_dir res = mkv 0 0 1.
Proof. exact void_result. Qed.

(* C39: only a table absorbs: the entry for the local angle and its side, when the random number exceeds R and R + T *)
Theorem C39_absorbs : forall dec th rnd A, real_decision dec ->
  (absorbs dec th rnd A <-> exists entry side, uses_table entry dec /\ pm1 side /\
     let e := entry side (Rabs th) in te_R e < rnd /\ te_R e + te_T e < rnd /\ A = te_A e).
Proof. exact absorbs_iff. Qed.
Print Assumptions C39_absorbs.
Example C39_absorbs_ex : absorbs (table_decision 1 2 (fun _ _ => {| te_R := 1 / 10; te_T := 2 / 10; te_A := [3 / 10; 4 / 10] |})) 0 (1 / 2) [3 / 10; 4 / 10].
Proof.
  apply absorbs_iff; [constructor|]. exists (fun _ _ => {| te_R := 1 / 10; te_T := 2 / 10; te_A := [3 / 10; 4 / 10] |}), 1%Z.
  split; [constructor|]. split; [now left|]. cbn. split; [lra|]. split; [lra|reflexivity].
Qed.

(* C39: if the given start position and 100 random ones miss, the ray is sent back after 101
   iterations. *)
Theorem C39_gives_up : forall E r d side n,
  (forall k, (k <= 100)%nat -> check_pos (start_pos E r d k) d (e_surf E 0) = None) ->
  forall fuel, (101 <= fuel)%nat ->
  single_interface_check fuel E r d side n =
    Some (Ok {| r_out := OReflected (polar (mkv (vx d) (vy d) (- vz d)));
                r_pos := start_pos E r d 100; r_dir := mkv (vx d) (vy d) (- vz d);
                r_loc := 0; r_nint := n; r_side := side |}).
Proof. exact gives_up. Qed.
Print Assumptions C39_gives_up.
Example C39_gives_up_ex : forall k,
  check_pos (start_pos void_env (Some ex_r) ex_d k) ex_d (e_surf void_env 0) = None.
Proof. exact void_misses. Qed.

(* C39: after a hit, the next hit or the end comes within a number of iterations that depends only
   on the cell, the heights and the ray; surfaces may change at every refresh. *)
Theorem C39_bounded_misses : forall E zlo zhi r d side n k st,
  real_decision (e_dec E) -> 0 < e_Lx E -> 0 < e_Ly E ->
  (forall j, zlo <= s_zmin (e_surf E j)) -> (forall j, s_zmax (e_surf E j) <= zhi) ->
  unit d -> vz d <> 0 -> pm1 side ->
  isteps k E (vz d) (istart r d side n) = inl st -> (n < i_nint st)%nat ->
  finishes E (vz d)
    (3 + lap_bound (e_Lx E) (e_Ly E) zlo zhi (match i_r st with Some p => vz p | None => 0 end) (i_d st))
    st.
Proof. exact bounded_misses. Qed.
Print Assumptions C39_bounded_misses.
Example C39_bounded_misses_ex :
  exists st, isteps 1 flat_env (vz ex_d) (istart (Some ex_r) ex_d 1 0) = inl st /\ (0 < i_nint st)%nat.
Proof. exact flat_first_step. Qed.

(* C39 for structures that are not periodic *)
Theorem C39_cell : forall E d0 n0, real_decision (e_dec E) -> vz d0 <> 0 ->
  forall fuel r d side th n res, unit d -> pm1 side -> (n0 <= n)%nat -> - (PI / 2) < th < PI / 2 ->
  cell_run fuel E (vz d0) r d side th n = Some res ->
  unit (r_dir res) /\ pm1 (r_side res) /\ (n0 <= r_nint res)%nat /\
  - (PI / 2) < r_loc res < PI / 2 /\
  match r_out res with
  | OReflected t => t = acos (vz (r_dir res)) /\ turned_back (vz d0) (r_dir res)
  | OTransmitted t => t = acos (vz (r_dir res)) /\ went_on (vz d0) (r_dir res)
  | OAbsorbed A => absorbs (e_dec E) (r_loc res) (e_rnd E (r_nint res - 1)) A /\ (n0 < r_nint res)%nat
  end.
Proof. exact cell_contract. Qed.
Print Assumptions C39_cell.
Example C39_cell_ex : exists res, single_cell_check 1 void_env (Some ex_r) ex_d 1 0 = Some res.
Proof. eexists. reflexivity. Qed.

(* C69 *)
Theorem C69_one_interaction : forall E zcov outer fuel r_a_0 x y o,
  real_decision (e_dec E) -> 0 < vz r_a_0 ->
  single_ray_interface outer fuel [(E, zcov)] r_a_0 x y = Some o ->
  exists out, o = Ok out /\
    (ro_checks out = 1%nat /\ unit (ro_dir out) /\
     ((ro_A out = None /\ 0 <= ro_theta out <= PI / 2 /\ 0 <= vz (ro_dir out)) \/
      (ro_A out = None /\ PI / 2 < ro_theta out <= PI /\ vz (ro_dir out) < 0) \/
      (exists A k, ro_A out = Some A /\ absorbs (e_dec E) (ro_loc out) (e_rnd E k) A /\ ro_theta out = 10 /\
                 - (PI / 2) < ro_loc out < PI / 2))) /\
    (ro_A out = None -> cos (ro_theta out) = vz (ro_dir out)).
Proof. exact ray_interface_contract. Qed.
Print Assumptions C69_one_interaction.
Example C69_one_interaction_ex : exists out,
  single_ray_interface 1 101 [(void_env, 0)] (mkv 0 0 1) (1 / 2) (1 / 2) = Some (Ok out).
Proof. exact void_ray. Qed.
