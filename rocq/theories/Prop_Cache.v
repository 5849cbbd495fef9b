(* Theorems about the results directory (C18-C23, C68, C74, C75) *)
From Coq Require Import List Bool Arith String Lia.
From Verif Require Import Base Model_Cache Spec_Cache Proof_Cache Proof_Cache2.
Import ListNotations.
Open Scope string_scope.

Definition empty_dir : fsys := fun _ => None.
Definition cell : list element := [Iface "front" MRT_TMM true; Bulk; Iface "back" MTMM true].
Definition planar (p : bool) : list element := [Iface "a" MTMM p].

(* ---------------- C18 ---------------- *)

(* Whatever calls (without overwrite, with any options, killed anywhere, even inside a write) were
   made on a directory without results for this interface and side, everything that is loaded
   together comes from a single computation of one of these calls. *)
Theorem C18_single_computation : forall name s p cs fs,
  absent fs name s ->
  (forall c, In c cs -> c_overwrite c = false /\ prof_setting (c_SC c) name p /\
                        no_clash (c_SC c) name s) ->
  forall m, get_matrices_or_paths (history fs cs) name s p false = Ok (Some m) \/
            load_mats (history fs cs) name s p = Ok m ->
  one_origin m /\ exists c, In c cs /\ c_run c = fst (fst (m_RT m)).
Proof. exact C18_main. Qed.
Print Assumptions C18_single_computation.

(* Killed between writes only, the next call completes (recomputing or loading) *)
Theorem C18_next_run_completes : forall cs fs SC run ow,
  no_torn fs -> (forall c, In c cs -> clean_kill (c_budget c)) ->
  exists fs', process_structure (history fs cs) run ow SC Forever = (fs', Finished).
Proof. exact C18_recover. Qed.
Print Assumptions C18_next_run_completes.

Lemma cell_front p : (p = true) -> prof_setting cell "front" p.
Proof.
  intros -> m q [E|[E|[E|[]]]]; inversion E; reflexivity.
Qed.

Lemma cell_no_clash s : no_clash cell "front" s.
Proof. intros q [E|[E|[E|[]]]]; destruct s; discriminate E. Qed.

(* killed after the lookup table, RT and A of the front were written but not the profile; run 2
   recomputes and its results are the ones loaded *)
Example C18_ex :
  let cs := [ {| c_run := 1; c_overwrite := false; c_SC := cell; c_budget := Kill 3 false |};
              {| c_run := 2; c_overwrite := false; c_SC := cell; c_budget := Forever |} ] in
  absent empty_dir "front" Front /\
  (forall c, In c cs -> c_overwrite c = false /\ prof_setting (c_SC c) "front" true /\
                        no_clash (c_SC c) "front" Front) /\
  load_mats (history empty_dir cs) "front" Front true =
    Ok {| m_RT := ((2, 0), Some (1, 0)); m_A := ((2, 0), Some (1, 0));
          m_prof := Some ((2, 0), Some (1, 0)) |} /\
  load_mats (history empty_dir (firstn 1 cs)) "front" Front true = Err FileNotFoundError.
Proof.
  cbn zeta. split; [intros k; reflexivity|]. split.
  - intros c [<-|[<-|[]]]; cbn [c_overwrite c_SC];
      (split; [reflexivity|split; [now apply cell_front|apply cell_no_clash]]).
  - split; vm_compute; reflexivity.
Qed.

(* ---------------- C19 ---------------- *)

(* Without kills, overwriting with any options keeps what is loaded consistent, if the profile
   setting of the interface stays the same. *)
Theorem C19_overwrite_partial : forall name s p cs fs,
  absent fs name s ->
  (forall c, In c cs -> c_budget c = Forever /\ prof_setting (c_SC c) name p /\
                        no_clash (c_SC c) name s) ->
  forall m, load_mats (history fs cs) name s p = Ok m -> one_origin m.
Proof. exact C19_main. Qed.
Print Assumptions C19_overwrite_partial.

Example C19_ex :
  let cs := [ {| c_run := 1; c_overwrite := false; c_SC := cell; c_budget := Forever |};
              {| c_run := 2; c_overwrite := true; c_SC := cell; c_budget := Forever |};
              {| c_run := 3; c_overwrite := false; c_SC := cell; c_budget := Forever |} ] in
  absent empty_dir "front" Rear /\
  (forall c, In c cs -> c_budget c = Forever /\ prof_setting (c_SC c) "front" true /\
                        no_clash (c_SC c) "front" Rear) /\
  load_mats (history empty_dir cs) "front" Rear true =
    Ok {| m_RT := ((2, 0), Some (2, 0)); m_A := ((2, 0), Some (2, 0));
          m_prof := Some ((2, 0), Some (2, 0)) |}.
Proof.
  cbn zeta. split; [intros k; reflexivity|]. split.
  - intros c [<-|[<-|[<-|[]]]]; cbn [c_budget c_SC];
      (split; [reflexivity|split; [now apply cell_front|apply cell_no_clash]]).
  - vm_compute; reflexivity.
Qed.

(* An overwriting run killed between its two writes leaves the RT matrix of run 2 with the A
   matrix of run 1, and run 3 (overwrite=False) finds and uses this pair. *)
Theorem C19_killed_overwrite_refuted :
  let cs := [ {| c_run := 1; c_overwrite := false; c_SC := planar false; c_budget := Forever |};
              {| c_run := 2; c_overwrite := true; c_SC := planar false; c_budget := Kill 1 false |} ] in
  exists m, get_matrices_or_paths (history empty_dir cs) "a" Front false false = Ok (Some m) /\
    ~ one_origin m /\ m_RT m = ((2, 0), None) /\ m_A m = ((1, 0), None) /\
  forall run, snd (process_structure (history empty_dir cs) run false (planar false) Forever) = Finished /\
    load_mats (fst (process_structure (history empty_dir cs) run false (planar false) Forever))
      "a" Front false = Ok m.
Proof.
  cbn zeta. eexists. split; [vm_compute; reflexivity|]. cbn [m_RT m_A]. split.
  - intros (H & _). discriminate H.
  - split; [reflexivity|]. split; [reflexivity|]. intros run. split; vm_compute; reflexivity.
Qed.
Print Assumptions C19_killed_overwrite_refuted.

(* ---------------- C74 ---------------- *)

(* No kill at all: profiles from run 1 are combined with the matrices of run 2, which was made with
   overwrite=True but without asking for profiles. *)
Theorem C74_stale_profile_refuted :
  let cs := [ {| c_run := 1; c_overwrite := false; c_SC := planar true; c_budget := Forever |};
              {| c_run := 2; c_overwrite := true; c_SC := planar false; c_budget := Forever |};
              {| c_run := 3; c_overwrite := false; c_SC := planar true; c_budget := Forever |} ] in
  exists m, load_mats (history empty_dir cs) "a" Front true = Ok m /\ ~ one_origin m /\
    m_RT m = ((2, 0), None) /\ m_A m = ((2, 0), None) /\ m_prof m = Some ((1, 0), None).
Proof.
  cbn zeta. eexists. split; [vm_compute; reflexivity|]. cbn [m_RT m_A m_prof]. split.
  - intros (_ & H). specialize (H _ eq_refl). discriminate H.
  - auto.
Qed.
Print Assumptions C74_stale_profile_refuted.

(* ---------------- C75 ---------------- *)

(* Killed inside the write of the A matrix: every later call with overwrite=False raises and
   changes nothing. *)
Theorem C75_torn_file_refuted :
  let fs1 := do_call empty_dir
     {| c_run := 1; c_overwrite := false; c_SC := planar false; c_budget := Kill 1 true |} in
  forall run b, process_structure fs1 run false (planar false) b = (fs1, Raised ValueError).
Proof. reflexivity. Qed.
Print Assumptions C75_torn_file_refuted.

(* overwrite=True always recovers, whatever the directory contains *)
Theorem C75_overwrite_recovers_partial : forall fs run SC,
  exists fs', process_structure fs run true SC Forever = (fs', Finished) /\
  forall i name m q s, nth_error SC i = Some (Iface name m q) -> computed SC i m s ->
    exists mm, load_mats fs' name s (q && can_profile m) = Ok mm /\ from_run run mm.
Proof. exact C75_main. Qed.
Print Assumptions C75_overwrite_recovers_partial.

Example C75_ex :
  let fs1 := do_call empty_dir
     {| c_run := 1; c_overwrite := false; c_SC := cell; c_budget := Kill 2 true |} in
  let r := process_structure fs1 2 true cell Forever in
  snd r = Finished /\
  load_mats (fst r) "front" Rear true =
    Ok {| m_RT := ((2, 0), Some (2, 0)); m_A := ((2, 0), Some (2, 0));
          m_prof := Some ((2, 0), Some (2, 0)) |}.
Proof. split; vm_compute; reflexivity. Qed.

(* ---------------- C20 ---------------- *)

Theorem C20_files_distinct : forall n s k n' s' k',
  mat_file n s k = mat_file n' s' k' -> n = n' /\ s = s' /\ k = k'.
Proof. exact mat_file_inj. Qed.
Print Assumptions C20_files_distinct.

(* After an overwriting run, what is loaded for an interface and side is what that run saved for
   it, however many calls (killed or not) on interfaces with other names follow. *)
Theorem C20_last_saved : forall fs run SC i name m q s fs',
  nth_error SC i = Some (Iface name m q) ->
  (forall j m' q', nth_error SC j = Some (Iface name m' q') -> j = i) ->
  computed SC i m s ->
  no_clash SC name s ->
  process_structure fs run true SC Forever = (fs', Finished) ->
  forall cs, (forall c, In c cs -> not_named (c_SC c) name /\ no_clash (c_SC c) name s) ->
  exists lk, load_mats (history fs' cs) name s (q && can_profile m) =
    Ok {| m_RT := ((run, i), lk); m_A := ((run, i), lk);
          m_prof := if q && can_profile m then Some ((run, i), lk) else None |}.
Proof. exact C20_last. Qed.
Print Assumptions C20_last_saved.

(* With overwrite=False an existing result is returned unchanged *)
Theorem C20_existing_kept : forall name s p m cs fs,
  load_mats fs name s p = Ok m ->
  (forall c, In c cs -> c_overwrite c = false /\ no_clash (c_SC c) name s /\
     forall m' q, In (Iface name m' q) (c_SC c) -> q && can_profile m' = true -> p = true) ->
  load_mats (history fs cs) name s p = Ok m.
Proof. exact C20_kept. Qed.
Print Assumptions C20_existing_kept.

Example C20_ex :
  let fs' := fst (process_structure empty_dir 7 true cell Forever) in
  let cs := [ {| c_run := 8; c_overwrite := true; c_SC := planar true; c_budget := Kill 1 true |};
              {| c_run := 9; c_overwrite := true; c_SC := [Iface "frontr" MRCWA true]; c_budget := Forever |} ] in
  computed cell 0 MRT_TMM Rear /\
  (forall j m' q', nth_error cell j = Some (Iface "front" m' q') -> j = 0) /\
  (forall c, In c cs -> not_named (c_SC c) "front" /\ no_clash (c_SC c) "front" Rear) /\
  load_mats (history fs' cs) "front" Rear true =
    Ok {| m_RT := ((7, 0), Some (7, 0)); m_A := ((7, 0), Some (7, 0));
          m_prof := Some ((7, 0), Some (7, 0)) |}.
Proof.
  cbn zeta. split; [right; cbn; lia|]. split.
  { intros [|[|[|[|j]]]] m' q'; cbn; try discriminate. reflexivity. }
  split.
  - intros c [<-|[<-|[]]]; cbn [c_SC]; split.
    + intros m q [E|[]]; discriminate E.
    + intros q [E|[]]; discriminate E.
    + intros m q [E|[]]; discriminate E.
    + intros q [E|[]]; discriminate E.
  - vm_compute; reflexivity.
Qed.

Example C20_kept_ex :
  let fs' := fst (process_structure empty_dir 7 true cell Forever) in
  let cs := [ {| c_run := 8; c_overwrite := false; c_SC := cell; c_budget := Forever |} ] in
  (exists m, load_mats fs' "front" Rear true = Ok m) /\
  (forall c, In c cs -> c_overwrite c = false /\ no_clash (c_SC c) "front" Rear /\
     forall m' q, In (Iface "front" m' q) (c_SC c) -> q && can_profile m' = true -> true = true).
Proof.
  cbn zeta. split; [eexists; vm_compute; reflexivity|].
  intros c [<-|[]]; cbn [c_overwrite c_SC]. split; [reflexivity|]. split; [apply cell_no_clash|auto].
Qed.

(* The lookup table of an interface called "afrontprofmat" replaces the profiles of "a"; within one
   structure it is the other way round. *)
Theorem C20_lookup_clash_refuted :
  (let cs := [ {| c_run := 1; c_overwrite := false; c_SC := planar true; c_budget := Forever |};
               {| c_run := 2; c_overwrite := true; c_SC := [Iface "afrontprofmat" MRT_TMM false];
                  c_budget := Forever |} ] in
   load_mats (history empty_dir cs) "a" Front true =
     Ok {| m_RT := ((1, 0), None); m_A := ((1, 0), None); m_prof := Some ((2, 0), None) |}) /\
  (let SC := [Iface "a" MTMM true; Bulk; Iface "afrontprofmat" MRT_TMM false] in
   layered SC /\
   load_mats (fst (process_structure empty_dir 1 true SC Forever)) "afrontprofmat" Front false =
     Ok {| m_RT := ((1, 2), Some (1, 0)); m_A := ((1, 2), Some (1, 0)); m_prof := None |}).
Proof. cbn zeta. split; [vm_compute; reflexivity|]. split; [exact I|vm_compute; reflexivity]. Qed.
Print Assumptions C20_lookup_clash_refuted.

(* ---------------- C21 ---------------- *)

(* Every file is there if no interface but the last is a Mirror or Lambertian one and profiles are
   requested only for methods that compute them. *)
Theorem C21_files_exist_partial : forall fs run ow SC fs',
  layered SC ->
  (forall i n m q, nth_error SC i = Some (Iface n m q) ->
     ((S i < List.length SC)%nat -> m <> Mirror /\ m <> Lambertian) /\
     (q = true -> can_profile m = true)) ->
  process_structure fs run ow SC Forever = (fs', Finished) ->
  exists F R, load_redistribution_matrices fs' SC Front = Ok F /\
              load_redistribution_matrices fs' SC Rear = Ok R /\
              List.length F = List.length (interfaces SC) /\
              S (List.length R) = List.length (interfaces SC).
Proof. exact C21_main. Qed.
Print Assumptions C21_files_exist_partial.

Example C21_ex :
  let SC := [Iface "f" MRT_TMM true; Bulk; Iface "m" MRCWA false; Bulk; Iface "b" Lambertian false] in
  layered SC /\
  (forall i n m q, nth_error SC i = Some (Iface n m q) ->
     ((S i < List.length SC)%nat -> m <> Mirror /\ m <> Lambertian) /\
     (q = true -> can_profile m = true)) /\
  snd (process_structure empty_dir 1 false SC Forever) = Finished.
Proof.
  cbn zeta. split; [exact I|]. split; [|reflexivity].
  intros [|[|[|[|[|[|i]]]]]] n m q; cbn; try discriminate; intros E; inversion E; subst;
    (split; [intros H; try lia; split; discriminate|]); intros E'; (reflexivity || discriminate E').
Qed.

(* A Lambertian (or Mirror) interface above a bulk layer: its rear matrix is never made. *)
Theorem C21_no_rear_refuted : forall m, m = Mirror \/ m = Lambertian ->
  let SC := [Iface "top" m false; Bulk; Iface "back" MTMM false] in
  let r := process_structure empty_dir 1 false SC Forever in
  layered SC /\ snd r = Finished /\
  load_redistribution_matrices (fst r) SC Rear = Err FileNotFoundError.
Proof. intros m [->| ->]; cbn zeta; (split; [exact I|split; vm_compute; reflexivity]). Qed.
Print Assumptions C21_no_rear_refuted.

(* prof_layers on a method without profiles: the profile file is never made. *)
Theorem C21_no_profile_refuted : forall m, can_profile m = false ->
  let SC := [Iface "top" MTMM false; Bulk; Iface "back" m true] in
  let r := process_structure empty_dir 1 false SC Forever in
  layered SC /\ snd r = Finished /\
  load_redistribution_matrices (fst r) SC Front = Err FileNotFoundError.
Proof.
  intros m Hm; cbn zeta. split; [exact I|].
  destruct m; try discriminate Hm; (split; vm_compute; reflexivity).
Qed.
Print Assumptions C21_no_profile_refuted.

(* ---------------- C22 ---------------- *)

(* True when results are overwritten or the directory is new *)
Theorem C22_options_respected_partial : forall fs run ow SC i name m q s fs' mm,
  ow = true \/ (forall p, fs p = None) ->
  nth_error SC i = Some (Iface name m q) -> computed SC i m s ->
  process_structure fs run ow SC Forever = (fs', Finished) ->
  load_mats fs' name s (q && can_profile m) = Ok mm ->
  from_run run mm.
Proof. exact C22_main. Qed.
Print Assumptions C22_options_respected_partial.

Example C22_ex :
  let r := process_structure empty_dir 4 false cell Forever in
  computed cell 2 MTMM Front /\ snd r = Finished /\
  exists mm, load_mats (fst r) "back" Front true = Ok mm /\ from_run 4 mm.
Proof.
  cbn zeta. split; [now left|]. split; [reflexivity|]. eexists. split; [vm_compute; reflexivity|].
  repeat apply conj; cbn; try reflexivity; try (intros o Ho; discriminate).
  intros p E; inversion E; subst. split; [reflexivity|]. intros o Ho; discriminate.
Qed.

(* Second call with other options and the default overwrite=False: the first call's results *)
Theorem C22_stale_refuted : forall m q run1 run2, m <> MRT_TMM ->
  let SC := [Iface "a" m q] in
  let fs1 := fst (process_structure empty_dir run1 false SC Forever) in
  let r := process_structure fs1 run2 false SC Forever in
  snd r = Finished /\
  exists mm, load_mats (fst r) "a" Front (q && can_profile m) = Ok mm /\ from_run run1 mm.
Proof.
  intros m q run1 run2 Hm. cbn zeta.
  destruct m; try congruence; destruct q; (split; [vm_compute; reflexivity|]);
    eexists; (split; [vm_compute; reflexivity|]);
    (split; [split; [reflexivity|cbn; intros o Ho; discriminate]|]);
    (split; [split; [reflexivity|cbn; intros o Ho; discriminate]|]);
    cbn; intros p E; inversion E; subst; (split; [reflexivity|cbn; intros o Ho; discriminate]).
Qed.
Print Assumptions C22_stale_refuted.

(* Freshly computed matrices made from another call's lookup table *)
Theorem C22_stale_lookup_refuted :
  let SC := [Iface "a" MRT_TMM false] in
  let fs1 := do_call empty_dir
     {| c_run := 1; c_overwrite := false; c_SC := SC; c_budget := Kill 1 false |} in
  let r := process_structure fs1 2 false SC Forever in
  snd r = Finished /\
  load_mats (fst r) "a" Front false =
    Ok {| m_RT := ((2, 0), Some (1, 0)); m_A := ((2, 0), Some (1, 0)); m_prof := None |}.
Proof. cbn zeta. split; vm_compute; reflexivity. Qed.
Print Assumptions C22_stale_lookup_refuted.

(* ---------------- C23 ---------------- *)

Theorem C23_get_wavelength : forall (V : Type) (options : string -> option V),
  get_wavelength options "wavelength" =
    (match options "wavelengths" with Some w => Some w | None => options "wavelength" end) /\
  (forall k, k <> "wavelength" -> get_wavelength options k = options k) /\
  (forall k, get_wavelength (get_wavelength options) k = get_wavelength options k).
Proof. exact C23_main. Qed.
Print Assumptions C23_get_wavelength.

Example C23_ex :
  let o := fun k => if String.eqb k "wavelengths" then Some 5 else
                    if String.eqb k "wavelength" then Some 3 else
                    if String.eqb k "nx" then Some 10 else None in
  get_wavelength o "wavelength" = Some 5 /\ get_wavelength o "nx" = Some 10 /\
  get_wavelength o "ny" = None.
Proof. cbn zeta. repeat split. Qed.

(* ---------------- C68 ---------------- *)

Theorem C68_names_unique : forall n i n' i',
  lookup_file (rt_lookup_name n i) = lookup_file (rt_lookup_name n' i') -> n = n' /\ i = i'.
Proof. exact (fun n i n' i' H => rt_lookup_name_inj n i n' i' (lookup_file_inj _ _ H)). Qed.
Print Assumptions C68_names_unique.

(* The table opened for surface i when tracing is the one made for surface i by this structure *)
Theorem C68_read_back : forall fs run ow tx,
  no_torn fs ->
  ow = true \/ (forall i n, nth_error tx i = Some (n, true) ->
                 fs (lookup_file (rt_lookup_name n i)) = None) ->
  exists fs' tabs,
    make_lookuptable_rt_structure fs run ow tx Forever = (fs', Finished) /\
    make_tmm_args fs' tx = Ok tabs /\ List.length tabs = List.length tx /\
    forall i n l, nth_error tx i = Some (n, l) ->
      nth_error tabs i = Some (if l : bool then Some ((run, i), None) else None).
Proof. exact C68_main. Qed.
Print Assumptions C68_read_back.

(* three surfaces of the same name, one without layers *)
Example C68_ex :
  let tx := [("pyr", true); ("pyr", false); ("pyr", true)] in
  no_torn empty_dir /\
  make_tmm_args (fst (make_lookuptable_rt_structure empty_dir 1 false tx Forever)) tx =
    Ok [Some ((1, 0), None); None; Some ((1, 2), None)].
Proof. split; [intros p; discriminate|vm_compute; reflexivity]. Qed.
