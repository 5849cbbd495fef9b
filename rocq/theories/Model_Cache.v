(* Model of the on-disk cache of redistribution matrices and lookup tables:
   get_matrices_or_paths, the save sequence of every writer, process_structure,
   load_redistribution_matrices, get_wavelength.

   The numerical contents of a file are abstracted to their provenance: which process run and
   which element of its structure computed them, and (for ray tracing with a lookup table) the
   provenance of the lookup table that was used.  A process may be killed at any point: between
   two file writes, or in the middle of one (the file is then Torn and cannot be loaded). *)
From Coq Require Import List Bool Arith String.
From Verif Require Import Base.
Import ListNotations.
Open Scope string_scope.

(* (run number, element index in the structure); names what utilities.py:283-288 returns; no code *)
Definition origin := (nat * nat)%type.
(* provenance of a computed result: its own origin and that of the lookup table it used; no code: which run made the file, and which made the table of rt.py:110 *)
Definition prov := (origin * option origin)%type.

(* what utilities.py:283-288 may read *)
Inductive content := Good (p : prov) | Torn.

(* contents of the directory structpath, by file name; os.path.join(structpath, name) is taken
   to be injective in name (true unless name is an absolute path); utilities.py:272-278 *)
Definition fsys := string -> option content.

(* rt.py:245-246, 260, tmm.py:345-346, 365, rcwa.py:276-277, 308, ideal_cases.py:80-81, 159-160, lookup_table.py:206 *)
Definition upd (fs : fsys) (p : string) (c : content) : fsys :=
  fun q => if String.eqb p q then Some c else fs q.

(* utilities.py:272-278 *)
Inductive side := Front | Rear.
Definition side_str (s : side) : string :=
  match s with Front => "front" | Rear => "rear" end.

(* utilities.py:272-278 *)
Inductive kind := KRT | KA | KProf.
Definition kind_str (k : kind) : string :=
  match k with KRT => "RT.npz" | KA => "A.npz" | KProf => "profmat.nc" end.

(* utilities.py:272-278, multiply_matrices.py:230-235 and 264-266 *)
Definition mat_file (name : string) (s : side) (k : kind) : string :=
  name ++ side_str s ++ kind_str k.

(* lookup_table.py:57 and rt.py:110 *)
Definition lookup_file (name : string) : string := name ++ ".nc".

(* load_npz / xr.load_dataset / xr.open_dataset; utilities.py:283-288, multiply_matrices.py:235-236, 266, rt.py:110 *)
Definition load (fs : fsys) (p : string) : res prov :=
  match fs p with
  | None => Err FileNotFoundError
  | Some Torn => Err ValueError
  | Some (Good v) => Ok v
  end.

(* utilities.py:280, 287, lookup_table.py:58 *)
Definition isfile (fs : fsys) (p : string) : bool :=
  match fs p with None => false | Some _ => true end.

(* what is loaded for one interface and side: RT matrix, A matrix, profile dataset; multiply_matrices.py:228-274 *)
Record mats := { m_RT : prov; m_A : prov; m_prof : option prov }.

(* utilities.py:268-303.  prof: prof_layers is not None.  Ok None: existing = False. *)
Definition get_matrices_or_paths (fs : fsys) (name : string) (s : side) (prof overwrite : bool)
  : res (option mats) :=
  if isfile fs (mat_file name s KRT) && isfile fs (mat_file name s KA) && negb overwrite then
    rbind (load fs (mat_file name s KRT)) (fun rt =>
    rbind (load fs (mat_file name s KA)) (fun a =>
    if prof then
      if isfile fs (mat_file name s KProf) then
        rbind (load fs (mat_file name s KProf)) (fun p =>
        Ok (Some {| m_RT := rt; m_A := a; m_prof := Some p |}))
      else Ok None
    else Ok (Some {| m_RT := rt; m_A := a; m_prof := None |})))
  else Ok None.

(* ---------- structures ---------- *)

(* structure.py:81, the six valid methods *)
Inductive meth := Mirror | Lambertian | MTMM | MRT_TMM | MRT_Fresnel | MRCWA.

(* An Interface: name, method, and whether prof_layers is given.  A BulkLayer.  structure.py:60-105 *)
Inductive element :=
| Iface (name : string) (m : meth) (prof : bool)
| Bulk.

(* One call made by process_structure that may write files.  process_structure.py:94-106, 132-142, 155-163, 175-188, 202-217, 228-242, 252-266 *)
Inductive task :=
(* make_TMM_lookuptable(struct.layers, ..., struct.name, ...) *)
| TLookup (idx : nat) (name : string)
(* RT / TMM / RCWA / mirror_matrix / lambertian_matrix; uses_lookup: RT with Fr_or_TMM = 1 *)
| TMat (idx : nat) (name : string) (s : side) (prof uses_lookup : bool).

(* process_structure.py:74-106, first loop *)
Definition lookup_tasks (SC : list element) : list task :=
  flat_map (fun ie =>
    match snd ie with
    | Iface n MRT_TMM _ => [TLookup (fst ie) n]
    | _ => []
    end) (enumerate SC).

(* process_structure.py:116-121 *)
Definition which_sides (SC : list element) (i : nat) : list side :=
  if Nat.eqb i (List.length SC - 1) then [Front] else [Front; Rear].

(* process_structure.py:108-266, second loop *)
Definition mat_tasks (SC : list element) : list task :=
  flat_map (fun ie =>
    let i := fst ie in
    match snd ie with
    | Bulk => []
    | Iface n m prof =>
        match m with
        | Mirror | Lambertian => [TMat i n Front false false]
        | MTMM | MRCWA => map (fun s => TMat i n s prof false) (which_sides SC i)
        | MRT_TMM => map (fun s => TMat i n s prof true) (which_sides SC i)
        | MRT_Fresnel => map (fun s => TMat i n s false false) (which_sides SC i)
        end
    end) (enumerate SC).

(* process_structure.py:74-266 *)
Definition tasks (SC : list element) : list task := (lookup_tasks SC ++ mat_tasks SC)%list.

(* ---------- the writes made by one call ---------- *)

(* Nothing is written if results are found; otherwise RT, A, and the profile if requested, in
   that order.
   lookup table: lookup_table.py:57-60, 206
   RT: rt.py:73-78, 110, 245-246, 260;  TMM: tmm.py:134-138, 345-346, 365
   RCWA: rcwa.py:117-121, 276-277, 308
   lambertian_matrix: ideal_cases.py:37-41, 80-81;  mirror_matrix: 113-117, 159-160 *)
Definition task_writes (fs : fsys) (run : nat) (overwrite : bool) (t : task)
  : res (list (string * prov)) :=
  match t with
  | TLookup i n =>
      if isfile fs (lookup_file n) && negb overwrite
      then rbind (load fs (lookup_file n)) (fun _ => Ok [])
      else Ok [(lookup_file n, ((run, i), None))]
  | TMat i n s prof lk =>
      rbind (get_matrices_or_paths fs n s prof overwrite) (fun found =>
      match found with
      | Some _ => Ok []
      | None =>
          rbind (if lk then rbind (load fs (lookup_file n)) (fun p => Ok (Some (fst p)))
                 else Ok None) (fun src =>
          let v := ((run, i), src) in
          Ok ([(mat_file n s KRT, v); (mat_file n s KA, v)]
              ++ (if prof then [(mat_file n s KProf, v)] else []))%list)
      end)
  end.

(* ---------- execution with a possible kill ---------- *)

(* Kill k torn: the process is killed when k more writes have completed; torn: inside the write
   that follows.  no code: a process may be killed during process_structure.py:74-266 *)
Inductive budget := Forever | Kill (k : nat) (torn : bool).

(* rt.py:244-260, tmm.py:344-365, rcwa.py:275-308 *)
Fixpoint do_writes (fs : fsys) (ws : list (string * prov)) (b : budget)
  : fsys * option budget :=
  match ws with
  | [] => (fs, Some b)
  | (p, v) :: r =>
      match b with
      | Forever => do_writes (upd fs p (Good v)) r Forever
      | Kill 0 torn => (if torn then upd fs p Torn else fs, None)
      | Kill (S k) torn => do_writes (upd fs p (Good v)) r (Kill k torn)
      end
  end.

(* how process_structure.py:21-266 ends *)
Inductive outcome := Finished | Killed | Raised (e : err).

(* process_structure.py:74-266 *)
Fixpoint run_tasks (fs : fsys) (run : nat) (overwrite : bool) (ts : list task) (b : budget)
  : fsys * outcome :=
  match ts with
  | [] => (fs, Finished)
  | t :: r =>
      match task_writes fs run overwrite t with
      | Err e => (fs, Raised e)
      | Ok ws =>
          match do_writes fs ws b with
          | (fs', None) => (fs', Killed)
          | (fs', Some b') => run_tasks fs' run overwrite r b'
          end
      end
  end.

(* process_structure.py:21-266 *)
Definition process_structure (fs : fsys) (run : nat) (overwrite : bool) (SC : list element)
  (b : budget) : fsys * outcome :=
  run_tasks fs run overwrite (tasks SC) b.

(* A history of process_structure calls on one results directory.  a call of process_structure.py:21 *)
Record call := { c_run : nat; c_overwrite : bool; c_SC : list element; c_budget : budget }.

Definition do_call (fs : fsys) (c : call) : fsys :=
  fst (process_structure fs (c_run c) (c_overwrite c) (c_SC c) (c_budget c)).

Definition history (fs : fsys) (cs : list call) : fsys := fold_left do_call cs fs.

(* ---------- loading for calculate_RAT ---------- *)

(* multiply_matrices.py:230-272, for one interface *)
Definition load_mats (fs : fsys) (name : string) (s : side) (prof : bool) : res mats :=
  rbind (load fs (mat_file name s KRT)) (fun rt =>
  rbind (load fs (mat_file name s KA)) (fun a =>
  if prof then
    rbind (load fs (mat_file name s KProf)) (fun p =>
    Ok {| m_RT := rt; m_A := a; m_prof := Some p |})
  else Ok {| m_RT := rt; m_A := a; m_prof := None |})).

(* multiply_matrices.py:56-72: names and profile requests of the interfaces *)
Definition interfaces (SC : list element) : list (string * bool) :=
  flat_map (fun e => match e with Iface n _ p => [(n, p)] | Bulk => [] end) SC.

Definition n_bulks (SC : list element) : nat :=
  List.length (filter (fun e => match e with Bulk => true | _ => false end) SC).

(* multiply_matrices.py:210-275; layer_names[i1] raises IndexError beyond the list *)
Definition load_redistribution_matrices (fs : fsys) (SC : list element) (s : side)
  : res (list mats) :=
  let n_interfaces := (n_bulks SC + 1)%nat in
  let n_max := match s with Front => n_interfaces | Rear => (n_interfaces - 1)%nat end in
  rmap (fun i => match nth_error (interfaces SC) i with
                 | Some (n, p) => load_mats fs n s p
                 | None => Err IndexError
                 end) (seq 0 n_max).

(* ---------- get_wavelength ---------- *)

(* utilities.py (get_wavelength): options as a finite map from keys to values of any type; utilities.py:342-351 *)
Definition get_wavelength {V : Type} (options : string -> option V) : string -> option V :=
  match options "wavelengths" with
  | Some w => fun k => if String.eqb "wavelength" k then Some w else options k
  | None => options
  end.

(* ---------- lookup tables of rt_structure ---------- *)

From Coq Require Import DecimalString.

(* "int_{}".format(i1) appended to the surface name: rt.py:529 (written) and rt.py:1051 (read) *)
Definition rt_lookup_name (name : string) (i : nat) : string :=
  name ++ "int_" ++ NilEmpty.string_of_uint (Nat.to_uint i).

(* A front surface: its name and whether it has the attribute interface_layers.  rt.py:498-499, 529 *)
Definition rt_surface := (string * bool)%type.

(* rt.py:498-566: one make_TMM_lookuptable call per surface with interface layers *)
Definition rt_lookup_tasks (textures : list rt_surface) : list task :=
  flat_map (fun it : nat * rt_surface => if snd (snd it) then [TLookup (fst it) (rt_lookup_name (fst (snd it)) (fst it))]
                      else []) (enumerate textures).

(* rt.py:482-568 *)
Definition make_lookuptable_rt_structure (fs : fsys) (run : nat) (overwrite : bool)
  (textures : list rt_surface) (b : budget) : fsys * outcome :=
  run_tasks fs run overwrite (rt_lookup_tasks textures) b.

(* rt.py:1039-1064: the table opened for surface i (None: Fresnel, no table).  The names are read
   from deep copies of the surfaces (rt.py:757, 852), which keep the name (rt.py:1438-1448). *)
Definition make_tmm_args (fs : fsys) (textures : list rt_surface) : res (list (option prov)) :=
  rmap (fun it : nat * rt_surface => if snd (snd it)
                  then rbind (load fs (lookup_file (rt_lookup_name (fst (snd it)) (fst it))))
                             (fun v => Ok (Some v))
                  else Ok None) (enumerate textures).
