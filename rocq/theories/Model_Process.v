(* Model of the calls made by process_structure (matrix_formalism/process_structure.py), of get_savepath
   (utilities.py:306-339) and of the default options (options.py).

   The calculations themselves (TMM, RT, RCWA, ..) are modelled elsewhere; here a call is recorded with the
   arguments it is given.  Which files the calls read and write is in Model_Cache.v. *)
From Coq Require Import Reals List ZArith Bool String.
From Verif Require Import Base Model_Structure Model_Angles Model_Cache.
Import ListNotations.
Local Notation length := List.length.
Open Scope list_scope.
Open Scope R_scope.

(* ---------- the calls of process_structure ---------- *)

(* an element of the structure.  OOther: an object that is neither BulkLayer nor Interface and has no attribute
   material (e.g. an RTgroup); process_structure.py:66-75, 108-109 *)
Inductive item (M V T : Type) :=
| OBulk (b : bulk M V)
| OIface (i : interface M V T)
| OOther.
Arguments OBulk {M V T}. Arguments OIface {M V T}. Arguments OOther {M V T}.

(* a call made by process_structure with its arguments; options, structpath and save=True are the same in all
   calls and left out; process_structure.py:94-106, 132-142, 155-163, 175-188, 202-217, 228-242, 252-266 *)
Inductive call_made (M V T : Type) :=
(* process_structure.py:94-106, sides [1, -1] *)
| CTable (layers : option (list (larg M V))) (inc sub : M) (name : V) (coherent : bool) (coh_list : option V)
    (prof : option (list Z)) (overwrite : bool)
(* 132-142: front_or_rear="front" *)
| CMirror (name : V) (overwrite : bool)
(* 155-163 *)
| CLambert (name : V) (overwrite : bool)
(* 175-188 *)
| CTMM (layers : option (list (larg M V))) (inc sub : M) (name : V) (coherent : bool) (coh_list : option V)
    (prof : option (list Z)) (s : Model_Cache.side) (overwrite : bool)
(* 202-217 (table) and 228-243: group = RTgroup(textures=[struct.texture]) has no materials *)
| CRT (texture : T) (inc sub : M) (name : V) (table : bool) (s : Model_Cache.side) (n_abs : nat)
    (prof : option (list Z)) (only_incidence : bool) (widths : option (list R)) (overwrite : bool)
(* 252-266 *)
| CRCWA (layers : option (list (larg M V))) (d_vectors orders : V) (inc sub : M) (only_incidence : bool)
    (prof : option (list Z)) (s : Model_Cache.side) (name : V) (overwrite : bool).
Arguments CTable {M V T}. Arguments CMirror {M V T}. Arguments CLambert {M V T}. Arguments CTMM {M V T}.
Arguments CRT {M V T}. Arguments CRCWA {M V T}.

Section Process.
Context {M V T : Type}.
Variables (incidence transmission : option M).  (* attributes of the Structure, given as keywords *)
Variable SC : list (item M V T).
Variables (only_inc overwrite : bool).          (* options["only_incidence_angle"], argument overwrite *)

(* attribute of an Interface that came from its keywords; the last value given for a key counts, but Python
   rejects repeated keywords; structure.py:88 *)
Fixpoint lookup (k : string) (l : list (string * V)) : option V :=
  match l with [] => None | (k', v) :: r => if String.eqb k k' then Some v else lookup k r end.
Definition attr (i : interface M V T) (k : string) : res V :=
  match lookup k (i_extra i) with Some v => Ok v | None => Err AttributeError end.

(* SC[j].material, for an element of the list.  An Interface has no attribute material (structure.py:70-104) unless
   one is passed as a keyword, which is not modelled *)
Definition material_of (e : option (item M V T)) : res M :=
  match e with
  | None => Err IndexError
  | Some (OBulk b) => Ok (b_material b)
  | Some _ => Err AttributeError
  end.

Definition given (m : option M) : res M := match m with Some x => Ok x | None => Err AttributeError end.

(* process_structure.py:80-88 and 111-121 *)
Definition medium_above (i : nat) : res M :=
  match i with O => given incidence | S j => material_of (nth_error SC j) end.
Definition medium_below (i : nat) : res M :=
  if Nat.eqb i (length SC - 1) then given transmission else material_of (nth_error SC (S i)).
Definition sides_of (i : nat) : list Model_Cache.side :=
  if Nat.eqb i (length SC - 1) then [Front] else [Front; Rear].

(* process_structure.py:43-49 *)
Definition determine_only_incidence (s : Model_Cache.side) (j1 : nat) (oia : bool) : bool :=
  match s with Front => Nat.eqb j1 0 && oia | Rear => false end.

(* process_structure.py:51-60 *)
Definition determine_coherency (f : interface M V T) : res (bool * option V) :=
  if i_coherent f then Ok (true, None)
  else rbind (attr f "coherency_list") (fun l => Ok (false, Some l)).

(* process_structure.py:66-72: one entry per BulkLayer or Interface, in nm *)
Definition layer_widths : list (list R) :=
  flat_map (fun e => match e with
                     | OBulk b => [[b_width b * 10 ^ 9]]
                     | OIface f => [map (fun w => w * 10 ^ 9) (i_widths f)]
                     | OOther => []
                     end) SC.

(* len(struct.layers); process_structure.py:194 *)
Definition n_layers (f : interface M V T) : res nat :=
  match i_layers f with Some l => Ok (length l) | None => Err TypeError end.

(* process_structure.py:74-106, one Interface *)
Definition table_calls (i : nat) (f : interface M V T) : res (list (call_made M V T)) :=
  if String.eqb (i_method f) "RT_TMM" then
    rbind (medium_above i) (fun inc => rbind (medium_below i) (fun sub =>
    rbind (determine_coherency f) (fun co => rbind (attr f "name") (fun nm =>
    Ok [CTable (i_layers f) inc sub nm (fst co) (snd co) (i_prof f) overwrite]))))
  else Ok [].

(* process_structure.py:108-266, one Interface *)
Definition matrix_calls (i : nat) (f : interface M V T) : res (list (call_made M V T)) :=
  rbind (medium_above i) (fun inc => rbind (medium_below i) (fun sub =>
  if String.eqb (i_method f) "Mirror" then rbind (attr f "name") (fun nm => Ok [CMirror nm overwrite])
  else if String.eqb (i_method f) "Lambertian" then rbind (attr f "name") (fun nm => Ok [CLambert nm overwrite])
  else if String.eqb (i_method f) "TMM" then
    rbind (determine_coherency f) (fun co => rbind (attr f "name") (fun nm =>
    Ok (map (fun s => CTMM (i_layers f) inc sub nm (fst co) (snd co) (i_prof f) s overwrite) (sides_of i))))
  else if String.eqb (i_method f) "RT_TMM" then
    rbind (n_layers f) (fun n => rbind (attr f "name") (fun nm => rbind (py_index layer_widths (Z.of_nat i)) (fun w =>
    Ok (map (fun s => CRT (i_texture f) inc sub nm true s n (i_prof f)
                        (determine_only_incidence s i only_inc) (Some w) overwrite) (sides_of i)))))
  else if String.eqb (i_method f) "RT_Fresnel" then
    rbind (attr f "name") (fun nm =>
    Ok (map (fun s => CRT (i_texture f) inc sub nm false s 0 None
                        (determine_only_incidence s i only_inc) None overwrite) (sides_of i)))
  else if String.eqb (i_method f) "RCWA" then
    rbind (attr f "d_vectors") (fun dv => rbind (attr f "rcwa_orders") (fun no => rbind (attr f "name") (fun nm =>
    Ok (map (fun s => CRCWA (i_layers f) dv no inc sub false (i_prof f) s nm overwrite) (sides_of i)))))
  else Ok [])).

Definition per_item (calls : nat -> interface M V T -> res (list (call_made M V T))) (ie : nat * item M V T)
  : res (list (call_made M V T)) :=
  match snd ie with OIface f => calls (fst ie) f | _ => Ok [] end.

(* the calls made until the first exception; process_structure.py:74-266 *)
Fixpoint until_error (l : list (res (list (call_made M V T)))) : list (call_made M V T) * option err :=
  match l with
  | [] => ([], None)
  | Ok c :: r => let (cs, e) := until_error r in (c ++ cs, e)
  | Err e :: _ => ([], Some e)
  end.

(* process_structure.py:21-266: the calls made, in order, and the exception if one was raised *)
Definition process_calls : list (call_made M V T) * option err :=
  until_error (map (per_item table_calls) (enumerate SC) ++ map (per_item matrix_calls) (enumerate SC)).

(* multiply_matrices.py:56-70: what calculate_RAT takes from the structure *)
Definition bulks : list (bulk M V) := flat_map (fun e => match e with OBulk b => [b] | _ => [] end) SC.
Definition ifaces : list (interface M V T) := flat_map (fun e => match e with OIface f => [f] | _ => [] end) SC.

(* multiply_matrices.py:210-275: layer_names[i1] for i1 < n_bulks + 1 *)
Definition names_loaded : res (list (interface M V T)) :=
  rmap (fun i => py_index ifaces (Z.of_nat i)) (seq 0 (length bulks + 1)).
End Process.

(* ---------- get_savepath ---------- *)

(* a path is the list of its components (relative to the root of the file system); os.path.join with a relative
   second argument appends.  A project name containing / has several components; utilities.py:323, 327, 332 *)
Definition path := list string.
Inductive node := Dir | File.
Definition dirs := path -> option node.
Definition path_eqb (p q : path) : bool := if list_eq_dec string_dec p q then true else false.
Definition isdir (fs : dirs) (p : path) : bool := match fs p with Some Dir => true | _ => false end.

(* utilities.py:329, 334, 337 *)
Inductive os_err := FileExists | NotFound | NotADirectory.

(* os.mkdir; utilities.py:329, 334, 337 *)
Definition mkdir (fs : dirs) (p : path) : dirs + os_err :=
  match fs p with
  | Some _ => inr FileExists
  | None =>
      match fs (removelast p) with
      | Some Dir => inl (fun q => if path_eqb p q then Some Dir else fs q)
      | Some File => inr NotADirectory
      | None => inr NotFound
      end
  end.

(* the save_location argument; where cwd and home are; utilities.py:321, 325, 331 *)
Inductive location := Current | Default | Path (p : path).

(* utilities.py:321-337: the directories made if they do not exist, in order, and the returned path *)
Definition wanted_dirs (cwd home : path) (loc : location) (project : path) : list path :=
  match loc with
  | Current => [cwd ++ project]
  | Default => [home ++ ["RayFlare_results"%string]; home ++ "RayFlare_results"%string :: project]
  | Path p => [p; p ++ project]
  end.
Definition structpath (cwd home : path) (loc : location) (project : path) : path :=
  match loc with
  | Current => cwd ++ project
  | Default => home ++ "RayFlare_results"%string :: project
  | Path p => p ++ project
  end.

(* one process in the middle of get_savepath.  p_made: the test isdir(p) came out False and mkdir(p) is next.
   The test and mkdir are separate operations of the operating system; utilities.py:328-329, 333-334, 336-337 *)
Record proc := { p_todo : list path; p_mk : option path; p_err : option os_err }.

(* utilities.py:328-329, 333-334, 336-337 *)
Definition pstep (fs : dirs) (p : proc) : dirs * proc :=
  match p_err p with
  | Some _ => (fs, p)
  | None =>
      match p_mk p with
      | Some d =>
          match mkdir fs d with
          | inl fs' => (fs', {| p_todo := p_todo p; p_mk := None; p_err := None |})
          | inr e => (fs, {| p_todo := p_todo p; p_mk := None; p_err := Some e |})
          end
      | None =>
          match p_todo p with
          | [] => (fs, p)
          | d :: r => (fs, {| p_todo := r; p_mk := if isdir fs d then None else Some d; p_err := None |})
          end
      end
  end.

(* utilities.py:328-337 *)
Definition pstart (l : list path) : proc := {| p_todo := l; p_mk := None; p_err := None |}.
Definition pdone (p : proc) : bool :=
  match p_err p, p_mk p, p_todo p with Some _, _, _ => true | None, None, [] => true | _, _, _ => false end.

(* one process alone: 2 steps per directory are enough; utilities.py:328-337 *)
Fixpoint prun (fuel : nat) (fs : dirs) (p : proc) : dirs * proc :=
  match fuel with O => (fs, p) | S k => let (fs', p') := pstep fs p in prun k fs' p' end.

(* utilities.py:306-339, with the file system it leaves *)
Definition get_savepath (fs : dirs) (cwd home : path) (loc : location) (project : path) : dirs * (path + os_err) :=
  let l := wanted_dirs cwd home loc project in
  let (fs', p) := prun (2 * length l) fs (pstart l) in
  (fs', match p_err p with Some e => inr e | None => inl (structpath cwd home loc project) end).

(* several processes: at each time the scheduler picks one; no code: several processes in utilities.py:328-337 *)
Definition sched_step (st : dirs * list proc) (k : nat) : dirs * list proc :=
  match nth_error (snd st) k with
  | None => st
  | Some p => let (fs', p') := pstep (fst st) p in (fs', set_nth k p' (snd st))
  end.
Definition schedule (fs : dirs) (ps : list proc) (ks : list nat) : dirs * list proc := fold_left sched_step ks (fs, ps).

(* ---------- default options ---------- *)

(* options.py:18-59, the entries used when a redistribution matrix is ray-traced (rt.py:82-158); theta_spacing is
   not among them, so rt.py:117 takes "sin" *)
Record rt_options := {
  opt_n_rays : nat; opt_nx : nat; opt_ny : nat; opt_n_theta : nat; opt_phi_sym : R; opt_c_azimuth : R; opt_spacing : spacing }.
Definition default_options : rt_options :=
  {| opt_n_rays := 100 * 100; opt_nx := 10; opt_ny := 10; opt_n_theta := 50; opt_phi_sym := PI / 2; opt_c_azimuth := 1 / 4;
     opt_spacing := SpSin |}.
