(* Model of rayflare/utilities.py:make_absorption_function and of the code that lays out its input.
   An array (wavelength x depth) is a list of rows.  solcore's interp1d(x, y) is represented by its nodes:
   it rejects arrays of different length, and its value at a node is the given one. *)
From Coq Require Import Reals List ZArith Bool.
From Verif Require Import Base Model_TMM.
Import ListNotations.
Open Scope R_scope.

Notation table := (list (list R)).

(* numpy broadcasting of one axis in an assignment; utilities.py:100-105, 122-127, 210-216 *)
Definition bcast {A} (n : nat) (l : list A) : res (list A) :=
  if Nat.eqb (length l) n then Ok l else match l with [x] => Ok (repeat x n) | _ => Err ValueError end.

(* np.logical_and(pos >= s, pos < e); utilities.py:96-98, 118-120, 204-207, 235-238 *)
Definition inside (s e x : R) : bool := (Rleb s x && Rltb x e)%bool.

(* row[mask] = vals; utilities.py:100, 122, 210 *)
Fixpoint put_mask (m : list bool) (vals row : list R) : list R :=
  match m, row with
  | true :: m', x :: row' =>
      match vals with v :: vs => v :: put_mask m' vs row' | [] => x :: row' end
  | false :: m', x :: row' => x :: put_mask m' vals row'
  | _, _ => row
  end.

Definition count (m : list bool) : nat := length (filter (fun b => b) m).

(* prof[:, mask] = vals; utilities.py:100-105, 122-127, 210-216 *)
Definition assign (m : list bool) (vals prof : table) : res table :=
  rbind (bcast (length prof) vals) (fun v =>
  rbind (rmap (bcast (count m)) v) (fun v => Ok (map2 (put_mask m) v prof))).

(* data[:, off:(off + n)]; utilities.py:102-104, 124-126, 212-215, 244 *)
Definition cols (off n : nat) (data : table) : table := map (fun row => firstn n (skipn off row)) data.

(* utilities.py:101, 123, 211, 243, 263 *)
Definition scale (c : R) (t : table) : table := map (map (fun x => c * x)) t.

(* utilities.py:91-106, 113-128, 203-217: for i1 in prof_layers.  layer_start and layer_end (86-87, 108-109,
   191-201) are those of Model_TMM. *)
Fixpoint fill (pos starts ends : list R) (data : table) (layers : list Z) (off : nat) (prof : table) : res table :=
  match layers with
  | [] => Ok prof
  | l :: r =>
      rbind (py_index starts l) (fun s =>
      rbind (py_index ends l) (fun e =>
      let m := map (inside s e) pos in
      rbind (assign m (scale (10 ^ 9) (cols off (count m) data)) prof) (fun prof =>
      fill pos starts ends data r (off + count m) prof)))
  end.

Definition zeros (rows cols : nat) : table := repeat (repeat 0 cols) rows.

Definition filled (n_wl : nat) (pos widths : list R) (data : table) (layers : list Z) : res table :=
  fill pos (layer_start widths) (layer_end widths) data layers 0 (zeros n_wl (length pos)).

(* np.hstack of arrays with two axes; utilities.py:145, 258 *)
Fixpoint hstack (l : list table) : res table :=
  match l with
  | [] => Err ValueError
  | [t] => Ok t
  | t :: r => rbind (hstack r) (fun u =>
              if Nat.eqb (length t) (length u) then Ok (map2 (@app R) t u) else Err ValueError)
  end.

(* what make_absorption_function returns: positions in m, and the nodes of the interpolation, in 1/m; utilities.py:147-149, 258, 263-265 *)
Record generation := mk_gen { g_pos : list R; g_val : table }.
Definition interp1d (pos : list R) (y : table) : res generation :=
  if forallb (fun row => Nat.eqb (length row) (length pos)) y then Ok (mk_gen pos y) else Err ValueError.

(* ---------------- matrix method ---------------- *)

(* multiply_matrices.py:617-632: passes of one interface, and of one bulk.  Interfaces without any recorded
   pass are left out; a bulk without any recorded pass gives the number 0 (None) *)
Definition add_tables (a b : table) : table := map2 (map2 Rplus) a b.
Definition sum_passes (l : list table) : option table :=
  match l with [] => None | t :: r => Some (fold_left add_tables r t) end.
Fixpoint collect_profiles (a_prof : list (list table)) : list table :=
  match a_prof with
  | [] => []
  | item :: r =>
      match sum_passes (map (map (map clip)) item) with
      | None => collect_profiles r
      | Some t => t :: collect_profiles r
      end
  end.
Definition collect_bulks (A_prof : list (list table)) : list (option table) := map sum_passes A_prof.

(* result[2] and result[3]; multiply_matrices.py:594, 633, 635-641: None if neither a layer profile nor
   bulk_profile was asked for (the result is then a pair) *)
Definition mm_profiles := option (list table * list (option table)).
Definition mm_result (requested : bool) (a_prof A_prof : list (list table)) : mm_profiles :=
  if requested then Some (collect_profiles a_prof, collect_bulks A_prof) else None.

(* elements of a Structure; widths in m, prof_layers of an Interface; utilities.py:75-77, 91, 113 and structure.py:60-105 *)
Inductive elem := EIface (widths : list R) (prof : option (list Z)) | EBulk (width : R).
Definition iface_of (e : elem) : res (list R * option (list Z)) :=
  match e with EIface w p => Ok (w, p) | EBulk _ => Err AttributeError end.
Definition bulk_of (e : elem) : res R := match e with EBulk w => Ok w | EIface _ _ => Err AttributeError end.

(* utilities.py:47, 52, 62, 79-80, 89, 130 *)
Record aopts := mk_aopts { ao_nwl : nat; ao_d : R; ao_db : R; ao_bulk : bool }.

(* utilities.py:89-106 *)
Definition surface_profile (n_wl : nat) (pos widths : list R) (data : table) (layers : option (list Z)) : res table :=
  match layers with
  | None => Ok (zeros n_wl (length pos))
  | Some l => filled n_wl pos widths data l
  end.

Definition nm (l : list R) : list R := map (fun w => w * 10 ^ 9) l.

(* utilities.py:66-147.  Without bulk_profile prof_bulk is np.zeros_like(bulk_positions), an array with one
   axis (136), which np.hstack (146) cannot join to prof_front *)
Definition absorption_matrix (result : mm_profiles) (structure : list elem) (o : aopts) : res generation :=
  match result with
  | None => Err IndexError
  | Some (profiles, bulks) =>
      rbind (py_index profiles 0) (fun profile_front =>
      rbind (py_index bulks 0) (fun profile_bulk =>
      rbind (py_index profiles 1) (fun profile_back =>
      rbind (rbind (py_index structure 0) iface_of) (fun front =>
      rbind (rbind (py_index structure 1) bulk_of) (fun width =>
      rbind (rbind (py_index structure 2) iface_of) (fun back =>
      let wf := nm (fst front) in
      let wb := nm (fst back) in
      let width_bulk := width * 10 ^ 6 in
      let d_ints := ao_d o * 10 ^ 9 in
      let d_bulk := ao_db o * 10 ^ 6 in
      let front_positions := arange0 (rsum wf - / 10 ^ 12) d_ints in
      let bulk_positions := arange0 (width_bulk - / 10 ^ 12) d_bulk in
      let back_positions := arange0 (rsum wb - / 10 ^ 12) d_ints in
      rbind (surface_profile (ao_nwl o) front_positions wf profile_front (snd front)) (fun prof_front =>
      rbind (surface_profile (ao_nwl o) back_positions wb profile_back (snd back)) (fun prof_back =>
      if ao_bulk o then
        match profile_bulk with
        | None => Err IndexError
        | Some t =>
            let prof_bulk := cols 0 (length bulk_positions) t in
            let all_positions :=
              map (fun x => x / 10 ^ 9) front_positions
              ++ map (fun x => x / 10 ^ 6 + rsum wf / 10 ^ 9) bulk_positions
              ++ map (fun x => x / 10 ^ 9 + rsum wf / 10 ^ 9 + width_bulk / 10 ^ 6) back_positions in
            rbind (hstack [prof_front; prof_bulk; prof_back]) (interp1d all_positions)
        end
      else Err ValueError))))))))
  end.

(* ---------------- rt_structure with lookup tables ---------------- *)

(* a surface: widths in nm of its interface layers (None: Fresnel, tmm_or_fresnel = 0), attribute prof_layers
   (None: no such attribute; Some None: the attribute is None); utilities.py:172-187 and rt.py:1429-1436 *)
Record surface := mk_surface { sf_layers : option (list R); sf_prof : option (option (list Z)) }.
Record rt_object := mk_rt { rt_surfaces : list surface; rt_widths : list R }.
(* result["profile"] and result["interface_profiles"]; None: an empty list instead of an array, rt.py:986-988 *)
Record rt_result := mk_rtres { rr_profile : table; rr_ifaces : list (option table) }.

(* np.min; utilities.py:246-248 *)
Definition np_min (l : list R) : res R :=
  match l with [] => Err ValueError | x :: r => Ok (fold_left Rmin r x) end.

(* utilities.py:172-226, the interface of one surface: positions and data *)
Definition rt_surface (o : aopts) (result : rt_result) (i : nat) (widths : list R) (prof : option (option (list Z)))
    (cumulative : R) : res (list R * table) :=
  let pos := arange0 (rsum widths) (ao_d o * 10 ^ 9) in
  rbind (match prof with
         | None => Ok (zeros (ao_nwl o) (length pos))
         | Some layers =>
             rbind (py_index (rr_ifaces result) (Z.of_nat i)) (fun data =>
             match layers, data with
             | None, _ => Err TypeError
             | Some [], _ => Ok (zeros (ao_nwl o) (length pos))
             | Some l, None => Err TypeError
             | Some l, Some t => filled (ao_nwl o) pos widths t l
             end)
         end) (fun p => Ok (map (fun x => x / 10 ^ 9 + cumulative) pos, p)).

(* utilities.py:228-259, the bulk below surface i: positions, data and the new offset *)
Definition rt_bulk (widths bulk_positions : list R) (result : rt_result) (i off : nat) (cumulative : R)
  : res (list R * table * nat) :=
  rbind (py_index (0 :: cumsum widths) (Z.of_nat i)) (fun s =>
  rbind (py_index (cumsum widths) (Z.of_nat i)) (fun e =>
  let here := filter (inside s e) bulk_positions in
  rbind (np_min here) (fun lo =>
  Ok (map (fun x => x - lo + cumulative) here,
      scale (10 ^ 9) (cols off (length here) (rr_profile result)), (off + length here)%nat)))).

(* utilities.py:168-259: the remaining surfaces, numbered from i; n = len(structure.surfaces) *)
Fixpoint rt_pieces (o : aopts) (widths bulk_positions : list R) (result : rt_result) (n : nat) (surfaces : list surface)
    (i off : nat) (cumulative : R) : res (list (list R * table)) :=
  match surfaces with
  | [] => Ok []
  | sf :: r =>
      rbind (match sf_layers sf with
             | None => Ok ([], cumulative)
             | Some ws =>
                 rbind (rt_surface o result i ws (sf_prof sf) cumulative) (fun p =>
                 Ok ([p], cumulative + rsum ws * / 10 ^ 9))
             end) (fun here =>
      if Nat.ltb i (n - 1) then
        rbind (rt_bulk widths bulk_positions result i off (snd here)) (fun b =>
        rbind (py_index widths (Z.of_nat i)) (fun w =>
        rbind (rt_pieces o widths bulk_positions result n r (S i) (snd b) (snd here + w)) (fun rest =>
        Ok (fst here ++ [fst b] ++ rest))))
      else
        rbind (rt_pieces o widths bulk_positions result n r (S i) off (snd here)) (fun rest =>
        Ok (fst here ++ rest)))
  end.

(* utilities.py:151-262 *)
Definition absorption_rt (result : rt_result) (st : rt_object) (o : aopts) : res generation :=
  let bulk_positions :=
    map (fun x => x / 10 ^ 6) (arange0 (rsum (rt_widths st) * 10 ^ 6) (ao_db o * 10 ^ 6)) in
  rbind (rt_pieces o (rt_widths st) bulk_positions result (length (rt_surfaces st)) (rt_surfaces st) 0 0 0) (fun pieces =>
  rbind (hstack (map snd pieces)) (interp1d (concat (map fst pieces)))).

(* ---------------- one depth grid ---------------- *)

(* utilities.py:47, 52, 62, 260-263: tmm_structure and rcwa_structure (depth_spacing), rt_structure without lookup tables
   (depth_spacing_bulk); width is the attribute of the structure, in m *)
Definition absorption_plain (profile : table) (width spacing : R) : res generation :=
  interp1d (map (fun x => x / 10 ^ 6) (arange0 (width * 10 ^ 6) (spacing * 10 ^ 6))) (scale (10 ^ 9) profile).

(* utilities.py:40-64 *)
Inductive anystruct := SMatrix (l : list elem) | SStack (width : R) | SRays (st : rt_object) (width : R) | SOther.
Inductive anyresult := RMatrix (r : mm_profiles) | RProfile (t : table) | RRays (r : rt_result).

Definition is_tmm (sf : surface) : bool := match sf_layers sf with Some _ => true | None => false end.

(* a result of another kind than the structure has no such entries: KeyError or TypeError, not distinguished; utilities.py:16-265 *)
Definition make_absorption_function (result : anyresult) (structure : anystruct) (o : aopts) : res generation :=
  match structure, result with
  | SMatrix l, RMatrix r => absorption_matrix r l o
  | SStack w, RProfile t => absorption_plain t w (ao_d o)
  | SRays st w, RRays r =>
      if existsb is_tmm (rt_surfaces st) then absorption_rt r st o else absorption_plain (rr_profile r) w (ao_db o)
  | SOther, _ => Err ValueError
  | _, _ => Err TypeError
  end.
