(* Model of the depth profiles of ray-traced interfaces: rayflare/ray_tracing/rt.py, make_profiles_wl (matrix
   method) and calculate_interface_profiles (rt_structure), for one wavelength.
   Layers are numbered from 1.  Widths and spacing are in nm.  The lookup table, interpolated at the wavelength
   and the angle, is an argument.

   Simplification: xarray joins the profiles of the layers on the union of their depth coordinates, sorted.  As
   the coordinates of a layer lie in [offset, offset + width) the union is the concatenation in the order of the
   layers, and every depth belongs to one layer (fillna(0) for the others).  prof_layers without duplicates. *)
From Coq Require Import Reals List ZArith Bool.
From Verif Require Import Base Model_Ideal Model_TMM.
Import ListNotations.
Open Scope R_scope.

(* rt.py:584-592 and 1274-1280: real part of
   A1 e^(a1 z) + A2 e^(-a1 z) + (A3r + i A3i) e^(i a3 z) + (A3r - i A3i) e^(-i a3 z) *)
Definition coef_at (c : coefs) (z : R) : R :=
  c_A1 c * exp (c_a1 c * z) + c_A2 c * exp (- (c_a1 c) * z)
  + 2 * (c_A3r c * cos (c_a3 c * z) - c_A3i c * sin (c_a3 c * z)).

(* rt.py:1118-1121 and 1332-1335: z_list, one grid per layer that starts at 0 in every layer *)
Definition z_layer (widths : list R) (spacing : R) (k : nat) : list R := arange0 (nth (k - 1) widths 0) spacing.
(* rt.py:1126, 1337: offsets = np.cumsum([0] + widths)[:-1] *)
Definition z_offset (widths : list R) (k : nat) : R := rsum (firstn (k - 1) widths).

(* groupby("layer") visits the labels in increasing order; rt.py:599, 1290, 1343 *)
Definition wanted (prof_layers : list nat) (k : nat) : bool := existsb (Nat.eqb k) prof_layers.
Definition visited (n : nat) (prof_layers : list nat) : list nat := filter (wanted prof_layers) (seq 1 n).

(* .loc[dict(layer=prof_layers)]; rt.py:1343 *)
Definition known_layers (n : nat) (prof_layers : list nat) : bool :=
  forallb (fun k => (Nat.leb 1 k && Nat.leb k n)%bool) prof_layers.

(* the depth coordinate of the samples: assign_coords(dim_0=z + offset), rt.py:596-598, 1284-1286 *)
Definition sample_depths (widths : list R) (spacing : R) (prof_layers : list nat) : list R :=
  flat_map (fun k => map (fun z => z + z_offset widths k) (z_layer widths spacing k)) (visited (length widths) prof_layers).

(* np.flip(result, 1) for side = -1, rt.py:594-595, 1282-1283 *)
Definition flip_samples {A} (s : side) (l : list A) : list A := match s with Front => l | Rear => rev l end.

(* ---------------- make_profiles_wl ---------------- *)

(* rt.py:1298-1302: the four amplitudes are multiplied by the share pr of the angle, a1 and a3 kept if pr != 0 *)
Definition scale_coef (pr : R) (c : coefs) : coefs :=
  let keep := fun a => if Reqb pr 0 then 0 else a in
  mk_coefs (pr * c_A1 c) (pr * c_A2 c) (pr * c_A3r c) (pr * c_A3i c) (keep (c_a1 c)) (keep (c_a3 c)).

(* rt.py:1339-1340: nz = (sum over layers of A1) != 0 for one angle.  In the lookup table the layers outside
   prof_layers are NaN (merged with Alayer, lookup_table.py:199), and NaN != 0 *)
Definition angle_used (n : nat) (prof_layers : list nat) (cf : nat -> coefs) : bool :=
  if forallb (wanted prof_layers) (seq 1 n)
  then negb (Reqb (rsum (map (fun k => c_A1 (cf k)) (seq 1 n))) 0)
  else true.

(* an angle: its share of the absorbed rays of the incidence channel, the table entry by layer; rt.py:1295-1304, 1324 *)
Record angle_share := mk_share { as_pr : R; as_cf : nat -> coefs }.
Definition scaled (a : angle_share) (k : nat) : coefs := scale_coef (as_pr a) (as_cf a k).

(* profile_per_layer for one incidence channel, rt.py:1273-1286, then clipping (1350) *)
Definition layer_samples (s : side) (widths : list R) (spacing : R) (used : list angle_share) (k : nat) : list R :=
  flip_samples s (map (fun z => rsum (map (fun a => coef_at (scaled a k) z) used)) (z_layer widths spacing k)).

Definition make_profile (s : side) (widths : list R) (spacing : R) (prof_layers : list nat) (angles : list angle_share)
  : res (list R) :=
  let n := length widths in
  if known_layers n prof_layers then
    let used := filter (fun a => angle_used n prof_layers (scaled a)) angles in
    Ok (map clip (flat_map (layer_samples s widths spacing used) (visited n prof_layers)))
  else Err KeyError.

(* ---------------- calculate_interface_profiles ---------------- *)

(* a ray absorbed in the interface: the side it came from, the absorption recorded in each layer, the lookup
   table at its local angle and side; rt.py:604-617, 635-637, 663-667, 675-677 *)
Record absorbed := mk_absorbed { ab_side : side; ab_A : nat -> R; ab_look : nat -> R; ab_cf : nat -> coefs }.

(* rt.py:620-624, 669-673: mean over the layers with more than 1e-10 in the table; NaN (None) if there is none *)
Definition ray_scale (prof_layers : list nat) (y : absorbed) : option R :=
  let q := filter (fun k => Rltb (/ 10 ^ 10) (ab_look y k)) prof_layers in
  match q with
  | [] => None
  | _ => Some (rsum (map (fun k => ab_A y k / ab_look y k) q) / INR (length q))
  end.

(* rt.py:640-646: only the amplitudes are scaled *)
Definition amp_scale (f : R) (c : coefs) : coefs :=
  mk_coefs (f * c_A1 c) (f * c_A2 c) (f * c_A3r c) (f * c_A3i c) (c_a1 c) (c_a3 c).

Fixpoint all_some {A} (l : list (option A)) : option (list A) :=
  match l with
  | [] => Some []
  | Some x :: r => option_map (cons x) (all_some r)
  | None :: _ => None
  end.

(* rt.py:612-656 for one side and one layer.  np.sum over the rays is NaN if one of them is, and fillna(0)
   then gives 0 *)
Definition side_samples (s : side) (widths : list R) (spacing : R) (prof_layers : list nat) (rays : list absorbed) (k : nat)
  : list R :=
  let z := z_layer widths spacing k in
  match all_some (map (fun y => option_map (fun f => (f, y)) (ray_scale prof_layers y)) rays) with
  | None => map (fun _ => 0) z
  | Some fy => flip_samples s (map (fun x => rsum (map (fun p => coef_at (amp_scale (fst p) (ab_cf (snd p) k)) x) fy)) z)
  end.

Definition from_side (s : side) (y : absorbed) : bool :=
  match s, ab_side y with Front, Front => true | Rear, Rear => true | _, _ => false end.

(* rt.py:702: profile_front + profile_back, layer k; profile_front = 0 without such rays *)
Definition both_samples (widths : list R) (spacing : R) (prof_layers : list nat) (rays : list absorbed) (k : nat) : list R :=
  map2 Rplus (side_samples Front widths spacing prof_layers (filter (from_side Front) rays) k)
             (side_samples Rear widths spacing prof_layers (filter (from_side Rear) rays) k).

(* row k of the array (layer, depth): the samples of layer k, 0 at the depths of the others; rt.py:594-602 *)
Definition padded (widths : list R) (spacing : R) (prof_layers : list nat) (rays : list absorbed) (k : nat) : list R :=
  flat_map (fun j => if Nat.eqb j k then both_samples widths spacing prof_layers rays j
                     else map (fun _ => 0) (z_layer widths spacing j)) (visited (length widths) prof_layers).

(* np.trapz(y, dx); rt.py:704 *)
Fixpoint trapz_dx (dx : R) (y : list R) : R :=
  match y with
  | a :: ((b :: _) as r) => dx * (a + b) / 2 + trapz_dx dx r
  | _ => 0
  end.

(* sum over the rows; rt.py:704, 717 *)
Definition sum_rows (n : nat) (rows : list (list R)) : list R := fold_right (map2 Rplus) (repeat 0 n) rows.

(* rt.py:704-719.  A_in: absorption per requested layer *)
Definition interface_profiles (widths : list R) (spacing : R) (prof_layers : list nat) (A_in : list R) (rays : list absorbed)
  : res (list R) :=
  let n := length widths in
  if known_layers n prof_layers then
    let rows := map (padded widths spacing prof_layers rays) (visited n prof_layers) in
    let integrated := rsum (map (trapz_dx spacing) rows) in
    let A_corr := rsum A_in in
    let f := if Rltb 0 integrated then A_corr / integrated else 0 in
    Ok (map (fun x => f * x) (sum_rows (length (sample_depths widths spacing prof_layers)) rows))
  else Err KeyError.

(* rt.py:1104-1126: the number of depth points, and the profile without any absorbed ray *)
Definition n_z_points (widths : list R) (spacing : R) (prof_layers : list nat) : nat :=
  fold_right Nat.add 0%nat
    (map (fun k => if wanted prof_layers k then length (z_layer widths spacing k) else 0%nat) (seq 1 (length widths))).

(* rt.py:1124, 1201-1241: profile_arrays of one interface *)
Definition wl_profile (widths : list R) (spacing : R) (prof_layers : list nat) (A_in : list R) (rays : list absorbed)
  : res (list R) :=
  match rays with
  | [] => Ok (repeat 0 (n_z_points widths spacing prof_layers))
  | _ => interface_profiles widths spacing prof_layers A_in rays
  end.
