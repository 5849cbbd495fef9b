(* Rays followed through a stack of textured surfaces. *)
From Coq Require Import Reals List Bool ZArith.
From Verif Require Import Base Model_Optics Model_OpticsC Model_RayIface Model_RayStack Model_RTStruct Model_StackRay
  Spec_OpticsC Spec_RayIface Spec_RayStack Spec_Surface Spec_RTStruct.
Import ListNotations.
Open Scope R_scope.

(* what the surfaces do with a ray is given by the Fresnel equations or by lookup tables whose absorbing entries are
   usable: no negative absorption, some absorption *)
Definition usable (dec : decision) : Prop :=
  real_decision dec /\ forall th rnd A, rnd < 1 -> absorbs dec th rnd A -> (forall a, In a A -> 0 <= a) /\ 0 < rsum A.

(* a structure with layers of widths ws: one more surface than layers, two more media; random numbers below 1 *)
Record structure_of (U : setup) (ws : list R) : Prop := {
  st_stack : stack_of (u_K U) ws;
  st_faces : length (u_faces U) = S (length ws);
  st_media : length (u_nks U) = S (S (length ws));
  st_index : forall n, In n (u_nks U) -> optical_medium n;
  st_dec : forall f ni nj, In f (u_faces U) -> optical_medium ni -> optical_medium nj -> usable (f_dec f ni nj);
  st_rnd : forall k, dr_rnd (u_draws U) k < 1 }.

(* the states of the ray after its surface checks *)
Inductive visits (fuel : nat) (U : setup) (st0 : fstate) : fstate -> Prop :=
| visit_first r : fstep fuel U st0 = Some (Ok r) -> visits fuel U st0 (match r with inl st => st | inr st => st end)
| visit_next st1 st : fstep fuel U st0 = Some (Ok (inl st1)) -> visits fuel U st1 st -> visits fuel U st0 st.

(* no surface sends the ray off exactly horizontally *)
Definition never_level (fuel : nat) (U : setup) (st0 : fstate) : Prop := forall st, visits fuel U st0 st -> vz (x_dir st) <> 0.

(* ---------- planar stacks ---------- *)

(* a surface that is flat at height z0 whatever happens, and fills its cell *)
Definition level_face (z0 : R) (f : facing) : Prop :=
  0 < f_Lx f /\ 0 < f_Ly f /\ f_zcov f = z0 /\
  forall k j, s_zmin (f_surf f k j) = z0 /\ s_zmax (f_surf f k j) = z0 /\
    (forall T, In T (s_tris (f_surf f k j)) -> vz (t_P0 T) = z0 /\ vz (t_P1 T) = z0 /\ vz (t_P2 T) = z0 /\ 0 < plan_area T) /\
    (forall x y, 0 <= x <= f_Lx f -> 0 <= y <= f_Ly f -> exists T u v, In T (s_tris (f_surf f k j)) /\
      0 <= u /\ 0 <= v /\ u + v <= 1 /\ x = vx (t_P0 T) + u * (vx (t_P1 T) - vx (t_P0 T)) + v * (vx (t_P2 T) - vx (t_P0 T)) /\
      y = vy (t_P0 T) + u * (vy (t_P1 T) - vy (t_P0 T)) + v * (vy (t_P2 T) - vy (t_P0 T))).

(* what is on a surface: nothing, or layers described by a lookup table (side and angle) *)
Inductive film := Bare (p : pol) | Coated (ent : Z -> R -> table_entry).
Definition film_dec (c : film) (ni nj : cplx) : decision :=
  match c with Bare p => fresnel_decision_c ni nj p | Coated ent => table_decision_c ni nj ent end.

(* light in the medium with index here, meeting the film at the angle psi from above (1) or below (-1), with random number u *)
Inductive fate := Back | Onward | Stays (A : list R).
Definition meets_film (c : film) (dir : Z) (here there : cplx) (psi u : R) : fate :=
  match c with
  | Bare p => if Rleb u (fresnel_Rc here there psi p) then Back else Onward
  | Coated ent => if Rleb u (te_R (ent dir psi)) then Back
                  else if Rleb u (te_R (ent dir psi) + te_T (ent dir psi)) then Onward else Stays (te_A (ent dir psi))
  end.

Section Planar.
Variables (ns : list cplx) (films : list film) (m0 d0 : Z) (theta : R) (u : nat -> R).

Definition nk_of (m : Z) : cplx := nth (Z.to_nat m) ns (creal 0).
Definition index_of (m : Z) : R := re (nk_of m).

(* Snell's law: the angle with the normal in medium m of light that has the angle theta in medium m0 *)
Definition snell (m : Z) : R := asin (index_of m0 * sin theta / index_of m).

Definition film_ahead (m d : Z) : film := nth (Z.to_nat (if Z.eqb d 1 then m else m - 1)) films (Bare PolU).
Definition next_fate (m d : Z) (k : nat) : fate :=
  meets_film (film_ahead m d) d (nk_of m) (nk_of (m + d)) (snell m) (u k).

(* medium and direction after k surfaces, told from the random numbers *)
Fixpoint planar_at (k : nat) : Z * Z :=
  match k with
  | O => (m0, d0)
  | S j => let '(m, d) := planar_at j in
           match next_fate m d j with Back => (m, - d) | Onward => (m + d, d) | Stays _ => (m, d) end
  end%Z.

(* polar angle of light travelling down (1) or up (-1) at the angle psi with the normal *)
Definition polar_of (d : Z) (psi : R) : R := if Z.eqb d 1 then PI - psi else psi.

Definition planar_out (k : nat) : outcome :=
  let '(m, d) := planar_at k in
  match next_fate m d k with
  | Back => OReflected (polar_of (- d) (snell m))
  | Onward => OTransmitted (polar_of d (snell (m + d)))
  | Stays A => OAbsorbed A
  end.

(* Beer-Lambert: power left after k layers have been crossed, told from the media and Snell's law *)
Definition planar_loss (K : stack) (j : nat) : R :=
  let m := fst (planar_at (S j)) in
  nth (Z.to_nat m) (k_alphas K) 0 * nth (Z.to_nat m) (k_widths K) 0 / cos (snell m).
Definition planar_power (K : stack) (k : nat) : R := exp (- rsum (map (planar_loss K) (seq 0 k))).
Definition planar_lost_in (K : stack) (i k : nat) : R :=
  rsum (map (fun j => if Z.eqb (fst (planar_at (S j))) (Z.of_nat i) then planar_power K j - planar_power K (S j) else 0) (seq 0 k)).

(* the ray ends at surface k: n is the number of layers *)
Inductive planar_end (K : stack) (n : nat) (k : nat) (st : sstate) : Prop :=
| planar_front : planar_at (S k) = (0, -1)%Z -> s_theta st = Some (snell 0) -> s_I st = planar_power K k -> s_passes st = k ->
    s_Aint st = [] -> planar_end K n k st
| planar_rear : planar_at (S k) = (Z.of_nat n + 1, 1)%Z -> s_theta st = Some (PI - snell (Z.of_nat n + 1)) ->
    s_I st = planar_power K k -> s_passes st = k -> s_Aint st = [] -> planar_end K n k st
| planar_film m d A : planar_at k = (m, d) -> next_fate m d k = Stays A -> s_theta st = None -> s_I st = 0 -> s_passes st = k ->
    s_Aint st = map (fun a => planar_power K k * a / rsum A) A -> s_Aidx st = ((if Z.eqb d 1 then m else m - 1) + 1)%Z ->
    planar_end K n k st
| planar_bulk : (1 <= fst (planar_at (S k)) <= Z.of_nat n)%Z -> s_theta st = None -> s_I st = planar_power K (S k) ->
    s_I st < k_thresh K -> s_passes st = S k -> s_Aint st = [] -> planar_end K n k st.
End Planar.

(* Flat surfaces under layers of widths ws (um).  Tables let nothing through beyond the critical angle; the media on both
   sides of a table are in phase, or the light falls straight on (C172).  Bare surfaces let nothing through exactly at the critical angle, which is so
   for transparent media. *)
Record planar_structure (U : setup) (ws : list R) (films : list film) (m0 : Z) (theta : R) : Prop := {
  pl_struct : structure_of U ws;
  pl_periodic : u_periodic U = true;
  pl_thick : forall w, In w ws -> 1 / 10 ^ 8 < w;
  pl_films : length films = S (length ws);
  pl_faces : forall i, (i <= length ws)%nat -> exists f, nth_error (u_faces U) i = Some f /\ level_face (- depth ws i) f /\
               forall ni nj, f_dec f ni nj = film_dec (nth i films (Bare PolU)) ni nj;
  pl_tables : forall m d ent, (d = 1 \/ d = -1)%Z -> (0 <= m <= Z.of_nat (length ws) + 1)%Z ->
               (0 <= m + d <= Z.of_nat (length ws) + 1)%Z -> film_ahead films m d = Coated ent ->
               index_of (u_nks U) (m + d) <= index_of (u_nks U) m0 * sin theta -> te_T (ent d (snell (u_nks U) m0 theta m)) <= 0;
  pl_phase : forall m d ent, (d = 1 \/ d = -1)%Z -> (0 <= m <= Z.of_nat (length ws) + 1)%Z ->
               (0 <= m + d <= Z.of_nat (length ws) + 1)%Z -> film_ahead films m d = Coated ent ->
               in_phase (nk_of (u_nks U) m) (nk_of (u_nks U) (m + d)) \/ theta = 0;
  pl_critical : forall m d p, (d = 1 \/ d = -1)%Z -> (0 <= m <= Z.of_nat (length ws) + 1)%Z ->
               (0 <= m + d <= Z.of_nat (length ws) + 1)%Z -> film_ahead films m d = Bare p ->
               index_of (u_nks U) (m + d) = index_of (u_nks U) m0 * sin theta ->
               1 <= fresnel_Rc (nk_of (u_nks U) m) (nk_of (u_nks U) (m + d)) (snell (u_nks U) m0 theta m) p;
  pl_uv : forall k, 0 <= fst (dr_uv (u_draws U) k) < 1 /\ 0 <= snd (dr_uv (u_draws U) k) < 1 }.

(* st is what tracing a ray through the structure gives: the ray starts downwards from above (r_a_0 points up) or inside *)
Definition shot_through (U : setup) (ws : list R) (st : fstate) : Prop :=
  exists outer fuel r_a_0 x y m0 d0, good_start ws m0 d0 /\ 0 < vz r_a_0 /\
    (forall st0, fstart U r_a_0 x y m0 d0 = Ok st0 -> never_level fuel U st0) /\
    trace_stack outer fuel U r_a_0 x y m0 d0 = Some (Ok st).
