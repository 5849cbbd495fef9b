(* Vocabulary for the RCWA claims. *)
From Coq Require Import Reals List ZArith Bool String.
From Verif Require Import Base Model_Angles Spec_Angles Model_Ideal Spec_Diff Spec_TMM.
Import ListNotations.
Open Scope R_scope.

(* an order with in-plane frequency f leaves at the angle theta to the normal of a medium of index n *)
Definition leaves_at (n wl : R) (f : R * R) (theta : R) : Prop :=
  0 <= theta < PI / 2 /\ n * sin theta = wl * length2 f.

(* power of an order that counts: the order propagates and carries at least 1e-16 *)
Definition kept_power (n wl : R) (f : R * R) (x : R) : R :=
  if Rlt_dec (length2 f) (n / wl) then (if Rle_dec (1 / 10 ^ 16) x then x else 0) else 0.

(* an angle of exactly 0 is moved into the first bin *)
Definition nudged (x y : R) : Prop := (x <> 0 /\ y = x) \/ (x = 0 /\ y = 1 / 10 ^ 10).

(* bin k contains the direction with polar angle theta (in the frame of the grid) and azimuth phi *)
Definition placed (g : grid) (k : nat) (theta phi : R) : Prop :=
  exists theta' phi', nudged theta theta' /\ nudged phi phi' /\ bin_contains g k theta' phi'.

(* in-plane frequency of order m: that of the incident wave plus the grating vector *)
Definition order_freq (n_in wl theta phi : R) (g1 g2 : R * R) (m : Z * Z) : R * R :=
  (n_in / wl * sin theta * sin phi + (IZR (fst m) * fst g1 + IZR (snd m) * fst g2),
   n_in / wl * sin theta * cos phi + (IZR (fst m) * snd g1 + IZR (snd m) * snd g2)).

(* az represents the azimuth of f in the symmetry range, when the range divides half a turn *)
Definition azimuth_of (phi_sym : R) (f : R * R) (az : R) : Prop :=
  0 <= az < phi_sym /\
  forall alpha (k : Z), IZR k * phi_sym = PI -> points_at f alpha -> exists j : Z, az = alpha + IZR j * phi_sym.

(* col is the outgoing power distribution of one incidence direction on side s: the reflected orders, scaled
   so that they carry Rtot in all, and the transmitted orders, each in the bin of its direction *)
Definition distribution (g : grid) (s : side) (h : nat) (phi_sym wl n_in n_out : R) (g1 g2 : R * R) (theta phi : R)
    (basis : list (Z * Z)) (Rtot : R) (KR KT : list R) (col : list R) : Prop :=
  List.length col = (2 * h)%nat /\ rsum col = Rtot + rsum KT /\
  exists br bt, List.length br = List.length basis /\ List.length bt = List.length basis /\
    (forall b, (b < 2 * h)%nat -> nth b col 0 = Rtot / rsum KR * group_sum br KR b + group_sum bt KT b) /\
    forall j, (j < List.length basis)%nat ->
      let f := order_freq n_in wl theta phi g1 g2 (nth j basis (0, 0)%Z) in
      exists az, azimuth_of phi_sym f az /\
        (length2 f < n_in / wl -> exists th, leaves_at n_in wl f th /\
           placed g (nth j br 0%nat) (incoming s th) az /\ same_half s h (nth j br 0%nat)) /\
        (length2 f < n_out / wl -> exists th, leaves_at n_out wl f th /\
           placed g (nth j bt 0%nat) (onward s th) az /\ other_half s h (nth j bt 0%nat)).

(* powers of the orders of basis that count *)
Definition kept (n n_in wl theta phi : R) (g1 g2 : R * R) (basis : list (Z * Z)) (p : list R) : list R :=
  map2 (fun m x => kept_power n wl (order_freq n_in wl theta phi g1 g2 m) x) basis p.
