(* Vocabulary for C27-C32, C77 and C78: the path of a ray through a stack of layers, told from the
   outcomes at the surfaces alone. *)
From Coq Require Import Reals List Bool ZArith.
From Verif Require Import Base Model_RayIface Model_RayStack Spec_RayIface.
Import ListNotations.
Open Scope R_scope.

(* A structure with layers of widths ws (um) between two outer media. *)
Record stack_of (K : stack) (ws : list R) : Prop := {
  so_widths : k_widths K = padded ws;
  so_pos : forall w, In w ws -> 0 < w;
  so_alphas : length (k_alphas K) = length (k_widths K);
  so_alpha_pos : forall a, In a (k_alphas K) -> 0 <= a;
  so_surf : k_surfaces K = S (length ws);
  so_thresh : 0 < k_thresh K }.

(* The ray starts in medium m heading down (1) or up (-1), with a surface ahead of it. *)
Definition good_start (ws : list R) (m d : Z) : Prop :=
  (d = 1 /\ 0 <= m <= Z.of_nat (length ws))%Z \/
  (d = -1 /\ 1 <= m <= Z.of_nat (length ws) + 1)%Z.

Section Path.
Variables (m0 d0 : Z) (outs : nat -> outcome).

(* direction and medium after k outcomes: a reflection turns the ray, a transmission moves it on *)
Fixpoint heading (k : nat) : Z :=
  match k with
  | O => d0
  | S j => match outs j with OReflected _ => - heading j | _ => heading j end
  end%Z.

Fixpoint medium (k : nat) : Z :=
  match k with
  | O => m0
  | S j => match outs j with OTransmitted _ => medium j + heading j | _ => medium j end
  end%Z.

(* surface i lies between media i and i + 1 *)
Definition ahead (k : nat) : Z := if Z.eqb (heading k) 1 then medium k else (medium k - 1)%Z.

Definition angle (k : nat) : R :=
  match outs k with OReflected th | OTransmitted th => th | OAbsorbed _ => 0 end.

(* exponent of the crossing that follows the k-th outcome *)
Definition crossing (K : stack) (k : nat) : R :=
  nth (Z.to_nat (medium (S k))) (k_alphas K) 0 * nth (Z.to_nat (medium (S k))) (k_widths K) 0
  / Rabs (cos (angle k)).

(* power left after k crossings *)
Definition power (K : stack) (k : nat) : R := exp (- rsum (map (crossing K) (seq 0 k))).

(* power lost in medium i during the first k crossings *)
Definition lost_in (K : stack) (i : nat) (k : nat) : R :=
  rsum (map (fun j => if Z.eqb (medium (S j)) (Z.of_nat i) then power K j - power K (S j) else 0)
            (seq 0 k)).
End Path.

(* Outgoing angles as single_interface_check returns them (C39_contract), horizontal rays excluded:
   below pi/2 the ray goes up. *)
Definition upwards (th : R) : Prop := 0 <= th < PI / 2.
Definition downwards (th : R) : Prop := PI / 2 < th <= PI.
Definition proper (d : Z) (o : outcome) : Prop :=
  match o with
  | OReflected th => if Z.eqb d 1 then upwards th else downwards th
  | OTransmitted th => if Z.eqb d 1 then downwards th else upwards th
  | OAbsorbed A => (forall a, In a A -> 0 <= a) /\ 0 < rsum A
  end.
Definition proper_path (d0 : Z) (outs : nat -> outcome) : Prop :=
  forall k, proper (heading d0 outs k) (outs k).

(* How a ray ends after the k-th outcome. *)
Inductive ending (K : stack) (ws : list R) (m0 d0 : Z) (outs : nat -> outcome) (k : nat) (st : sstate)
  : Prop :=
| leaves_front :
    (forall A, outs k <> OAbsorbed A) -> medium m0 d0 outs (S k) = 0%Z -> heading d0 outs (S k) = (-1)%Z ->
    s_theta st = Some (angle outs k) -> s_I st = power m0 d0 outs K k -> s_passes st = k ->
    s_Aint st = [] -> ending K ws m0 d0 outs k st
| leaves_rear :
    (forall A, outs k <> OAbsorbed A) ->
    medium m0 d0 outs (S k) = (Z.of_nat (length ws) + 1)%Z -> heading d0 outs (S k) = 1%Z ->
    s_theta st = Some (angle outs k) -> s_I st = power m0 d0 outs K k -> s_passes st = k ->
    s_Aint st = [] -> ending K ws m0 d0 outs k st
| absorbed_interface A :
    outs k = OAbsorbed A ->
    s_theta st = None -> s_I st = 0 -> s_passes st = k ->
    s_Aint st = map (fun a => power m0 d0 outs K k * a / rsum A) A ->
    (0 <= ahead m0 d0 outs k <= Z.of_nat (length ws))%Z ->
    s_Aidx st = (ahead m0 d0 outs k + 1)%Z -> ending K ws m0 d0 outs k st
| absorbed_bulk :
    (forall A, outs k <> OAbsorbed A) ->
    (1 <= medium m0 d0 outs (S k) <= Z.of_nat (length ws))%Z ->
    s_theta st = None -> s_I st = power m0 d0 outs K (S k) -> s_I st < k_thresh K ->
    s_passes st = S k -> s_Aint st = [] -> ending K ws m0 d0 outs k st.

(* States at the head of the loop. *)
Inductive reach (K : stack) (m0 d0 : Z) (outs : nat -> outcome) : nat -> sstate -> Prop :=
| reach_0 : reach K m0 d0 outs 0 (sstart K m0 d0)
| reach_S k st st' : reach K m0 d0 outs k st -> sstep K st (outs k) = Ok (inl st') ->
                     reach K m0 d0 outs (S k) st'.

(* A ray traced to its end *)
Definition traced (K : stack) (ws : list R) (r : sstate) : Prop :=
  exists m0 d0 outs fuel, good_start ws m0 d0 /\ proper_path d0 outs /\
    single_ray_stack fuel K m0 d0 outs = Some (Ok r).

(* top of layer i (1 is the first one) *)
Definition top_of (ws : list R) (i : nat) : R := rsum (firstn (i - 1) ws).
(* depths of the grid points of layer i below its top *)
Definition layer_depths (ws z_pos : list R) (i : nat) : list R :=
  map (fun z => z - top_of ws i)
      (filter (fun z => Rleb (top_of ws i) z && Rltb z (top_of ws i + nth (i - 1) ws 0)) z_pos).
(* values at the grid points of layer i *)
Definition layer_values (ws z_pos vals : list R) (i : nat) : list R :=
  map snd (filter (fun zv => Rleb (top_of ws i) (fst zv) && Rltb (fst zv) (top_of ws i + nth (i - 1) ws 0))
                  (combine z_pos vals)).
