(* How far a ray-traced result is from its average. *)
From Coq Require Import Reals List Bool ZArith.
From Verif Require Import Base Model_RayStack Model_StackRay Model_StackCalc Spec_Mean.
Import ListNotations.
Open Scope R_scope.

(* R, T, R0, absorption in layer i or at surface i *)
Inductive reading := ValueOf (q : quantity) | FirstReflected.
Definition read (rd : reading) (t : totals) : R :=
  match rd with ValueOf q => reported_value q t | FirstReflected => t_R0 t end.
Definition of_structure (widths : list R) (rd : reading) : Prop :=
  match rd with ValueOf q => within widths q | FirstReflected => True end.

(* the value reported, 0 if there is none *)
Definition reported (rd : reading) (out : option (res (totals * list fstate))) : R :=
  match out with Some (Ok (t, _)) => read rd t | _ => 0 end.

(* the chance that f is off m by eps or more is at most b, over the first n random numbers *)
Definition rarely_off (n : nat) (f : (nat -> R) -> R) (m eps b : R) : Prop :=
  exists p, mean n (fun u => if Rleb eps (Rabs (f u - m)) then 1 else 0) p /\ p <= b.
