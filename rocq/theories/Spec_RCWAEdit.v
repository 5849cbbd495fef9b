(* Spec for C165 to C168: changing an RCWA structure after construction *)
From Coq Require Import Reals List.
From Verif Require Import Base Model_RCWAObj Spec_RCWAObj.
Import ListNotations.
Open Scope R_scope.

(* no later call sets the unit cell *)
Definition keeps_size (e : event) : Prop := match e with ESetSize _ => False | _ => True end.

(* a call that changes the structure *)
Definition changes_structure (e : event) : Prop := match e with ECalc _ | EProf _ => False | _ => True end.

(* g' is g with shape number gi of layer number l replaced: all other shapes and layers are as before *)
Definition edited (l gi : nat) (f : shape String.string -> shape String.string) (g g' : list geometry) : Prop :=
  length g' = length g /\ (forall k, k <> l -> nth_error g' k = nth_error g k) /\
  exists a b s, nth_error g l = Some (Some a) /\ nth_error g' l = Some (Some b) /\ length b = length a /\
    nth_error a gi = Some s /\ nth_error b gi = Some (f s) /\ forall j, j <> gi -> nth_error b j = nth_error a j.

(* every region has the permittivity, at wavelength x, of a material with the name that its shape gives *)
Definition named_materials (W : world) (g : list geometry) (x : R) (D : sdesc) : Prop :=
  forall l, (l < length (s_layers D))%nat ->
    Forall2 (fun s r => exists id, m_name W id = sh_mat s /\ told_eps D (fst r) = Some (m_eps W id x))
      (filter known (shapes_of (nth l g None))) (nth l (map snd (s_layers D)) []).
