(* Vocabulary for the statements about the results directory (C18-C22, C68, C74, C75). *)
From Coq Require Import List Bool String.
From Verif Require Import Base Model_Cache.
Import ListNotations.
Open Scope string_scope.

(* Everything loaded together was computed by the same call on the same structure element,
   from the same lookup table. *)
Definition one_origin (m : mats) : Prop :=
  m_A m = m_RT m /\ forall p, m_prof m = Some p -> p = m_RT m.

(* It was computed in process run r, and so was any lookup table it used. *)
Definition prov_of_run (r : nat) (p : prov) : Prop :=
  fst (fst p) = r /\ forall o, snd p = Some o -> fst o = r.
Definition from_run (r : nat) (m : mats) : Prop :=
  prov_of_run r (m_RT m) /\ prov_of_run r (m_A m) /\
  forall p, m_prof m = Some p -> prov_of_run r p.

(* No result file for this interface and side. *)
Definition absent (fs : fsys) (name : string) (s : side) : Prop :=
  forall k, fs (mat_file name s k) = None.

Definition no_torn (fs : fsys) : Prop := forall p, fs p <> Some Torn.

(* Does the method compute absorption profiles when prof_layers is given? *)
Definition can_profile (m : meth) : bool :=
  match m with MTMM | MRT_TMM | MRCWA => true | _ => false end.

(* Every interface of this name in the structure has the profile setting p. *)
Definition prof_setting (SC : list element) (name : string) (p : bool) : Prop :=
  forall m q, In (Iface name m q) SC -> q && can_profile m = p.

(* No interface with a lookup table is called <name><side>profmat. *)
Definition no_clash (SC : list element) (name : string) (s : side) : Prop :=
  forall q, ~ In (Iface (name ++ side_str s ++ "profmat") MRT_TMM q) SC.

(* No interface of the structure has this name. *)
Definition not_named (SC : list element) (name : string) : Prop :=
  forall m q, ~ In (Iface name m q) SC.

(* Kills happen only between two writes. *)
Definition clean_kill (b : budget) : Prop := forall k, b <> Kill k true.

(* interface, bulk, interface, ..., interface *)
Fixpoint layered (SC : list element) : Prop :=
  match SC with
  | [Iface _ _ _] => True
  | Iface _ _ _ :: Bulk :: r => layered r
  | _ => False
  end.

(* Which sides of interface number i (counting elements) calculate_RAT needs. *)
Definition needed (SC : list element) (i : nat) (s : side) : Prop :=
  s = Front \/ (S i < List.length SC)%nat.

(* Mirror and Lambertian interfaces are computed for front incidence only, the others for every
   side calculate_RAT needs. *)
Definition both_sides (m : meth) : bool :=
  match m with Mirror | Lambertian => false | _ => true end.
Definition computed (SC : list element) (i : nat) (m : meth) (s : side) : Prop :=
  if both_sides m then needed SC i s else s = Front.
