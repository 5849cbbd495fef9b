(* Vocabulary for the claims about Interface and Structure. *)
From Coq Require Import Reals List ZArith Bool String.
From Verif Require Import Base Model_Structure.
Import ListNotations.
Local Notation length := List.length.
Open Scope R_scope.

Definition documented (m : string) : Prop :=
  (m = "RT_Fresnel" \/ m = "RT_TMM" \/ m = "RCWA" \/ m = "TMM" \/ m = "Mirror" \/ m = "Lambertian")%string.

(* width in m *)
Definition layer_has {M V} (e : larg M V) (w : R) (m : mat M V) : Prop :=
  (exists x, e = LLayer x w /\ m = MMat x) \/
  (exists nm rest, e = LList (Some (nm, rest)) /\ w = nm / 10 ^ 9 /\
     m = MData (firstn 2 rest)).
Definition described {M V} (e : larg M V) : Prop := e <> LList None.
Definition layers_in {M V} (l : option (list (larg M V))) : list (larg M V) := match l with Some x => x | None => [] end.
Definition reserved (k : string) : Prop := (k = "materials" \/ k = "n_depths" \/ k = "widths")%string.
