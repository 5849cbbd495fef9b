(* Fresnel's equations for light going from a transparent medium of index n into an absorbing medium of
   index a + i k, in real arithmetic (Born and Wolf, optics of metals): u + i v is the component of the
   transmitted wave vector along the normal, in units of the vacuum wave number. *)
From Coq Require Import Reals.
From Verif Require Import Base Model_Optics Model_OpticsC Spec_Optics.
Open Scope R_scope.

(* a refractive index: n > 0, k >= 0 *)
Definition optical_medium (n : cplx) : Prop := 0 < re n /\ 0 <= im n.

(* n0 / n1 is a real number: both media are transparent, or absorb in proportion to their indices *)
Definition in_phase (n0 n1 : cplx) : Prop := re n0 * im n1 = im n0 * re n1.

Definition normal_wave (n a k theta u v : R) : Prop :=
  0 <= u /\ 0 <= v /\ u ^ 2 - v ^ 2 = a ^ 2 - k ^ 2 - (n * sin theta) ^ 2 /\ u * v = a * k.

Definition metal_Rs (n theta u v : R) : R :=
  ((n * cos theta - u) ^ 2 + v ^ 2) / ((n * cos theta + u) ^ 2 + v ^ 2).

(* e1 + i e2 = (a + i k)^2 *)
Definition metal_Rp (n a k theta u v : R) : R :=
  let e1 := a ^ 2 - k ^ 2 in
  let e2 := 2 * a * k in
  ((e1 * cos theta - n * u) ^ 2 + (e2 * cos theta - n * v) ^ 2) /
  ((e1 * cos theta + n * u) ^ 2 + (e2 * cos theta + n * v) ^ 2).

Definition metal_R (n a k theta u v : R) (p : pol) : R :=
  match p with
  | PolS => metal_Rs n theta u v
  | PolP => metal_Rp n a k theta u v
  | PolU => (metal_Rs n theta u v + metal_Rp n a k theta u v) / 2
  end.
