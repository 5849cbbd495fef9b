(* Vocabulary for process_structure, get_savepath and the default options. *)
From Coq Require Import Reals List ZArith Bool String.
From Verif Require Import Base Model_Structure Model_Angles Model_Cache Model_Process.
Import ListNotations.
Local Notation length := List.length.
Open Scope list_scope.
Open Scope R_scope.

Section Spec.
Context {M V T : Type}.
Implicit Types (SC : list (item M V T)) (c : call_made M V T) (f : interface M V T).

Definition is_iface (e : item M V T) : Prop := exists f, e = OIface f.
Definition is_bulk (e : item M V T) : Prop := exists b, e = OBulk b.

(* interfaces and bulk layers in turn, beginning and ending with an interface *)
Definition alternates SC : Prop :=
  Nat.odd (length SC) = true /\
  forall i e, nth_error SC i = Some e -> if Nat.even i then is_iface e else is_bulk e.

(* m is the medium on top of / underneath element i *)
Definition above (incidence : option M) SC (i : nat) (m : M) : Prop :=
  (i = 0%nat /\ incidence = Some m) \/
  (exists b, (1 <= i)%nat /\ nth_error SC (i - 1) = Some (OBulk b) /\ b_material b = m).
Definition below (transmission : option M) SC (i : nat) (m : M) : Prop :=
  (S i = length SC /\ transmission = Some m) \/
  (exists b, nth_error SC (i + 1) = Some (OBulk b) /\ b_material b = m).

(* parts of a call *)
Definition c_name c : V :=
  match c with
  | CTable _ _ _ nm _ _ _ _ => nm | CMirror nm _ => nm | CLambert nm _ => nm | CTMM _ _ _ nm _ _ _ _ _ => nm
  | CRT _ _ _ nm _ _ _ _ _ _ _ => nm | CRCWA _ _ _ _ _ _ _ _ nm _ => nm
  end.
Definition c_media c : option (M * M) :=
  match c with
  | CTable _ a b _ _ _ _ _ => Some (a, b) | CMirror _ _ => None | CLambert _ _ => None
  | CTMM _ a b _ _ _ _ _ _ => Some (a, b) | CRT _ a b _ _ _ _ _ _ _ _ => Some (a, b)
  | CRCWA _ _ _ a b _ _ _ _ _ => Some (a, b)
  end.
(* the side a matrix is calculated for; None: a lookup table *)
Definition c_side c : option Model_Cache.side :=
  match c with
  | CTable _ _ _ _ _ _ _ _ => None | CMirror _ _ => Some Front | CLambert _ _ => Some Front
  | CTMM _ _ _ _ _ _ _ s _ => Some s | CRT _ _ _ _ _ s _ _ _ _ _ => Some s | CRCWA _ _ _ _ _ _ _ s _ _ => Some s
  end.
Definition c_overwrites c : bool :=
  match c with
  | CTable _ _ _ _ _ _ _ o => o | CMirror _ o => o | CLambert _ o => o | CTMM _ _ _ _ _ _ _ _ o => o
  | CRT _ _ _ _ _ _ _ _ _ _ o => o | CRCWA _ _ _ _ _ _ _ _ _ o => o
  end.
(* does the call calculate the matrix for the incidence direction of the options only? *)
Definition c_only c : bool :=
  match c with CRT _ _ _ _ _ _ _ _ o _ _ => o | CRCWA _ _ _ _ _ o _ _ _ _ => o | _ => false end.
(* the method the call carries out *)
Definition c_method c : string :=
  match c with
  | CTable _ _ _ _ _ _ _ _ => "RT_TMM" | CMirror _ _ => "Mirror" | CLambert _ _ => "Lambertian" | CTMM _ _ _ _ _ _ _ _ _ => "TMM"
  | CRT _ _ _ _ t _ _ _ _ _ _ => if t then "RT_TMM" else "RT_Fresnel" | CRCWA _ _ _ _ _ _ _ _ _ _ => "RCWA"
  end.

(* keyword arguments of an Interface *)
Definition has_value f (k : string) (v : V) : Prop :=
  exists l r, i_extra f = l ++ (k, v) :: r /\ ~ In k (map fst l).
Definition has f (k : string) : Prop := In k (map fst (i_extra f)).

(* what the method of an interface needs *)
Definition equipped f : Prop :=
  has f "name" /\
  (i_method f = "TMM" \/ i_method f = "RT_TMM" -> i_coherent f = true \/ has f "coherency_list")%string /\
  (i_method f = "RT_TMM"%string -> i_layers f <> None) /\
  (i_method f = "RCWA"%string -> has f "d_vectors" /\ has f "rcwa_orders").

(* methods for which matrices are calculated for both sides *)
Definition optical (m : string) : Prop := In m ["RT_Fresnel"; "RT_TMM"; "RCWA"; "TMM"]%string.

(* coherency arguments: a list only for an incoherent interface *)
Definition coherency_given f (coherent : bool) (l : option V) : Prop :=
  coherent = i_coherent f /\
  if coherent then l = None else exists v, l = Some v /\ has_value f "coherency_list" v.

(* the call describes interface f *)
Definition describes f c : Prop :=
  match c with
  | CTable layers _ _ _ co cl prof _ => layers = i_layers f /\ coherency_given f co cl /\ prof = i_prof f
  | CMirror _ _ => True
  | CLambert _ _ => True
  | CTMM layers _ _ _ co cl prof _ _ => layers = i_layers f /\ coherency_given f co cl /\ prof = i_prof f
  | CRT texture _ _ _ table _ n prof _ widths _ =>
      texture = i_texture f /\
      if table then (exists l, i_layers f = Some l /\ n = length l) /\ prof = i_prof f /\
                    widths = Some (map (fun w => w * 10 ^ 9) (i_widths f))
      else n = 0%nat /\ prof = None /\ widths = None
  | CRCWA layers dv no _ _ _ prof _ _ _ =>
      layers = i_layers f /\ has_value f "d_vectors" dv /\ has_value f "rcwa_orders" no /\ prof = i_prof f
  end.

(* light can reach the interface at position i from this side: there is a bulk layer underneath, or it comes from
   above *)
Definition lit SC (i : nat) (s : Model_Cache.side) : Prop :=
  match s with Front => True | Rear => (S i < length SC)%nat end.

(* the calls of process_structure *)
Definition completes inc tr SC oi ow : Prop := snd (process_calls inc tr SC oi ow) = None.
Definition calls_of inc tr SC oi ow : list (call_made M V T) := fst (process_calls inc tr SC oi ow).
End Spec.

(* ---------- directories ---------- *)

(* every entry lies in a directory *)
Definition tree (fs : dirs) : Prop :=
  fs [] = Some Dir /\ forall p, p <> [] -> fs p <> None -> fs (removelast p) = Some Dir.

(* where the results of a location go *)
Definition base_dir (cwd home : path) (loc : location) : path :=
  match loc with Current => cwd | Default => home ++ ["RayFlare_results"%string] | Path p => p end.

(* fs' is fs with some directories added *)
Definition grown (fs fs' : dirs) : Prop := forall p, fs' p = fs p \/ (fs p = None /\ fs' p = Some Dir).
