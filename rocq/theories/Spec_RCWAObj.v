(* Vocabulary for the properties of the rcwa_structure object *)
From Coq Require Import Reals List ZArith Bool String.
From Verif Require Import Base Model_Diff Model_RCWA Model_RCWAObj.
Import ListNotations.
Local Notation length := List.length.
Open Scope R_scope.

(* the part of the plane a solver call fills, with the solvers' own conventions: S4 takes half widths and vertices
   relative to a centre and an angle in degrees, Inkstone takes full sides and absolute vertices *)
Inductive region :=
| Disk (center : v2) (radius : R)
| Oval (center : v2) (angle : R) (halfwidths : v2)
| Box (center : v2) (angle : R) (halfwidths : v2)
| Poly (vertices : list v2).

Definition turn (deg : R) (p : v2) : v2 :=
  (cos (deg * PI / 180) * fst p - sin (deg * PI / 180) * snd p,
   sin (deg * PI / 180) * fst p + cos (deg * PI / 180) * snd p).
Definition shift (c p : v2) : v2 := (fst p + fst c, snd p + snd c).

Definition drawn (c : call) : region :=
  match c with
  | S4Circle c r | InkDisk r c => Disk c r
  | S4Ellipse c a h | InkEllipse h c a => Oval c a h
  | S4Rectangle c a h => Box c a h
  | InkRectangle s c a => Box c a (fst s / 2, snd s / 2)
  | S4Polygon c a v => Poly (map (fun p => shift c (turn a p)) v)
  | InkPolygon v => Poly v
  end.

(* what the user asked for: vertices relative to the centre, angle in degrees *)
Definition wanted (hv : nat -> vlist) (g : sgeo) : option region :=
  match g with
  | Circle c r => Some (Disk c r)
  | Ellipse c a h => Some (Oval c a h)
  | Rectangle c a h => Some (Box c a h)
  | Polygon c a v =>
      Some (Poly (map (fun p => shift (match c with Some c => c | None => (0, 0) end)
                                  (turn (match a with Some a => a | None => 0 end) p)) (v_pts (hv v))))
  | OtherShape => None
  end.

Definition known {A} (s : shape A) : bool := match sh_geo s with OtherShape => false | _ => true end.

(* permittivity of shape_mat_k *)
Definition told_eps (S : sdesc) (k : nat) : option cx :=
  match k with O => None | S k => nth_error (s_shape_eps S) k end.

(* thickness of each layer, and the regions drawn in layer l (0 is the incidence medium) *)
Definition told_widths (S : sdesc) : list R := map (fun l => snd (fst l)) (s_layers S).
Definition told_mats (S : sdesc) : list cx := map (fun l => fst (fst l)) (s_layers S).
Definition told_regions (S : sdesc) (l : nat) : list region :=
  map (fun r => drawn (snd r)) (nth l (map snd (s_layers S)) []).

(* the order in which a set lists its elements *)
Definition set_order (order : list nat -> list nat) : Prop :=
  forall l, NoDup (order l) /\ forall x, In x (order l) <-> In x l.

(* two solvers that give the same answers for the questions (stack, theta, phi, polarisation, frequency) with
   property P: a computation that gives the same result with both asks such questions only *)
Definition question := sdesc -> R -> R -> pol_out -> R -> Prop.
Definition agree_on (P : question) (SV SV' : solver) : Prop :=
  forall S th ph pol f, P S th ph pol f -> SV S th ph pol f = SV' S th ph pol f.

Definition has_widths (ws : list R) (S : sdesc) : Prop := told_widths S = 0 :: ws ++ [0].

(* every layer and every shape in it has the permittivity of its own material at wavelength x *)
Definition own_materials (W : world) (layers : list olayer) (incidence transmission : R -> cx) (x : R) (D : sdesc) : Prop :=
  told_mats D = incidence x :: map (fun l => ol_eps l x) layers ++ [transmission x] /\
  forall l lay, nth_error layers l = Some lay ->
    Forall2 (fun s r => exists id, sh_mat s = MObj id /\ told_eps D (fst r) = Some (m_eps W id x))
      (filter known (ol_geom lay)) (nth (S l) (map snd (s_layers D)) []).
Definition freq (x : R) : R := 1 / (x * 10 ^ 9).

(* the shapes of every layer are the ones asked for *)
Definition has_shapes (hv : nat -> vlist) (geom : list geometry) (S : sdesc) : Prop :=
  forall l, (l < length (s_layers S))%nat ->
    map Some (told_regions S l) = map (fun s => wanted hv (sh_geo s)) (filter known (shapes_of (nth l geom None))).

(* polygons that Inkstone draws as asked, call after call: no centre, or centre at the origin, or vertices given as
   a tuple; and no angle *)
Definition steady (hv : nat -> vlist) (g : sgeo) : Prop :=
  match g with
  | Polygon c a v => (c = None \/ c = Some (0, 0) \/ v_tuple (hv v) = true) /\ (a = None \/ a = Some 0)
  | _ => True
  end.
Definition all_steady (hv : nat -> vlist) (geom : list geometry) : Prop :=
  forall g s, In g geom -> In s (shapes_of g) -> steady hv (sh_geo s).
Definition safe (hv : nat -> vlist) (geom : list geometry) (m : meth) : Prop := m = MInk -> all_steady hv geom.

(* conditions on an event of a history *)
Definition uses_options (ok : ropts -> Prop) (e : event) : Prop := match e with ECalc o | EProf o => ok o | _ => True end.
Definition no_edit (e : event) : Prop := match e with EEdit _ _ _ => False | _ => True end.
Definition widths_ok (ok : list R -> Prop) (e : event) : Prop := match e with ESetWidths ws => ok ws | _ => True end.

Definition shape_mats_of (layers : list olayer) : list smat := map sh_mat (List.concat (map ol_geom layers)).

(* shape materials with the same printed name have the same permittivity *)
Definition clash_free (W : world) (layers : list olayer) : Prop :=
  forall i j, In (MObj i) (shape_mats_of layers) -> In (MObj j) (shape_mats_of layers) -> m_name W i = m_name W j -> forall x, m_eps W i x = m_eps W j x.

Definition answers (h : heap) (a : nat) : option (list R * list R * list (list R)) :=
  option_map (fun d => (r_R d, r_T d, r_A d)) (nth_error (h_res h) a).

(* z lies in layer l of a stack with these inner widths (0 the incidence medium, n + 1 the transmission medium) *)
Definition in_layer (ws : list R) (l : nat) (z : R) : Prop :=
  match l with
  | O => z < 0
  | S k => rsum (firstn k ws) <= z /\ ((k < length ws)%nat -> z < rsum (firstn (S k) ws)) /\ (k <= length ws)%nat
  end.
(* depths of the profile: those asked for, or multiples of the spacing from 0 up to z_limit or the bottom of the stack *)
Definition profile_depths (o : ropts) (ws zs : list R) : Prop :=
  match p_zpoints o with
  | Some z => zs = z
  | None =>
      let limit := match p_zlimit o with Some z => z | None => rsum ws end in
      let step := p_spacing o * 10 ^ 9 in
      0 < step -> 0 <= limit ->
      (forall j z, nth_error zs j = Some z -> z = INR j * step /\ z < limit) /\ limit <= INR (length zs) * step
  end.
(* p is the point at depth d inside layer l; layer l of the user is layer_(l+1) of the solver *)
Definition place_is (ws : list R) (l : nat) (d : R) (p : place) : Prop :=
  match p with
  | AtZ z => in_layer ws l z /\ z = rsum (firstn (l - 1) ws) + d
  | InLayer k e => k = (l + 1)%nat /\ e = d
  end.

Definition with_perorder (b : bool) (o : ropts) : ropts :=
  mk_ropts (p_wl o) (p_theta o) (p_phi o) (p_pol o) (p_orders o) b (p_meth o) (p_s4 o) (p_spacing o) (p_zpoints o) (p_zlimit o).

(* what S4 needs to know about a polygon *)
Definition complete (g : sgeo) : Prop := match g with Polygon c a _ => c <> None /\ a <> None | _ => True end.
Definition complete_for (m : meth) (layers : list olayer) : Prop :=
  m = MS4 -> forall l s, In l layers -> In s (ol_geom l) -> complete (sh_geo s).

(* widths of a stack between two semi-infinite media *)
Definition stack_of (ws : list R) : list (option R) := None :: map Some ws ++ [None].

(* the S4 options and their defaults, options.py:35-46 (documentation of S4) *)
Definition s4_documented : list (string * string) :=
  [("LatticeTruncation", "Circular"); ("DiscretizedEpsilon", "False"); ("DiscretizationResolution", "8");
   ("PolarizationDecomposition", "False"); ("PolarizationBasis", "Default"); ("LanczosSmoothing", "False");
   ("SubpixelSmoothing", "False"); ("ConserveMemory", "False"); ("WeismannFormulation", "False"); ("Verbosity", "0")]%string.
