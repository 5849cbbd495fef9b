(* Vocabulary for the claims about depth profiles and the generation function. *)
From Coq Require Import Reals List ZArith Bool.
From Verif Require Import Base Model_Absorb.
Import ListNotations.
Open Scope R_scope.

(* layer k, counted from 1, of a stack with widths w takes up the depths from the sum of the widths above it *)
Definition in_layer (w : list R) (k : nat) (x : R) : Prop :=
  (1 <= k <= length w)%nat /\ rsum (firstn (k - 1) w) <= x < rsum (firstn k w).
Definition in_layers (w : list R) (layers : list nat) (x : R) : Prop := exists k, In k layers /\ in_layer w k x.

(* generation (1/m) shown at depth x (nm): the profile f (1/nm) in the requested layers, 0 in the others *)
Definition shown (w : list R) (layers : list nat) (f : R -> R) (x v : R) : Prop :=
  (in_layers w layers x -> v = 10 ^ 9 * f x) /\ (~ in_layers w layers x -> v = 0).

Definition valid_layers (w : list R) (layers : list nat) : Prop := forall k, In k layers -> (1 <= k <= length w)%nat.

(* n multiples of d, from 0 *)
Definition mults (d : R) (n : nat) : list R := map (fun i => INR i * d) (seq 0 n).
(* these are all multiples of d in [0, W), and none of them is in the last eps *)
Definition n_points (W d eps : R) (n : nat) : Prop := W <= INR n * d /\ (n = 0%nat \/ INR (n - 1) * d < W - eps).

(* the depths among pts that lie in the layers, layer by layer *)
Definition depths_in (w : list R) (layers : list nat) (pts : list R) : list R :=
  flat_map (fun k => filter (fun x => if Rle_dec (rsum (firstn (k - 1) w)) x
                                      then if Rlt_dec x (rsum (firstn k w)) then true else false else false) pts) layers.

(* profile f (by wavelength and depth), tabulated at the depths pts *)
Definition sampled (n : nat) (f : nat -> R -> R) (pts : list R) : table := map (fun i => map (f i) pts) (seq 0 n).

(* the same in the first columns of t *)
Definition starts_sampled (n : nat) (f : nat -> R -> R) (pts : list R) (t : table) : Prop :=
  exists more : nat -> list R, t = map (fun i => map (f i) pts ++ more i) (seq 0 n).

(* the interpolation has a node at x with value v, for wavelength i *)
Definition node (g : generation) (i : nat) (x v : R) : Prop :=
  exists j, nth_error (g_pos g) j = Some x /\ nth_error (nth i (g_val g) []) j = Some v.

(* a proper interpolation table: increasing positions, one value for each wavelength and position *)
Definition increasing_pos (l : list R) : Prop := forall i j, (i < j < length l)%nat -> nth i l 0 < nth j l 0.
Definition proper (n : nat) (g : generation) : Prop :=
  increasing_pos (g_pos g) /\ length (g_val g) = n /\
  forall i, (i < n)%nat -> length (nth i (g_val g) []) = length (g_pos g).

Definition layers_of (p : option (list nat)) : list nat := match p with Some l => l | None => [] end.

(* depth (m) of the top of surface i of a ray-tracing structure: interfaces (nm) and bulk layers (m) above it *)
Definition iface_width (sf : surface) : R := match sf_layers sf with Some ws => rsum ws / 10 ^ 9 | None => 0 end.
Definition depth_of (st : rt_object) (i : nat) : R :=
  rsum (map iface_width (firstn i (rt_surfaces st))) + rsum (firstn i (rt_widths st)).
(* depth of the top of bulk layer i, which lies below surface i *)
Definition bulk_top (st : rt_object) (i : nat) : R :=
  rsum (map iface_width (firstn (S i) (rt_surfaces st))) + rsum (firstn i (rt_widths st)).

(* contributions of several passes at the same depth; negative ones do not count for interfaces *)
Definition positive_sum (gs : list (nat -> R -> R)) (i : nat) (x : R) : R := rsum (map (fun g => Rmax 0 (g i x)) gs).
Definition plain_sum (gs : list (nat -> R -> R)) (i : nat) (x : R) : R := rsum (map (fun g => g i x) gs).

(* np i multiples of d lie above bulk layer i; every bulk layer contains at least one *)
Definition bulk_grid (widths : list R) (d : R) (np : nat -> nat) : Prop :=
  (forall i, (i <= length widths)%nat -> n_points (rsum (firstn i widths)) d 0 (np i)) /\
  (forall i, (i < length widths)%nat -> (np i < np (S i))%nat).

(* a surface with the given interface layers and requested layers *)
Definition surf := (option (list R) * option (list nat))%type.
Definition to_surface (s : surf) : surface := mk_surface (fst s) (option_map (fun l => Some (map Z.of_nat l)) (snd s)).

Definition multiples (d : R) (ws : list R) : Prop := forall w, In w ws -> exists c, w = INR c * d.

(* thickness (m) of what is inside the structure *)
Definition thickness (s : anystruct) : R :=
  match s with
  | SMatrix (EIface wf _ :: EBulk wb :: EIface wk _ :: _) => rsum wf + wb + rsum wk
  | SMatrix _ => 0
  | SStack w => w
  | SRays st w => if existsb is_tmm (rt_surfaces st) then rsum (map iface_width (rt_surfaces st)) + rsum (rt_widths st) else w
  | SOther => 0
  end.
Definition nonneg (s : anystruct) : Prop :=
  match s with
  | SMatrix l => forall e, In e l -> match e with EIface w _ => 0 <= rsum w | EBulk w => 0 <= w end
  | SRays st _ => (forall w, In w (rt_widths st) -> 0 <= w) /\ (forall s, In s (rt_surfaces st) -> 0 <= iface_width s)
  | _ => True
  end.
