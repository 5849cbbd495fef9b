(* Properties of the absorption per diffraction order: C159, C160. *)
From Coq Require Import Reals List ZArith Bool String Lia Lra.
From Verif Require Import Base Lib Model_Diff Model_RCWA Model_RCWAObj Spec_RCWAObj Proof_RCWAObj Proof_RCWAObj2 Proof_RCWAObj3
  Proof_RCWAObj4 Proof_RCWAObj5 Proof_RCWAObj6 Proof_RCWAObj7 Proof_RCWAOrd.
Import ListNotations.
Local Notation length := List.length.
Open Scope R_scope.

(* ---------- C159: the orders add up to the absorption of the layer ---------- *)

Theorem C159_orders_add_up : forall W SV strict o ob h ob' h' a n,
  calculate W SV strict o (ob, h) = Ok (ob', h', a) -> p_perorder o = true -> fluxes_by_order SV n ->
  exists d ord D, nth_error (h_res h') a = Some d /\ r_orders d = Some (ord, D) /\
  length ord = length (p_wl o) /\ length (r_A d) = length (p_wl o) /\
  forall i x A, nth_error ord i = Some x -> nth_error (r_A d) i = Some A -> length x = length A /\
    forall j y row, nth_error A j = Some y -> nth_error x j = Some row -> length row = n /\ y = Rmax 0 (rsum row).
Proof. exact orders_add_up. Qed.
Print Assumptions C159_orders_add_up.

Theorem C159_lossless_order : forall W SV strict o ob h ob' h' a q c,
  calculate W SV strict o (ob, h) = Ok (ob', h', a) -> p_perorder o = true ->
  (forall S th ph pol f k, exists u, nth_error (fbo (so_flux (SV S th ph pol f)) k) q = Some u /\ both u = c) ->
  exists d ord D, nth_error (h_res h') a = Some d /\ r_orders d = Some (ord, D) /\
  forall i x j row, nth_error ord i = Some x -> nth_error x j = Some row -> nth_error row q = Some 0.
Proof. exact order_lossless. Qed.
Print Assumptions C159_lossless_order.

(* two orders; the second loses nothing, the first half of its power in layer_2 *)
Definition two_orders : solver := fun _ _ _ _ _ =>
  mk_sol (mk_fluxes (fun k => if Nat.ltb k 3 then (1, -1 / 4) else (3 / 4, -1 / 4))
                    (fun k => if Nat.ltb k 3 then [(1 / 2, 0); (1 / 2, -1 / 4)] else [(1 / 4, 0); (1 / 2, -1 / 4)])) (fun _ _ => 0).
Definition full_opts (trunc : string) : option optdict :=
  Some (fun k => if String.eqb k "LatticeTruncation" then Some trunc else s4_default k).
Definition order_opts (trunc : string) (wl : list R) : ropts := mk_ropts wl 0 0 (PolTup [1; 0]) 5 true MS4 (full_opts trunc) 1 (Some [1]) None.

Lemma order_runs SV strict t0 t1 : exists ob, new_obj wit_names wit_order (wit_struct two_shapes) wit_size (order_opts t0 [1]) wit_inc wit_tra = Ok ob /\
  read_options (o_user ob) = Ok (t0 :: List.tl (map snd s4_documented)) /\ length (o_widths ob) = (length (o_stack ob) + 2)%nat /\ o_stack ob <> [] /\
  exists ob' h' a, calculate wit_names SV strict (order_opts t1 [1]) (ob, wit_heap) = Ok (ob', h', a).
Proof.
  eexists. split; [reflexivity|]. split; [reflexivity|]. split; [reflexivity|]. split; [discriminate|].
  match goal with |- exists _ _ _, calculate _ _ _ _ (?o, _) = _ => destruct (calculate_total wit_names SV strict wit_order (wit_struct two_shapes) wit_size (order_opts t0 [1]) wit_inc wit_tra o wit_heap [] o wit_heap
    (with_perorder false (order_opts t1 [1])) (PolPair 1 0)) as (ob2 & h2 & a & d & HC & _) end; try reflexivity; try discriminate; auto using wit_order_ok.
  - intros e [].
  - intros _ l s Hl Hs. cbn in Hl. destruct Hl as [<-|[]]. cbn in Hs. destruct Hs as [<-|[<-|[]]]; exact I.
  - apply (perorder_ok _ _ _ (order_opts t1 [1]) _ _ (ob2, h2) a (t1 :: List.tl (map snd s4_documented))); auto.
Qed.

Example C159_ex : forall strict, fluxes_by_order two_orders 2 /\
  (forall S th ph pol f k, exists u, nth_error (fbo (so_flux (two_orders S th ph pol f)) k) 1 = Some u /\ both u = 1 / 4) /\
  exists ob ob' h' a, new_obj wit_names wit_order (wit_struct two_shapes) wit_size (order_opts "Circular" [1]) wit_inc wit_tra = Ok ob /\
    calculate wit_names two_orders strict (order_opts "Circular" [1]) (ob, wit_heap) = Ok (ob', h', a).
Proof.
  intros strict. split; [|split].
  - intros S th ph pol f F. split; [cbn; lra|]. intros k. subst F. cbn [two_orders so_flux fx fbo]. destruct (Nat.ltb k 3); unfold both; cbn [map rsum fst snd length]; split; auto; lra.
  - intros S th ph pol f k. cbn [two_orders so_flux fbo]. destruct (Nat.ltb k 3); (eexists; split; [reflexivity|]); unfold both; cbn [fst snd]; lra.
  - destruct (order_runs two_orders strict "Circular" "Circular") as (ob & A & _ & _ & _ & ob' & h' & a & B). exists ob, ob', h', a. auto.
Qed.

(* ---------- C160: basis_set lists the orders of A_layer_order ---------- *)

(* Missing: S4 options that differ from those the object was made with, see below. *)
Theorem C160_basis_partial : forall W SV strict o ob h ob' h' a bs,
  calculate W SV strict o (ob, h) = Ok (ob', h', a) -> p_perorder o = true -> basis_count SV bs ->
  (exists l, read_options (o_user ob) = Ok l /\ read_options (p_s4 o) = Ok l) ->
  exists d ord D, nth_error (h_res h') a = Some d /\ r_orders d = Some (ord, D) /\
  forall x row, In x ord -> In row x -> length row = bs (s_size D) (s_orders D) (s_opts D).
Proof.
  intros W SV strict o ob h ob' h' a bs H Hp HB (l & Hu & Ho). destruct (orders_basis _ _ _ _ _ _ _ _ _ _ _ _ H Hp HB Hu Ho) as (d & ord & D & A & B & C & E).
  exists d, ord, D. split; auto. split; auto. intros x row Hx Hr. rewrite C. eauto.
Qed.
Print Assumptions C160_basis_partial.

(* numbers of orders of S4 for 5 orders asked for on a square lattice: the centre and its 4 neighbours if truncated
   circularly, the centre alone if the truncation has the shape of the lattice (the next is 3 x 3) *)
Definition square_basis (size : v2 * v2) (n : nat) (opts : list string) : nat :=
  match opts with t :: _ => if String.eqb t "Circular" then 5 else 1 | [] => 0 end.
Definition square_solver : solver := fun S _ _ _ _ =>
  mk_sol (mk_fluxes (fun k => (1, 0)) (fun k => repeat (1 / INR (square_basis (s_size S) (s_orders S) (s_opts S)), 0) (square_basis (s_size S) (s_orders S) (s_opts S)))) (fun _ _ => 0).

Example C160_basis_partial_ex : forall strict, basis_count square_solver square_basis /\
  exists ob ob' h' a, new_obj wit_names wit_order (wit_struct two_shapes) wit_size (order_opts "Circular" [1]) wit_inc wit_tra = Ok ob /\
    calculate wit_names square_solver strict (order_opts "Circular" [1]) (ob, wit_heap) = Ok (ob', h', a) /\
    exists l, read_options (o_user ob) = Ok l /\ read_options (p_s4 (order_opts "Circular" [1])) = Ok l.
Proof.
  intros strict. split; [intros S th ph pol f k; cbn [square_solver so_flux fbo]; apply repeat_length|].
  destruct (order_runs square_solver strict "Circular" "Circular") as (ob & A & C & _ & _ & ob' & h' & a & B). exists ob, ob', h', a. split; auto. split; auto. eexists. split; [exact C|reflexivity].
Qed.

(* calculate solves with the options of the constructor but asks for the basis set with those of the call. *)
Theorem C160_basis_refuted : forall strict, basis_count square_solver square_basis /\
  exists ob ob' h' a d ord D, new_obj wit_names wit_order (wit_struct two_shapes) wit_size (order_opts "Circular" [1]) wit_inc wit_tra = Ok ob /\
    calculate wit_names square_solver strict (order_opts "Parallelogramic" [1]) (ob, wit_heap) = Ok (ob', h', a) /\
    nth_error (h_res h') a = Some d /\ r_orders d = Some (ord, D) /\ square_basis (s_size D) (s_orders D) (s_opts D) = 1%nat /\
    exists x row, In x ord /\ In row x /\ length row = 5%nat.
Proof.
  intros strict. assert (HB : basis_count square_solver square_basis) by (intros S th ph pol f k; cbn [square_solver so_flux fbo]; apply repeat_length). split; auto.
  destruct (order_runs square_solver strict "Circular" "Parallelogramic") as (ob & A & C & Z1 & Z2 & ob' & h' & a & B). exists ob, ob', h', a.
  destruct (orders_basis _ _ _ _ _ _ _ _ _ _ _ _ B eq_refl HB C (eq_refl _)) as (d & ord & D & E1 & E2 & E3 & E4). exists d, ord, D. split; auto. split; auto. split; auto. split; auto. split; [exact E3|].
  destruct (orders_layers _ _ _ _ _ _ _ _ _ _ _ _ B eq_refl E1 E2 Z1 Z2) as (x & row & Hx & Hr). exists x, row. split; auto. split; auto. exact (E4 x row Hx Hr).
Qed.
Print Assumptions C160_basis_refuted.
