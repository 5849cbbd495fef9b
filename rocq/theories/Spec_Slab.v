(* A plane-parallel slab, all orders of internal reflection added up incoherently.
   Front surface from outside: r0, t0; from inside: rb, tb.  Back surface: r1, t1.  d: what is left after crossing once. *)
From Coq Require Import Reals List.
From Verif Require Import Base Model_Angles Model_Ideal Model_MatMul Model_TMM Spec_Angles Spec_Matrix Spec_MatMul Spec_TMM.
Import ListNotations.
Open Scope R_scope.

(* what is left after one round trip *)
Definition round d r1 rb : R := d * r1 * d * rb.

Definition slab_R r0 t0 rb tb r1 d : R := r0 + t0 * (d * r1 * d) * tb / (1 - round d r1 rb).
Definition slab_T t0 rb r1 t1 d : R := t0 * d * t1 / (1 - round d r1 rb).
Definition slab_A t0 rb r1 d : R := t0 * ((1 - d) + d * r1 * (1 - d)) / (1 - round d r1 rb).

(* the light of the wavelength that entry e stands for finds its direction: it is refracted, or transmitted noticeably, or
   not transmitted at all *)
Definition kept (n1 n2 theta T : R) : Prop :=
  n1 * sin theta < n2 \/ (n2 < n1 * sin theta /\ (1 / 10 ^ 8 < T \/ T = 0)).

(* a solver that loses nothing: reflected, transmitted and absorbed power are fractions that add up to one *)
Definition balances {M} (SV : solver M) : Prop :=
  (forall pol st theta s, sv_coh SV pol st theta = Ok s ->
     balanced (length (o_layers st)) s /\ 0 <= s_R s /\ 0 <= s_T s) /\
  (forall pol st cl theta s, sv_inc SV pol st cl theta = Ok s ->
     balanced (length (o_layers st)) s /\ 0 <= s_R s /\ 0 <= s_T s).

(* every incidence direction of side s of an interface is kept *)
Definition all_kept {M} (SV : solver M) (mem : list R) (idx : M -> R) (a : tmm_args M) (s : side) (g : grid) (h : nat) : Prop :=
  forall i r Rp Tp Al, (i < h)%nat -> nth_error (g_av g) (channel_row s h i) = Some r ->
    tmm_entry SV mem a s (incoming s (a_theta r)) = Ok (Rp, Tp, Al) ->
    kept (idx (from_medium a s)) (idx (into_medium a s)) (incoming s (a_theta r)) Tp.
