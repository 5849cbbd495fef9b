(* Properties of the transfer-matrix interface: C46-C51, C90-C96. *)
From Coq Require Import Reals List ZArith Bool Lia Lra String.
From Verif Require Import Base Lib Model_Angles Spec_Angles Model_Ideal Model_TMM Spec_TMM
  Proof_TMM Proof_TMM2 Proof_TMM3 Proof_TMM4.
Import ListNotations.
Local Notation length := List.length.
Open Scope R_scope.

(* ---------- C46 ---------- *)

(* Away from the exactly critical angle: R is put into the specular bin of the incident half, T into the bin
   of Snell's angle in the other half; beyond the critical angle T goes to the bin just before the horizon,
   and is dropped only when it is at most 1e-8.  Nothing else is stored and the absorption is the solver's. *)
Theorem C46_column : forall n phi_sym c sp g h M (SV : solver M) mem idx a s i r Rp Tp Al,
  valid_request n phi_sym c -> make_angle_vector n phi_sym c sp = Ok g -> length (g_av g) = (2 * h)%nat ->
  1 / 10 ^ 10 <= phi_sym -> (i < h)%nat -> nth_error (g_av g) (channel_row s h i) = Some r ->
  let n1 := idx (from_medium a s) in let n2 := idx (into_medium a s) in
  let theta := incoming s (a_theta r) in
  0 < n1 -> 0 < n2 -> tmm_entry SV mem a s theta = Ok (Rp, Tp, Al) -> n1 * sin theta <> n2 ->
  exists col f kr, tmm_matrix_column SV mem idx a s g phi_sym i = Ok (col, Al) /\ length col = (2 * h)%nat /\
    turned (a_phi r) phi_sym f /\ bin_contains g kr (a_theta r) f /\ same_half s h kr /\
    (n1 * sin theta < n2 -> exists psi kt, refracts n1 n2 theta psi /\ bin_contains g kt (onward s psi) f /\
       other_half s h kt /\ holds_two col kr Rp kt Tp /\ rsum col = Rp + Tp) /\
    (n2 < n1 * sin theta -> 1 / 10 ^ 8 < Tp -> exists kt, bin_contains g kt (onward s (PI / 2 - 1 / 10 ^ 5)) f /\
       other_half s h kt /\ holds_two col kr Rp kt Tp /\ rsum col = Rp + Tp) /\
    (n2 < n1 * sin theta -> Tp <= 1 / 10 ^ 8 -> holds_one col kr Rp /\ rsum col = Rp).
Proof.
  intros n phi_sym c sp g h M SV mem idx a s i r Rp Tp Al Hv Hg Hh Hphi Hi Hr n1 n2 theta Hn1 Hn2 He Hne.
  assert (E1 : n1 = idx (fst (snell_media a s))) by (destruct s; reflexivity).
  assert (E2 : n2 = idx (snd (snell_media a s))) by (destruct s; reflexivity). clearbody n1 n2. subst n1 n2.
  set (n1 := idx (fst (snell_media a s))) in *. set (n2 := idx (snd (snell_media a s))) in *.
  destruct (Rtotal_order (n1 * sin theta) n2) as [H|[H|H]]; [|contradiction|].
  - destruct (column_below n phi_sym c sp g h Hv Hg Hh Hphi M SV mem idx a s i r Rp Tp Al Hn1 Hn2 Hi Hr He H)
      as (col & f & psi & kr & kt & C1 & C2 & C3 & C4 & C5 & C6 & C7 & C8 & C9 & C10).
    exists col, f, kr. do 5 (split; auto). split; [intros _; exists psi, kt; auto|]. split; intros H'; lra.
  - destruct (Rlt_le_dec (1 / 10 ^ 8) Tp) as [HT|HT].
    + destruct (column_beyond n phi_sym c sp g h Hv Hg Hh Hphi M SV mem idx a s i r Rp Tp Al Hn1 Hn2 Hi Hr He H HT)
        as (col & f & kr & kt & C1 & C2 & C3 & C5 & C6 & C7 & C8 & C9 & C10).
      exists col, f, kr. do 5 (split; auto). split; [intros H'; lra|]. split; [intros _ _; exists kt; auto|]. intros; lra.
    + destruct (column_dropped n phi_sym c sp g h Hv Hg Hh Hphi M SV mem idx a s i r Rp Tp Al Hn1 Hn2 Hi Hr He H HT)
        as (col & f & kr & C1 & C2 & C3 & C5 & C6 & C7 & C8).
      exists col, f, kr. do 5 (split; auto). split; [intros H'; lra|]. split; [intros; lra|]. auto.
Qed.
Print Assumptions C46_column.

Example C46_example : exists g h r, make_angle_vector 1 (2 * PI) 1 SpSin = Ok g /\ length (g_av g) = (2 * h)%nat /\
  valid_request 1 (2 * PI) 1 /\ 1 / 10 ^ 10 <= 2 * PI /\ (0 < h)%nat /\ nth_error (g_av g) (channel_row Front h 0) = Some r /\
  tmm_entry half_solver [] (mk_args 0%nat [] 1%nat true None "s") Front (incoming Front (a_theta r)) = Ok (1 / 2, 1 / 2, []) /\
  1 * sin (incoming Front (a_theta r)) < 1.
Proof.
  destruct some_grid as (g & h & Hg & Hh & Hp & Hv & r & Hr & _ & Ht). exists g, h, r. pose proof PI_RGT_0. pose proof PI2_3_2.
  do 3 (split; auto). split; [lra|]. split; auto. split; auto. split; [apply half_entry|]. cbn [incoming].
  rewrite Rmult_1_l. rewrite <- sin_PI2. apply sin_increasing_1; lra.
Qed.

(* What is stored for an angle: the solution of the stack as it is met from that side, for unpolarised light the mean of
   both polarisations, with the layers in the user's order. *)
Theorem C46_entry : forall M (SV : solver M) mem a s theta t, ar_pol a <> "u"%string -> fine_out t ->
  calculate SV mem false (seen_from a s) (mk_topts (ar_pol a) theta (ar_coherent a) (ar_coh a)) = Ok t ->
  tmm_entry SV mem a s theta = Ok (t_R t, t_T t, as_given s (t_Al t)).
Proof. exact pol_entry. Qed.
Print Assumptions C46_entry.

Theorem C46_unpolarised : forall M (SV : solver M) mem a s theta ts tp, ar_pol a = "u"%string -> fine_out ts -> fine_out tp ->
  length (t_Al ts) = length (t_Al tp) ->
  calculate SV mem false (seen_from a s) (mk_topts "s" theta (ar_coherent a) (ar_coh a)) = Ok ts ->
  calculate SV mem false (seen_from a s) (mk_topts "p" theta (ar_coherent a) (ar_coh a)) = Ok tp ->
  exists Rp Tp Al, tmm_entry SV mem a s theta = Ok (Rp, Tp, Al) /\ mean_of Rp (t_R ts) (t_R tp) /\ mean_of Tp (t_T ts) (t_T tp) /\
    means_of Al (as_given s (t_Al ts)) (as_given s (t_Al tp)).
Proof. exact u_entry. Qed.
Print Assumptions C46_unpolarised.

Example C46_entry_example :
  let s := mk_sol (1 / 8) (1 / 8) [0; 1 / 4; 1 / 2; 1 / 8] (fun _ => coef_s) (fun _ => 0) in
  let p := mk_sol (1 / 4) 0 [0; 1 / 2; 1 / 4; 0] (fun _ => coef_p) (fun _ => 0) in
  let a := mk_args 0%nat [(2%nat, 1); (3%nat, 2)] 1%nat true None "u" in
  exists ts tp, calculate (fixed_solver s p (fun _ => 0)) [] false (seen_from a Rear) (mk_topts "s" 1 true None) = Ok ts /\
    calculate (fixed_solver s p (fun _ => 0)) [] false (seen_from a Rear) (mk_topts "p" 1 true None) = Ok tp /\
    fine_out ts /\ fine_out tp /\ length (t_Al ts) = length (t_Al tp).
Proof.
  do 2 eexists. split; [reflexivity|]. split; [reflexivity|].
  split; [|split; [|reflexivity]]; (split; [cbn; lra|]; split; [cbn; lra|]); intros x [<-|[<-|[]]]; lra.
Qed.

(* ---------- C92: the exactly critical angle ---------- *)

(* From the rear nothing is lost. *)
Theorem C92_rear_partial : forall n phi_sym c sp g h M (SV : solver M) mem idx a i r Rp Tp Al,
  valid_request n phi_sym c -> make_angle_vector n phi_sym c sp = Ok g -> length (g_av g) = (2 * h)%nat ->
  1 / 10 ^ 10 <= phi_sym -> (i < h)%nat -> nth_error (g_av g) (channel_row Rear h i) = Some r ->
  let n1 := idx (from_medium a Rear) in let n2 := idx (into_medium a Rear) in
  let theta := incoming Rear (a_theta r) in
  0 < n1 -> 0 < n2 -> tmm_entry SV mem a Rear theta = Ok (Rp, Tp, Al) -> n1 * sin theta = n2 ->
  exists col f kr kt, tmm_matrix_column SV mem idx a Rear g phi_sym i = Ok (col, Al) /\
    bin_contains g kr (a_theta r) f /\ same_half Rear h kr /\ bin_contains g kt (onward Rear (PI / 2)) f /\
    other_half Rear h kt /\ holds_two col kr Rp kt Tp /\ rsum col = Rp + Tp.
Proof.
  intros n phi_sym c sp g h M SV mem idx a i r Rp Tp Al Hv Hg Hh Hphi Hi Hr n1 n2 theta Hn1 Hn2 He Heq.
  exact (critical_rear n phi_sym c sp g h Hv Hg Hh Hphi M SV mem idx a Rear i r Rp Tp Al Hn2 Hi Hr He eq_refl Heq).
Qed.
Print Assumptions C92_rear_partial.

(* From the front the transmitted part is stored among the reflected directions (always), and in the last
   ring it overwrites R. *)
Theorem C92_front_refuted :
  (forall n phi_sym c sp g h M (SV : solver M) mem idx a i r Rp Tp Al,
    valid_request n phi_sym c -> make_angle_vector n phi_sym c sp = Ok g -> length (g_av g) = (2 * h)%nat ->
    1 / 10 ^ 10 <= phi_sym -> (i < h)%nat -> nth_error (g_av g) (channel_row Front h i) = Some r ->
    let n1 := idx (from_medium a Front) in let n2 := idx (into_medium a Front) in
    let theta := incoming Front (a_theta r) in
    0 < n1 -> 0 < n2 -> tmm_entry SV mem a Front theta = Ok (Rp, Tp, Al) -> n1 * sin theta = n2 ->
    exists col, tmm_matrix_column SV mem idx a Front g phi_sym i = Ok (col, Al) /\
      (forall k, (h <= k)%nat -> nth k col 0 = 0) /\ (a_ring r = (n - 1)%nat -> rsum col = Tp)) /\
  exists g h r (idx : nat -> R),
    make_angle_vector 1 (2 * PI) 1 SpSin = Ok g /\ length (g_av g) = (2 * h)%nat /\ nth_error (g_av g) 0 = Some r /\
    0 < idx 0%nat /\ 0 < idx 1%nat /\ refracts (idx 0%nat) (idx 1%nat) (a_theta r) (PI / 2) /\
    (forall theta, tmm_entry half_solver [] (mk_args 0%nat [] 1%nat true None "s") Front theta = Ok (1 / 2, 1 / 2, [])) /\
    exists col, tmm_matrix_column half_solver [] idx (mk_args 0%nat [] 1%nat true None "s") Front g (2 * PI) 0 = Ok (col, []) /\
      rsum col = 1 / 2.
Proof.
  split.
  - intros n phi_sym c sp g h M SV mem idx a i r Rp Tp Al Hv Hg Hh Hphi Hi Hr n1 n2 theta Hn1 Hn2 He Heq.
    exact (critical_front n phi_sym c sp g h Hv Hg Hh Hphi M SV mem idx a Front i r Rp Tp Al Hn2 Hi Hr He eq_refl Heq).
  - destruct critical_wrong as (g & h & r & idx & H1 & H2 & H3 & H4 & H5 & H6 & H7). exists g, h, r, idx.
    do 6 (split; auto). split; auto. intros theta. apply half_entry.
Qed.
Print Assumptions C92_front_refuted.

(* ---------- C47 ---------- *)

(* Rear incidence is front incidence on the stack turned upside down (with the absorptions listed back in the
   user's order) when the stack is coherent or the coherency list reads the same backwards. *)
Theorem C47_rear_partial : forall M (SV : solver M) mem a theta, well_sized SV ->
  (ar_coherent a = true \/ ar_coh a = None \/ (exists l, ar_coh a = Some l /\ rev l = l)) ->
  tmm_entry SV mem a Rear theta =
  rlift (fun e => (fst e, rev (snd e))) (tmm_entry SV mem (upside_down a) Front theta).
Proof. intros M SV mem a theta Hw. exact (rear_entry M SV mem a Hw theta). Qed.
Print Assumptions C47_rear_partial.

Example C47_example : well_sized (@telling nat []) /\
  exists l, ar_coh (mk_args 0%nat [(2%nat, 1); (3%nat, 2); (4%nat, 3)] 1%nat false (Some [true; false; true]) "u") = Some l /\ rev l = l.
Proof. split; [apply telling_sized|]. eexists. split; reflexivity. Qed.

(* For every other coherency list there is a solver that tells the two stacks apart. *)
Theorem C47_coherency_refuted : forall M (a : tmm_args M) l, ar_coherent a = false -> ar_coh a = Some l ->
  length l = length (ar_layers a) -> rev l <> l -> (ar_pol a = "s" \/ ar_pol a = "p" \/ ar_pol a = "u")%string ->
  exists SV, well_sized SV /\ forall mem theta, exists A A',
    tmm_entry SV mem a Rear theta = Ok (0, 0, A) /\ tmm_entry SV mem (upside_down a) Front theta = Ok (1, 0, A').
Proof. exact @rear_refuted. Qed.
Print Assumptions C47_coherency_refuted.

Example C47_refuted_example : exists (a : tmm_args nat) l, ar_coherent a = false /\ ar_coh a = Some l /\
  length l = length (ar_layers a) /\ rev l <> l /\ ar_pol a = "u"%string.
Proof.
  exists (mk_args 0%nat [(2%nat, 1); (3%nat, 2)] 1%nat false (Some [true; false]) "u"), [true; false].
  do 3 (split; [reflexivity|]). split; [discriminate|reflexivity].
Qed.

(* ---------- C48 ---------- *)

(* Coherent stacks: everything is the mean, provided s and p share the decay constants of the analytic
   functions.  Partly coherent stacks: R and T are the mean, and so are the absorptions when the solver is
   balanced and some layer absorbs. *)
Theorem C48_mean_partial : forall M (SV : solver M) mem nobr st o cl s p,
  coh_for nobr st o = Ok cl -> answers SV st (p_coherent o) cl (p_theta o) "s" s ->
  answers SV st (p_coherent o) cl (p_theta o) "p" p -> length (s_abs s) = length (s_abs p) ->
  exists u us up, calculate SV mem nobr st (with_pol o "u") = Ok u /\
    calculate SV mem nobr st (with_pol o "s") = Ok us /\ calculate SV mem nobr st (with_pol o "p") = Ok up /\
    mean_of (t_R u) (t_R us) (t_R up) /\ mean_of (t_T u) (t_T us) (t_T up) /\
    (p_coherent o = true -> mean_of (t_A u) (t_A us) (t_A up) /\ means_of (t_Al u) (t_Al us) (t_Al up) /\
       forall layers,
       (forall l, In l layers -> c_a1 (s_coef s l) = c_a1 (s_coef p l) /\ c_a3 (s_coef s l) = c_a3 (s_coef p l)) ->
       exists cu cs cp, profile_coeff SV nobr st (with_pol o "u") layers = Ok cu /\
         profile_coeff SV nobr st (with_pol o "s") layers = Ok cs /\
         profile_coeff SV nobr st (with_pol o "p") layers = Ok cp /\
         length cu = length layers /\ length cs = length layers /\ length cp = length layers /\
         forall i d, (i < length layers)%nat -> coef_means (nth i cu d) (nth i cs d) (nth i cp d)) /\
    (p_coherent o = false -> forall n, balanced n s -> balanced n p ->
       mean_of (t_A u) (t_A us) (t_A up) /\
       ((exists x, (In x (inner (s_abs s)) \/ In x (inner (s_abs p))) /\ 0 < x) ->
          means_of (t_Al u) (t_Al us) (t_Al up))).
Proof.
  intros M SV mem nobr st o cl s p Hcl Hs Hp HL. destruct (p_coherent o) eqn:Hc.
  - destruct (u_coherent M SV mem nobr st o cl s p Hcl ltac:(rewrite Hc; auto) ltac:(rewrite Hc; auto) Hc HL)
      as (u & us & up & E1 & E2 & E3 & E4 & E5 & E6 & E7). exists u, us, up. do 5 (split; auto). split; [|discriminate].
    intros _. do 2 (split; auto). intros layers Hl.
    apply (u_coh_coefs M SV nobr st o cl s p Hcl ltac:(rewrite Hc; auto) ltac:(rewrite Hc; auto) layers Hc Hl).
  - destruct (u_incoherent M SV mem nobr st o cl s p Hcl ltac:(rewrite Hc; auto) ltac:(rewrite Hc; auto) Hc)
      as (u & us & up & E1 & E2 & E3 & E4 & E5 & E6). exists u, us, up. do 5 (split; auto). split; [discriminate|].
    intros _ n Bs Bp. destruct (E6 n Bs Bp) as [F1 F2]. split; auto. intros Hx. apply (F2 Hx).
Qed.
Print Assumptions C48_mean_partial.

Example C48_example :
  let st := mk_stack 0%nat [(1%nat, 10)] 2%nat in let o := mk_topts "u" 0 false (Some [true]) in
  let s := sol_of coef_s in let SV := fixed_solver s s (fun _ => 0) in
  exists cl, coh_for false st o = Ok cl /\ answers SV st false cl 0 "s" s /\ answers SV st false cl 0 "p" s /\
    balanced 1 s /\ exists x, In x (inner (s_abs s)) /\ 0 < x.
Proof.
  eexists. do 3 (split; [reflexivity|]). split.
  - split; [reflexivity|]. split; [|simpl; lra]. simpl. intros x [<-|[<-|[<-|[]]]]; lra.
  - exists (1 / 2). split; [now left|lra].
Qed.

(* The absorption density at given depths is the mean wherever both polarisations absorb, coherent or not. *)
Theorem C48_profile_partial : forall M (SV : solver M) nobr st o cl s p dist, coh_for nobr st o = Ok cl ->
  answers SV st (p_coherent o) cl (p_theta o) "s" s -> answers SV st (p_coherent o) cl (p_theta o) "p" p ->
  (forall z, In z dist -> 0 <= s_prof s z /\ 0 <= s_prof p z) ->
  exists u us up, profile_at SV nobr st (with_pol o "u") dist = Ok u /\ profile_at SV nobr st (with_pol o "s") dist = Ok us /\
    profile_at SV nobr st (with_pol o "p") dist = Ok up /\ length u = length dist /\ means_of u us up.
Proof. exact profile_mean. Qed.
Print Assumptions C48_profile_partial.

Example C48_profile_example :
  let st := mk_stack 0%nat [(1%nat, 10)] 2%nat in let o := mk_topts "u" 0 false (Some [true]) in
  let s := mk_sol 0 (1 / 2) [0; 1 / 2; 1 / 2] (fun _ => coef_s) (fun z => / (1 + z)) in
  let p := mk_sol 0 (1 / 2) [0; 1 / 2; 1 / 2] (fun _ => coef_p) (fun z => 2 + z) in
  let SV := fixed_solver s p (fun _ => 0) in
  exists cl, coh_for false st o = Ok cl /\ answers SV st false cl 0 "s" s /\ answers SV st false cl 0 "p" p /\
    forall z, In z [0; 3; 8] -> 0 <= s_prof s z /\ 0 <= s_prof p z.
Proof.
  eexists. do 3 (split; [reflexivity|]). intros z Hz. cbn [s_prof].
  assert (0 <= z) by (destruct Hz as [<-|[<-|[<-|[]]]]; lra). split; [|lra]. left. apply Rinv_0_lt_compat. lra.
Qed.

(* With a transparent partly coherent stack the returned absorptions are whatever the memory held: the s and
   p results are zero for every memory. *)
Theorem C48_memory_refuted : forall M (st : ostack M) l theta memory, length l = length (o_layers st) ->
  exists SV s p u, let cl := false :: l ++ [false] in
    answers SV st false cl theta "s" s /\ answers SV st false cl theta "p" p /\
    balanced (length l) s /\ balanced (length l) p /\
    calculate SV memory false st (mk_topts "u" theta false (Some l)) = Ok u /\ t_Al u = memory /\ t_A u = 0.
Proof. exact @transparent_u. Qed.
Print Assumptions C48_memory_refuted.

Example C48_memory_example : length [true; false] = length (o_layers (mk_stack 0%nat [(1%nat, 1); (2%nat, 5)] 3%nat)).
Proof. reflexivity. Qed.

(* The analytic absorption functions ignore p light when the stack is partly coherent. *)
Theorem C48_coefficients_refuted :
  let st := mk_stack 0%nat [(1%nat, 10)] 2%nat in
  let o := mk_topts "u" 0 false (Some [true]) in
  exists (SV : solver nat), profile_coeff SV false st (with_pol o "s") [1%nat] = Ok [coef_s] /\
    profile_coeff SV false st (with_pol o "p") [1%nat] = Ok [coef_p] /\
    exists c, profile_coeff SV false st (with_pol o "u") [1%nat] = Ok [c] /\ c_A1 c = 1 /\ ~ coef_means c coef_s coef_p.
Proof. exact u_coef_wrong. Qed.
Print Assumptions C48_coefficients_refuted.

(* ---------- C49 ---------- *)

(* s or p light: for every solver output the absorptions are non-negative; they add up to A = 1 - R - T (or 0)
   unless no layer absorbs, and then they are all zero. *)
Theorem C49_layers_partial : forall M (SV : solver M) mem nobr st o cl pol s,
  p_coherent o = false -> coh_for nobr st o = Ok cl -> (pol = "s" \/ pol = "p")%string ->
  answers SV st false cl (p_theta o) pol s ->
  exists t, calculate SV mem nobr st (with_pol o pol) = Ok t /\ t_R t = s_R s /\ t_T t = s_T s /\
    (forall x, In x (t_Al t) -> 0 <= x) /\ t_A t = Rmax 0 (1 - s_R s - s_T s) /\
    ((exists x, In x (inner (s_abs s)) /\ 0 < x) -> rsum (t_Al t) = t_A t) /\
    ((forall x, In x (inner (s_abs s)) -> x <= 0) -> forall x, In x (t_Al t) -> x = 0).
Proof.
  intros M SV mem nobr st o cl pol s Hc Hcl Hpol Hs. exists (calc_inc s).
  assert (E : calculate SV mem nobr st (with_pol o pol) = Ok (calc_inc s)).
  { unfold calculate. replace (coh_for nobr st (with_pol o pol)) with (coh_for nobr st o) by reflexivity. rewrite Hcl. cbn [rbind with_pol p_pol].
    replace (in_sp pol) with true by (destruct Hpol as [-> | ->]; reflexivity).
    unfold solve, answers in *. cbn [with_pol p_coherent p_theta p_pol]. rewrite Hc, Hs. reflexivity. }
  split; auto. split; [reflexivity|]. split; [reflexivity|]. apply calc_inc_layers.
Qed.
Print Assumptions C49_layers_partial.

Example C49_example :
  let st := mk_stack 0%nat [(1%nat, 10)] 2%nat in let o := mk_topts "u" 0 false (Some [true]) in
  let s := mk_sol (1 / 4) (1 / 4) [1 / 4; 2; 1 / 4] (fun _ => zero_coefs) (fun _ => 0) in
  exists cl, coh_for false st o = Ok cl /\ answers (fixed_solver s s (fun _ => 0)) st false cl 0 "s" s /\
    exists x, In x (inner (s_abs s)) /\ 0 < x.
Proof. eexists. do 2 (split; [reflexivity|]). exists 2. split; [now left|lra]. Qed.

(* Unpolarised light on a transparent stack: a negative absorption, and one that does not add up. *)
Theorem C49_unpolarised_refuted : forall M (st : ostack M) l theta, length l = length (o_layers st) ->
  exists SV s p u, let cl := false :: l ++ [false] in
    answers SV st false cl theta "s" s /\ answers SV st false cl theta "p" p /\
    balanced (length l) s /\ balanced (length l) p /\
    calculate SV [-1] false st (mk_topts "u" theta false (Some l)) = Ok u /\ In (-1) (t_Al u) /\ rsum (t_Al u) = -1 /\ t_A u = 0.
Proof.
  intros M st l theta H.
  destruct (transparent_u st l theta [-1] H) as (SV & s & p & u & A1 & A2 & B1 & B2 & E & Eu & EA). exists SV, s, p, u.
  do 5 (split; auto). rewrite Eu. split; [now left|]. split; [simpl; lra|auto].
Qed.
Print Assumptions C49_unpolarised_refuted.

(* ---------- C50 ---------- *)

Theorem C50_coherency_list :
  (forall nobr n l, length l = n ->
    exists cl, build_coh_list nobr n (Some l) = Ok cl /\
      length cl = (n + (if nobr then 3 else 2))%nat /\ nth 0 cl true = false /\
      (forall i, (1 <= i <= n)%nat -> nth i cl true = nth (i - 1) l true) /\
      (forall i, (n < i < length cl)%nat -> nth i cl true = false)) /\
  (forall nobr n l, length l <> n -> build_coh_list nobr n (Some l) = Err AssertionError) /\
  (forall nobr n, build_coh_list nobr n None = Err ValueError).
Proof. split; [exact coh_list_ok|]. split; [exact coh_list_bad|reflexivity]. Qed.
Print Assumptions C50_coherency_list.

Example C50_example : build_coh_list false 2 (Some [true; false]) = Ok [false; true; false; false] /\
  build_coh_list true 2 (Some [true; false]) = Ok [false; true; false; false; false].
Proof. split; reflexivity. Qed.

(* ---------- C51 ---------- *)

(* With sides = [1, -1], the default:
   - the rear rows of a stack are the front rows of the stack turned upside down, absorptions put back in the
     user's order and the profile of layer p taken as that of layer n + 1 - p of the turned stack (the
     coherency list is turned too, unlike in C47);
   - R, T and absorptions are non-negative; u rows are means;
   - for a coherent stack, what is stored under layer l is what the solver says of physical layer l. *)
Theorem C51_lookup_table : forall M (SV : solver M) mem a layers, well_sized SV ->
  let n := length (ar_layers a) in let both := [1%Z; (-1)%Z] in
  (forall pol theta e,
     table_entry SV mem (upside_down a) (map (fun p => (n + 1 - p)%nat) layers) both 1 pol theta = Ok e ->
     table_entry SV mem a layers both (-1) pol theta = Ok (mk_tentry (e_R e) (e_T e) (rev (e_Al e)) (e_coef e))) /\
  (forall sides sd pol theta e, table_entry SV mem a layers sides sd pol theta = Ok e -> entry_nonneg e) /\
  (forall sides sd theta e, table_entry SV mem a layers sides sd "u" theta = Ok e ->
     exists es ep, table_entry SV mem a layers sides sd "s" theta = Ok es /\
       table_entry SV mem a layers sides sd "p" theta = Ok ep /\ entry_means e es ep) /\
  (forall q theta s (sd : side), ar_coherent a = true -> (q = "s" \/ q = "p")%string ->
     sv_coh SV q (match sd with Front => mk_stack (ar_inc a) (ar_layers a) (ar_trn a)
                               | Rear => turn (mk_stack (ar_inc a) (ar_layers a) (ar_trn a)) end) theta = Ok s ->
     exists e, table_entry SV mem a layers both (match sd with Front => 1 | Rear => -1 end) q theta = Ok e /\
       e_R e = Rmax 0 (s_R s) /\ e_T e = Rmax 0 (s_T s) /\
       length (e_Al e) = n /\ length (e_coef e) = length layers /\
       (forall l, (1 <= l <= n)%nat -> nth (l - 1) (e_Al e) 0 =
          Rmax 0 (nth (match sd with Front => l | Rear => (n + 1 - l)%nat end) (s_abs s) 0)) /\
       (forall j d, (j < length layers)%nat -> nth j (e_coef e) d =
          s_coef s (match sd with Front => nth j layers 0%nat | Rear => (n + 1 - nth j layers 0)%nat end))).
Proof.
  intros M SV mem a layers Hw n both. split; [intros pol theta e He; exact (table_turned M SV mem a layers pol theta e Hw He)|].
  split; [exact (table_nonneg M SV mem a layers)|].
  split; [intros sides sd theta e He; exact (table_u M SV mem a layers sides sd theta e Hw He)|].
  intros q theta s sd Hc Hq Hs. apply (table_coherent M SV mem a layers q theta s sd Hc Hq Hs).
  rewrite (proj1 Hw _ _ _ _ Hs). destruct sd; cbn [turn o_layers]; rewrite ?rev_length; reflexivity.
Qed.
Print Assumptions C51_lookup_table.

(* a solver that names the medium: absorption in medium i is i, analytic function of layer l has A1 = l *)
Definition naming_solver : solver nat :=
  mk_solver (fun _ st _ => Ok (mk_sol 0 0 (map INR (o_inc st :: map fst (o_layers st) ++ [o_sub st]))
                                 (fun l => mk_coefs (INR (nth l (o_inc st :: map fst (o_layers st)) 0%nat)) 0 0 0 0 0) (fun _ => 0)))
            (fun _ st _ _ => Ok (transparent (length (o_layers st)))) (fun _ => 0).

Example C51_example : well_sized naming_solver /\ exists e,
  table_entry naming_solver [] (mk_args 1%nat [(2%nat, 5); (3%nat, 6)] 4%nat true None "s") [2%nat] [1%Z; (-1)%Z] (-1) "s" 0 = Ok e /\
  e_Al e = [2; 3] /\ map c_A1 (e_coef e) = [3].
Proof.
  split.
  - split; intros pol st; intros; injection H as <-; cbn [s_abs transparent]; [|rewrite repeat_length; auto].
    simpl. rewrite map_length, app_length, map_length. simpl. lia.
  - eexists. split; [reflexivity|]. cbn [e_Al e_coef]. unfold flip_side. simpl. rewrite !clip_id by lra. split; [|apply f_equal2; [lra|reflexivity]].
    apply f_equal2; [lra|]. apply f_equal2; [lra|]. reflexivity.
Qed.

(* ---------- C93 ---------- *)

(* Any other value of `sides` is not honoured: the stack is picked by position in the list and the order of
   the layers by value; a single side is rejected for every stack. *)
Theorem C93_sides_refuted :
  (forall M (SV : solver M) mem a layers q theta e, (q = "s" \/ q = "p")%string ->
    table_entry SV mem a layers [1%Z; (-1)%Z] 1 q theta = Ok e ->
    exists e', table_entry SV mem a layers [(-1)%Z; 1%Z] (-1) q theta = Ok e' /\
      e_R e' = e_R e /\ e_T e' = e_T e /\ e_Al e' = rev (e_Al e)) /\
  (forall M (SV : solver M) mem a layers sd0 sd q theta, table_entry SV mem a layers [sd0] sd q theta = Err ValueError) /\
  let a := mk_args 0%nat [(2%nat, 5)] 1%nat true None "s" in
  exists e e', table_entry top_solver [] a [] [1%Z; (-1)%Z] (-1) "s" 0 = Ok e /\ e_R e = 1 /\
    table_entry top_solver [] a [] [(-1)%Z; 1%Z] (-1) "s" 0 = Ok e' /\ e_R e' = 0.
Proof.
  split; [exact sides_swapped|]. split; [exact one_side|].
  destruct sides_wrong as (e & e' & A & B & C & D & _). exists e, e'. auto.
Qed.
Print Assumptions C93_sides_refuted.

(* ---------- C94 ---------- *)

(* The strings other than u that calculate treats as unpolarised light are all but "", "s", "p", "sp". *)
Theorem C94_polarisation_refuted : forall M (SV : solver M) mem nobr st o pol,
  (pol <> "" /\ pol <> "s" /\ pol <> "p" /\ pol <> "sp")%string ->
  calculate SV mem nobr st (with_pol o pol) = calculate SV mem nobr st (with_pol o "u").
Proof. exact @any_pol. Qed.
Print Assumptions C94_polarisation_refuted.

Example C94_example : exists t, calculate half_solver [] false (mk_stack 0%nat [] 1%nat) (mk_topts "S" 0 true None) = Ok t /\ t_R t = 1 / 2.
Proof. eexists. split; [reflexivity|]. cbn. unfold half_sum. lra. Qed.

(* ---------- C95 ---------- *)

(* profile over all layers: the whole depth grid; over one layer: exactly the grid points inside it *)
Theorem C95_depths :
  (forall ws spacing, 0 < spacing -> (forall w, In w ws -> 0 <= w) ->
     profile_depths ws spacing (all_layers (length ws)) = Ok (arange0 (rsum ws) spacing)) /\
  (forall ws spacing l, (1 <= l <= length ws)%nat ->
     exists d, profile_depths ws spacing [l] = Ok d /\
       forall z, In z d <-> In z (arange0 (rsum ws) spacing) /\ rsum (firstn (l - 1) ws) <= z < rsum (firstn l ws)).
Proof.
  split; [exact all_depths|]. intros ws spacing l Hl. eexists. split; [apply points_in_layer; auto|].
  intros z. rewrite filter_In, andb_true_iff, Rleb_true, Rltb_true. tauto.
Qed.
Print Assumptions C95_depths.

Example C95_example : (0 < 4)%R /\ (forall w, In w [8; 22] -> 0 <= w) /\ (1 <= 2 <= length [8; 22])%nat.
Proof. split; [lra|]. split; [|simpl; lia]. intros w [<-|[<-|[]]]; lra. Qed.

(* ---------- C90 ---------- *)

(* Stored profile of s or p light.  Position j holds the absorption at the j-th depth of the requested layers
   measured in the frame of the incident light, for both sides.  The z label is that depth from the front. *)
Theorem C90_front_partial : forall M (SV : solver M) a spacing layers pol theta cl s d,
  (pol = "s" \/ pol = "p")%string -> profile_depths (map snd (ar_layers a)) spacing layers = Ok d ->
  forall sd, coh_for false (tmm_stack a sd) (tmm_opts a pol theta) = Ok cl ->
  answers SV (tmm_stack a sd) (ar_coherent a) cl theta pol s ->
  exists z data, tmm_profile SV a sd spacing layers pol theta = Ok (z, data) /\
    length z = length d /\ length data = length d /\
    forall j, (j < length d)%nat ->
      nth j data 0 = Rmax 0 (s_prof s (match sd with Front => nth j d 0 | Rear => rsum (map snd (ar_layers a)) - nth j d 0 end)) /\
      (sd = Front -> nth j z 0 = nth j d 0).
Proof.
  intros M SV a spacing layers pol theta cl s d Hpol Hd sd Hc Ha.
  destruct (profile_stored M SV a spacing layers pol theta cl s d Hpol Hd sd Hc Ha) as (z & data & E & Lz & Ld & H).
  exists z, data. do 3 (split; auto). intros j Hj. destruct (H j Hj) as [H1 H2]. split; auto. intros ->. auto.
Qed.
Print Assumptions C90_front_partial.

Example C90_example : exists d, profile_depths [8; 22] 4 [1%nat] = Ok d /\
  answers depth_solver (tmm_stack (mk_args 0%nat [(2%nat, 8); (3%nat, 22)] 1%nat true None "s") Rear) true [] 0 "s"
    (mk_sol 0 0 [0; 1; 0] (fun _ => zero_coefs) (fun z => z)).
Proof. eexists. split; [apply points_in_layer; simpl; lia|reflexivity]. Qed.

(* Rear: the labels run against the data (they are the reversed depths from the rear), so the value stored
   under z is not the absorption at z in either frame. *)
Theorem C90_rear_z_refuted :
  let a := mk_args 0%nat [(2%nat, 8); (3%nat, 22)] 1%nat true None "s" in
  (forall z, s_prof (mk_sol 0 0 [0; 1; 0] (fun _ => zero_coefs) (fun z => z)) z = z) /\
  (forall sd, answers depth_solver (tmm_stack a sd) true [] 0 "s" (mk_sol 0 0 [0; 1; 0] (fun _ => zero_coefs) (fun z => z))) /\
  exists z data, tmm_profile depth_solver a Rear 4 [1%nat] "s" 0 = Ok (z, data) /\ z = [26; 30] /\ data = [30; 26].
Proof. split; [reflexivity|]. split; [reflexivity|]. exact rear_z_wrong. Qed.
Print Assumptions C90_rear_z_refuted.

(* ---------- C91 ---------- *)

(* Unpolarised light: the Beer-Lambert function of an incoherent layer starts from the light that reaches the
   layer according to the s solution. *)
Theorem C91_reaching_partial : forall M (SV : solver M) st theta l0 l m s p,
  length l0 = length (o_layers st) -> (1 <= l <= length (o_layers st))%nat -> nth (l - 1) l0 true = false ->
  nth_error (map fst (o_layers st)) (l - 1) = Some m ->
  answers SV st false (false :: l0 ++ [false]) theta "s" s -> answers SV st false (false :: l0 ++ [false]) theta "p" p ->
  length (s_abs s) = (length (o_layers st) + 2)%nat -> nth 0 (s_abs s) 0 = s_R s ->
  profile_coeff SV false st (mk_topts "u" theta false (Some l0)) [l] =
  Ok [mk_coefs 0 (sv_alpha SV m * reaching_layer (s_R s) (inner (s_abs s)) l) 0 0 (sv_alpha SV m) 0].
Proof. exact reaching_u. Qed.
Print Assumptions C91_reaching_partial.

(* s or p light alone: off by R minus the layer's own absorption, for every balanced solution *)
Theorem C91_single_polarisation_refuted : forall M (SV : solver M) st theta l0 l m s,
  length l0 = length (o_layers st) -> (1 <= l <= length (o_layers st))%nat -> nth (l - 1) l0 true = false ->
  nth_error (map fst (o_layers st)) (l - 1) = Some m ->
  forall q, (q = "s" \/ q = "p")%string -> answers SV st false (false :: l0 ++ [false]) theta q s ->
  balanced (length (o_layers st)) s ->
  profile_coeff SV false st (mk_topts q theta false (Some l0)) [l] =
  Ok [mk_coefs 0 (sv_alpha SV m * (reaching_layer (s_R s) (inner (s_abs s)) l + s_R s - nth (l - 1) (inner (s_abs s)) 0))
        0 0 (sv_alpha SV m) 0].
Proof. exact reaching_sp. Qed.
Print Assumptions C91_single_polarisation_refuted.

(* 90 % reflected, 10 % absorbed: the function is said to start from 90 % *)
Example C91_example :
  let s := mk_sol (9 / 10) 0 [9 / 10; 1 / 10; 0] (fun _ => zero_coefs) (fun _ => 0) in
  let st := mk_stack 0%nat [(1%nat, 10)] 2%nat in
  balanced 1 s /\ nth 0 (s_abs s) 0 = s_R s /\ answers (fixed_solver s s (fun _ => 1)) st false [false; false; false] 0 "s" s /\
  reaching_layer (s_R s) (inner (s_abs s)) 1 = 1 / 10 /\
  exists c, profile_coeff (fixed_solver s s (fun _ => 1)) false st (mk_topts "s" 0 false (Some [false])) [1%nat] = Ok [c] /\ c_A2 c = 9 / 10.
Proof.
  intros s st. assert (B : balanced 1 s).
  { split; [reflexivity|]. split; [|simpl; lra]. simpl. intros x [<-|[<-|[<-|[]]]]; lra. }
  split; auto. split; [reflexivity|]. split; [reflexivity|]. split; [unfold reaching_layer; simpl; lra|].
  pose proof (C91_single_polarisation_refuted nat (fixed_solver s s (fun _ => 1)) st 0 [false] 1 1%nat s eq_refl
    ltac:(simpl; lia) eq_refl eq_refl "s" (or_introl eq_refl) eq_refl B) as E.
  eexists. split; [exact E|]. cbn [c_A2]. unfold reaching_layer. simpl. lra.
Qed.

(* ---------- C96 ---------- *)

(* after any history of set_widths the stack that is solved has the last widths (and the same materials) ... *)
Theorem C96_stack_partial : forall M (ob : tobj M) hist w, length w = length (o_layers (ob_stack ob)) ->
  Forall (fun v => length v = length (o_layers (ob_stack ob))) hist ->
  let ob' := after_sets ob (hist ++ [w]) in
  widths_of (ob_stack ob') = w /\ map fst (o_layers (ob_stack ob')) = map fst (o_layers (ob_stack ob)) /\
  o_inc (ob_stack ob') = o_inc (ob_stack ob) /\ o_sub (ob_stack ob') = o_sub (ob_stack ob).
Proof. exact @set_widths_last. Qed.
Print Assumptions C96_stack_partial.

Example C96_example : exists (ob : tobj nat), length [5; 6] = length (o_layers (ob_stack ob)) /\
  Forall (fun v => length v = length (o_layers (ob_stack ob))) [[1; 2]; [3; 4]].
Proof. exists (new_tobj (mk_stack 0%nat [(1%nat, 8); (2%nat, 9)] 3%nat)). split; [reflexivity|]. repeat constructor. Qed.

(* ... but the attribute `width` keeps the total of the first widths. *)
Theorem C96_width_refuted :
  (forall M (st : ostack M) hist, ob_width (after_sets (new_tobj st) hist) = rsum (widths_of st) / 10 ^ 9) /\
  let ob := after_sets (new_tobj (mk_stack 0%nat [(1%nat, 8)] 3%nat)) [[20]] in
  widths_of (ob_stack ob) = [20] /\ ob_width ob <> rsum (widths_of (ob_stack ob)) / 10 ^ 9.
Proof.
  split.
  - intros M st hist. unfold after_sets. change (rsum (widths_of st) / 10 ^ 9) with (ob_width (new_tobj st)).
    generalize (new_tobj st). induction hist as [|w hist IH]; intros ob; [reflexivity|]. cbn [fold_left]. rewrite IH. reflexivity.
  - cbn. split; [reflexivity|]. lra.
Qed.
Print Assumptions C96_width_refuted.
