(* Absorption per diffraction order (A_per_order): C159, C160. *)
From Coq Require Import Reals List ZArith Bool String Lia Lra.
From Verif Require Import Base Lib Model_Diff Model_RCWA Model_RCWAObj Spec_RCWAObj Proof_RCWAObj Proof_RCWAObj2 Proof_RCWAObj3
  Proof_RCWAObj4 Proof_RCWAObj5 Proof_RCWAObj6 Proof_RCWAObj7.
Import ListNotations.
Local Notation length := List.length.
Open Scope R_scope.

Lemma orders_parts W SV strict o st ob' h' a : calculate W SV strict o st = Ok (ob', h', a) -> p_perorder o = true ->
  exists pol rf out ord D, refresh W strict o (fst st) = Ok rf /\ process_pol (p_pol o) = Ok pol /\
    run_wl (fun hv i => structure_wl SV (snd rf) hv o pol i) (h_v (snd st)) (seq 0 (length (p_wl o))) = Ok out /\
    rmap item3 (snd out) = Ok ord /\ make_S (snd rf) (fst out) o 0 = Ok (h_v h', D) /\
    a = length (h_res (snd st)) /\ snd out <> [] /\
    h_res h' = h_res (snd st) ++ [mk_rdict (map (fun x => fst (fst (fst x))) (snd out)) (map (fun x => snd (fst (fst x))) (snd out)) (map (fun x => snd (fst x)) (snd out)) (Some (ord, D)) None].
Proof.
  unfold calculate. intros H Hp. bok H. bok H. bok H. bok H. bok H. rewrite Hp in H. bok H. bok H. injection H as <- <- <-.
  destruct (snd a3) eqn:Es; [discriminate|]. rewrite <- Es in *.
  exists a0, a1, a3, a5, (snd a6). cbn [h_v h_res]. repeat (split; auto). - destruct a6; auto. - congruence.
Qed.

Lemma map2_both_sum inc : forall l1 l2, length l1 = length l2 ->
  rsum (map2 (fun a b => (both a - both b) / inc) l1 l2) = (rsum (map both l1) - rsum (map both l2)) / inc.
Proof.
  induction l1 as [|x l1 IH]; intros [|y l2] H; try discriminate; cbn [map2 map].
  - cbn [rsum]. unfold Rdiv. ring.
  - cbn [rsum]. rewrite IH by (simpl in H; lia). unfold Rdiv. ring.
Qed.

Lemma rmap_nth {A B} (f : A -> res B) : forall l r, rmap f l = Ok r -> length r = length l /\ forall i x, nth_error l i = Some x -> exists y, f x = Ok y /\ nth_error r i = Some y.
Proof.
  induction l as [|x l IH]; intros r H; cbn [rmap] in H.
  - injection H as <-. split; auto. intros [|i] x Hx; discriminate.
  - bok H. bok H. injection H as <-. destruct (IH _ E0) as [L N]. split; [simpl; congruence|]. intros [|i] y Hy; simpl in *; [injection Hy as <-; eauto|auto].
Qed.

Lemma nth_error_map2 {A B C} (f : A -> B -> C) : forall l m i a b, nth_error l i = Some a -> nth_error m i = Some b -> nth_error (map2 f l m) i = Some (f a b).
Proof. induction l as [|x l IH]; intros [|y m] [|i] a b H1 H2; try discriminate; cbn [map2 nth_error] in *; [congruence|auto]. Qed.

(* one entry of A_per_layer and the row of A_layer_order that belongs to it *)
Definition row_ok (SV : solver) (p : R * list R) : Prop :=
  exists S th ph pol f k inc, let F := so_flux (SV S th ph pol f) in inc = fst (fx F 1) /\
    fst p = (if Rltb 0 (both (fx F k) - both (fx F (k + 1))) then both (fx F k) - both (fx F (k + 1)) else 0) / inc /\
    snd p = map2 (fun a b => (both a - both b) / inc) (fbo F k) (fbo F (k + 1)).

Lemma orders_rows W SV strict o ob h ob' h' a : calculate W SV strict o (ob, h) = Ok (ob', h', a) -> p_perorder o = true ->
  exists d ord D, nth_error (h_res h') a = Some d /\ r_orders d = Some (ord, D) /\ length ord = length (p_wl o) /\ length (r_A d) = length (p_wl o) /\
  forall i x A, nth_error ord i = Some x -> nth_error (r_A d) i = Some A -> length x = length A /\
    forall j y row, nth_error A j = Some y -> nth_error x j = Some row -> row_ok SV (y, row).
Proof.
  intros H Hp. destruct (orders_parts _ _ _ _ _ _ _ _ H Hp) as (pol & rf & out & ord & D & _ & _ & Hrun & Hit & _ & -> & _ & ->). cbn [snd].
  destruct (run_wl_nth _ _ _ _ Hrun) as [RL RN]. rewrite seq_length in RL. destruct (rmap_nth _ _ _ Hit) as [LO NO].
  do 3 eexists. rewrite nth_error_app2, Nat.sub_diag by lia. split; [reflexivity|]. cbn [r_orders r_A]. split; [reflexivity|]. rewrite map_length. split; [congruence|]. split; [congruence|].
  intros i x A Hx HA. rewrite nth_error_map in HA. destruct (nth_error (snd out) i) as [z|] eqn:Hz; [|discriminate]. injection HA as <-.
  destruct (NO i z Hz) as (x' & I3 & Hx'). rewrite Hx in Hx'. injection Hx' as <-.
  assert (Li : (i < length (p_wl o))%nat). { rewrite <- RL. apply nth_error_Some. congruence. }
  destruct (RN i i z (nth_error_seq _ _ Li) Hz) as (hv1 & hv2 & HS). unfold structure_wl in HS. bok HS. cbn [rcwa_rt] in HS. rewrite Hp in HS. injection HS as _ <-. cbn [fst snd].
  unfold item3 in I3. cbn [snd] in I3. destruct (p_meth o); try discriminate. injection I3 as <-.
  unfold rcwa_absorption_per_layer, rcwa_absorption_per_layer_order. rewrite !map_length. split; auto.
  intros j y row Hy Hr. rewrite nth_error_map in Hy, Hr. destruct (nth_error (seq 0 _) j) as [k|]; [|discriminate]. injection Hy as <-. injection Hr as <-.
  set (F := so_flux _). exists (snd a), (p_theta o), (p_phi o), pol, (1 / (nth i (p_wl o) 0 * 10 ^ 9)), (k + 2)%nat, (fst (fx F 1)). fold F.
  replace (k + 2 + 1)%nat with (k + 3)%nat by lia. auto.
Qed.

(* what S4 promises: the flux of a layer is the sum over the orders, always the same n orders *)
Definition fluxes_by_order (SV : solver) (n : nat) : Prop := forall S th ph pol f, let F := so_flux (SV S th ph pol f) in
  0 < fst (fx F 1) /\ forall k, rsum (map both (fbo F k)) = both (fx F k) /\ length (fbo F k) = n.

Lemma orders_add_up W SV strict o ob h ob' h' a n : calculate W SV strict o (ob, h) = Ok (ob', h', a) -> p_perorder o = true -> fluxes_by_order SV n ->
  exists d ord D, nth_error (h_res h') a = Some d /\ r_orders d = Some (ord, D) /\ length ord = length (p_wl o) /\ length (r_A d) = length (p_wl o) /\
  forall i x A, nth_error ord i = Some x -> nth_error (r_A d) i = Some A -> length x = length A /\
    forall j y row, nth_error A j = Some y -> nth_error x j = Some row -> length row = n /\ y = Rmax 0 (rsum row).
Proof.
  intros H Hp HF. destruct (orders_rows _ _ _ _ _ _ _ _ _ H Hp) as (d & ord & D & A1 & A2 & A3 & A4 & A5). exists d, ord, D. repeat (split; auto). 
  { destruct (A5 i x A H0 H1); auto. }
  all: intros; destruct (A5 i x A H0 H1) as [_ Q]; destruct (Q j y row H2 H3) as (S & th & ph & pol & f & k & inc & -> & Ey & Er); cbn [fst snd] in *; destruct (HF S th ph pol f) as [P1 P2]; set (F := so_flux _) in *; clearbody F.
  - rewrite Er, map2_length, (proj2 (P2 k)), (proj2 (P2 (k + 1)%nat)). lia.
  - rewrite Er, map2_both_sum by (rewrite (proj2 (P2 k)), (proj2 (P2 (k + 1)%nat)); auto). rewrite (proj1 (P2 k)), (proj1 (P2 (k + 1)%nat)), Ey.
    assert (0 < / fst (fx F 1)) by (apply Rinv_0_lt_compat; auto). destruct (Rltb 0 _) eqn:E; [apply Rltb_true in E|apply Rltb_false in E].
    + rewrite Rmax_right; auto. unfold Rdiv. apply Rmult_le_pos; lra.
    + rewrite Rmax_left; [unfold Rdiv; ring|]. unfold Rdiv. assert (0 <= (both (fx F (k + 1)) - both (fx F k)) * / fst (fx F 1)) by (apply Rmult_le_pos; lra). lra.
Qed.

(* an order that carries the same flux everywhere *)
Lemma order_lossless W SV strict o ob h ob' h' a q c : calculate W SV strict o (ob, h) = Ok (ob', h', a) -> p_perorder o = true ->
  (forall S th ph pol f k, exists u, nth_error (fbo (so_flux (SV S th ph pol f)) k) q = Some u /\ both u = c) ->
  exists d ord D, nth_error (h_res h') a = Some d /\ r_orders d = Some (ord, D) /\ 
  forall i x j row, nth_error ord i = Some x -> nth_error x j = Some row -> nth_error row q = Some 0.
Proof.
  intros H Hp HF. destruct (orders_rows _ _ _ _ _ _ _ _ _ H Hp) as (d & ord & D & A1 & A2 & A3 & A4 & A5). exists d, ord, D. split; auto. split; auto.
  intros i x j row Hx Hr. destruct (nth_error (r_A d) i) as [A|] eqn:EA; [|apply nth_error_None in EA; assert (i < length ord)%nat by (apply nth_error_Some; congruence); lia].
  destruct (A5 i x A Hx EA) as [LA Q]. destruct (nth_error A j) as [y|] eqn:Ey; [|apply nth_error_None in Ey; assert (j < length x)%nat by (apply nth_error_Some; congruence); lia].
  destruct (Q j y row Ey Hr) as (S & th & ph & pol & f & k & inc & _ & _ & Er). cbn [snd] in Er.
  destruct (HF S th ph pol f k) as (u & U1 & U2). destruct (HF S th ph pol f (k + 1)%nat) as (v & V1 & V2). rewrite Er, nth_error_map2 with (a := u) (b := v); auto. rewrite U2, V2. f_equal. unfold Rdiv. ring.
Qed.

(* ---------- the basis set returned (C160) ---------- *)

Lemma s4_desc ob hv n opts i r : build_S ob hv MS4 n opts i = Ok r ->
  fst r = hv /\ s_size (snd r) = o_size ob /\ s_orders (snd r) = n /\ read_options opts = Ok (s_opts (snd r)).
Proof.
  unfold build_S. intros H. bok H. bok H. unfold initialise_S in H. bok H. injection H as <-. bok E1. bok E1. injection E1 as <-. cbn [fst snd s_size s_orders s_opts]. auto.
Qed.

Lemma s4_other ob hv n opts opts' i r l : build_S ob hv MS4 n opts i = Ok r -> read_options opts' = Ok l -> exists D, build_S ob hv MS4 n opts' i = Ok (hv, D).
Proof.
  unfold build_S. intros H Hl. bok H. bok H. rewrite E. cbn [rbind]. rewrite E0. cbn [rbind]. bok H. unfold initialise_S in *. rewrite Hl. cbn [rbind]. bok E1. bok E1. rewrite E3. cbn [rbind]. eauto.
Qed.

Lemma run_S4_hv SV ob o pol : p_meth o = MS4 -> forall is_ hv out, run_wl (fun hv i => structure_wl SV ob hv o pol i) hv is_ = Ok out -> fst out = hv.
Proof.
  intros Hm. induction is_ as [|i is_ IH]; intros hv out H; cbn [run_wl] in H; [injection H as <-; auto|]. bok H. bok H. injection H as <-. cbn [fst].
  rewrite (IH _ _ E0). unfold structure_wl in E. bok E. rewrite Hm in E1. destruct (s4_desc _ _ _ _ _ _ E1) as [Q _]. destruct (rcwa_rt _ _) as [[? ?] ?]. injection E as <-. auto.
Qed.

(* sizes of the basis sets of a solver: S4 chooses the orders from the lattice, the number asked for and the options *)
Definition basis_count (SV : solver) (bs : v2 * v2 -> nat -> list string -> nat) : Prop := forall S th ph pol f k,
  length (fbo (so_flux (SV S th ph pol f)) k) = bs (s_size S) (s_orders S) (s_opts S).

Lemma orders_basis W SV strict o ob h ob' h' a bs lu lo : calculate W SV strict o (ob, h) = Ok (ob', h', a) -> p_perorder o = true -> basis_count SV bs ->
  read_options (o_user ob) = Ok lu -> read_options (p_s4 o) = Ok lo ->
  exists d ord D, nth_error (h_res h') a = Some d /\ r_orders d = Some (ord, D) /\ bs (s_size D) (s_orders D) (s_opts D) = bs (o_size ob) (p_orders o) lo /\
  forall x row, In x ord -> In row x -> length row = bs (o_size ob) (p_orders o) lu.
Proof.
  intros H Hp HB Hu Ho. destruct (orders_parts _ _ _ _ _ _ _ _ H Hp) as (pol & rf & out & ord & D & Hrf & _ & Hrun & Hit & HD & -> & Hne & ->). cbn [snd fst] in *.
  assert (U : o_user (snd rf) = o_user ob /\ o_size (snd rf) = o_size ob). { unfold refresh in Hrf. bok Hrf. injection Hrf as <-. cbn [snd]. destruct a; auto. }
  destruct (run_wl_nth _ _ _ _ Hrun) as [RL RN]. destruct (rmap_nth _ _ _ Hit) as [LO NO].
  assert (Hm : p_meth o = MS4).
  { destruct (snd out) as [|z zs] eqn:Ez; [congruence|]. destruct (NO 0%nat z eq_refl) as (x' & I3 & _). rewrite seq_length in RL. 
    destruct (RN 0%nat 0%nat z) as (hv1 & hv2 & HS); auto. { apply nth_error_seq. simpl in RL. lia. }
    unfold structure_wl in HS. bok HS. cbn [rcwa_rt] in HS. injection HS as _ <-. unfold item3 in I3. cbn [snd] in I3. destruct (p_meth o); auto; discriminate. }
  do 3 eexists. rewrite nth_error_app2, Nat.sub_diag by lia. split; [reflexivity|]. cbn [r_orders]. split; [reflexivity|]. split.
  - unfold make_S in HD. rewrite Hm in HD. destruct (p_s4 o) as [dd|]; [|discriminate]. destruct (s4_desc _ _ _ _ _ _ HD) as (_ & Q1 & Q2 & Q). cbn [snd] in Q, Q1, Q2. rewrite Q1, Q2. rewrite Ho in Q. injection Q as <-. rewrite (proj2 U). auto.
  - intros x row Hx Hr. destruct (In_nth_error _ _ Hx) as [i Hi]. destruct (nth_error (snd out) i) as [z|] eqn:Hz; [|apply nth_error_None in Hz; assert (i < length ord)%nat by (apply nth_error_Some; congruence); lia].
    destruct (NO i z Hz) as (x' & I3 & Hx'). rewrite Hi in Hx'. injection Hx' as <-. rewrite seq_length in RL.
    assert (Li : (i < length (p_wl o))%nat). { rewrite <- RL. apply nth_error_Some. congruence. }
    destruct (RN i i z (nth_error_seq _ _ Li) Hz) as (hv1 & hv2 & HS). unfold structure_wl in HS. bok HS. cbn [rcwa_rt] in HS. rewrite Hp in HS. injection HS as _ <-.
    unfold item3 in I3. cbn [snd] in I3. rewrite Hm in I3, E. injection I3 as <-. unfold rcwa_absorption_per_layer_order in Hr. apply in_map_iff in Hr. destruct Hr as (k & <- & _).
    destruct (s4_desc _ _ _ _ _ _ E) as (_ & Q1 & Q2 & Q3). rewrite (proj1 U), Hu in Q3. injection Q3 as Q3. rewrite map2_length, !HB, Q1, Q2, <- Q3, (proj2 U). lia.
Qed.

(* calculate with A_per_order succeeds whenever calculate without does and all options are given *)
Lemma perorder_ok W SV strict o ob h st a lo : p_meth o = MS4 -> read_options (p_s4 o) = Ok lo -> calculate W SV strict (with_perorder false o) (ob, h) = Ok (st, a) ->
  exists ob' h' a', calculate W SV strict (with_perorder true o) (ob, h) = Ok (ob', h', a').
Proof.
  intros Hm Hs H. destruct st as [ob' h']. destruct (perorder_rel _ _ _ _ _ _ _ _ _ H) as (rf & out & pol & A & B & C & D & E). destruct (run_perorder SV (snd rf) o pol true _ _ _ C) as (out' & K1 & K2 & K3 & _ & K5).
  destruct (run_wl_nth _ _ _ _ C) as [RL RN]. rewrite seq_length in RL.
  assert (M : exists r, make_S (snd rf) (fst out') (with_perorder true o) 0 = Ok r).
  { unfold make_S. change (p_s4 (with_perorder true o)) with (p_s4 o). change (p_meth (with_perorder true o)) with (p_meth o). change (p_orders (with_perorder true o)) with (p_orders o). rewrite Hm.
    assert (Q : fst out = h_v h) by (apply (run_S4_hv SV (snd rf) (with_perorder false o) pol Hm _ _ _ C)). rewrite K2, Q.
    destruct (p_wl o) as [|w ws] eqn:Ew; [destruct (snd out); [congruence|discriminate]|]. cbn [length seq run_wl] in C. bok C. bok C. unfold structure_wl in E0. bok E0.
    change (p_meth (with_perorder false o)) with (p_meth o) in E2. change (p_orders (with_perorder false o)) with (p_orders o) in E2. rewrite Hm in E2. destruct (s4_other _ _ _ _ _ _ _ _ E2 Hs) as [DD HDD].
    destruct (p_s4 o) as [dd|]; [|discriminate]. eauto. }
  destruct M as [r Mr].
  unfold calculate. cbn [fst snd with_perorder p_pol p_meth p_wl p_perorder]. rewrite D. cbn [rbind]. replace (refresh W strict (with_perorder true o) ob) with (Ok rf) by auto. cbn [rbind].
  rewrite Hm. cbn [rbind]. match goal with |- context [run_wl ?f ?h ?s] => replace (run_wl f h s) with (Ok out') by (rewrite <- K1, <- Hm; auto) end. cbn [rbind].
  destruct (rmap_ok_all item3 (snd out')) as [r0 Hr]. { intros x Hx. unfold item3. destruct (snd x) eqn:Ex; eauto. exfalso. exact (K5 Hm eq_refl x Hx Ex). }
  destruct (snd out') as [|x l] eqn:Eo. { destruct (snd out); [congruence|discriminate]. } cbn [rbind]. rewrite Hr. cbn [rbind].
  match goal with |- context [make_S ?b ?c ?dd ?e] => replace (make_S b c dd e) with (Ok r) by (rewrite <- Mr, <- Hm; reflexivity) end. cbn [rbind]. do 3 eexists. reflexivity.
Qed.

(* the merged options are those given, and the defaults for the rest (C105) *)
Lemma merged_documented u : exists l, read_options (Some (merge_options u)) = Ok l /\
  Forall2 (fun kd v => v = match match u with Some d => d (fst kd) | None => None end with Some w => w | None => snd kd end) s4_documented l.
Proof.
  assert (Q : forall keys docs, Forall2 (fun k kd => fst kd = k /\ s4_default k = Some (snd kd)) keys docs ->
    exists l, rmap (fun k => match merge_options u k with Some v => Ok v | None => Err KeyError end) keys = Ok l /\
    Forall2 (fun kd v => v = match match u with Some d => d (fst kd) | None => None end with Some w => w | None => snd kd end) docs l).
  { induction keys as [|k keys IH]; intros docs H; inversion H as [|? kd ? docs' [E1 E2] H']; subst; [exists []; split; auto|].
    destruct (IH _ H') as (l & E & F). cbn [rmap]. unfold merge_options at 1. rewrite E2.
    destruct u as [d|]; [destruct (d (fst kd)) as [v|] eqn:Ev|]; cbn [rbind]; rewrite E; cbn [rbind]; eexists; (split; [reflexivity|]); constructor; auto; rewrite ?Ev; auto. }
  apply (Q s4_keys). repeat constructor.
Qed.

Lemma orders_layers W SV strict o ob h ob' h' a d ord D : calculate W SV strict o (ob, h) = Ok (ob', h', a) -> p_perorder o = true ->
  nth_error (h_res h') a = Some d -> r_orders d = Some (ord, D) -> length (o_widths ob) = (length (o_stack ob) + 2)%nat -> o_stack ob <> [] ->
  exists x row, In x ord /\ In row x.
Proof.
  intros H Hp Hd Ho HW HS. destruct (orders_parts _ _ _ _ _ _ _ _ H Hp) as (pol & rf & out & ord' & D' & Hrf & _ & Hrun & Hit & _ & -> & Hne & E). cbn [snd fst] in *.
  rewrite E, nth_error_app2, Nat.sub_diag in Hd by lia. injection Hd as <-. cbn [r_orders] in Ho. injection Ho as -> ->.
  destruct (run_wl_nth _ _ _ _ Hrun) as [RL RN]. rewrite seq_length in RL. destruct (rmap_nth _ _ _ Hit) as [LO NO].
  destruct (snd out) as [|z zs]; [congruence|]. destruct (NO 0%nat z eq_refl) as (x & I3 & Hx). exists x.
  assert (Li : (0 < length (p_wl o))%nat) by (simpl in RL; lia).
  destruct (RN 0%nat 0%nat z (nth_error_seq _ _ Li) eq_refl) as (hv1 & hv2 & Hs). unfold structure_wl in Hs. bok Hs. cbn [rcwa_rt] in Hs. rewrite Hp in Hs. injection Hs as _ <-.
  unfold item3 in I3. cbn [snd] in I3. destruct (p_meth o); try discriminate. injection I3 as <-.
  assert (L : exists m, (length (o_widths (snd rf)) - 2 = S m)%nat).
  { assert (HR : o_stack (snd rf) = o_stack ob) by (unfold refresh in Hrf; bok Hrf; injection Hrf as <-; cbn [snd]; destruct a0; auto).
    rewrite (refresh_len _ _ _ _ _ Hrf HW), HR. destruct (o_stack ob) as [|l ls]; [congruence|]. exists (length ls). simpl. lia. }
  destruct L as [m L]. unfold rcwa_absorption_per_layer_order in *. rewrite L in *. cbn [seq map] in *. eexists. split; [eapply nth_error_In; exact Hx|]. left. reflexivity.
Qed.

(* options not given raise KeyError in make_S (C105) *)
Lemma s4_missing ob hv n d i r k opts : build_S ob hv MS4 n opts i = Ok r -> In k (map fst s4_documented) -> d k = None -> build_S ob hv MS4 n (Some d) i = Err KeyError.
Proof.
  unfold build_S. intros H Hk Hd. bok H. bok H. rewrite E. cbn [rbind]. rewrite E0. cbn [rbind]. unfold initialise_S. change (map fst s4_documented) with s4_keys in Hk.
  assert (Q : read_options (Some d) = Err KeyError).
  { unfold read_options. revert Hk. generalize s4_keys. induction l as [|x l IH]; intros []; cbn [rmap].
    - subst x. rewrite Hd. auto.
    - destruct (d x); auto. cbn [rbind]. rewrite IH; auto. }
  rewrite Q. auto.
Qed.

Lemma perorder_missing W SV strict o ob h st a : p_meth o = MS4 -> match p_s4 o with None => True | Some d => exists k, In k (map fst s4_documented) /\ d k = None end ->
  calculate W SV strict (with_perorder false o) (ob, h) = Ok (st, a) -> calculate W SV strict (with_perorder true o) (ob, h) = Err KeyError.
Proof.
  intros Hm Hs H. destruct (p_s4 o) as [dd|] eqn:Es; [|eapply perorder_S4; eauto]. destruct Hs as (k & Hk & Hd).
  destruct st as [ob' h']. destruct (perorder_rel _ _ _ _ _ _ _ _ _ H) as (rf & out & pol & A & B & C & D & E). destruct (run_perorder SV (snd rf) o pol true _ _ _ C) as (out' & K1 & K2 & K3 & _ & K5).
  destruct (run_wl_nth _ _ _ _ C) as [RL RN]. rewrite seq_length in RL.
  assert (M : make_S (snd rf) (fst out') (with_perorder true o) 0 = Err KeyError).
  { unfold make_S. change (p_s4 (with_perorder true o)) with (p_s4 o). change (p_meth (with_perorder true o)) with (p_meth o). change (p_orders (with_perorder true o)) with (p_orders o). rewrite Hm, Es.
    assert (Q : fst out = h_v h) by (apply (run_S4_hv SV (snd rf) (with_perorder false o) pol Hm _ _ _ C)). rewrite K2, Q.
    destruct (p_wl o) as [|w ws] eqn:Ew; [destruct (snd out); [congruence|discriminate]|]. cbn [length seq run_wl] in C. bok C. bok C. unfold structure_wl in E0. bok E0.
    change (p_meth (with_perorder false o)) with (p_meth o) in E2. change (p_orders (with_perorder false o)) with (p_orders o) in E2. rewrite Hm in E2. exact (s4_missing _ _ _ _ _ _ _ _ E2 Hk Hd). }
  unfold calculate. cbn [fst snd with_perorder p_pol p_meth p_wl p_perorder]. rewrite D. cbn [rbind]. replace (refresh W strict (with_perorder true o) ob) with (Ok rf) by auto. cbn [rbind].
  rewrite Hm. cbn [rbind]. match goal with |- context [run_wl ?f ?h ?s] => replace (run_wl f h s) with (Ok out') by (rewrite <- K1, <- Hm; auto) end. cbn [rbind].
  destruct (rmap_ok_all item3 (snd out')) as [r0 Hr]. { intros x Hx. unfold item3. destruct (snd x) eqn:Ex; eauto. exfalso. exact (K5 Hm eq_refl x Hx Ex). }
  destruct (snd out') as [|x l] eqn:Eo. { destruct (snd out); [congruence|discriminate]. } cbn [rbind]. rewrite Hr. cbn [rbind].
  match goal with |- context [make_S ?b ?c ?dd ?e] => replace (make_S b c dd e) with (@Err ((nat -> vlist) * sdesc) KeyError) by (rewrite <- M, <- Hm; reflexivity) end. reflexivity.
Qed.
