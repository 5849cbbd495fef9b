From Coq Require Import Reals List ZArith Bool String Lia Lra.
From Verif Require Import Base Lib Model_Diff Model_RCWA Model_RCWAObj Spec_RCWAObj Proof_RCWAObj Proof_RCWAObj2 Proof_RCWAObj3 Proof_RCWAObj4.
Import ListNotations.
Local Notation length := List.length.
Open Scope R_scope.

(* ---------- a small structure and solvers for the witnesses ---------- *)

Definition wit_order : list nat -> list nat := nodup Nat.eq_dec.
Lemma wit_order_ok : set_order wit_order.
Proof. intros l. split; [apply NoDup_nodup|]. intros x. apply nodup_In. Qed.

Definition wit_world : world := mk_world (fun _ => "a"%string) (fun i _ => (INR i, 0)).
Definition wit_names : world := mk_world (fun i => if Nat.eqb i 0 then "a" else "b")%string (fun i _ => (INR i, 0)).
Definition wit_struct (geom : list (shape smat)) : list entry := [LayObj 5 (fun _ => (2, 0)) geom].
Definition wit_opts (wl : list R) (th : R) : ropts := mk_ropts wl th 0 (PolTup [1; 0]) 1 false MInk None 1 (Some [1]) None.
Definition wit_size : v2 * v2 := ((1, 0), (0, 1)).
Definition wit_inc : R -> cx := fun _ => (1, 0).
Definition wit_tra : R -> cx := fun _ => (3, 0).
Definition wit_heap : heap := mk_heap (fun _ => mk_vlist false [(0, 0); (1, 0); (0, 1)]) [].

Definition flat (r g : R) : sol :=
  mk_sol (mk_fluxes (fun k => match k with 1%nat => (1, - r) | 2%nat => (1 / 2, 0) | _ => (1 / 4, 0) end) (fun _ => [])) (fun _ d => - g * d).
Definition on_stack (f : sdesc -> R) : solver := fun D _ _ _ _ => flat (f D) 0.
Definition on_theta : solver := fun _ th _ _ _ => flat th th.

Lemma wit_np strict x : np_all_eq strict [x] [x] = Ok true. Proof. apply np_all_eq_refl. Qed.

Definition r_of (h : heap) (a : nat) : option (list R) := option_map (@r_R sdesc) (nth_error (h_res h) a).
Lemma answers_r h1 a1 h2 a2 : r_of h1 a1 <> r_of h2 a2 -> answers h1 a1 <> answers h2 a2.
Proof.
  unfold r_of, answers. intros H E. apply H. destruct (nth_error (h_res h1) a1), (nth_error (h_res h2) a2); cbn [option_map] in *; try congruence.
Qed.
Lemma some_single (x y : R) : x <> y -> Some [x] <> Some [y]. Proof. congruence. Qed.

(* one wavelength, a solver answering "flat": R is r, something is absorbed *)
Lemma calc_flat W SV strict o ob h pol rf hv' D x r g : p_wl o = [x] -> p_perorder o = false -> p_meth o <> MOther -> process_pol (p_pol o) = Ok pol ->
  refresh W strict o ob = Ok rf -> build_S (snd rf) (h_v h) (p_meth o) (p_orders o) (o_user (snd rf)) 0 = Ok (hv', D) ->
  SV D (p_theta o) (p_phi o) pol (freq x) = flat r g -> length (o_widths (snd rf)) = 3%nat ->
  exists h1 A, calculate W SV strict o (ob, h) = Ok (with_results (snd rf) [A] (length (h_res h)), h1, length (h_res h)) /\ 0 < A /\ h_v h1 = hv' /\
    (length (h_res h1) = length (h_res h) + 1)%nat /\ r_of h1 (length (h_res h)) = Some [r].
Proof.
  intros Hx Hp Hm Hpol Hr HB HS HL. eexists. eexists. split; [rewrite (calculate_one W SV strict o ob h pol rf hv' D x Hx Hp Hm Hpol Hr HB), HS, HL; reflexivity|].
  cbn [so_flux flat fx fst snd]. split; [|split; [|split]].
  - unfold rcwa_absorption_per_layer. cbn [Nat.sub seq map Nat.add fx both fst snd rsum]. unfold both. cbn [fst snd]. rcases. lra.
  - auto.
  - cbn [h_res]. rewrite app_length. auto.
  - unfold r_of. cbn [h_res]. rewrite nth_error_app2 by lia. rewrite Nat.sub_diag. cbn [nth_error option_map r_R]. do 2 f_equal. field.
Qed.

(* ---------- C59 ---------- *)

Lemma Forall2_both {A B} (P Q : A -> B -> Prop) l r : Forall2 P l r -> Forall2 Q l r -> Forall2 (fun a b => P a b /\ Q a b) l r.
Proof. intros H. induction H; intros K; inversion K; subst; constructor; auto. Qed.
Lemma Forall2_In_l {A B} (P : A -> B -> Prop) l r a : Forall2 P l r -> In a l -> exists b, In b r /\ P a b.
Proof. intros H. induction H as [|x y l r Hxy H IH]; intros Hi; simpl in Hi; [tauto|]. destruct Hi as [->|Hi]; [exists y; simpl; auto|]. destruct (IH Hi) as (b & ? & ?). exists b. simpl; auto. Qed.

Lemma clash_wrong W order structure size o inc tra ob hv m orders d i hv' D x l1 lay1 s1 i1 l2 lay2 s2 i2 :
  let layers := List.concat (map entry_layers structure) in
  new_obj W order structure size o inc tra = Ok ob -> build_S ob hv m orders d i = Ok (hv', D) ->
  nth_error layers l1 = Some lay1 -> In s1 (ol_geom lay1) -> known s1 = true -> sh_mat s1 = MObj i1 ->
  nth_error layers l2 = Some lay2 -> In s2 (ol_geom lay2) -> known s2 = true -> sh_mat s2 = MObj i2 ->
  m_name W i1 = m_name W i2 -> m_eps W i1 x <> m_eps W i2 x -> ~ own_materials W layers inc tra x D.
Proof.
  intros layers Hn HB L1 I1 K1 M1 L2 I2 K2 M2 Hname Heps [_ Hown]. apply Heps.
  destruct (new_obj_keeps _ _ _ _ _ _ _ _ Hn) as (C & S1 & S2 & S3 & S4 & S5 & _). fold layers in S1.
  destruct (build_S_told _ _ _ _ _ _ _ _ HB) as (loc & soc & _ & _ & _ & _ & _ & KW & _ & _ & _ & K5).
  assert (LD : length (s_layers D) = (length layers + 2)%nat).
  { transitivity (length (told_widths D)); [unfold told_widths; rewrite map_length; auto|]. rewrite KW, map_length. unfold new_obj in Hn. bok Hn. injection Hn as <-. apply update_len. }
  assert (T : forall l lay s id, nth_error layers l = Some lay -> In s (ol_geom lay) -> known s = true -> sh_mat s = MObj id ->
    exists k, index_of (m_name W id) (o_names ob) = Ok k /\ told_eps D (S k) = Some (m_eps W id x)).
  { intros l lay s id Hl Hs Hk Hm. pose proof (Hown l lay Hl) as F.
    assert (Hll : (S l < length (s_layers D))%nat). { rewrite LD. assert (nth_error layers l <> None) as Q by congruence. apply nth_error_Some in Q. lia. }
    destruct (nth_error (s_layers D) (S l)) as [[[e w] regs]|] eqn:En; [|apply nth_error_None in En; lia].
    rewrite (nth_error_nth _ _ _ (map_nth_error snd _ _ En)) in F. cbn [snd] in F. destruct (K5 _ _ _ _ En) as (g & Hg1 & HP).
    rewrite S4, S1 in Hg1. rewrite (map_nth_error (named W) (S l) ([] :: map ol_geom layers ++ [[]]) (d := ol_geom lay)) in Hg1.
    2:{ cbn [nth_error]. rewrite nth_error_app1; [apply map_nth_error; auto|]. rewrite map_length. apply nth_error_Some. congruence. }
    injection Hg1 as <-. rewrite shapes_named, filter_known_map in HP. apply (proj1 (Forall2_map_l _ _ _ _)) in HP.
    destruct (Forall2_In_l _ _ _ s (Forall2_both _ _ _ _ F HP)) as (r & _ & (id' & Hid & Htold) & (P1 & P2)); [apply filter_In; auto|].
    rewrite Hm in Hid. injection Hid as <-. cbn [name_shape sh_mat] in P1. rewrite Hm in P1. exists (pred (fst r)). split; auto. replace (S (pred (fst r))) with (fst r) by lia. auto. }
  destruct (T _ _ _ _ L1 I1 K1 M1) as (k1 & A1 & B1). destruct (T _ _ _ _ L2 I2 K2 M2) as (k2 & A2 & B2). rewrite Hname in A1. congruence.
Qed.

Definition eps_at (D : sdesc) (l j : nat) : R :=
  match nth_error (nth l (map snd (s_layers D)) []) j with
  | Some r => match told_eps D (fst r) with Some e => fst e | None => 0 end
  | None => 0
  end.
Definition two_shapes : list (shape smat) := [mk_shape (MObj 0) (Circle (0, 0) 1); mk_shape (MObj 1) (Circle (5, 5) 1)].

Lemma clash_witness : exists ob,
  new_obj wit_world wit_order (wit_struct two_shapes) wit_size (wit_opts [1] 0) wit_inc wit_tra = Ok ob /\
  agree_on (fun S th ph pol f => exists x, own_materials wit_world (List.concat (map entry_layers (wit_struct two_shapes))) wit_inc wit_tra x S)
    (on_stack (fun D => eps_at D 1 1 - eps_at D 1 0 - 1)) (on_stack (fun _ => 0)) /\
  forall strict, exists ob1 h1 a1 ob2 h2 a2,
    calculate wit_world (on_stack (fun D => eps_at D 1 1 - eps_at D 1 0 - 1)) strict (wit_opts [1] 0) (ob, wit_heap) = Ok (ob1, h1, a1) /\
    calculate wit_world (on_stack (fun _ => 0)) strict (wit_opts [1] 0) (ob, wit_heap) = Ok (ob2, h2, a2) /\ answers h1 a1 <> answers h2 a2.
Proof.
  eexists. split; [reflexivity|]. split.
  - intros D th ph pol f (x & _ & Hown). unfold on_stack. f_equal. specialize (Hown 0%nat _ eq_refl). cbn [ol_geom two_shapes filter known sh_geo] in Hown.
    unfold eps_at. destruct (nth 1 (map snd (s_layers D)) []) as [|r1 [|r2 rs]]; inversion Hown as [|? ? ? ? (i1 & E1 & T1) H1]; subst; [inversion H1|].
    inversion H1 as [|? ? ? ? (i2 & E2 & T2) H2]; subst. cbn [sh_mat] in E1, E2. injection E1 as <-. injection E2 as <-. cbn [nth_error]. rewrite T1, T2. cbn [m_eps wit_world fst]. simpl INR. lra.
  - intros strict. match goal with |- context [calculate _ _ _ _ (?ob, _)] => set (OB := ob) end.
    assert (B : exists hv' D, build_S OB (h_v wit_heap) MInk 1 None 0 = Ok (hv', D) /\ eps_at D 1 1 - eps_at D 1 0 - 1 = -1).
    { eexists. eexists. split; [reflexivity|]. unfold eps_at. cbn. lra. }
    destruct B as (hv' & D & HB & HD).
    destruct (calc_flat wit_world (on_stack (fun D => eps_at D 1 1 - eps_at D 1 0 - 1)) strict (wit_opts [1] 0) OB wit_heap (PolPair 1 0) (true, OB) hv' D 1 (-1) 0)
      as (h1 & A1 & C1 & _ & _ & _ & R1); [reflexivity|reflexivity|discriminate|reflexivity|apply refresh_same; reflexivity|exact HB|unfold on_stack; rewrite HD; reflexivity|reflexivity|].
    destruct (calc_flat wit_world (on_stack (fun _ => 0)) strict (wit_opts [1] 0) OB wit_heap (PolPair 1 0) (true, OB) hv' D 1 0 0)
      as (h2 & A2 & C2 & _ & _ & _ & R2); [reflexivity|reflexivity|discriminate|reflexivity|apply refresh_same; reflexivity|exact HB|reflexivity|reflexivity|].
    do 6 eexists. split; [exact C1|]. split; [exact C2|]. apply answers_r. rewrite R1, R2. apply some_single. lra.
Qed.

(* ---------- C60 ---------- *)

Definition one_polygon : list (shape smat) := [mk_shape (MObj 0) (Polygon (Some (1, 0)) (Some 0) 0)].
Definition vertex_x (D : sdesc) : R := match told_regions D 1 with Poly (p :: _) :: _ => fst p - 1 | _ => 0 end.

Lemma drift_witness : exists ob,
  new_obj wit_world wit_order (wit_struct one_polygon) wit_size (wit_opts [1] 0) wit_inc wit_tra = Ok ob /\
  agree_on (fun S _ _ _ _ => has_shapes (h_v wit_heap) (o_geom ob) S) (on_stack vertex_x) (on_stack (fun _ => 0)) /\
  forall strict, exists ob1 h1 a1,
  calculate wit_world (on_stack vertex_x) strict (wit_opts [1] 0) (ob, wit_heap) = Ok (ob1, h1, a1) /\
  h_v h1 0%nat <> h_v wit_heap 0%nat /\
  exists ob2 h2 a2 ob3 h3 a3,
    calculate wit_world (on_stack vertex_x) strict (wit_opts [1] 0) (ob1, h1) = Ok (ob2, h2, a2) /\
    calculate wit_world (on_stack (fun _ => 0)) strict (wit_opts [1] 0) (ob1, h1) = Ok (ob3, h3, a3) /\ answers h2 a2 <> answers h3 a3 /\ answers h2 a2 <> answers h1 a1.
Proof.
  eexists. split; [reflexivity|]. split.
  - intros D th ph pol f H. unfold on_stack. f_equal. unfold vertex_x. destruct (Nat.lt_ge_cases 1 (length (s_layers D))) as [L|L].
    + specialize (H 1%nat L). cbn [nth o_geom update_oc map named app one_polygon wit_struct] in H. cbn in H. destruct (told_regions D 1) as [|r [|r' rs]]; try discriminate.
      injection H as H. rewrite H. unfold turn, shift. cbn [fst snd]. replace (0 * PI / 180) with 0 by field. rewrite cos_0, sin_0. lra.
    + unfold told_regions. rewrite nth_overflow by (rewrite map_length; lia). auto.
  - intros strict. match goal with |- context [calculate _ _ _ _ (?ob, _)] => set (OB := ob) end.
    assert (B : exists hv' D, build_S OB (h_v wit_heap) MInk 1 None 0 = Ok (hv', D) /\ vertex_x D = 0 /\ hv' 0%nat <> h_v wit_heap 0%nat /\
      exists hv2 D2, build_S OB hv' MInk 1 None 0 = Ok (hv2, D2) /\ vertex_x D2 = 1).
    { eexists. eexists. split; [reflexivity|]. split; [unfold vertex_x; cbn; lra|]. split; [cbn; intros E; injection E; intros; lra|].
      eexists. eexists. split; [reflexivity|]. unfold vertex_x. cbn. lra. }
    destruct B as (hv' & D & HB & HD & Hne & hv2 & D2 & HB2 & HD2).
    destruct (calc_flat wit_world (on_stack vertex_x) strict (wit_opts [1] 0) OB wit_heap (PolPair 1 0) (true, OB) hv' D 1 0 0)
      as (h1 & A1 & C1 & _ & V1 & L1 & R1); [reflexivity|reflexivity|discriminate|reflexivity|apply refresh_same; reflexivity|exact HB|unfold on_stack; rewrite HD; reflexivity|reflexivity|].
    do 3 eexists. split; [exact C1|]. split; [rewrite V1; exact Hne|]. cbn [snd]. rewrite <- V1 in HB2.
    destruct (calc_flat wit_world (on_stack vertex_x) strict (wit_opts [1] 0) (with_results OB [A1] (length (h_res wit_heap))) h1 (PolPair 1 0) (true, with_results OB [A1] (length (h_res wit_heap))) hv2 D2 1 1 0)
      as (h2 & A2 & C2 & _ & _ & _ & R2); [reflexivity|reflexivity|discriminate|reflexivity|apply refresh_same; reflexivity|exact HB2|unfold on_stack; rewrite HD2; reflexivity|reflexivity|].
    destruct (calc_flat wit_world (on_stack (fun _ => 0)) strict (wit_opts [1] 0) (with_results OB [A1] (length (h_res wit_heap))) h1 (PolPair 1 0) (true, with_results OB [A1] (length (h_res wit_heap))) hv2 D2 1 0 0)
      as (h3 & A3 & C3 & _ & _ & _ & R3); [reflexivity|reflexivity|discriminate|reflexivity|apply refresh_same; reflexivity|exact HB2|reflexivity|reflexivity|].
    do 6 eexists. split; [exact C2|]. split; [exact C3|]. split; apply answers_r; rewrite R2; [rewrite R3|rewrite R1]; apply some_single; lra.
Qed.

(* ---------- C61 ---------- *)

Lemma np_differ strict x y : x <> y -> np_all_eq strict [x] [y] = Ok false.
Proof. intros H. unfold np_all_eq. cbn [length Nat.eqb combine forallb fst snd]. rewrite (proj2 (Reqb_false x y) H). auto. Qed.

Definition extra_width (D : sdesc) : R := rsum (told_widths D) - 7.
Lemma widths_witness : exists ob,
  new_obj wit_world wit_order (wit_struct []) wit_size (wit_opts [1] 0) wit_inc wit_tra = Ok ob /\
  agree_on (fun S _ _ _ _ => has_widths [7] S) (on_stack extra_width) (on_stack (fun _ => 0)) /\
  forall strict, exists ob1 h1 a1 ob2 h2 a2,
    calculate wit_world (on_stack extra_width) strict (wit_opts [2] 0) (obj_set_widths [7] ob, wit_heap) = Ok (ob1, h1, a1) /\
    calculate wit_world (on_stack (fun _ => 0)) strict (wit_opts [2] 0) (obj_set_widths [7] ob, wit_heap) = Ok (ob2, h2, a2) /\ answers h1 a1 <> answers h2 a2 /\
    o_widths ob1 = [None; Some 5; None].
Proof.
  eexists. split; [reflexivity|]. split.
  - intros D th ph pol f H. unfold on_stack, extra_width. rewrite H. cbn [app rsum]. f_equal. lra.
  - intros strict. match goal with |- context [calculate _ _ _ _ (obj_set_widths _ ?ob, _)] => set (OB := ob) end.
    assert (HR : refresh wit_world strict (wit_opts [2] 0) (obj_set_widths [7] OB) = Ok (false, update_oc wit_world [2] (obj_set_widths [7] OB))).
    { unfold refresh. change (o_wl (obj_set_widths [7] OB)) with [1]. cbn [p_wl wit_opts]. rewrite np_differ by lra. reflexivity. }
    assert (B : exists hv' D, build_S (update_oc wit_world [2] (obj_set_widths [7] OB)) (h_v wit_heap) MInk 1 None 0 = Ok (hv', D) /\ extra_width D = -2).
    { eexists. eexists. split; [reflexivity|]. unfold extra_width. cbn. lra. }
    destruct B as (hv' & D & HB & HD).
    destruct (calc_flat wit_world (on_stack extra_width) strict (wit_opts [2] 0) (obj_set_widths [7] OB) wit_heap (PolPair 1 0) (false, update_oc wit_world [2] (obj_set_widths [7] OB)) hv' D 2 (-2) 0)
      as (h1 & A1 & C1 & _ & _ & _ & R1); [reflexivity|reflexivity|discriminate|reflexivity|exact HR|exact HB|unfold on_stack; rewrite HD; reflexivity|reflexivity|].
    destruct (calc_flat wit_world (on_stack (fun _ => 0)) strict (wit_opts [2] 0) (obj_set_widths [7] OB) wit_heap (PolPair 1 0) (false, update_oc wit_world [2] (obj_set_widths [7] OB)) hv' D 2 0 0)
      as (h2 & A2 & C2 & _ & _ & _ & R2); [reflexivity|reflexivity|discriminate|reflexivity|exact HR|exact HB|reflexivity|reflexivity|].
    do 6 eexists. split; [exact C1|]. split; [exact C2|]. split; [|reflexivity]. apply answers_r. rewrite R1, R2. apply some_single. lra.
Qed.

(* ---------- C62 and shared results ---------- *)

Lemma wit_place : find_with_inf [None; Some 5; None] 1 = (1%nat, 1).
Proof. unfold find_with_inf. rewrite (proj2 (Rltb_false 1 0)) by lra. cbn [inner removelast tl map thickness find_in_structure]. rewrite (proj2 (Rleb_false 5 1)) by lra. auto. Qed.

Lemma flat_position r g k : position_resolved (flat r g) k 1 1 = g.
Proof. unfold position_resolved, flat. cbn [so_at]. field. Qed.

Lemma clip0_pos x : 0 <= x -> clip0 x = x. Proof. intros H. unfold clip0. rcase; lra. Qed.

Lemma prof_flat W SV strict o ob h pol hv' D x A a r g : p_wl o = [x] -> p_meth o <> MOther -> process_pol (p_pol o) = Ok pol -> p_zpoints o = Some [1] ->
  np_all_eq strict (p_wl o) (o_wl ob) = Ok true -> o_ratA ob = Some [A] -> 0 < A -> o_results ob = Some a -> (a < length (h_res h))%nat -> o_widths ob = [None; Some 5; None] ->
  build_S ob (h_v h) (p_meth o) (p_orders o) (o_user ob) 0 = Ok (hv', D) -> SV D (p_theta o) (p_phi o) pol (freq x) = flat r g -> 0 <= g ->
  exists h1, calculate_profile W SV strict o (ob, h) = Ok (ob, h1, a) /\ h_v h1 = hv' /\ length (h_res h1) = length (h_res h) /\
    option_map r_profile (nth_error (h_res h1) a) = Some (Some [[g]]) /\ r_of h1 a = r_of h a.
Proof.
  intros Hx Hm Hpol Hz Hw Hra HA Hre Ha Hws HB HS Hg. destruct (nth_error (h_res h) a) as [d|] eqn:Hd; [|apply nth_error_None in Hd; lia].
  eexists. split; [rewrite (profile_one W SV strict o ob h pol hv' D x A a d Hx Hm Hpol Hw Hra HA Hre Hd HB), HS; reflexivity|]. cbn [h_v h_res]. split; auto. split; [apply set_nth_length|].
  unfold prof_dist. rewrite Hz, Hws. cbn [map]. rewrite wit_place. cbn [so_flux flat fx fst]. fold (flat r g). rewrite flat_position, clip0_pos by auto.
  assert (Q : forall y : rdict sdesc, nth_error (set_nth a y (h_res h)) a = Some y).
  { intros y. clear -Ha. revert a Ha. induction (h_res h) as [|z l IH]; intros [|a] Ha; simpl in *; try lia; auto. apply IH. lia. }
  unfold r_of. cbn [h_res]. rewrite !Q, Hd. cbn [option_map r_profile r_R]. auto.
Qed.

Lemma stale_witness : exists ob,
  new_obj wit_world wit_order (wit_struct []) wit_size (wit_opts [1] 0) wit_inc wit_tra = Ok ob /\
  forall strict, exists ob1 h1 a1, calculate wit_world on_theta strict (wit_opts [1] 0) (ob, wit_heap) = Ok (ob1, h1, a1) /\
  exists ob2 h2 a2 ob3 h3 a3,
    calculate_profile wit_world on_theta strict (wit_opts [1] (1 / 4)) (ob1, h1) = Ok (ob2, h2, a2) /\
    calculate wit_world on_theta strict (wit_opts [1] (1 / 4)) (ob1, h1) = Ok (ob3, h3, a3) /\ answers h2 a2 <> answers h3 a3.
Proof.
  eexists. split; [reflexivity|]. intros strict. match goal with |- context [calculate _ _ _ _ (?ob, _)] => set (OB := ob) end.
  assert (B : forall hv, exists D, build_S OB hv MInk 1 None 0 = Ok (hv, D)). { intros hv. eexists. reflexivity. }
  destruct (B (h_v wit_heap)) as (D & HB).
  destruct (calc_flat wit_world on_theta strict (wit_opts [1] 0) OB wit_heap (PolPair 1 0) (true, OB) (h_v wit_heap) D 1 0 0)
    as (h1 & A1 & C1 & P1 & V1 & L1 & R1); [reflexivity|reflexivity|discriminate|reflexivity|apply refresh_same; reflexivity|exact HB|reflexivity|reflexivity|].
  cbn [snd] in C1. destruct (B (h_v h1)) as (D1 & HB1). set (OB1 := with_results OB [A1] (length (h_res wit_heap))) in *.
  destruct (prof_flat wit_world on_theta strict (wit_opts [1] (1 / 4)) OB1 h1 (PolPair 1 0) (h_v h1) D1 1 A1 (length (h_res wit_heap)) (1 / 4) (1 / 4))
    as (h2 & C2 & _ & _ & _ & R2); [reflexivity|discriminate|reflexivity|reflexivity|apply wit_np|reflexivity|exact P1|reflexivity|lia|reflexivity|exact HB1|reflexivity|lra|].
  destruct (calc_flat wit_world on_theta strict (wit_opts [1] (1 / 4)) OB1 h1 (PolPair 1 0) (true, OB1) (h_v h1) D1 1 (1 / 4) (1 / 4))
    as (h3 & A3 & C3 & _ & _ & _ & R3); [reflexivity|reflexivity|discriminate|reflexivity|apply refresh_same; reflexivity|exact HB1|reflexivity|reflexivity|].
  do 3 eexists. split; [exact C1|]. do 6 eexists. split; [exact C2|]. split; [exact C3|]. apply answers_r. rewrite R2, R1, R3. apply some_single. lra.
Qed.

Lemma shared_witness : exists ob,
  new_obj wit_world wit_order (wit_struct []) wit_size (wit_opts [1] 0) wit_inc wit_tra = Ok ob /\
  forall strict, exists ob1 h1 a1 ob2 h2 a2 ob3 h3 a3, calculate wit_world on_theta strict (wit_opts [1] (1 / 4)) (ob, wit_heap) = Ok (ob1, h1, a1) /\
    calculate_profile wit_world on_theta strict (wit_opts [1] (1 / 4)) (ob1, h1) = Ok (ob2, h2, a2) /\
    option_map r_profile (nth_error (h_res h2) a2) = Some (Some [[1 / 4]]) /\
    calculate_profile wit_world on_theta strict (wit_opts [1] (1 / 2)) (ob2, h2) = Ok (ob3, h3, a3) /\
    option_map r_profile (nth_error (h_res h3) a2) = Some (Some [[1 / 2]]).
Proof.
  eexists. split; [reflexivity|]. intros strict. match goal with |- context [calculate _ _ _ _ (?ob, _)] => set (OB := ob) end.
  assert (B : forall hv, exists D, build_S OB hv MInk 1 None 0 = Ok (hv, D)). { intros hv. eexists. reflexivity. }
  destruct (B (h_v wit_heap)) as (D & HB).
  destruct (calc_flat wit_world on_theta strict (wit_opts [1] (1 / 4)) OB wit_heap (PolPair 1 0) (true, OB) (h_v wit_heap) D 1 (1 / 4) (1 / 4))
    as (h1 & A1 & C1 & P1 & V1 & L1 & R1); [reflexivity|reflexivity|discriminate|reflexivity|apply refresh_same; reflexivity|exact HB|reflexivity|reflexivity|].
  cbn [snd] in C1. destruct (B (h_v h1)) as (D1 & HB1). set (OB1 := with_results OB [A1] (length (h_res wit_heap))) in *.
  destruct (prof_flat wit_world on_theta strict (wit_opts [1] (1 / 4)) OB1 h1 (PolPair 1 0) (h_v h1) D1 1 A1 (length (h_res wit_heap)) (1 / 4) (1 / 4))
    as (h2 & C2 & V2 & L2 & Q2 & _); [reflexivity|discriminate|reflexivity|reflexivity|apply wit_np|reflexivity|exact P1|reflexivity|lia|reflexivity|exact HB1|reflexivity|lra|].
  destruct (B (h_v h2)) as (D2 & HB2).
  destruct (prof_flat wit_world on_theta strict (wit_opts [1] (1 / 2)) OB1 h2 (PolPair 1 0) (h_v h2) D2 1 A1 (length (h_res wit_heap)) (1 / 2) (1 / 2))
    as (h3 & C3 & V3 & L3 & Q3 & _); [reflexivity|discriminate|reflexivity|reflexivity|apply wit_np|reflexivity|exact P1|reflexivity|lia|reflexivity|exact HB2|reflexivity|lra|].
  do 9 eexists. split; [exact C1|]. split; [exact C2|]. split; [exact Q2|]. split; [exact C3|]. exact Q3.
Qed.
