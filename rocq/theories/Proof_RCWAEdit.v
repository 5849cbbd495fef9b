(* C165 to C168 *)
From Coq Require Import Reals List ZArith Bool Lia Lra String.
From Verif Require Import Base Lib Model_Diff Model_RCWA Model_RCWAObj Spec_RCWAObj Spec_RCWAEdit Proof_RCWAObj Proof_RCWAObj2 Proof_RCWAObj3 Proof_RCWAObj4 Proof_RCWAObj5.
Import ListNotations.
Open Scope R_scope.
Local Notation length := List.length.

Local Ltac bok H := let x := fresh "x" in let E := fresh "E" in apply rbind_ok in H; destruct H as (x & E & H).

(* ---------- unit cell ---------- *)

Lemma refresh_size W strict o ob rf : refresh W strict o ob = Ok rf -> o_size (snd rf) = o_size ob.
Proof. unfold refresh. intros H. bok H. injection H as <-. cbn [snd]. destruct x; auto. Qed.

Lemma calc_size W SV strict o st ob' h' a : calculate W SV strict o st = Ok (ob', h', a) -> o_size ob' = o_size (fst st).
Proof. intros H. destruct (calculate_parts _ _ _ _ _ _ _ _ H) as (pol & rf & out & _ & Hr & _ & _ & -> & _). apply refresh_size in Hr. auto. Qed.

Lemma prof_size W SV strict o st ob' h' a : calculate_profile W SV strict o st = Ok (ob', h', a) -> o_size ob' = o_size (fst st).
Proof.
  intros H. destruct (profile_parts _ _ _ _ _ _ _ _ H) as (pol & rf & st1 & ratA & out & d & _ & Hr & _ & K & -> & _).
  destruct K as [(_ & _ & ->)|(ob0 & a1 & K & Ho & _)]; auto. destruct st1 as [ob1 h1]. apply calc_size in K. cbn [fst] in *. rewrite K.
  apply refresh_size in Hr. destruct Ho as [-> | ->]; auto.
Qed.

Lemma step_size W SV strict e st st' : step W SV strict e st = Ok st' -> keeps_size e -> o_size (fst st') = o_size (fst st).
Proof.
  destruct e as [o|o|ws|sz|l gi f]; cbn [step keeps_size]; intros H K.
  - bok H. injection H as <-. destruct x as [[ob' h'] a]. cbn [fst]. eapply calc_size; eauto.
  - bok H. injection H as <-. destruct x as [[ob' h'] a]. cbn [fst]. eapply prof_size; eauto.
  - injection H as <-. auto.
  - contradiction.
  - bok H. injection H as <-. unfold edit_geom in E. bok E. destruct x0; [|discriminate]. bok E. injection E as <-. auto.
Qed.

Lemma history_size W SV strict es : forall st st', history W SV strict es st = Ok st' -> (forall e, In e es -> keeps_size e) -> o_size (fst st') = o_size (fst st).
Proof.
  induction es as [|e es IH]; intros st st' H He; cbn [history] in H; [injection H as <-; auto|].
  bok H. rewrite (IH _ _ H) by (intros; apply He; right; auto). eapply step_size; eauto. apply He. left. auto.
Qed.

Lemma size_asks o ob : asks (fun S _ _ _ _ => s_size S = o_size ob) o ob (fun _ => True).
Proof. intros hv d i hv' S _ _ E. split; auto. intros _ _. destruct (build_S_told _ _ _ _ _ _ _ _ E) as (loc & soc & _ & _ & K & _). exact K. Qed.

Lemma size_kept W SV SV' strict ob h sz es st' o :
  history W SV strict es (obj_set_size sz ob, h) = Ok st' -> (forall e, In e es -> keeps_size e) ->
  agree_on (fun S _ _ _ _ => s_size S = sz) SV SV' ->
  calculate W SV strict o st' = calculate W SV' strict o st' /\ calculate_profile W SV strict o st' = calculate_profile W SV' strict o st'.
Proof.
  intros H He HA. pose proof (history_size _ _ _ _ _ _ H He) as A. cbn [fst obj_set_size o_size] in A. destruct st' as [ob' h']. cbn [fst] in A.
  assert (Q : forall rf, refresh W strict o ob' = Ok rf -> asks (fun S _ _ _ _ => s_size S = sz) o (snd rf) (fun _ => True)).
  { intros rf E. apply refresh_size in E. rewrite <- A, <- E. apply size_asks. }
  split; [apply (calculate_agree W strict SV SV' _ o HA ob' h' _ Q I)|apply (profile_agree W strict SV SV' _ o ob' h' _ HA Q I)].
Qed.

(* ---------- geometry ---------- *)

Lemma set_nth_same {A} (x : A) l : forall a, (a < length l)%nat -> nth_error (set_nth a x l) a = Some x.
Proof. induction l as [|z l IH]; intros [|a] Ha; simpl in *; try lia; auto. apply IH. lia. Qed.

Lemma edit_edited l gi f ob ob' : edit_geom l gi f ob = Ok ob' -> edited l gi f (o_geom ob) (o_geom ob').
Proof.
  unfold edit_geom. intros H. bok H. apply py_index_nth in E. destruct x as [a|]; [|discriminate]. bok H. apply py_index_nth in E0. injection H as <-. cbn [o_geom].
  split; [apply set_nth_length|]. split; [intros k Hk; apply set_nth_other; auto|]. exists a, (set_nth gi (f x) a), x. split; auto.
  split. { apply set_nth_same. apply nth_error_Some. congruence. }
  split; [apply set_nth_length|]. split; auto. split; [apply set_nth_same, nth_error_Some; congruence|]. intros j Hj. apply set_nth_other. auto.
Qed.

Lemma edit_used W SV SV' strict ob h l gi f ob1 es st' o :
  edit_geom l gi f ob = Ok ob1 -> history W SV strict es (ob1, h) = Ok st' ->
  (forall g, edited l gi f (o_geom ob) g -> safe (h_v h) g (p_meth o) /\ forall e, In e es -> no_edit e /\ uses_options (fun o => safe (h_v h) g (p_meth o)) e) ->
  agree_on (fun S _ _ _ _ => exists g, edited l gi f (o_geom ob) g /\ has_shapes (h_v h) g S) SV SV' ->
  calculate W SV strict o st' = calculate W SV' strict o st' /\ calculate_profile W SV strict o st' = calculate_profile W SV' strict o st'.
Proof.
  intros HE H Hs HA. pose proof (edit_edited _ _ _ _ _ HE) as ED. destruct (Hs _ ED) as [Ho He].
  destruct (shapes_kept W SV SV' strict ob1 h es st' o H He Ho) as [Q _]; auto.
  intros S th ph pol fr HS. apply HA. eauto.
Qed.

(* ---------- a material that no shape had at construction ---------- *)

Lemma index_of_in x l i : index_of x l = Ok i -> In x l.
Proof.
  revert i. induction l as [|y l IH]; intros i H; cbn [index_of] in H; [discriminate|]. destruct (String.eqb_spec x y); [left; auto|]. bok H. right. eauto.
Qed.

Lemma build_new_material ob hv m orders d i hv' S l g s : build_S ob hv m orders d i = Ok (hv', S) -> (l < length (o_widths ob))%nat ->
  nth_error (o_geom ob) l = Some g -> In s (shapes_of g) -> known s = true -> In (sh_mat s) (o_names ob).
Proof.
  intros H Hl Hg Hs Hk. destruct (build_S_told _ _ _ _ _ _ _ _ H) as (loc & soc & _ & _ & _ & _ & _ & TW & _ & _ & _ & P).
  assert (L : length (s_layers S) = length (o_widths ob)). { unfold told_widths in TW. apply (f_equal (@length R)) in TW. rewrite !map_length in TW. auto. }
  destruct (nth_error (s_layers S) l) as [[[e w] regs]|] eqn:En; [|apply nth_error_None in En; lia].
  destruct (P _ _ _ _ En) as (g' & G & F). assert (g' = g) by congruence. subst g'.
  destruct (Forall2_In_l _ _ _ s F) as (r & _ & R1 & _); [apply filter_In; auto|]. eapply index_of_in; eauto.
Qed.

Lemma refresh_names W strict o ob rf : refresh W strict o ob = Ok rf -> o_names (snd rf) = o_names ob.
Proof. unfold refresh. intros H. bok H. injection H as <-. cbn [snd]. destruct x; auto. Qed.

Lemma new_material W SV strict o ob h l gi f ob1 s r : edit_geom l gi f ob = Ok ob1 ->
  (exists a, nth_error (o_geom ob) l = Some (Some a) /\ nth_error a gi = Some s) -> known (f s) = true -> ~ In (sh_mat (f s)) (o_names ob) ->
  p_wl o = o_wl ob -> (l < length (o_widths ob))%nat -> calculate W SV strict o (ob1, h) <> Ok r.
Proof.
  intros HE (a & Ga & Gs) Hk Hn Hw Hl HC. destruct r as [[ob' h'] q].
  destruct (edit_edited _ _ _ _ _ HE) as (_ & _ & a' & b & s' & A1 & A2 & _ & A3 & A4 & _). assert (a' = a) by congruence. subst a'. assert (s' = s) by congruence. subst s'.
  assert (U : o_names ob1 = o_names ob /\ o_wl ob1 = o_wl ob /\ o_widths ob1 = o_widths ob).
  { unfold edit_geom in HE. bok HE. destruct x; [|discriminate]. bok HE. injection HE as <-. auto. }
  destruct U as (U1 & U2 & U3). destruct (calculate_parts _ _ _ _ _ _ _ _ HC) as (pol & rf & out & _ & Hr & _ & Ho & _ & _ & Hne & _). cbn [fst snd] in *.
  rewrite refresh_same in Hr by congruence. injection Hr as <-. cbn [snd] in *.
  destruct (p_wl o) as [|x xs] eqn:Ex; [cbn in Ho; injection Ho as <-; apply Hne; auto|]. cbn [List.length seq run_wl] in Ho. bok Ho. unfold structure_wl in E. bok E.
  destruct x1 as [hv' D]. apply Hn. rewrite <- U1. eapply (build_new_material ob1 _ _ _ _ _ _ _ l (Some b) (f s)); eauto; [congruence|]. cbn [shapes_of]. eapply nth_error_In; eauto.
Qed.

(* ---------- profiles after a change of the structure ---------- *)

Lemma change_keeps W SV strict e ob h st' : changes_structure e -> step W SV strict e (ob, h) = Ok st' ->
  o_wl (fst st') = o_wl ob /\ o_ratA (fst st') = o_ratA ob /\ o_results (fst st') = o_results ob /\ snd st' = h.
Proof.
  destruct e as [o|o|ws|sz|l gi f]; cbn [step changes_structure fst snd]; intros C H; try contradiction.
  - injection H as <-. auto.
  - injection H as <-. auto.
  - bok H. injection H as <-. unfold edit_geom in E. bok E. destruct x0; [|discriminate]. bok E. injection E as <-. auto.
Qed.

Lemma profile_outdated W SV SV' strict o e st ob1 h1 a1 ob2 h2 ob3 h3 a3 : calculate W SV strict o st = Ok (ob1, h1, a1) -> changes_structure e ->
  step W SV strict e (ob1, h1) = Ok (ob2, h2) -> calculate_profile W SV' strict o (ob2, h2) = Ok (ob3, h3, a3) -> answers h3 a3 = answers h1 a1.
Proof.
  intros H1 C Hs H2. destruct (change_keeps _ _ _ _ _ _ _ C Hs) as (K1 & K2 & K3 & K4). cbn [fst snd] in *. subst h2.
  pose proof (calculate_wl_same _ _ _ _ _ _ _ _ H1) as Hr. unfold refresh in Hr. bok Hr. assert (x = true) by congruence. subst x.
  destruct (calculate_parts _ _ _ _ _ _ _ _ H1) as (pol & rf & out & _ & _ & _ & _ & Eo & _).
  destruct (profile_stale W SV' strict o ob2 h1 ob3 h3 a3 (map rsum (map (fun x => snd (fst x)) (snd out))) a1) as (A & B & _); [rewrite K2, Eo; auto|rewrite K3, Eo; auto|rewrite K1; auto|auto|auto].
Qed.

Lemma outdated_witness : exists ob,
  new_obj wit_world wit_order (wit_struct []) wit_size (wit_opts [1] 0) wit_inc wit_tra = Ok ob /\
  forall strict, let SV := on_stack (fun D => fst (fst (s_size D))) in
  exists ob1 h1 a1 ob2 h2 a2 ob3 h3 a3, calculate wit_world SV strict (wit_opts [1] 0) (ob, wit_heap) = Ok (ob1, h1, a1) /\
    calculate_profile wit_world SV strict (wit_opts [1] 0) (obj_set_size ((2, 0), (0, 2)) ob1, h1) = Ok (ob2, h2, a2) /\
    calculate wit_world SV strict (wit_opts [1] 0) (obj_set_size ((2, 0), (0, 2)) ob1, h1) = Ok (ob3, h3, a3) /\ answers h2 a2 <> answers h3 a3.
Proof.
  eexists. split; [reflexivity|]. intros strict SV. match goal with |- context [calculate _ _ _ _ (?ob, _)] => set (OB := ob) end.
  assert (B : forall hv, exists D, build_S OB hv MInk 1 None 0 = Ok (hv, D) /\ fst (fst (s_size D)) = 1). { intros hv. eexists. split; reflexivity. }
  destruct (B (h_v wit_heap)) as (D & HB & HD).
  destruct (calc_flat wit_world SV strict (wit_opts [1] 0) OB wit_heap (PolPair 1 0) (true, OB) (h_v wit_heap) D 1 1 0)
    as (h1 & A1 & C1 & P1 & V1 & L1 & R1); [reflexivity|reflexivity|discriminate|reflexivity|apply refresh_same; reflexivity|exact HB|unfold SV, on_stack; rewrite HD; reflexivity|reflexivity|].
  cbn [snd] in C1. set (OB1 := with_results OB [A1] (length (h_res wit_heap))) in *. set (OB2 := obj_set_size ((2, 0), (0, 2)) OB1).
  assert (B2 : exists D2, build_S OB2 (h_v h1) MInk 1 None 0 = Ok (h_v h1, D2) /\ fst (fst (s_size D2)) = 2). { eexists. split; reflexivity. }
  destruct B2 as (D2 & HB2 & HD2).
  destruct (prof_flat wit_world SV strict (wit_opts [1] 0) OB2 h1 (PolPair 1 0) (h_v h1) D2 1 A1 (length (h_res wit_heap)) 2 0)
    as (h2 & C2 & _ & _ & _ & R2); [reflexivity|discriminate|reflexivity|reflexivity|apply wit_np|reflexivity|exact P1|reflexivity|lia|reflexivity|exact HB2|unfold SV, on_stack; rewrite HD2; reflexivity|lra|].
  destruct (calc_flat wit_world SV strict (wit_opts [1] 0) OB2 h1 (PolPair 1 0) (true, OB2) (h_v h1) D2 1 2 0)
    as (h3 & A3 & C3 & _ & _ & _ & R3); [reflexivity|reflexivity|discriminate|reflexivity|apply refresh_same; reflexivity|exact HB2|unfold SV, on_stack; rewrite HD2; reflexivity|reflexivity|].
  exists OB1, h1, (length (h_res wit_heap)), OB2, h2, (length (h_res wit_heap)). do 3 eexists. split; [exact C1|]. split; [exact C2|]. split; [exact C3|]. apply answers_r. rewrite R2, R1, R3. apply some_single. lra.
Qed.

(* ---------- materials after edits ---------- *)

Lemma history_coherent W SV strict es : forall st st', history W SV strict es st = Ok st' -> coherent W (fst st) -> coherent W (fst st').
Proof.
  induction es as [|e es IH]; intros st st' H C; cbn [history] in H; [injection H as <-; auto|].
  bok H. destruct (step_keeps _ _ _ _ _ _ E C) as [A _]. eapply IH; eauto.
Qed.

Lemma named_asks W o ob : coherent W ob -> (forall i x y, nth_error (p_wl o) i = Some x -> nth_error (o_wl ob) i = Some y -> x = y) ->
  asks (fun S th ph pol f => th = p_theta o /\ ph = p_phi o /\ process_pol (p_pol o) = Ok pol /\
          exists x, In x (p_wl o) /\ f = freq x /\ named_materials W (o_geom ob) x S) o ob (fun _ => True).
Proof.
  intros (C1 & C2 & C3) Hwl hv d i hv' D _ Hi E. split; auto. intros pol Hp. split; auto. split; auto. split; auto.
  destruct (build_S_told _ _ _ _ _ _ _ _ E) as (loc & soc & N1 & N2 & _ & _ & K1 & K2 & K3 & K4 & K4' & K5).
  rewrite C2 in N2. destruct (nth_error (o_wl ob) i) as [y|] eqn:Hy.
  2:{ rewrite (proj2 (nth_error_None _ _)) in N2; [discriminate|]. rewrite map_length. apply nth_error_None. auto. }
  destruct (nth_error (p_wl o) i) as [x|] eqn:Hx; [|apply nth_error_None in Hx; lia]. pose proof (Hwl i x y Hx Hy) as Exy. subst y.
  rewrite (map_nth_error _ _ _ Hy) in N2. injection N2 as <-.
  exists x. split; [eapply nth_error_In; eauto|]. split; [unfold freq; rewrite (nth_error_nth _ _ 0 Hx); auto|].
  intros l Hl. destruct (nth_error (s_layers D) l) as [[[e w] regs]|] eqn:En; [|apply nth_error_None in En; lia].
  rewrite (nth_error_nth _ _ _ (map_nth_error snd _ _ En)). cbn [snd]. destruct (K5 _ _ _ _ En) as (g & Hg1 & HP). rewrite (nth_error_nth _ _ _ Hg1).
  clear En. induction HP as [|s r ls rs (P1 & P2) HP IH]; constructor; auto.
  unfold told_eps. destruct (fst r) as [|k] eqn:Ek; [congruence|]. cbn [pred] in P1. rewrite K1. apply index_of_ok in P1. rewrite C3 in P1.
  destruct (nth_error (o_mats ob) k) as [id|] eqn:Em.
  2:{ rewrite (proj2 (nth_error_None _ _)) in P1; [discriminate|]. rewrite map_length. apply nth_error_None. auto. }
  rewrite (map_nth_error _ _ _ Em) in P1. injection P1 as P1. exists id. split; auto. rewrite (map_nth_error _ _ _ Em). reflexivity.
Qed.

Lemma named_used W SV SV' strict order structure size o0 inc tra ob h es st' o :
  new_obj W order structure size o0 inc tra = Ok ob -> history W SV strict es (ob, h) = Ok st' ->
  agree_on (fun S th ph pol f => th = p_theta o /\ ph = p_phi o /\ process_pol (p_pol o) = Ok pol /\
     exists x, In x (p_wl o) /\ f = freq x /\ named_materials W (o_geom (fst st')) x S) SV SV' ->
  calculate W SV strict o st' = calculate W SV' strict o st' /\ calculate_profile W SV strict o st' = calculate_profile W SV' strict o st'.
Proof.
  intros HN H HA. assert (C0 : coherent W ob). { unfold new_obj in HN. bok HN. injection HN as <-. apply update_coherent. reflexivity. }
  pose proof (history_coherent _ _ _ _ _ _ H C0) as C. destruct st' as [ob' h']. cbn [fst] in *.
  match type of HA with agree_on ?P _ _ => assert (Q : forall rf, refresh W strict o ob' = Ok rf -> asks P o (snd rf) (fun _ => True)) end.
  { intros rf E. destruct (refresh_keeps _ _ _ _ _ E C) as (C' & _ & G & _ & Hw & _). rewrite <- G. apply named_asks; auto. }
  split; [apply (calculate_agree W strict SV SV' _ o HA ob' h' _ Q I)|apply (profile_agree W strict SV SV' _ o ob' h' _ HA Q I)].
Qed.
