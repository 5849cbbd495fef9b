From Coq Require Import Reals List ZArith Bool String Lia Lra.
From Verif Require Import Base Lib Model_Diff Model_RCWA Model_RCWAObj Spec_RCWAObj Proof_RCWAObj Proof_RCWAObj2.
Import ListNotations.
Local Notation length := List.length.
Open Scope R_scope.

(* ---------- C61 ---------- *)

Lemma thickness_stack ws : map thickness (None :: map Some ws ++ [None]) = 0 :: ws ++ [0].
Proof. cbn [map thickness]. rewrite map_app, map_map. cbn [map thickness]. rewrite map_id. auto. Qed.

Lemma widths_asks o ob ws : o_widths ob = None :: map Some ws ++ [None] ->
  asks (fun S _ _ _ _ => has_widths ws S) o ob (fun _ => True).
Proof.
  intros Hw hv d i hv' S _ _ E. split; auto. intros _ _. destruct (build_S_told _ _ _ _ _ _ _ _ E) as (loc & soc & _ & _ & _ & _ & _ & K & _).
  unfold has_widths. rewrite K, Hw. apply thickness_stack.
Qed.

Lemma calculate_same_wl W SV strict o st ob' h' a : p_wl o = o_wl (fst st) -> calculate W SV strict o st = Ok (ob', h', a) ->
  o_wl ob' = o_wl (fst st) /\ o_widths ob' = o_widths (fst st).
Proof.
  intros Hw H. destruct (calculate_parts _ _ _ _ _ _ _ _ H) as (pol & rf & out & _ & Hr & _ & _ & -> & _).
  rewrite (refresh_same W strict o (fst st) Hw) in Hr. injection Hr as <-. auto.
Qed.

Lemma step_same_wl W SV strict e st st' : step W SV strict e st = Ok st' -> uses_options (fun o => p_wl o = o_wl (fst st)) e -> widths_ok (fun _ => False) e ->
  o_wl (fst st') = o_wl (fst st) /\ o_widths (fst st') = o_widths (fst st).
Proof.
  destruct e as [o|o|ws|sz|l gi f]; cbn [step uses_options widths_ok]; intros H Hu Hw.
  - bok H. injection H as <-. destruct a as [[ob' h'] a]. eapply calculate_same_wl; eauto.
  - bok H. injection H as <-. destruct a as [[ob' h'] a]. destruct (profile_parts _ _ _ _ _ _ _ _ E) as (pol & rf & st1 & ratA & out & d & _ & Hr & _ & K & -> & _). cbn [fst].
    rewrite (refresh_same W strict o (fst st) Hu) in Hr. injection Hr as <-. cbn [fst snd] in K.
    destruct K as [(_ & _ & ->)|(ob0 & a1 & K & Ho & _)]; auto. assert (ob0 = fst st) as -> by tauto. destruct st1 as [ob1 h1]. apply (calculate_same_wl _ _ _ _ _ _ _ _ Hu K).
  - contradiction.
  - injection H as <-. auto.
  - bok H. injection H as <-. unfold edit_geom in E. bok E. destruct a0; [|discriminate]. bok E. injection E as <-. auto.
Qed.

Lemma history_same_wl W SV strict es : forall st st', history W SV strict es st = Ok st' ->
  (forall e, In e es -> uses_options (fun o => p_wl o = o_wl (fst st)) e /\ widths_ok (fun _ => False) e) ->
  o_wl (fst st') = o_wl (fst st) /\ o_widths (fst st') = o_widths (fst st).
Proof.
  induction es as [|e es IH]; intros st st' H He; cbn [history] in H; [injection H as <-; auto|].
  bok H. destruct (He e (or_introl eq_refl)) as [H1 H2]. destruct (step_same_wl _ _ _ _ _ _ E H1 H2) as [A B].
  destruct (IH _ _ H) as [A' B']; [|split; congruence]. intros e' He'. rewrite A. apply He. right. auto.
Qed.

Lemma widths_kept W SV SV' strict ob h ws es st' o :
  history W SV strict es (obj_set_widths ws ob, h) = Ok st' ->
  (forall e, In e es -> uses_options (fun o => p_wl o = o_wl ob) e /\ widths_ok (fun _ => False) e) ->
  p_wl o = o_wl ob -> agree_on (fun S _ _ _ _ => has_widths ws S) SV SV' ->
  calculate W SV strict o st' = calculate W SV' strict o st' /\ calculate_profile W SV strict o st' = calculate_profile W SV' strict o st'.
Proof.
  intros H He Ho HA. destruct (history_same_wl _ _ _ _ _ _ H) as [A B]; [exact He|]. cbn [fst obj_set_widths o_wl o_widths] in A, B. destruct st' as [ob' h']. cbn [fst] in *.
  assert (Q : forall rf, refresh W strict o ob' = Ok rf -> asks (fun S _ _ _ _ => has_widths ws S) o (snd rf) (fun _ => True)).
  { intros rf E. rewrite refresh_same in E by congruence. injection E as <-. apply widths_asks. auto. }
  split; [apply (calculate_agree W strict SV SV' _ o HA ob' h' _ Q I)|apply (profile_agree W strict SV SV' _ o ob' h' _ HA Q I)].
Qed.

(* ---------- C60 ---------- *)

Lemma shapes_asks hv0 o ob : safe hv0 (o_geom ob) (p_meth o) ->
  asks (fun S _ _ _ _ => has_shapes hv0 (o_geom ob) S) o ob (fun hv => heq hv hv0).
Proof. intros Hs hv d i hv' S Hh _ E. destruct (build_S_shapes _ hv0 _ _ _ _ _ _ _ Hs Hh E) as [A B]. auto. Qed.

Lemma refresh_geom W strict o ob rf : refresh W strict o ob = Ok rf -> o_geom (snd rf) = o_geom ob.
Proof. unfold refresh. intros H. bok H. injection H as <-. cbn [snd]. destruct a; auto. Qed.

Lemma calc_geom W SV strict o st ob' h' a : calculate W SV strict o st = Ok (ob', h', a) -> o_geom ob' = o_geom (fst st).
Proof. intros H. destruct (calculate_parts _ _ _ _ _ _ _ _ H) as (pol & rf & out & _ & Hr & _ & _ & -> & _). apply refresh_geom in Hr. auto. Qed.

Lemma prof_geom W SV strict o st ob' h' a : calculate_profile W SV strict o st = Ok (ob', h', a) -> o_geom ob' = o_geom (fst st).
Proof.
  intros H. destruct (profile_parts _ _ _ _ _ _ _ _ H) as (pol & rf & st1 & ratA & out & d & _ & Hr & _ & K & -> & _).
  destruct K as [(_ & _ & ->)|(ob0 & a1 & K & Ho & _)]; auto. destruct st1 as [ob1 h1]. apply calc_geom in K. cbn [fst] in *. rewrite K. apply refresh_geom in Hr. destruct Ho as [-> | ->]; auto.
Qed.

Lemma agree_refl P SV : agree_on P SV SV. Proof. intros ? ? ? ? ? ?. auto. Qed.

Lemma step_shapes W SV strict hv0 geom e st st' : step W SV strict e st = Ok st' -> no_edit e -> uses_options (fun o => safe hv0 geom (p_meth o)) e ->
  o_geom (fst st) = geom -> heq (h_v (snd st)) hv0 -> o_geom (fst st') = geom /\ heq (h_v (snd st')) hv0.
Proof.
  destruct st as [ob h]. destruct e as [o|o|ws|sz|l gi f]; cbn [step uses_options no_edit fst snd]; intros H Hn Hu Hg Hh; try contradiction.
  - bok H. injection H as <-. destruct a as [[ob' h'] a]. cbn [fst snd]. split; [rewrite (calc_geom _ _ _ _ _ _ _ _ E); auto|].
    apply (calculate_agree W strict SV SV _ o (agree_refl (fun S _ _ _ _ => has_shapes hv0 geom S) SV) ob h (fun hv => heq hv hv0)) in E; auto.
    intros rf Er. rewrite <- Hg, <- (refresh_geom _ _ _ _ _ Er). apply shapes_asks. rewrite (refresh_geom _ _ _ _ _ Er), Hg. auto.
  - bok H. injection H as <-. destruct a as [[ob' h'] a]. cbn [fst snd]. split; [rewrite (prof_geom _ _ _ _ _ _ _ _ E); auto|].
    apply (profile_agree W strict SV SV _ o ob h (fun hv => heq hv hv0) (agree_refl (fun S _ _ _ _ => has_shapes hv0 geom S) SV)) in E; auto.
    intros rf Er. rewrite <- Hg, <- (refresh_geom _ _ _ _ _ Er). apply shapes_asks. rewrite (refresh_geom _ _ _ _ _ Er), Hg. auto.
  - injection H as <-. auto.
  - injection H as <-. auto.
Qed.

Lemma history_shapes W SV strict hv0 geom es : forall st st', history W SV strict es st = Ok st' ->
  (forall e, In e es -> no_edit e /\ uses_options (fun o => safe hv0 geom (p_meth o)) e) ->
  o_geom (fst st) = geom -> heq (h_v (snd st)) hv0 -> o_geom (fst st') = geom /\ heq (h_v (snd st')) hv0.
Proof.
  induction es as [|e es IH]; intros st st' H He Hg Hh; cbn [history] in H; [injection H as <-; auto|].
  bok H. destruct (He e (or_introl eq_refl)) as [H1 H2]. destruct (step_shapes _ _ _ _ _ _ _ _ E H1 H2 Hg Hh) as [A B].
  apply (IH _ _ H); auto. intros e' He'. apply He. right. auto.
Qed.

Lemma shapes_kept W SV SV' strict ob h es st' o :
  history W SV strict es (ob, h) = Ok st' ->
  (forall e, In e es -> no_edit e /\ uses_options (fun o => safe (h_v h) (o_geom ob) (p_meth o)) e) ->
  safe (h_v h) (o_geom ob) (p_meth o) -> agree_on (fun S _ _ _ _ => has_shapes (h_v h) (o_geom ob) S) SV SV' ->
  (calculate W SV strict o st' = calculate W SV' strict o st' /\ calculate_profile W SV strict o st' = calculate_profile W SV' strict o st') /\
  forall v, h_v (snd st') v = h_v h v.
Proof.
  intros H He Ho HA. destruct (history_shapes W SV strict (h_v h) (o_geom ob) es _ _ H He eq_refl (heq_refl _)) as [A B]. destruct st' as [ob' h']. cbn [fst snd] in *.
  assert (Q : forall rf, refresh W strict o ob' = Ok rf -> asks (fun S _ _ _ _ => has_shapes (h_v h) (o_geom ob) S) o (snd rf) (fun hv => heq hv (h_v h))).
  { intros rf E. rewrite <- A, <- (refresh_geom _ _ _ _ _ E). apply shapes_asks. rewrite (refresh_geom _ _ _ _ _ E), A. auto. }
  split; [|exact B].
  split; [apply (calculate_agree W strict SV SV' _ o HA ob' h' _ Q B)|apply (profile_agree W strict SV SV' _ o ob' h' _ HA Q B)].
Qed.

(* ---------- C59 ---------- *)

Lemma in_mat_list ls m : In m (mat_list ([] :: map ol_geom ls ++ [[]])) <-> In m (shape_mats_of ls).
Proof. unfold mat_list, shape_mats_of. cbn [List.concat app]. rewrite concat_app. cbn [List.concat]. rewrite !app_nil_r. tauto. Qed.

(* an object whose geometry is that given at construction *)
Definition as_built (W : world) (order : list nat -> list nat) (ob : obj) : Prop :=
  coherent W ob /\ o_geom ob = map (named W) ([] :: map ol_geom (o_stack ob) ++ [[]]) /\
  exists ids, Forall2 (fun m i => m = MObj i) (mat_list ([] :: map ol_geom (o_stack ob) ++ [[]])) ids /\ o_mats ob = order ids.

Lemma as_built_ids order ob ids : set_order order -> Forall2 (fun m i => m = MObj i) (mat_list ([] :: map ol_geom (o_stack ob) ++ [[]])) ids -> o_mats ob = order ids ->
  forall i, In i (o_mats ob) <-> In (MObj i) (shape_mats_of (o_stack ob)).
Proof.
  intros Ho HF Hm i. rewrite Hm, (proj2 (Ho ids)), <- in_mat_list. clear -HF. induction HF as [|m j l l' -> HF IH]; simpl; [tauto|]. rewrite IH.
  split; intros [H|H]; auto; left; congruence.
Qed.

Lemma Forall2_map_l {A B C} (f : A -> B) (Q : B -> C -> Prop) l l' : Forall2 Q (map f l) l' <-> Forall2 (fun a c => Q (f a) c) l l'.
Proof.
  revert l'. induction l as [|a l IH]; intros l'; simpl; split; intros H; inversion H; subst; constructor; auto; apply IH; auto.
Qed.
Lemma filter_known_map W l : filter known (map (name_shape W) l) = map (name_shape W) (filter known l).
Proof.
  induction l as [|s l IH]; auto. cbn [map filter]. assert (E : known (name_shape W s) = known s) by (unfold known; auto). rewrite E.
  destruct (known s); cbn [map]; rewrite IH; auto.
Qed.
Lemma shapes_named W g : shapes_of (named W g) = map (name_shape W) g.
Proof. destruct g; auto. Qed.

Lemma own_asks W order o ob : set_order order -> as_built W order ob -> clash_free W (o_stack ob) ->
  length (o_widths ob) = (length (o_stack ob) + 2)%nat ->
  (forall i x y, nth_error (p_wl o) i = Some x -> nth_error (o_wl ob) i = Some y -> x = y) ->
  asks (fun S th ph pol f => th = p_theta o /\ ph = p_phi o /\ process_pol (p_pol o) = Ok pol /\ exists x, In x (p_wl o) /\ f = freq x /\
          own_materials W (o_stack ob) (o_incid ob) (o_trans ob) x S) o ob (fun _ => True).
Proof.
  intros Hord ((C1 & C2 & C3) & Hg & ids & HF & Hm) Hcf Hlen Hwl hv d i hv' D _ Hi E. split; auto. intros pol Hp. split; auto. split; auto. split; auto.
  destruct (build_S_told _ _ _ _ _ _ _ _ E) as (loc & soc & N1 & N2 & _ & _ & K1 & K2 & K3 & K4 & K4' & K5).
  rewrite C1 in N1.
  assert (exists y, nth_error (o_wl ob) i = Some y) as [y Hy].
  { destruct (nth_error (o_wl ob) i) eqn:Q; eauto. apply nth_error_None in Q. assert (nth_error (map (fun x => o_incid ob x :: map (fun l => ol_eps l x) (o_stack ob) ++ [o_trans ob x]) (o_wl ob)) i <> None) as Q' by congruence. apply nth_error_Some in Q'. rewrite map_length in Q'. lia. }
  destruct (nth_error (p_wl o) i) as [x|] eqn:Hx; [|apply nth_error_None in Hx; lia]. pose proof (Hwl i x y Hx Hy) as Exy. rewrite <- Exy in Hy.
  rewrite (map_nth_error _ _ _ Hy) in N1. injection N1 as <-. rewrite C2, (map_nth_error _ _ _ Hy) in N2. injection N2 as <-.
  exists x. split; [eapply nth_error_In; eauto|]. split; [unfold freq; rewrite (nth_error_nth _ _ 0 Hx); auto|].
  split.
  - rewrite K3, Hlen. apply firstn_all2. simpl. rewrite app_length, map_length. simpl. lia.
  - intros l lay Hl.
    assert (HL : (S l < length (s_layers D))%nat).
    { assert (length (s_layers D) = length (o_widths ob)) as ->. { transitivity (length (told_widths D)); [unfold told_widths; rewrite map_length; auto|rewrite K2, map_length; auto]. }
      assert (nth_error (o_stack ob) l <> None) as Q by congruence. apply nth_error_Some in Q. lia. }
    destruct (nth_error (s_layers D) (S l)) as [[[e w] regs]|] eqn:En; [|apply nth_error_None in En; lia].
    rewrite (nth_error_nth _ _ _ (map_nth_error snd _ _ En)). cbn [snd]. destruct (K5 _ _ _ _ En) as (g & Hg1 & HP).
    rewrite Hg in Hg1. rewrite (map_nth_error (named W) (S l) ([] :: map ol_geom (o_stack ob) ++ [[]]) (d := ol_geom lay)) in Hg1.
    2:{ cbn [nth_error]. rewrite nth_error_app1; [apply map_nth_error; auto|]. rewrite map_length. apply nth_error_Some. congruence. }
    injection Hg1 as <-. rewrite shapes_named, filter_known_map in HP. apply (proj1 (Forall2_map_l _ _ _ _)) in HP.
    assert (HIn : forall s, In s (filter known (ol_geom lay)) -> In (sh_mat s) (shape_mats_of (o_stack ob))).
    { intros s Hs. apply filter_In in Hs. unfold shape_mats_of. apply in_map. apply in_concat. exists (ol_geom lay). split; [apply in_map; eapply nth_error_In; eauto|tauto]. }
    clear En. revert HIn HP. generalize (filter known (ol_geom lay)). intros fl HIn HP. revert HIn.
    induction HP as [|s r ls rs (P1 & P2) HP IH]; intros HIn; constructor.
    + pose proof (HIn s (or_introl eq_refl)) as Hs. destruct (sh_mat s) as [id|] eqn:Es.
      2:{ exfalso. rewrite <- in_mat_list in Hs. clear -HF Hs. induction HF as [|m j u v Hmj HF IH]; simpl in Hs; [tauto|]. destruct Hs; [congruence|auto]. }
      exists id. split; auto. unfold told_eps. destruct (fst r) as [|k] eqn:Ek; [congruence|]. cbn [pred] in P1. rewrite K1.
      apply index_of_ok in P1. cbn [name_shape sh_mat] in P1. rewrite Es, C3 in P1.
      destruct (nth_error (o_mats ob) k) as [id'|] eqn:Em.
      2:{ rewrite (proj2 (nth_error_None _ _)) in P1; [discriminate|]. rewrite map_length. apply nth_error_None. auto. }
      rewrite (map_nth_error _ _ _ Em) in P1. injection P1 as P1. rewrite (map_nth_error _ _ _ Em). f_equal.
      apply Hcf; auto. apply (as_built_ids order ob ids Hord HF Hm). eapply nth_error_In; eauto.
    + apply IH. intros s' Hs'. apply HIn. right. auto.
Qed.

(* the parts a history without edits leaves alone *)
Lemma as_built_step W SV strict order e st st' : step W SV strict e st = Ok st' -> no_edit e -> as_built W order (fst st) -> as_built W order (fst st') /\ same_base (fst st') (fst st).
Proof.
  intros H Hn (C & Hg & ids & HF & Hm). destruct (step_keeps _ _ _ _ _ _ H C) as [A B]. split; auto.
  assert (G : o_geom (fst st') = o_geom (fst st)).
  { destruct e as [o|o|ws|sz|l gi f]; cbn [step] in H; try contradiction.
    - bok H. injection H as <-. destruct a as [[ob' h'] a]. apply calc_geom in E. auto.
    - bok H. injection H as <-. destruct a as [[ob' h'] a]. apply prof_geom in E. auto.
    - injection H as <-. auto.
    - injection H as <-. auto. }
  split; auto. destruct B as (B1 & B2 & B3 & B4 & _). rewrite G, B1, B4. eauto.
Qed.

Lemma update_len W wl ob : length (o_widths (update_oc W wl ob)) = (length (o_stack ob) + 2)%nat.
Proof. unfold update_oc. cbn [o_widths length]. rewrite app_length, map_length. simpl. lia. Qed.

Lemma refresh_len W strict o ob rf : refresh W strict o ob = Ok rf -> length (o_widths ob) = (length (o_stack ob) + 2)%nat ->
  length (o_widths (snd rf)) = (length (o_stack (snd rf)) + 2)%nat.
Proof. unfold refresh. intros H L. bok H. injection H as <-. cbn [snd]. destruct a; auto. rewrite update_len. auto. Qed.

Lemma calc_len W SV strict o st ob' h' a : calculate W SV strict o st = Ok (ob', h', a) -> length (o_widths (fst st)) = (length (o_stack (fst st)) + 2)%nat ->
  length (o_widths ob') = (length (o_stack ob') + 2)%nat.
Proof. intros H L. destruct (calculate_parts _ _ _ _ _ _ _ _ H) as (pol & rf & out & _ & Hr & _ & _ & -> & _). apply (refresh_len _ _ _ _ _ Hr L). Qed.

Lemma step_len W SV strict e st st' : step W SV strict e st = Ok st' -> widths_ok (fun ws => length ws = length (o_stack (fst st))) e ->
  length (o_widths (fst st)) = (length (o_stack (fst st)) + 2)%nat -> length (o_widths (fst st')) = (length (o_stack (fst st')) + 2)%nat.
Proof.
  destruct e as [o|o|ws|sz|l gi f]; cbn [step widths_ok]; intros H Hw L.
  - bok H. injection H as <-. destruct a as [[ob' h'] a]. apply (calc_len _ _ _ _ _ _ _ _ E L).
  - bok H. injection H as <-. destruct a as [[ob' h'] a]. destruct (profile_parts _ _ _ _ _ _ _ _ E) as (pol & rf & st1 & ratA & out & d & _ & Hr & _ & K & -> & _). cbn [fst].
    destruct K as [(_ & _ & ->)|(ob0 & a1 & K & Ho & _)]; auto. destruct st1 as [ob1 h1]. apply (calc_len _ _ _ _ _ _ _ _ K). cbn [fst]. destruct Ho as [-> | ->]; auto. apply (refresh_len _ _ _ _ _ Hr L).
  - injection H as <-. cbn [fst obj_set_widths o_widths o_stack length]. rewrite app_length, map_length. simpl. lia.
  - injection H as <-. auto.
  - bok H. injection H as <-. unfold edit_geom in E. bok E. destruct a0; [|discriminate]. bok E. injection E as <-. auto.
Qed.

Lemma history_built W SV strict order es : forall st st', history W SV strict es st = Ok st' ->
  (forall e, In e es -> no_edit e /\ widths_ok (fun ws => length ws = length (o_stack (fst st))) e) ->
  as_built W order (fst st) -> length (o_widths (fst st)) = (length (o_stack (fst st)) + 2)%nat ->
  as_built W order (fst st') /\ same_base (fst st') (fst st) /\ length (o_widths (fst st')) = (length (o_stack (fst st')) + 2)%nat.
Proof.
  induction es as [|e es IH]; intros st st' H He Hb L; cbn [history] in H; [injection H as <-; split; auto; split; auto; apply same_base_refl|].
  bok H. destruct (He e (or_introl eq_refl)) as [H1 H2]. destruct (as_built_step _ _ _ _ _ _ _ E H1 Hb) as [A B]. pose proof (step_len _ _ _ _ _ _ E H2 L) as L'.
  destruct (IH _ _ H) as (A' & B' & L''); auto.
  - intros e' He'. destruct B as (B1 & _). rewrite B1. apply He. right. auto.
  - split; auto. split; auto. eapply same_base_trans; eauto.
Qed.

Lemma materials_kept W order structure size o0 inc tra ob SV SV' strict h es st' o :
  let layers := List.concat (map entry_layers structure) in
  set_order order -> new_obj W order structure size o0 inc tra = Ok ob -> clash_free W layers ->
  history W SV strict es (ob, h) = Ok st' ->
  (forall e, In e es -> no_edit e /\ widths_ok (fun ws => length ws = length layers) e) ->
  agree_on (fun S th ph pol f => th = p_theta o /\ ph = p_phi o /\ process_pol (p_pol o) = Ok pol /\
     exists x, In x (p_wl o) /\ f = freq x /\ own_materials W layers inc tra x S) SV SV' ->
  calculate W SV strict o st' = calculate W SV' strict o st' /\ calculate_profile W SV strict o st' = calculate_profile W SV' strict o st'.
Proof.
  intros layers Hord Hn Hcf H He HA. destruct (new_obj_keeps _ _ _ _ _ _ _ _ Hn) as (C & S1 & S2 & S3 & S4 & S5 & ids & S6 & S7).
  assert (Hb : as_built W order ob) by (split; auto; split; eauto).
  assert (L : length (o_widths ob) = (length (o_stack ob) + 2)%nat). { unfold new_obj in Hn. bok Hn. injection Hn as <-. rewrite update_len. auto. }
  destruct (history_built W SV strict order es _ _ H) as (A & B & L'); cbn [fst]; auto. { rewrite S1. exact He. }
  destruct st' as [ob' h']. cbn [fst] in *. destruct B as (B1 & B2 & B3 & B4 & B5 & B6).
  assert (Q : forall rf, refresh W strict o ob' = Ok rf -> asks (fun S th ph pol f => th = p_theta o /\ ph = p_phi o /\ process_pol (p_pol o) = Ok pol /\
     exists x, In x (p_wl o) /\ f = freq x /\ own_materials W layers inc tra x S) o (snd rf) (fun _ => True)).
  { intros rf E. destruct A as (A1 & A2 & ids' & A3 & A4). destruct (refresh_keeps _ _ _ _ _ E A1) as (R1 & (R2 & R3 & R4 & R5 & R6 & R7) & R8 & R9 & R10 & _).
    unfold layers. rewrite <- S1, <- B1, <- R2, <- S2, <- B2, <- R3, <- S3, <- B3, <- R4. apply (own_asks W order); auto.
    - split; auto. rewrite R8, R2, R5. split; eauto.
    - rewrite R2, B1, S1. exact Hcf.
    - apply (refresh_len _ _ _ _ _ E L'). }
  split; [apply (calculate_agree W strict SV SV' _ o HA ob' h' _ Q I)|apply (profile_agree W strict SV SV' _ o ob' h' _ HA Q I)].
Qed.
