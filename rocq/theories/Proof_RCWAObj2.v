From Coq Require Import Reals List ZArith Bool String Lia Lra.
From Verif Require Import Base Lib Model_Diff Model_RCWA Model_RCWAObj Spec_RCWAObj Proof_RCWAObj.
Import ListNotations.
Local Notation length := List.length.
Open Scope R_scope.

(* ---------- which questions a calculation asks ---------- *)

Lemma run_wl_agree {X} (inv : (nat -> vlist) -> Prop) (f f' : (nat -> vlist) -> nat -> res ((nat -> vlist) * X)) n :
  (forall hv i, inv hv -> (i < n)%nat -> f hv i = f' hv i /\ forall hv' x, f hv i = Ok (hv', x) -> inv hv') ->
  forall is_ hv, (forall i, In i is_ -> (i < n)%nat) -> inv hv -> run_wl f hv is_ = run_wl f' hv is_ /\ forall out, run_wl f hv is_ = Ok out -> inv (fst out).
Proof.
  intros H is_. induction is_ as [|i is_ IH]; intros hv Hi Hv; cbn [run_wl].
  - split; auto. intros out E. injection E as <-. auto.
  - destruct (H hv i Hv (Hi i (or_introl eq_refl))) as [E1 E2]. rewrite <- E1. destruct (f hv i) as [[hv1 x]|e]; cbn [rbind fst snd]; [|split; auto; discriminate].
    destruct (IH hv1) as [I1 I2]; [intros; apply Hi; right; auto|eapply E2; eauto|]. rewrite <- I1. split; auto.
    intros out E. destruct (run_wl f hv1 is_) as [b|] eqn:Eb; cbn [rbind] in E; [|discriminate]. injection E as <-. cbn [fst]. apply I2. auto.
Qed.

(* what build_S on the object may build at wavelength i *)
Definition builds (ob : obj) (inv : (nat -> vlist) -> Prop) (o : ropts) (Q : nat -> sdesc -> Prop) : Prop :=
  forall hv d i hv' S, inv hv -> (i < length (p_wl o))%nat -> build_S ob hv (p_meth o) (p_orders o) d i = Ok (hv', S) -> inv hv' /\ Q i S.

Section Ask.
  Variables (W : world) (strict : bool) (SV SV' : solver) (P : question) (o : ropts).
  Hypothesis HA : agree_on P SV SV'.

  Definition asks (ob : obj) (inv : (nat -> vlist) -> Prop) : Prop :=
    builds ob inv o (fun i S => forall pol, process_pol (p_pol o) = Ok pol -> P S (p_theta o) (p_phi o) pol (freq (nth i (p_wl o) 0))).

  Lemma structure_wl_agree ob inv pol : asks ob inv -> process_pol (p_pol o) = Ok pol -> forall hv i, inv hv -> (i < length (p_wl o))%nat ->
    structure_wl SV ob hv o pol i = structure_wl SV' ob hv o pol i /\ forall hv' x, structure_wl SV ob hv o pol i = Ok (hv', x) -> inv hv'.
  Proof.
    intros HQ Hp hv i Hv Hi. unfold structure_wl. destruct (build_S ob hv (p_meth o) (p_orders o) (o_user ob) i) as [[hv1 S]|e] eqn:EB; cbn [rbind fst snd]; [|split; auto; discriminate].
    destruct (HQ hv _ i hv1 S Hv Hi EB) as [Q1 Q2]. fold (freq (nth i (p_wl o) 0)). rewrite <- (HA _ _ _ _ _ (Q2 pol Hp)).
    split; auto. destruct (rcwa_rt _ _) as [[? ?] ?]. intros hv' x E. injection E as <- _. auto.
  Qed.

  Lemma wl_prof_agree ob inv pol ratA dist : asks ob inv -> process_pol (p_pol o) = Ok pol -> forall hv i, inv hv -> (i < length (p_wl o))%nat ->
    wl_prof SV ob ratA dist o pol hv i = wl_prof SV' ob ratA dist o pol hv i /\ forall hv' x, wl_prof SV ob ratA dist o pol hv i = Ok (hv', x) -> inv hv'.
  Proof.
    intros HQ Hp hv i Hv Hi. unfold wl_prof. destruct (py_index ratA (Z.of_nat i)) as [x|]; cbn [rbind]; [|split; auto; discriminate].
    destruct (Rltb 0 x); [|split; auto; intros hv' y E; injection E as <- _; auto].
    destruct (build_S ob hv (p_meth o) (p_orders o) (o_user ob) i) as [[hv1 S]|e] eqn:EB; cbn [rbind fst snd]; [|split; auto; discriminate].
    destruct (HQ hv _ i hv1 S Hv Hi EB) as [Q1 Q2]. fold (freq (nth i (p_wl o) 0)). rewrite <- (HA _ _ _ _ _ (Q2 pol Hp)).
    split; auto. intros hv' y E. injection E as <- _. auto.
  Qed.

  (* the object after the check of the wavelengths *)
  Lemma calculate_agree ob h inv : (forall rf, refresh W strict o ob = Ok rf -> asks (snd rf) inv) -> inv (h_v h) ->
    calculate W SV strict o (ob, h) = calculate W SV' strict o (ob, h) /\
    (forall ob' h' a, calculate W SV strict o (ob, h) = Ok (ob', h', a) -> inv (h_v h')).
  Proof.
    intros HQ Hv. unfold calculate. cbn [fst snd]. destruct (process_pol (p_pol o)) as [pol|] eqn:Ep; cbn [rbind]; [|split; auto; discriminate].
    destruct (refresh W strict o ob) as [rf|] eqn:Er; cbn [rbind]; [|split; auto; discriminate]. specialize (HQ rf eq_refl).
    set (K := match p_meth o with MOther => Err KeyError | _ => Ok tt end). destruct K; cbn [rbind]; [|split; auto; discriminate].
    destruct (run_wl_agree inv (fun hv i => structure_wl SV (snd rf) hv o pol i) (fun hv i => structure_wl SV' (snd rf) hv o pol i) (length (p_wl o))
      (structure_wl_agree (snd rf) inv pol HQ Ep) (seq 0 (length (p_wl o))) (h_v h)) as [R1 R2]; [intros i Hi; apply in_seq in Hi; lia|auto|].
    rewrite <- R1. split; auto. intros ob' h' a E. destruct (run_wl _ _ _) as [out|] eqn:Eo; cbn [rbind] in E; [|discriminate].
    destruct (snd out) eqn:Es; cbn [rbind] in E; [discriminate|]. assert (Hne : snd out <> []) by congruence. rewrite <- Es in *. clear Es. destruct (p_perorder o).
    - bok E. bok E. injection E as _ <- _. cbn [h_v]. unfold make_S in E1.
      assert (Hn : (0 < length (p_wl o))%nat). { destruct (p_wl o); [|simpl; lia]. cbn in Eo. injection Eo as <-. exfalso. apply Hne. auto. }
      assert (B : exists d, build_S (snd rf) (fst out) (p_meth o) (p_orders o) d 0 = Ok a1). { destruct (p_meth o); [destruct (p_s4 o); [eauto|discriminate]| |]; eauto. }
      destruct B as [d B]. destruct a1 as [hv1 S1]. destruct (HQ (fst out) d 0%nat hv1 S1); auto.
    - injection E as _ <- _. cbn [h_v]. apply R2. auto.
  Qed.

  Lemma asks_results ob inv rat a : asks ob inv -> asks (with_results ob rat a) inv.
  Proof. unfold asks, builds. intros H hv d i hv' S Hv Hi E. apply (H hv d i hv' S); auto. Qed.
End Ask.

(* ---------- the comparison of wavelengths ---------- *)

Lemma np_all_eq_nth strict a b i x y : np_all_eq strict a b = Ok true -> nth_error a i = Some x -> nth_error b i = Some y -> x = y.
Proof.
  unfold np_all_eq. intros H Ha Hb. destruct (Nat.eqb_spec (length a) (length b)) as [L|L].
  - injection H as H. revert b i L H Ha Hb. induction a as [|u a IH]; intros [|v b] [|i] L H Ha Hb; try discriminate.
    + simpl in H, Ha, Hb. injection Ha as ->. injection Hb as ->. apply andb_prop in H. destruct H as [H _]. apply Reqb_true in H. auto.
    + cbn [nth_error] in Ha, Hb. cbn [combine forallb] in H. apply andb_prop in H. destruct H as [_ H]. apply (IH b i); auto.
  - destruct (Nat.eqb_spec (length a) 1) as [L1|L1].
    + injection H as H. rewrite forallb_forall in H. apply nth_error_In in Hb. apply H in Hb. apply Reqb_true in Hb.
      destruct a as [|u [|v a]]; try discriminate. destruct i; [|destruct i; discriminate]. simpl in *. congruence.
    + destruct (Nat.eqb_spec (length b) 1) as [L2|L2]; [|destruct strict; discriminate].
      injection H as H. rewrite forallb_forall in H. apply nth_error_In in Ha. apply H in Ha. apply Reqb_true in Ha.
      destruct b as [|u [|v b]]; try discriminate. destruct i; [|destruct i; discriminate]. simpl in *. congruence.
Qed.

Lemma np_all_eq_refl strict a : np_all_eq strict a a = Ok true.
Proof.
  unfold np_all_eq. rewrite Nat.eqb_refl. f_equal. apply forallb_forall. intros [x y] H. apply Reqb_true. cbn [fst snd].
  induction a as [|u a IH]; simpl in H; [tauto|]. destruct H as [H|H]; [congruence|auto].
Qed.

Lemma refresh_same W strict o ob : p_wl o = o_wl ob -> refresh W strict o ob = Ok (true, ob).
Proof. intros H. unfold refresh. rewrite H, np_all_eq_refl. auto. Qed.

(* ---------- invariant of an object's history ---------- *)

Definition coherent (W : world) (ob : obj) : Prop :=
  o_layers_oc ob = map (fun x => o_incid ob x :: map (fun l => ol_eps l x) (o_stack ob) ++ [o_trans ob x]) (o_wl ob) /\
  o_shapes_oc ob = map (fun x => map (fun m => m_eps W m x) (o_mats ob)) (o_wl ob) /\
  o_names ob = map (m_name W) (o_mats ob).

(* never changed after construction *)
Definition same_base (a b : obj) : Prop :=
  o_stack a = o_stack b /\ o_incid a = o_incid b /\ o_trans a = o_trans b /\ o_mats a = o_mats b /\ o_names a = o_names b /\ o_user a = o_user b.
Lemma same_base_refl a : same_base a a. Proof. unfold same_base. auto 10. Qed.
Lemma same_base_trans a b c : same_base a b -> same_base b c -> same_base a c.
Proof. unfold same_base. intros (A1 & A2 & A3 & A4 & A5 & A6) (B1 & B2 & B3 & B4 & B5 & B6). rewrite A1, A2, A3, A4, A5, A6. auto 10. Qed.

Lemma update_coherent W wl ob : o_names ob = map (m_name W) (o_mats ob) -> coherent W (update_oc W wl ob).
Proof. intros H. unfold coherent, update_oc. simpl. auto. Qed.

Lemma refresh_keeps W strict o ob rf : refresh W strict o ob = Ok rf -> coherent W ob ->
  coherent W (snd rf) /\ same_base (snd rf) ob /\ o_geom (snd rf) = o_geom ob /\ o_size (snd rf) = o_size ob /\
  (forall i x y, nth_error (p_wl o) i = Some x -> nth_error (o_wl (snd rf)) i = Some y -> x = y) /\
  o_ratA (snd rf) = o_ratA ob /\ o_results (snd rf) = o_results ob.
Proof.
  unfold refresh. intros H C. destruct (np_all_eq strict (p_wl o) (o_wl ob)) as [[|]|] eqn:E; cbn [rbind] in H; [| |discriminate]; injection H as <-; cbn [snd].
  - split; auto. split; [apply same_base_refl|]. split; auto. split; auto. split; auto. intros i x y. apply (np_all_eq_nth strict). auto.
  - split; [apply update_coherent; apply C|]. split; [unfold same_base; simpl; auto 10|]. split; auto. split; auto. split; auto. simpl. congruence.
Qed.

Lemma calculate_parts W SV strict o st ob' h' a : calculate W SV strict o st = Ok (ob', h', a) ->
  exists pol rf out, process_pol (p_pol o) = Ok pol /\ refresh W strict o (fst st) = Ok rf /\ p_meth o <> MOther /\
    run_wl (fun hv i => structure_wl SV (snd rf) hv o pol i) (h_v (snd st)) (seq 0 (length (p_wl o))) = Ok out /\
    ob' = with_results (snd rf) (map rsum (map (fun x => snd (fst x)) (snd out))) a /\ a = length (h_res (snd st)) /\ snd out <> [] /\
    exists ord, h_res h' = h_res (snd st) ++ [mk_rdict (map (fun x => fst (fst (fst x))) (snd out)) (map (fun x => snd (fst (fst x))) (snd out)) (map (fun x => snd (fst x)) (snd out)) ord None] /\
    (if p_perorder o then exists S, make_S (snd rf) (fst out) o 0 = Ok (h_v h', S) else h_v h' = fst out).
Proof.
  unfold calculate. intros H. bok H. bok H. bok H. bok H. bok H. exists a0, a1, a3. split; auto. split; auto.
  split. { intros Q. rewrite Q in E1. discriminate. } split; auto.
  destruct (snd a3) eqn:Es; [discriminate|]. destruct (p_perorder o).
  - bok H. bok H. injection H as <- <- <-. split; auto. split; auto. split; [discriminate|]. eexists. cbn [h_res h_v]. split; [reflexivity|].
    exists (snd a6). rewrite E5. destruct a6; auto.
  - injection H as <- <- <-. split; auto. split; auto. split; [discriminate|]. exists None. split; auto.
Qed.

Lemma calculate_keeps W SV strict o st ob' h' a : calculate W SV strict o st = Ok (ob', h', a) -> coherent W (fst st) ->
  coherent W ob' /\ same_base ob' (fst st) /\ o_geom ob' = o_geom (fst st) /\ o_size ob' = o_size (fst st).
Proof.
  intros H C. destruct (calculate_parts _ _ _ _ _ _ _ _ H) as (pol & rf & out & _ & Hr & _ & _ & -> & _). destruct (refresh_keeps _ _ _ _ _ Hr C) as (A & B & D & E & _).
  unfold with_results, coherent, same_base in *. simpl. auto.
Qed.

Lemma profile_parts W SV strict o st ob' h' a : calculate_profile W SV strict o st = Ok (ob', h', a) ->
  exists pol rf st1 ratA out d, process_pol (p_pol o) = Ok pol /\ refresh W strict o (fst st) = Ok rf /\ p_meth o <> MOther /\
    ((fst rf = true /\ o_ratA (fst st) <> None /\ st1 = st) \/
     exists ob0 a1, calculate W SV strict o (ob0, snd st) = Ok (st1, a1) /\ (ob0 = snd rf \/ ob0 = fst st) /\ (fst rf = true -> o_ratA (fst st) = None /\ ob0 = fst st) /\ (fst rf = false -> ob0 = snd rf)) /\
    ob' = fst st1 /\ o_ratA ob' = Some ratA /\ o_results ob' = Some a /\
    run_wl (wl_prof SV ob' ratA (prof_dist ob' o) o pol) (h_v (snd st1)) (seq 0 (length (p_wl o))) = Ok out /\ h_v h' = fst out /\ snd out <> [] /\
    nth_error (h_res (snd st1)) a = Some d /\
    h_res h' = set_nth a (mk_rdict (r_R d) (r_T d) (r_A d) (r_orders d) (Some (map (map clip0) (snd out)))) (h_res (snd st1)).
Proof.
  intros H. unfold calculate_profile in H. bok H. bok H. bok H. bok H. bok H. bok H. bok H. bok H. bok H. bok H. injection H as <- <- <-.
  apply py_index_nth in E8. destruct (o_ratA (fst a3)) as [r|] eqn:ER; [|discriminate]. injection E3 as <-. destruct (o_results (fst a3)) as [q|] eqn:EQ; [|discriminate]. injection E7 as <-.
  exists a0, a1, a3, r, a6, a9. split; auto. split; auto. split. { intros Q. rewrite Q in E4. discriminate. }
  split; [|cbn [h_v h_res]; repeat (split; auto); intros Q; rewrite Q in E6; discriminate].
  destruct (fst a1) eqn:E0'.
  - injection E1 as <-. cbn [fst] in E2. destruct (o_ratA (fst st)) as [r0|] eqn:ER0.
    + injection E2 as <-. left. split; auto. split; [discriminate|]. destruct st; auto.
    + right. apply rbind_ok in E2. destruct E2 as (z & Ez & E2). injection E2 as <-. exists (fst st), (snd z). split; [destruct z; exact Ez|]. split; auto. split; auto. discriminate.
  - apply rbind_ok in E1. destruct E1 as (z & Ez & E1). injection E1 as <-. destruct (calculate_parts _ _ _ _ _ _ _ _ ltac:(rewrite <- (surjective_pairing (fst z)), <- surjective_pairing; exact Ez)) as (? & ? & ? & _ & _ & _ & _ & Q & _).
    rewrite Q in E2. unfold with_results in E2. cbn [o_ratA] in E2. injection E2 as <-.
    right. exists (snd a1), (snd z). split; [destruct z; exact Ez|]. split; auto. split; auto; discriminate.
Qed.

Lemma profile_keeps W SV strict o st ob' h' a : calculate_profile W SV strict o st = Ok (ob', h', a) -> coherent W (fst st) ->
  coherent W ob' /\ same_base ob' (fst st) /\ o_geom ob' = o_geom (fst st) /\ o_size ob' = o_size (fst st).
Proof.
  intros H C. destruct (profile_parts _ _ _ _ _ _ _ _ H) as (pol & rf & st1 & ratA & out & d & _ & Hr & _ & K & -> & _).
  destruct K as [(_ & _ & ->)|(ob0 & a1 & K & Ho & _)].
  - split; auto. split; [apply same_base_refl|auto].
  - destruct (refresh_keeps _ _ _ _ _ Hr C) as (A & B & D & E & _). destruct st1 as [ob1 h1]. cbn [fst].
    destruct Ho as [-> | ->]; destruct (calculate_keeps _ _ _ _ _ _ _ _ K) as (K1 & K2 & K3 & K4); auto; cbn [fst] in *.
    + split; auto. split; [eapply same_base_trans; eauto|]. split; congruence.
Qed.

Lemma step_keeps W SV strict e st st' : step W SV strict e st = Ok st' -> coherent W (fst st) -> coherent W (fst st') /\ same_base (fst st') (fst st).
Proof.
  destruct e as [o|o|ws|sz|l gi f]; simpl; intros H C.
  - bok H. injection H as <-. destruct a as [[ob' h'] a]. destruct (calculate_keeps _ _ _ _ _ _ _ _ E C) as (A & B & _). auto.
  - bok H. injection H as <-. destruct a as [[ob' h'] a]. destruct (profile_keeps _ _ _ _ _ _ _ _ E C) as (A & B & _). auto.
  - injection H as <-. unfold coherent, same_base in *. simpl. auto 10.
  - injection H as <-. unfold coherent, same_base in *. simpl. auto 10.
  - bok H. injection H as <-. unfold edit_geom in E. bok E. destruct a0; [|discriminate]. bok E. injection E as <-. unfold coherent, same_base in *. simpl. auto 10.
Qed.

Lemma history_keeps W SV strict es : forall st st', history W SV strict es st = Ok st' -> coherent W (fst st) -> coherent W (fst st') /\ same_base (fst st') (fst st).
Proof.
  induction es as [|e es IH]; intros st st' H C; cbn [history] in H; [injection H as <-; split; auto; apply same_base_refl|].
  bok H. destruct (step_keeps _ _ _ _ _ _ E C) as [A B]. destruct (IH _ _ H A) as [A' B']. split; auto. eapply same_base_trans; eauto.
Qed.

Lemma new_obj_keeps W order structure size o inc tra ob : new_obj W order structure size o inc tra = Ok ob ->
  coherent W ob /\ o_stack ob = List.concat (map entry_layers structure) /\ o_incid ob = inc /\ o_trans ob = tra /\
  o_geom ob = map (named W) ([] :: map ol_geom (o_stack ob) ++ [[]]) /\ o_names ob = map (m_name W) (o_mats ob) /\
  exists ids, Forall2 (fun m i => m = MObj i) (mat_list ([] :: map ol_geom (o_stack ob) ++ [[]])) ids /\ o_mats ob = order ids.
Proof.
  intros H. unfold new_obj in H. bok H. injection H as <-. split; [apply update_coherent; reflexivity|]. unfold update_oc. cbn [o_stack o_incid o_trans o_geom o_names o_mats].
  repeat (split; [reflexivity|]). unfold set_of in E. bok E. injection E as <-. exists a0. split; auto.
  generalize dependent a0. induction (mat_list _) as [|m l IH]; intros ids E.
  - injection E as <-. constructor.
  - cbn [rmap] in E. bok E. bok E. injection E as <-. constructor; [destruct m; congruence|]. auto.
Qed.

(* ---------- the questions of calculate_profile ---------- *)

Lemma profile_agree W strict SV SV' P o ob h inv : agree_on P SV SV' -> (forall rf, refresh W strict o ob = Ok rf -> asks P o (snd rf) inv) -> inv (h_v h) ->
  calculate_profile W SV strict o (ob, h) = calculate_profile W SV' strict o (ob, h) /\
  (forall ob' h' a, calculate_profile W SV strict o (ob, h) = Ok (ob', h', a) -> inv (h_v h')).
Proof.
  intros HA HQ Hv. unfold calculate_profile. cbn [fst snd]. destruct (process_pol (p_pol o)) as [pol|] eqn:Ep; cbn [rbind]; [|split; auto; discriminate].
  destruct (refresh W strict o ob) as [rf|] eqn:Er; cbn [rbind]; [|split; auto; discriminate]. pose proof (HQ rf eq_refl) as HQ0.
  assert (T : forall st2 : obj * heap, asks P o (fst st2) inv -> inv (h_v (snd st2)) ->
    let body SV := (let ob := fst st2 in
      rbind (match o_ratA ob with Some r => Ok r | None => Err AttributeError end) (fun ratA =>
      rbind (match p_meth o with MOther => Err KeyError | _ => Ok tt end) (fun _ =>
      rbind (run_wl (wl_prof SV ob ratA (prof_dist ob o) o pol) (h_v (snd st2)) (seq 0 (length (p_wl o)))) (fun out =>
      rbind (match snd out with [] => Err ValueError | _ => Ok tt end) (fun _ =>
      rbind (match o_results ob with Some a => Ok a | None => Err AttributeError end) (fun a =>
      rbind (py_index (h_res (snd st2)) (Z.of_nat a)) (fun d =>
      Ok (ob, mk_heap (fst out) (set_nth a (mk_rdict (r_R d) (r_T d) (r_A d) (r_orders d) (Some (map (map clip0) (snd out)))) (h_res (snd st2))), a)))))))) in
    body SV = body SV' /\ (forall ob' h' a, body SV = Ok (ob', h', a) -> inv (h_v h'))).
  { intros st2 K1 K2. cbv zeta. destruct (o_ratA (fst st2)) as [ratA|]; cbn [rbind]; [|split; auto; discriminate].
    set (K := match p_meth o with MOther => Err KeyError | _ => Ok tt end). destruct K; cbn [rbind]; [|split; auto; discriminate].
    destruct (run_wl_agree inv (wl_prof SV (fst st2) ratA (prof_dist (fst st2) o) o pol) (wl_prof SV' (fst st2) ratA (prof_dist (fst st2) o) o pol) (length (p_wl o))
      (wl_prof_agree SV SV' P o HA (fst st2) inv pol ratA (prof_dist (fst st2) o) K1 Ep) (seq 0 (length (p_wl o))) (h_v (snd st2))) as [R1 R2]; [intros i Hi; apply in_seq in Hi; lia|auto|].
    rewrite <- R1. split; auto. intros ob' h' a E. destruct (run_wl _ _ _) as [out|] eqn:Eo; cbn [rbind] in E; [|discriminate].
    bok E. bok E. bok E. injection E as _ <- _. cbn [h_v]. apply R2. auto. }
  cbv zeta in T.
  assert (C : forall ob0, (ob0 = ob \/ ob0 = snd rf) -> refresh W strict o ob0 = Ok (true, ob0) \/ ob0 = ob ->
     calculate W SV strict o (ob0, h) = calculate W SV' strict o (ob0, h) /\
     forall x, calculate W SV strict o (ob0, h) = Ok x -> asks P o (fst (fst x)) inv /\ inv (h_v (snd (fst x))) /\ o_ratA (fst (fst x)) <> None).
  { intros ob0 H1 H2. assert (H3 : forall rf0, refresh W strict o ob0 = Ok rf0 -> asks P o (snd rf0) inv).
    { intros rf0 E. destruct H2 as [H2| ->]; [|apply HQ; rewrite <- Er; auto; congruence]. rewrite H2 in E. injection E as <-. cbn [snd].
      destruct H1 as [-> | ->]; [|auto]. rewrite H2 in Er. injection Er as <-. auto. }
    destruct (calculate_agree W strict SV SV' P o HA ob0 h inv H3 Hv) as [A1 A2]. split; auto. intros [[ob' h'] a] E. cbn [fst snd].
    split; [|split; [eapply A2; eauto|]]; destruct (calculate_parts _ _ _ _ _ _ _ _ E) as (? & rf0 & ? & _ & Hr0 & _ & _ & -> & _); [apply asks_results; auto|]. unfold with_results. cbn [o_ratA]. discriminate. }
  destruct (fst rf) eqn:Ef; cbn [rbind fst snd].
  - assert (Eo : snd rf = ob). { unfold refresh in Er. bok Er. injection Er as <-. cbn [fst snd] in *. rewrite Ef. auto. }
    destruct (o_ratA ob) as [r|] eqn:ER; cbn [rbind].
    + cbn [fst]. apply (T (ob, h)); cbn [fst snd]; auto. rewrite <- Eo. auto.
    + destruct (C ob (or_introl eq_refl) (or_intror eq_refl)) as [C1 C2]. rewrite <- C1. destruct (calculate W SV strict o (ob, h)) as [x|] eqn:Ec; cbn [rbind]; [|split; auto; discriminate].
      destruct (C2 x eq_refl) as (D1 & D2 & _). apply (T (fst x)); auto.
  - assert (Eo : snd rf = update_oc W (p_wl o) ob). { unfold refresh in Er. bok Er. injection Er as <-. cbn [fst snd] in *. rewrite Ef. auto. }
    assert (RS : refresh W strict o (snd rf) = Ok (true, snd rf)). { apply refresh_same. rewrite Eo. auto. }
    destruct (C (snd rf) (or_intror eq_refl) (or_introl RS)) as [C1 C2]. rewrite <- C1. destruct (calculate W SV strict o (snd rf, h)) as [x|] eqn:Ec; cbn [rbind]; [|split; auto; discriminate].
    destruct (C2 x eq_refl) as (D1 & D2 & D3). destruct (o_ratA (fst (fst x))) eqn:ER; [|congruence]. pose proof (T (fst x) D1 D2) as TT.
    rewrite ER in TT. cbn [rbind] in *. rewrite ER. cbn [rbind]. exact TT.
Qed.
