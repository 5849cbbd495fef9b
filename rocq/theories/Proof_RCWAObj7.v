From Coq Require Import Reals List ZArith Bool String Lia Lra.
From Verif Require Import Base Lib Model_Diff Model_RCWA Model_RCWAObj Spec_RCWAObj Proof_RCWAObj Proof_RCWAObj2 Proof_RCWAObj3 Proof_RCWAObj4 Proof_RCWAObj5 Proof_RCWAObj6.
Import ListNotations.
Local Notation length := List.length.
Open Scope R_scope.

(* ---------- calculate needs a stack for its first wavelength ---------- *)

Lemma calculate_builds W SV strict o ob h r : calculate W SV strict o (ob, h) = Ok r ->
  exists rf hS, refresh W strict o ob = Ok rf /\ build_S (snd rf) (h_v h) (p_meth o) (p_orders o) (o_user (snd rf)) 0 = Ok hS.
Proof.
  destruct r as [[ob' h'] a]. intros H. destruct (calculate_parts _ _ _ _ _ _ _ _ H) as (pol & rf & out & _ & Hr & _ & Hrun & _ & _ & Hne & _). cbn [fst snd] in *.
  exists rf. destruct (length (p_wl o)) as [|n]; cbn [seq run_wl] in Hrun; [injection Hrun as <-; contradiction|].
  apply rbind_ok in Hrun. destruct Hrun as (u & Eu & _). unfold structure_wl in Eu. apply rbind_ok in Eu. destruct Eu as (hS & E & _). exists hS. auto.
Qed.

Lemma refresh_names W strict o ob rf : refresh W strict o ob = Ok rf -> o_names (snd rf) = o_names ob.
Proof. unfold refresh. intros H. bok H. injection H as <-. cbn [snd]. destruct a; auto. Qed.

Lemma edit_keeps ob ob' layer gi f : edit_geom layer gi f ob = Ok ob' -> exists g s l, nth_error (o_geom ob) layer = Some (Some l) /\ nth_error l gi = Some s /\ g = set_nth gi (f s) l /\
  nth_error (o_geom ob') layer = Some (Some g) /\ o_names ob' = o_names ob /\ o_stack ob' = o_stack ob /\ o_widths ob' = o_widths ob.
Proof.
  intros H. unfold edit_geom in H. apply rbind_ok in H. destruct H as (g & Eg & H). destruct g as [l|]; [|discriminate]. apply rbind_ok in H. destruct H as (s & Es & H). injection H as <-.
  apply py_index_nth in Eg. apply py_index_nth in Es. exists (set_nth gi (f s) l), s, l. cbn [o_geom o_names o_stack o_widths]. split; auto. split; auto. split; auto. split; [|auto]. eapply set_nth_nth; eauto.
Qed.

(* after an edit to a material no shape had at construction *)
Lemma edit_new_fails W SV strict o h ob ob' layer gi f : edit_geom layer gi f ob = Ok ob' -> length (o_widths ob) = (length (o_stack ob) + 2)%nat -> (layer <= length (o_stack ob) + 1)%nat ->
  (forall s, known (f s) = true /\ ~ In (sh_mat (f s)) (o_names ob)) -> forall r, calculate W SV strict o (ob', h) <> Ok r.
Proof.
  intros H HL Hl Hf r HC. destruct (edit_keeps _ _ _ _ _ H) as (g & s & l & _ & Es & Eg & G & N & S1 & Wd). destruct (calculate_builds _ _ _ _ _ _ _ HC) as (rf & [hv' D] & Hr & HB).
  destruct (build_S_told _ _ _ _ _ _ _ _ HB) as (loc & soc & _ & _ & _ & _ & _ & KW & _ & _ & _ & K).
  pose proof (refresh_len _ _ _ _ _ Hr ltac:(rewrite S1, Wd; exact HL)) as RL.
  assert (RS : o_stack (snd rf) = o_stack ob'). { unfold refresh in Hr. bok Hr. injection Hr as <-. destruct a; auto. }
  assert (LD : length (s_layers D) = (length (o_stack ob) + 2)%nat). { transitivity (length (told_widths D)); [unfold told_widths; rewrite map_length; auto|]. rewrite KW, map_length, RL, RS, S1. auto. }
  destruct (nth_error (s_layers D) layer) as [[[e w] regs]|] eqn:En; [|apply nth_error_None in En; lia]. destruct (K _ _ _ _ En) as (g' & Hg & HP).
  rewrite (refresh_geom _ _ _ _ _ Hr), G in Hg. injection Hg as <-. cbn [shapes_of] in HP. destruct (Hf s) as [Hk Hin].
  destruct (Forall2_In_l _ _ _ (f s) HP) as (q & _ & P & _). { apply filter_In. split; auto. apply (nth_error_In _ gi). rewrite Eg. eapply set_nth_nth. eauto. }
  apply Hin. apply index_of_ok in P. apply nth_error_In in P. rewrite (refresh_names _ _ _ _ _ Hr), N in P. auto.
Qed.

Lemma geom_len W order structure size o inc tra ob : new_obj W order structure size o inc tra = Ok ob -> length (o_geom ob) = (length (o_stack ob) + 2)%nat /\ length (o_widths ob) = (length (o_stack ob) + 2)%nat.
Proof.
  intros H. destruct (new_obj_keeps _ _ _ _ _ _ _ _ H) as (_ & _ & _ & _ & G & _). rewrite G, map_length. cbn [length]. rewrite app_length, map_length. split; [simpl; lia|].
  unfold new_obj in H. bok H. injection H as <-. rewrite update_len. reflexivity.
Qed.

Lemma too_many_fails W order structure size o inc tra ob SV strict o' h ws : new_obj W order structure size o inc tra = Ok ob ->
  (length (List.concat (map entry_layers structure)) < length ws)%nat -> p_wl o' = p_wl o -> forall r, calculate W SV strict o' (obj_set_widths ws ob, h) <> Ok r.
Proof.
  intros H Hn Hw r HC. destruct (calculate_builds _ _ _ _ _ _ _ HC) as (rf & hS & Hr & HB).
  assert (E : p_wl o' = o_wl (obj_set_widths ws ob)). { rewrite Hw. unfold new_obj in H. bok H. injection H as <-. reflexivity. }
  rewrite (refresh_same _ _ _ _ E) in Hr. injection Hr as <-. cbn [snd] in HB. destruct (geom_len _ _ _ _ _ _ _ _ H) as [G _].
  apply (too_many_widths ob (h_v h) (p_meth o') (p_orders o') (o_user (obj_set_widths ws ob)) 0 ws G) in HB; auto. destruct (new_obj_keeps _ _ _ _ _ _ _ _ H) as (_ & -> & _). auto.
Qed.

(* ---------- calculate returns (C117) ---------- *)

Definition names_known (ob : obj) : Prop := forall g s, In g (o_geom ob) -> In s (shapes_of g) -> In (sh_mat s) (o_names ob).
Definition complete_geom (m : meth) (ob : obj) : Prop := m = MS4 -> forall g s, In g (o_geom ob) -> In s (shapes_of g) -> complete (sh_geo s).

Lemma as_built_known W order ob : set_order order -> as_built W order ob -> names_known ob.
Proof.
  intros Hord (C & G & ids & F & M) g s Hg Hs. rewrite G in Hg. apply in_map_iff in Hg. destruct Hg as (g0 & <- & Hg). rewrite shapes_named in Hs. apply in_map_iff in Hs. destruct Hs as (s0 & <- & Hs).
  assert (I : In (sh_mat s0) (mat_list ([] :: map ol_geom (o_stack ob) ++ [[]]))). { unfold mat_list. apply in_map. apply in_concat. exists g0. auto. }
  destruct (Forall2_In_l _ _ _ _ F I) as (i & Hi & E). cbn [name_shape sh_mat]. rewrite E. destruct C as (_ & _ & ->). apply in_map. rewrite M. apply (proj2 (Hord ids)). auto.
Qed.

Lemma shapes_S4_total hv names l : (forall s, In s l -> In (sh_mat s) names /\ complete (sh_geo s)) -> exists r, shapes_S4 hv names l = Ok r.
Proof.
  induction l as [|s l IH]; intros H; cbn [shapes_S4]; eauto. destruct (H s (or_introl eq_refl)) as [A B]. destruct (index_of_in _ _ A) as [i ->]. cbn [rbind].
  assert (Q : exists cs, region_S4 hv (sh_geo s) = Ok cs). { destruct (sh_geo s) as [| | |c a v|]; cbn [region_S4]; eauto. cbn [complete] in B. destruct c, a; try tauto; eauto. }
  destruct Q as [cs ->]. cbn [rbind]. destruct IH as [r ->]; [intros; apply H; right; auto|]. cbn [rbind]. eauto.
Qed.

Lemma shapes_ink_total names l : (forall s, In s l -> In (sh_mat s) names) -> forall hv, exists r, shapes_ink hv names l = Ok r.
Proof.
  induction l as [|s l IH]; intros H hv; cbn [shapes_ink]; eauto. destruct (index_of_in _ _ (H s (or_introl eq_refl))) as [i ->]. cbn [rbind].
  destruct (region_ink hv (sh_geo s)) as [hv1 cs]. destruct (IH (fun s Hs => H s (or_intror Hs)) hv1) as [r ->]. cbn [rbind]. eauto.
Qed.

Lemma py_index_some {A} (l : list A) i : (i < length l)%nat -> exists x, py_index l (Z.of_nat i) = Ok x /\ nth_error l i = Some x.
Proof. intros H. destruct (nth_error l i) as [x|] eqn:E; [|apply nth_error_None in E; lia]. exists x. split; auto. apply py_index_nth. auto. Qed.

Lemma layers_S4_total hv names oc geom : (forall g s, In g geom -> In s (shapes_of g) -> In (sh_mat s) names /\ complete (sh_geo s)) ->
  forall ws i, (i + length ws <= length oc)%nat -> (i + length ws <= length geom)%nat -> exists r, layers_S4 hv names i ws oc geom = Ok r.
Proof.
  intros H. induction ws as [|w ws IH]; intros i H1 H2; cbn [layers_S4]; eauto. cbn [length] in *. destruct (py_index_some oc i ltac:(lia)) as (e & -> & _). destruct (py_index_some geom i ltac:(lia)) as (g & -> & Hg). cbn [rbind].
  destruct (shapes_S4_total hv names (shapes_of g)) as [sh ->]; [intros s Hs; apply (H g s (nth_error_In _ _ Hg) Hs)|]. cbn [rbind]. destruct (IH (S i)) as [r ->]; try lia. cbn [rbind]. eauto.
Qed.

Lemma layers_ink_total names oc geom : (forall g s, In g geom -> In s (shapes_of g) -> In (sh_mat s) names) ->
  forall ws hv i, (i + length ws <= length oc)%nat -> (i + length ws <= length geom)%nat -> exists r, layers_ink hv names i ws oc geom = Ok r.
Proof.
  intros H. induction ws as [|w ws IH]; intros hv i H1 H2; cbn [layers_ink]; eauto. cbn [length] in *. destruct (py_index_some oc i ltac:(lia)) as (e & -> & _). destruct (py_index_some geom i ltac:(lia)) as (g & -> & Hg). cbn [rbind].
  destruct (shapes_ink_total names (shapes_of g)) with (hv := hv) as [sh ->]; [intros s Hs; apply (H g s (nth_error_In _ _ Hg) Hs)|]. cbn [rbind]. destruct (IH (fst sh) (S i)) as [r ->]; try lia. cbn [rbind]. eauto.
Qed.

Lemma build_S_total W ob hv m orders d i : coherent W ob -> names_known ob -> complete_geom m ob -> m <> MOther -> (m = MS4 -> exists l, read_options d = Ok l) ->
  length (o_widths ob) = (length (o_stack ob) + 2)%nat -> length (o_geom ob) = (length (o_stack ob) + 2)%nat -> (i < length (o_wl ob))%nat -> exists r, build_S ob hv m orders d i = Ok r.
Proof.
  intros (C1 & C2 & _) HN HC Hm Hd LW LG Hi. unfold build_S. rewrite C1, C2.
  destruct (py_index_some (map (fun x => o_incid ob x :: map (fun l => ol_eps l x) (o_stack ob) ++ [o_trans ob x]) (o_wl ob)) i ltac:(rewrite map_length; auto)) as (loc & -> & Hloc).
  destruct (py_index_some (map (fun x => map (fun m => m_eps W m x) (o_mats ob)) (o_wl ob)) i ltac:(rewrite map_length; auto)) as (soc & -> & _). cbn [rbind].
  assert (LL : length loc = (length (o_stack ob) + 2)%nat). { rewrite nth_error_map in Hloc. destruct (nth_error (o_wl ob) i); [|discriminate]. injection Hloc as <-. cbn [length]. rewrite app_length, map_length. simpl. lia. }
  destruct m; [| |congruence].
  - unfold initialise_S. destruct (Hd eq_refl) as [l ->]. cbn [rbind]. destruct (layers_S4_total hv (o_names ob) loc (o_geom ob)) with (ws := o_widths ob) (i := 0%nat) as [r ->]; try lia; [|cbn [rbind]; eauto].
    intros g s Hg Hs. split; [apply (HN g s Hg Hs)|apply (HC eq_refl g s Hg Hs)].
  - unfold initialise_S_inkstone. destruct (layers_ink_total (o_names ob) loc (o_geom ob) HN (o_widths ob) hv 0) as [r ->]; try lia. cbn [rbind]. eauto.
Qed.

Lemma run_wl_total {X} (f : (nat -> vlist) -> nat -> res ((nat -> vlist) * X)) : forall is_, (forall hv i, In i is_ -> exists r, f hv i = Ok r) -> forall hv, exists out, run_wl f hv is_ = Ok out.
Proof.
  induction is_ as [|i is_ IH]; intros H hv; cbn [run_wl]; eauto. destruct (H hv i (or_introl eq_refl)) as [u ->]. cbn [rbind]. destruct (IH (fun hv j Hj => H hv j (or_intror Hj)) (fst u)) as [w ->]. cbn [rbind]. eauto.
Qed.

Lemma read_user W order structure size o0 inc tra ob : new_obj W order structure size o0 inc tra = Ok ob -> p_meth o0 = MS4 -> exists l, read_options (o_user ob) = Ok l.
Proof. intros H Hm. unfold new_obj in H. bok H. injection H as <-. unfold update_oc. cbn [o_user]. rewrite Hm. apply read_merged. Qed.

Lemma calculate_total W SV strict order structure size o0 inc tra ob h es ob' h' o pol :
  let layers := List.concat (map entry_layers structure) in
  set_order order -> new_obj W order structure size o0 inc tra = Ok ob -> history W SV strict es (ob, h) = Ok (ob', h') ->
  (forall e, In e es -> no_edit e /\ widths_ok (fun ws => length ws = length layers) e) ->
  p_meth o <> MOther -> (p_meth o = MS4 -> p_meth o0 = MS4) -> complete_for (p_meth o) layers ->
  process_pol (p_pol o) = Ok pol -> p_wl o <> [] -> length (p_wl o) = length (o_wl ob') -> p_perorder o = false ->
  exists ob2 h2 a d, calculate W SV strict o (ob', h') = Ok (ob2, h2, a) /\ nth_error (h_res h2) a = Some d /\
    length (r_R d) = length (p_wl o) /\ length (r_T d) = length (p_wl o) /\ length (r_A d) = length (p_wl o) /\
    forall x, In x (r_A d) -> length x = length layers /\ (forall y, In y x -> (forall D th ph pl f k, 0 < fst (fx (so_flux (SV D th ph pl f)) k)) -> 0 <= y).
Proof.
  intros layers Hord Hn H He Hm Hm0 Hcf Hpol Hwl HL Hper. destruct (new_obj_keeps _ _ _ _ _ _ _ _ Hn) as (C & S1 & S2 & S3 & S4 & S5 & ids & S6 & S7). fold layers in S1.
  assert (Hb : as_built W order ob) by (split; auto; split; eauto).
  destruct (geom_len _ _ _ _ _ _ _ _ Hn) as [GL WL].
  destruct (history_built W SV strict order es _ _ H) as (A & B & L'); cbn [fst]; auto. { rewrite S1. exact He. } cbn [fst] in *.
  destruct (wl_refreshed W strict o ob' HL) as (rf & Er & Ew). destruct A as (A1 & A2 & ids' & A3 & A4). destruct (refresh_keeps _ _ _ _ _ Er A1) as (R1 & (R2 & R3 & R4 & R5 & R6 & R7) & R8 & _).
  destruct B as (B1 & _ & _ & _ & _ & B6).
  assert (Q : as_built W order (snd rf)) by (split; auto; rewrite R8, R2, R5; split; eauto).
  assert (T : forall hv i, In i (seq 0 (length (p_wl o))) -> exists r, structure_wl SV (snd rf) hv o pol i = Ok r).
  { intros hv i Hi. apply in_seq in Hi. unfold structure_wl.
    destruct (build_S_total W (snd rf) hv (p_meth o) (p_orders o) (o_user (snd rf)) i) as [hS ->]; auto.
    - apply (as_built_known _ _ _ Hord Q).
    - intros E g s Hg Hs. rewrite R8, A2 in Hg. apply in_map_iff in Hg. destruct Hg as (g0 & <- & Hg). rewrite shapes_named in Hs. apply in_map_iff in Hs. destruct Hs as (s0 & <- & Hs). cbn [name_shape sh_geo].
      rewrite B1, S1 in Hg. destruct Hg as [<-|Hg]; [contradiction|]. apply in_app_iff in Hg. destruct Hg as [Hg|[<-|[]]]; [|contradiction]. apply in_map_iff in Hg. destruct Hg as (ly & <- & Hg). apply (Hcf E ly s0); auto.
    - intros E. rewrite R7, B6. apply (read_user _ _ _ _ _ _ _ _ Hn). auto.
    - apply (refresh_len _ _ _ _ _ Er L').
    - rewrite R8, A2, map_length. cbn [length]. rewrite app_length, map_length, R2. simpl. lia.
    - rewrite Ew. lia.
    - cbn [rbind]. destruct (rcwa_rt _ _) as [[? ?] ?]. eauto. }
  destruct (run_wl_total _ _ T (h_v h')) as [out Eo]. destruct (run_wl_nth _ _ _ _ Eo) as [RL RN]. rewrite seq_length in RL.
  assert (HC : calculate W SV strict o (ob', h') = Ok (with_results (snd rf) (map rsum (map (fun x => snd (fst x)) (snd out))) (length (h_res h')),
    mk_heap (fst out) (h_res h' ++ [mk_rdict (map (fun x => fst (fst (fst x))) (snd out)) (map (fun x => snd (fst (fst x))) (snd out)) (map (fun x => snd (fst x)) (snd out)) None None]), length (h_res h'))).
  { unfold calculate. cbn [fst snd]. rewrite Hpol, Er. cbn [rbind]. replace (match p_meth o with MOther => Err KeyError | _ => Ok tt end) with (Ok tt) by (destruct (p_meth o); congruence). cbn [rbind]. rewrite Eo. cbn [rbind].
    destruct (snd out) eqn:Es; [destruct (p_wl o); [congruence|discriminate]|]. cbn [rbind]. rewrite Hper. reflexivity. }
  do 4 eexists. split; [exact HC|]. cbn [h_res]. rewrite nth_error_app2, Nat.sub_diag by lia. split; [reflexivity|]. cbn [r_R r_T r_A]. rewrite !map_length. split; auto. split; auto. split; auto.
  intros x Hx. apply in_map_iff in Hx. destruct Hx as (y & <- & Hy). destruct (In_nth_error _ _ Hy) as [j Hj].
  assert (Lj : (j < length (p_wl o))%nat). { rewrite <- RL. apply nth_error_Some. congruence. }
  destruct (RN j j y (nth_error_seq _ _ Lj) Hj) as (hv1 & hv2 & HS). unfold structure_wl in HS. apply rbind_ok in HS. destruct HS as (hS & _ & HS). cbn [rcwa_rt] in HS. injection HS as _ <-. cbn [fst snd].
  rewrite (refresh_len _ _ _ _ _ Er L'), R2, B1, S1. split.
  - unfold rcwa_absorption_per_layer. rewrite !map_length, seq_length. lia.
  - intros z Hz Hpos. unfold rcwa_absorption_per_layer in Hz. apply in_map_iff in Hz. destruct Hz as (k & <- & _).
    pose proof (Hpos (snd hS) (p_theta o) (p_phi o) pol (1 / (nth j (p_wl o) 0 * 10 ^ 9)) 1%nat) as P. apply Rinv_0_lt_compat in P. unfold Rdiv. apply Rmult_le_pos; [|apply Rlt_le; exact P]. clear P. match goal with |- context [Rltb 0 ?x] => destruct (Rltb 0 x) eqn:E0; [apply Rltb_true in E0|]; lra end.
Qed.
