From Coq Require Import Reals List ZArith Bool String Lia Lra.
From Verif Require Import Base Lib Model_Diff Model_RCWA Model_RCWAObj Spec_RCWAObj Proof_RCWAObj Proof_RCWAObj2 Proof_RCWAObj3.
Import ListNotations.
Local Notation length := List.length.
Open Scope R_scope.

(* ---------- C62 ---------- *)

Lemma refresh_twice W strict o ob rf : refresh W strict o ob = Ok rf -> refresh W strict o (snd rf) = Ok (true, snd rf).
Proof.
  intros H. unfold refresh in H. bok H. injection H as <-. cbn [snd]. destruct a; [unfold refresh; rewrite E; auto|]. apply refresh_same. auto.
Qed.

Lemma calculate_refreshed W SV strict o ob h rf : refresh W strict o ob = Ok rf -> calculate W SV strict o (snd rf, h) = calculate W SV strict o (ob, h).
Proof. intros H. unfold calculate. cbn [fst snd]. rewrite H, (refresh_twice _ _ _ _ _ H). auto. Qed.

Lemma answers_set h a d p : nth_error (h_res h) a = Some d -> forall v h', h_res h' = set_nth a (mk_rdict (r_R d) (r_T d) (r_A d) (r_orders d) p) v -> v = h_res h ->
  answers h' a = answers h a.
Proof.
  intros Hd v h' E1 E2. rewrite E2 in E1. unfold answers. rewrite Hd.
  assert (L : (a < length (h_res h))%nat) by (apply nth_error_Some; congruence).
  assert (Q : nth_error (h_res h') a = Some (mk_rdict (r_R d) (r_T d) (r_A d) (r_orders d) p)).
  { rewrite E1. clear -L. revert a L. induction (h_res h) as [|x l IH]; intros [|a] L; simpl in *; try lia; auto. apply IH. lia. }
  rewrite Q. auto.
Qed.

Lemma profile_fresh W SV strict o ob h ob2 h2 a2 :
  o_ratA ob = None \/ np_all_eq strict (p_wl o) (o_wl ob) = Ok false ->
  calculate_profile W SV strict o (ob, h) = Ok (ob2, h2, a2) ->
  exists ob1 h1, calculate W SV strict o (ob, h) = Ok (ob1, h1, a2) /\ answers h2 a2 = answers h1 a2.
Proof.
  intros Hc H. destruct (profile_parts _ _ _ _ _ _ _ _ H) as (pol & rf & st1 & ratA & out & d & _ & Hr & _ & K & -> & Hra & Hres & _ & _ & _ & Hd & Hh). cbn [fst snd] in *.
  destruct K as [(Ef & Hn & ->)|(ob0 & a1 & K & Ho & K1 & K2)].
  - exfalso. destruct Hc as [Hc|Hc]; [auto|]. unfold refresh in Hr. rewrite Hc in Hr. cbn [rbind] in Hr. injection Hr as <-. discriminate.
  - assert (K' : calculate W SV strict o (ob, h) = Ok (st1, a1)). { destruct Ho as [-> | ->]; auto. rewrite <- K. symmetry. apply calculate_refreshed. auto. }
    destruct st1 as [ob1 h1]. cbn [fst snd] in *. assert (a1 = a2).
    { destruct (calculate_parts _ _ _ _ _ _ _ _ K') as (? & ? & ? & _ & _ & _ & _ & E & _). rewrite E in Hres. unfold with_results in Hres. cbn [o_results] in Hres. congruence. }
    subst a1. exists ob1, h1. split; auto. eapply answers_set; eauto.
Qed.

Lemma calculate_wl_same W SV strict o st ob1 h1 a1 : calculate W SV strict o st = Ok (ob1, h1, a1) -> refresh W strict o ob1 = Ok (true, ob1).
Proof.
  intros H. destruct (calculate_parts _ _ _ _ _ _ _ _ H) as (pol & rf & out & _ & Hr & _ & _ & E & _). apply refresh_twice in Hr.
  unfold refresh in *. rewrite E. unfold with_results. cbn [o_wl]. destruct (np_all_eq strict (p_wl o) (o_wl (snd rf))) as [[|]|]; cbn [rbind] in *; try discriminate. auto.
Qed.

(* calculate_profile with the stored wavelengths keeps the answers of the last calculate, whatever the other options *)
Lemma profile_stale W SV strict o ob h ob2 h2 a2 r a :
  o_ratA ob = Some r -> o_results ob = Some a -> np_all_eq strict (p_wl o) (o_wl ob) = Ok true ->
  calculate_profile W SV strict o (ob, h) = Ok (ob2, h2, a2) -> a2 = a /\ answers h2 a2 = answers h a /\ ob2 = ob.
Proof.
  intros Hra Hre Hw H. destruct (profile_parts _ _ _ _ _ _ _ _ H) as (pol & rf & st1 & ratA & out & d & _ & Hr & _ & K & -> & _ & Hres & _ & _ & _ & Hd & Hh). cbn [fst snd] in *.
  unfold refresh in Hr. rewrite Hw in Hr. cbn [rbind] in Hr. injection Hr as <-. cbn [fst snd] in *.
  destruct K as [(_ & _ & ->)|(ob0 & a1 & K & Ho & K1 & _)]; [|destruct (K1 eq_refl); congruence]. cbn [fst snd] in *.
  assert (a2 = a) by congruence. subst a2. split; auto. split; auto. eapply answers_set; eauto.
Qed.

Lemma profile_after W SV strict o st ob1 h1 a1 ob2 h2 a2 :
  calculate W SV strict o st = Ok (ob1, h1, a1) -> calculate_profile W SV strict o (ob1, h1) = Ok (ob2, h2, a2) ->
  a2 = a1 /\ answers h2 a2 = answers h1 a1.
Proof.
  intros H1 H2. pose proof (calculate_wl_same _ _ _ _ _ _ _ _ H1) as Hr. unfold refresh in Hr. bok Hr. assert (a = true) by congruence. subst a.
  destruct (calculate_parts _ _ _ _ _ _ _ _ H1) as (pol & rf & out & _ & _ & _ & _ & Eo & _).
  destruct (profile_stale W SV strict o ob1 h1 ob2 h2 a2 (map rsum (map (fun x => snd (fst x)) (snd out))) a1) as (A & B & _); auto; rewrite Eo; auto.
Qed.

(* ---------- results are appended / overwritten ---------- *)

Lemma calculate_append W SV strict o ob h ob' h' a : calculate W SV strict o (ob, h) = Ok (ob', h', a) ->
  a = length (h_res h) /\ forall k, (k < length (h_res h))%nat -> nth_error (h_res h') k = nth_error (h_res h) k.
Proof.
  intros H. destruct (calculate_parts _ _ _ _ _ _ _ _ H) as (pol & rf & out & _ & _ & _ & _ & _ & Ea & _ & ord & Eh & _). cbn [snd] in *. split; auto.
  intros k Hk. rewrite Eh. apply nth_error_app1. auto.
Qed.

Lemma set_nth_other {A} (x : A) l : forall a k, k <> a -> nth_error (set_nth a x l) k = nth_error l k.
Proof. induction l as [|y l IH]; intros [|a] [|k] H; simpl; auto; try lia. Qed.

Lemma profile_touches W SV strict o ob h ob' h' a k : calculate_profile W SV strict o (ob, h) = Ok (ob', h', a) ->
  (k < length (h_res h))%nat -> o_results ob <> Some k -> nth_error (h_res h') k = nth_error (h_res h) k.
Proof.
  intros H Hk Hn. destruct (profile_parts _ _ _ _ _ _ _ _ H) as (pol & rf & st1 & ratA & out & d & _ & Hr & _ & K & -> & _ & Hres & _ & _ & _ & Hd & Hh). cbn [fst snd] in *.
  rewrite Hh. destruct K as [(_ & _ & ->)|(ob0 & a1 & K & Ho & _)].
  - cbn [fst snd] in *. apply set_nth_other. congruence.
  - destruct st1 as [ob1 h1]. cbn [fst snd] in *. destruct (calculate_append _ _ _ _ _ _ _ _ _ K) as [A B].
    destruct (calculate_parts _ _ _ _ _ _ _ _ K) as (? & ? & ? & _ & _ & _ & _ & E & _). rewrite E in Hres. unfold with_results in Hres. cbn [o_results] in Hres. injection Hres as Hres.
    rewrite set_nth_other by lia. auto.
Qed.

(* profile values are not negative, one row per wavelength, one value per depth *)
Lemma run_wl_props {X} (Q : X -> Prop) (f : (nat -> vlist) -> nat -> res ((nat -> vlist) * X)) : (forall hv i hv' x, f hv i = Ok (hv', x) -> Q x) ->
  forall is_ hv out, run_wl f hv is_ = Ok out -> length (snd out) = length is_ /\ Forall Q (snd out).
Proof.
  intros HQ is_. induction is_ as [|i is_ IH]; intros hv out H; cbn [run_wl] in H; [injection H as <-; split; [auto|constructor]|].
  apply rbind_ok in H. destruct H as (u & E & H). apply rbind_ok in H. destruct H as (w & E0 & H). injection H as <-. destruct (IH _ _ E0) as [A B]. cbn [snd length]. split; [lia|].
  constructor; auto. destruct u as [hv1 x]. eapply HQ; eauto.
Qed.

Lemma profile_shape W SV strict o st ob' h' a : calculate_profile W SV strict o st = Ok (ob', h', a) ->
  exists d p, nth_error (h_res h') a = Some d /\ r_profile d = Some p /\ length p = length (p_wl o) /\
    forall row, In row p -> length row = length (prof_dist ob' o) /\ forall x, In x row -> 0 <= x.
Proof.
  intros H. destruct (profile_parts _ _ _ _ _ _ _ _ H) as (pol & rf & st1 & ratA & out & d & _ & _ & _ & _ & E & _ & _ & Er & _ & _ & Hd & Hh).
  exists (mk_rdict (r_R d) (r_T d) (r_A d) (r_orders d) (Some (map (map clip0) (snd out)))), (map (map clip0) (snd out)).
  assert (L : (a < length (h_res (snd st1)))%nat) by (apply nth_error_Some; congruence). split; [|split; auto].
  { rewrite Hh. clear -L. revert a L. induction (h_res (snd st1)) as [|x l IH]; intros [|a] L; simpl in *; try lia; auto. apply IH. lia. }
  assert (Q : forall hv i hv' x, wl_prof SV ob' ratA (prof_dist ob' o) o pol hv i = Ok (hv', x) -> length x = length (prof_dist ob' o)).
  { intros hv i hv' x Hx. unfold wl_prof in Hx. apply rbind_ok in Hx. destruct Hx as (u & E1 & Hx). destruct (Rltb 0 u); [apply rbind_ok in Hx; destruct Hx as (w & E2 & Hx); injection Hx as _ <-; rewrite map_length; auto|injection Hx as _ <-; apply repeat_length]. }
  destruct (run_wl_props (fun row => length row = length (prof_dist ob' o)) _ Q _ _ _ Er) as [A B].
  rewrite map_length, A, seq_length. split; auto. intros row Hrow. apply in_map_iff in Hrow. destruct Hrow as (r0 & <- & Hr0). rewrite Forall_forall in B.
  split; [rewrite map_length; auto|]. intros x Hx. apply in_map_iff in Hx. destruct Hx as (y & <- & _). unfold clip0. rcase; lra.
Qed.

(* ---------- one wavelength, for the witnesses ---------- *)

Lemma calculate_one W SV strict o ob h pol rf hv' D x : p_wl o = [x] -> p_perorder o = false -> p_meth o <> MOther -> process_pol (p_pol o) = Ok pol ->
  refresh W strict o ob = Ok rf -> build_S (snd rf) (h_v h) (p_meth o) (p_orders o) (o_user (snd rf)) 0 = Ok (hv', D) ->
  let f := so_flux (SV D (p_theta o) (p_phi o) pol (freq x)) in
  let A := rcwa_absorption_per_layer f (length (o_widths (snd rf))) (fst (fx f 1)) in
  let a := length (h_res h) in
  calculate W SV strict o (ob, h) = Ok (with_results (snd rf) [rsum A] a,
    mk_heap hv' (h_res h ++ [mk_rdict [- snd (fx f 1) / fst (fx f 1)] [fst (fx f (length (o_widths (snd rf)))) / fst (fx f 1)] [A] None None]), a).
Proof.
  intros Hx Hp Hm Hpol Hr HB f A a. unfold calculate. cbn [fst snd]. rewrite Hpol, Hr. cbn [rbind].
  replace (match p_meth o with MOther => Err KeyError | _ => Ok tt end) with (Ok tt) by (destruct (p_meth o); congruence). cbn [rbind].
  rewrite Hx. cbn [length seq run_wl]. unfold structure_wl. rewrite HB. cbn [rbind fst snd rcwa_rt]. rewrite Hx. cbn [nth]. fold (freq x). cbn [rbind fst snd map]. rewrite Hp. reflexivity.
Qed.

Lemma profile_one W SV strict o ob h pol hv' D x A a d : p_wl o = [x] -> p_meth o <> MOther -> process_pol (p_pol o) = Ok pol ->
  np_all_eq strict (p_wl o) (o_wl ob) = Ok true -> o_ratA ob = Some [A] -> 0 < A -> o_results ob = Some a -> nth_error (h_res h) a = Some d ->
  build_S ob (h_v h) (p_meth o) (p_orders o) (o_user ob) 0 = Ok (hv', D) ->
  let s := SV D (p_theta o) (p_phi o) pol (freq x) in
  calculate_profile W SV strict o (ob, h) = Ok (ob, mk_heap hv' (set_nth a (mk_rdict (r_R d) (r_T d) (r_A d) (r_orders d)
    (Some [map clip0 (map (fun z => let (layer, dl) := find_with_inf (o_widths ob) z in position_resolved s (layer + 1) dl (fst (fx (so_flux s) 1))) (prof_dist ob o))])) (h_res h)), a).
Proof.
  intros Hx Hm Hpol Hw Hra HA Hre Hd HB s. unfold calculate_profile. cbn [fst snd]. rewrite Hpol. unfold refresh. rewrite Hw. cbn [rbind fst snd]. rewrite Hra. cbn [rbind fst snd]. rewrite Hra. cbn [rbind].
  replace (match p_meth o with MOther => Err KeyError | _ => Ok tt end) with (Ok tt) by (destruct (p_meth o); congruence). cbn [rbind].
  rewrite Hx. cbn [length seq run_wl]. unfold wl_prof. rewrite (proj2 (py_index_nth [A] 0 A) eq_refl). cbn [rbind]. rewrite (proj2 (Rltb_true 0 A) HA). rewrite HB. cbn [rbind fst snd]. rewrite Hx. cbn [nth]. fold (freq x).
  cbn [rbind fst snd map]. rewrite Hre. cbn [rbind]. rewrite (proj2 (py_index_nth (h_res h) a d) Hd). cbn [rbind]. reflexivity.
Qed.
