From Coq Require Import Reals List ZArith Bool String Lia Lra.
From Verif Require Import Base Lib Model_Diff Model_RCWA Model_RCWAObj Spec_RCWAObj.
Import ListNotations.
Local Notation length := List.length.
Open Scope R_scope.

Lemma rbind_ok {A B} (x : res A) (f : A -> res B) y : rbind x f = Ok y -> exists a, x = Ok a /\ f a = Ok y.
Proof. destruct x; simpl; [eauto|discriminate]. Qed.
Ltac bok H := match type of H with rbind _ _ = Ok _ => let a := fresh "a" in let E := fresh "E" in
  apply rbind_ok in H; destruct H as (a & E & H) end.

Lemma py_index_nth {A} (l : list A) i x : py_index l (Z.of_nat i) = Ok x <-> nth_error l i = Some x.
Proof.
  unfold py_index. destruct (Z.ltb_spec (Z.of_nat i) 0); [lia|]. destruct (Z.ltb_spec (Z.of_nat i) 0); [lia|]. rewrite Nat2Z.id.
  destruct (nth_error l i); split; congruence.
Qed.

Lemma index_of_ok x l i : index_of x l = Ok i -> nth_error l i = Some x.
Proof.
  revert i. induction l as [|y l IH]; intros i H; simpl in H; [discriminate|]. destruct (String.eqb_spec x y) as [->|N].
  - injection H as <-. auto.
  - bok H. injection H as <-. simpl. auto.
Qed.
Lemma index_of_in x l : In x l -> exists i, index_of x l = Ok i.
Proof.
  induction l as [|y l IH]; simpl; [tauto|]. intros H. destruct (String.eqb_spec x y) as [->|N]; [eauto|].
  destruct H as [H|H]; [congruence|]. destruct (IH H) as [i ->]. simpl. eauto.
Qed.

Lemma nth_firstn_lt {A} (l : list A) n i d : (i < n)%nat -> nth i (firstn n l) d = nth i l d.
Proof. revert l n. induction i as [|i IH]; intros [|x l] [|n] H; try lia; simpl; auto. apply IH. lia. Qed.

(* ---------- pointwise equal heaps ---------- *)

Definition heq (a b : nat -> vlist) : Prop := forall v, a v = b v.
Lemma heq_refl a : heq a a. Proof. intros v. auto. Qed.
Lemma heq_trans a b c : heq a b -> heq b c -> heq a c. Proof. intros A B v. rewrite A. auto. Qed.

Lemma shift0 p : shift (0, 0) p = p.
Proof. destruct p. unfold shift. simpl. f_equal; lra. Qed.
Lemma turn0 p : turn 0 p = p.
Proof. destruct p. unfold turn. simpl. replace (0 * PI / 180) with 0 by field. rewrite cos_0, sin_0. f_equal; lra. Qed.

Lemma wanted_heq a b g : heq a b -> wanted a g = wanted b g.
Proof. intros H. destruct g; simpl; auto. rewrite (H vertices). auto. Qed.

Lemma region_S4_ok hv g cs : region_S4 hv g = Ok cs ->
  map (fun c => Some (drawn c)) cs = (match wanted hv g with Some w => [Some w] | None => [] end) /\
  length cs = (match g with OtherShape => 0 | _ => 1 end)%nat.
Proof.
  destruct g as [| | |[c|] [a|] v|]; simpl; intros H; try discriminate; injection H as <-; auto.
Qed.

Lemma region_ink_ok hv g : steady hv g ->
  heq (fst (region_ink hv g)) hv /\
  map (fun c => Some (drawn c)) (snd (region_ink hv g)) = (match wanted hv g with Some w => [Some w] | None => [] end).
Proof.
  destruct g as [c r|c a h|c a h|c a v|]; simpl; intros St; try (split; [apply heq_refl|]; auto; fail).
  - split; [apply heq_refl|]. destruct h as [h1 h2]. cbn [fst snd]. do 4 f_equal; field.
  - destruct St as [Hc Ha].
    assert (T : forall c', map (fun p => shift c' (turn match a with Some a => a | None => 0 end p)) (v_pts (hv v)) = map (fun p => add2 p c') (v_pts (hv v))).
    { intros c'. apply map_ext. intros p. destruct Ha as [-> | ->]; rewrite turn0; reflexivity. }
    destruct c as [c|].
    + split; [|cbn [snd map drawn]; rewrite T; auto]. cbn [fst]. destruct (v_tuple (hv v)) eqn:Et; [apply heq_refl|].
      destruct Hc as [Hc|[Hc|Hc]]; try congruence. injection Hc as ->. intros w. unfold hset. destruct (Nat.eqb_spec w v) as [->|]; auto.
      replace (map (fun p => add2 p (0, 0)) (v_pts (hv v))) with (v_pts (hv v)).
      * destruct (hv v). simpl in *. rewrite Et. auto.
      * rewrite <- (map_id (v_pts (hv v))) at 1. apply map_ext. intros p. symmetry. apply shift0.
    + split; [apply heq_refl|]. cbn [snd map drawn]. do 3 f_equal. rewrite T. rewrite <- (map_id (v_pts (hv v))) at 1. apply map_ext. intros p. symmetry. apply shift0.
Qed.

(* ---------- shapes of a layer ---------- *)

Definition placed (hv : nat -> vlist) (names : list string) (s : shape string) (r : nat * call) : Prop :=
  index_of (sh_mat s) names = Ok (pred (fst r)) /\ fst r <> 0%nat.

Lemma known_wanted {A} hv (s : shape A) : known s = true <-> exists w, wanted hv (sh_geo s) = Some w.
Proof. unfold known. destruct (sh_geo s); simpl; split; eauto; try discriminate. intros [? H]. discriminate. Qed.

Lemma shapes_S4_placed hv names l : forall regs, shapes_S4 hv names l = Ok regs -> Forall2 (placed hv names) (filter known l) regs.
Proof.
  induction l as [|s l IH]; intros regs H; cbn [shapes_S4] in H; [injection H as <-; constructor|].
  bok H. bok H. bok H. injection H as <-. destruct (region_S4_ok _ _ _ E0) as [_ HL]. cbn [filter]. unfold known at 1.
  destruct (sh_geo s) eqn:Eg; try (destruct a0 as [|c1 [|c2 a0]]; try discriminate HL; cbn [map app]; constructor; [split; simpl; auto|auto]; fail).
  destruct a0; [auto|discriminate].
Qed.

Lemma shapes_S4_drawn hv names l : forall regs, shapes_S4 hv names l = Ok regs ->
  map (fun r => Some (drawn (snd r))) regs = map (fun s => wanted hv (sh_geo s)) (filter known l).
Proof.
  induction l as [|s l IH]; intros regs H; cbn [shapes_S4] in H; [injection H as <-; auto|].
  bok H. bok H. bok H. injection H as <-. destruct (region_S4_ok _ _ _ E0) as [HL _]. rewrite map_app, map_map. cbn [snd]. rewrite HL, (IH _ E1).
  cbn [filter]. unfold known at 2. destruct (sh_geo s) eqn:Eg; cbn [wanted app map]; auto; rewrite Eg; auto.
Qed.

Lemma region_ink_len hv g : length (snd (region_ink hv g)) = (match g with OtherShape => 0 | _ => 1 end)%nat.
Proof. destruct g as [| | |[c|] a v|]; auto. Qed.

Lemma shapes_ink_placed names l : forall hv out, shapes_ink hv names l = Ok out -> Forall2 (placed hv names) (filter known l) (snd out).
Proof.
  induction l as [|s l IH]; intros hv out H; cbn [shapes_ink] in H; [injection H as <-; constructor|].
  bok H. pose proof (region_ink_len hv (sh_geo s)) as HL. destruct (region_ink hv (sh_geo s)) as [hv1 cs] eqn:Er. bok H. injection H as <-. cbn [snd] in *.
  specialize (IH _ _ E0). cbn [filter]. unfold known at 1.
  destruct (sh_geo s) eqn:Eg; try (destruct cs as [|c1 [|c2 cs]]; try discriminate HL; cbn [map app]; constructor; [split; simpl; auto|auto]; fail).
  destruct cs; [auto|discriminate].
Qed.

Lemma shapes_ink_drawn hv0 names l : Forall (fun s => steady hv0 (sh_geo s)) l -> forall hv out, heq hv hv0 -> shapes_ink hv names l = Ok out ->
  heq (fst out) hv0 /\ map (fun r => Some (drawn (snd r))) (snd out) = map (fun s => wanted hv0 (sh_geo s)) (filter known l).
Proof.
  induction l as [|s l IH]; intros HS hv out Hh H; cbn [shapes_ink] in H; [injection H as <-; auto|].
  apply Forall_cons_iff in HS. destruct HS as [HS1 HS2]. bok H.
  assert (HS' : steady hv (sh_geo s)). { revert HS1. destruct (sh_geo s); simpl; auto. rewrite (Hh vertices). auto. }
  destruct (region_ink_ok hv (sh_geo s) HS') as [K1 K2]. destruct (region_ink hv (sh_geo s)) as [hv1 cs] eqn:Er. cbn [fst snd] in *. bok H. injection H as <-. cbn [fst snd] in *.
  destruct (IH HS2 hv1 _ (heq_trans _ _ _ K1 Hh) E0) as [I1 I2]. split; auto.
  rewrite map_app, map_map. cbn [snd]. rewrite K2, I2, (wanted_heq _ _ _ Hh). cbn [filter]. unfold known at 2. destruct (sh_geo s) eqn:Eg; cbn [wanted app map]; auto; rewrite Eg; auto.
Qed.

(* ---------- the layers ---------- *)

Lemma layers_S4_ok hv names oc geom ws : forall i ls, layers_S4 hv names i ws oc geom = Ok ls ->
  length ls = length ws /\
  forall j e w sh, nth_error ls j = Some (e, w, sh) -> nth_error oc (i + j) = Some e /\ (exists w0, nth_error ws j = Some w0 /\ w = thickness w0) /\
    exists g, nth_error geom (i + j) = Some g /\ shapes_S4 hv names (shapes_of g) = Ok sh.
Proof.
  induction ws as [|w ws IH]; intros i ls H; cbn [layers_S4] in H; [injection H as <-; split; auto; intros [|j]; discriminate|].
  bok H. bok H. bok H. bok H. injection H as <-. destruct (IH _ _ E2) as [I1 I2]. split; [simpl; lia|].
  intros [|j] e0 w0 sh0 Hn; cbn [nth_error] in Hn.
  - injection Hn as <- <- <-. rewrite Nat.add_0_r. apply py_index_nth in E. apply py_index_nth in E0. cbn [nth_error]. split; auto. split; [exists w; auto|]. exists a0. auto.
  - destruct (I2 _ _ _ _ Hn) as (A & B & C). rewrite <- Nat.add_succ_comm. cbn [nth_error]. auto.
Qed.

Lemma layers_ink_ok names oc geom ws : forall hv i out, layers_ink hv names i ws oc geom = Ok out ->
  length (snd out) = length ws /\
  forall j e w sh, nth_error (snd out) j = Some (e, w, sh) -> nth_error oc (i + j) = Some e /\ (exists w0, nth_error ws j = Some w0 /\ w = thickness w0) /\
    exists g hv1 hv2, nth_error geom (i + j) = Some g /\ shapes_ink hv1 names (shapes_of g) = Ok (hv2, sh).
Proof.
  induction ws as [|w ws IH]; intros hv i out H; cbn [layers_ink] in H; [injection H as <-; split; auto; intros [|j]; discriminate|].
  bok H. bok H. bok H. bok H. injection H as <-. destruct (IH _ _ _ E2) as [I1 I2]. cbn [snd]. split; [simpl; lia|].
  intros [|j] e0 w0 sh0 Hn; cbn [nth_error] in Hn.
  - injection Hn as <- <- <-. rewrite Nat.add_0_r. apply py_index_nth in E. apply py_index_nth in E0. cbn [nth_error]. split; auto. split; eauto.
    exists a0, hv, (fst a1). split; auto. rewrite <- surjective_pairing. auto.
  - destruct (I2 _ _ _ _ Hn) as (A & B & C). rewrite <- Nat.add_succ_comm. cbn [nth_error]. auto.
Qed.

Lemma layers_ink_steady hv0 names oc geom ws : all_steady hv0 geom -> forall hv i out, heq hv hv0 -> layers_ink hv names i ws oc geom = Ok out ->
  heq (fst out) hv0 /\
  forall j e w sh, nth_error (snd out) j = Some (e, w, sh) ->
    exists g, nth_error geom (i + j) = Some g /\ map (fun r => Some (drawn (snd r))) sh = map (fun s => wanted hv0 (sh_geo s)) (filter known (shapes_of g)).
Proof.
  intros HS. induction ws as [|w ws IH]; intros hv i out Hh H; cbn [layers_ink] in H; [injection H as <-; split; auto; intros [|j]; discriminate|].
  bok H. bok H. bok H. bok H. injection H as <-. apply py_index_nth in E0.
  assert (F : Forall (fun s => steady hv0 (sh_geo s)) (shapes_of a0)).
  { apply Forall_forall. intros s Hs. apply (HS a0 s); auto. apply nth_error_In in E0. auto. }
  destruct (shapes_ink_drawn hv0 names _ F hv _ Hh E1) as [J1 J2]. destruct (IH _ _ _ J1 E2) as [I1 I2]. cbn [fst snd]. split; auto.
  intros [|j] e0 w0 sh0 Hn; cbn [nth_error] in Hn.
  - injection Hn as <- <- <-. rewrite Nat.add_0_r. eauto.
  - destruct (I2 _ _ _ _ Hn) as (g & A & B). rewrite <- Nat.add_succ_comm. eauto.
Qed.

(* ---------- build_S ---------- *)

Lemma build_S_told ob hv m orders d i hv' S : build_S ob hv m orders d i = Ok (hv', S) ->
  exists loc soc, nth_error (o_layers_oc ob) i = Some loc /\ nth_error (o_shapes_oc ob) i = Some soc /\
    s_size S = o_size ob /\ s_orders S = orders /\ s_shape_eps S = soc /\ told_widths S = map thickness (o_widths ob) /\
    told_mats S = firstn (length (o_widths ob)) loc /\ (length (o_widths ob) <= length loc)%nat /\ (length (o_widths ob) <= length (o_geom ob))%nat /\
    forall l e w regs, nth_error (s_layers S) l = Some (e, w, regs) ->
      exists g, nth_error (o_geom ob) l = Some g /\ Forall2 (placed hv (o_names ob)) (filter known (shapes_of g)) regs.
Proof.
  intros H. unfold build_S in H. bok H. bok H. apply py_index_nth in E. apply py_index_nth in E0. exists a, a0. split; auto. split; auto.
  assert (W : forall ls : list (cx * R * list (nat * call)), length ls = length (o_widths ob) ->
    (forall j e w sh, nth_error ls j = Some (e, w, sh) -> nth_error a j = Some e /\ (exists w0, nth_error (o_widths ob) j = Some w0 /\ w = thickness w0) /\ exists g, nth_error (o_geom ob) j = Some g) ->
    map (fun l => snd (fst l)) ls = map thickness (o_widths ob) /\ map (fun l => fst (fst l)) ls = firstn (length (o_widths ob)) a /\ (length (o_widths ob) <= length a)%nat /\ (length (o_widths ob) <= length (o_geom ob))%nat).
  { intros ls HL Hn.
    assert (HN : forall j, (j < length ls)%nat -> exists e w sh, nth_error ls j = Some (e, w, sh)).
    { intros j Hj. destruct (nth_error ls j) as [[[e w] sh]|] eqn:En; [eauto|]. apply nth_error_None in En. lia. }
    assert (LA : (length (o_widths ob) <= length a)%nat).
    { destruct (o_widths ob) as [|w0 r] eqn:Ew; [simpl; lia|]. rewrite <- Ew in *. destruct (HN (length ls - 1)%nat) as (e & w & sh & En); [rewrite HL, Ew; simpl; lia|].
      destruct (Hn _ _ _ _ En) as [Q _]. assert (nth_error a (length ls - 1) <> None) as Q' by congruence. apply nth_error_Some in Q'. lia. }
    assert (LG : (length (o_widths ob) <= length (o_geom ob))%nat).
    { destruct (o_widths ob) as [|w0 r] eqn:Ew; [simpl; lia|]. rewrite <- Ew in *. destruct (HN (length ls - 1)%nat) as (e & w & sh & En); [rewrite HL, Ew; simpl; lia|].
      destruct (Hn _ _ _ _ En) as (_ & _ & g & Q). assert (nth_error (o_geom ob) (length ls - 1) <> None) as Q' by congruence. apply nth_error_Some in Q'. lia. }
    split; [|split; auto].
    - apply (list_ext _ _ 0); [rewrite !map_length; auto|]. intros j Hj. rewrite map_length in Hj. destruct (HN j Hj) as (e & w & sh & En).
      destruct (Hn _ _ _ _ En) as (_ & (w0 & Q & ->) & _).
      rewrite (nth_error_nth _ _ 0 (map_nth_error (fun l => snd (fst l)) _ _ En)), (nth_error_nth _ _ 0 (map_nth_error thickness _ _ Q)). auto.
    - apply (list_ext _ _ (0, 0)); [rewrite map_length, firstn_length; lia|]. intros j Hj. rewrite map_length in Hj. destruct (HN j Hj) as (e & w & sh & En).
      destruct (Hn _ _ _ _ En) as (Q & _). rewrite nth_firstn_lt by lia. rewrite (nth_error_nth _ _ _ Q). apply nth_error_nth. rewrite (map_nth_error _ _ _ En). auto. }
  destruct m; [| |discriminate].
  - bok H. injection H as <- <-. unfold initialise_S in E1. bok E1. bok E1. injection E1 as <-. cbn [s_size s_orders s_shape_eps s_layers told_widths told_mats].
    destruct (layers_S4_ok _ _ _ _ _ _ _ E3) as [L1 L2]. unfold told_widths, told_mats. cbn [s_layers].
    destruct (W a3 L1) as (W1 & W2 & W3 & W4). { intros j e w sh Hn. destruct (L2 _ _ _ _ Hn) as (A & B & g & C & _). eauto. }
    do 7 (split; auto). intros l e w regs Hn. destruct (L2 _ _ _ _ Hn) as (_ & _ & g & C & D). exists g. split; auto. apply shapes_S4_placed; auto.
  - unfold initialise_S_inkstone in H. bok H. injection H as <- <-. cbn [s_size s_orders s_shape_eps s_layers].
    destruct (layers_ink_ok _ _ _ _ _ _ _ E1) as [L1 L2]. unfold told_widths, told_mats. cbn [s_layers].
    destruct (W (snd a1) L1) as (W1 & W2 & W3 & W4). { intros j e w sh Hn. destruct (L2 _ _ _ _ Hn) as (A & B & g & hv1 & hv2 & C & _). eauto. }
    do 7 (split; auto). intros l e w regs Hn. destruct (L2 _ _ _ _ Hn) as (_ & _ & g & hv1 & hv2 & C & D). exists g. split; auto.
    apply shapes_ink_placed in D. exact D.
Qed.

Lemma build_S_shapes ob hv0 hv m orders d i hv' S : safe hv0 (o_geom ob) m -> heq hv hv0 -> build_S ob hv m orders d i = Ok (hv', S) ->
  heq hv' hv0 /\ has_shapes hv0 (o_geom ob) S.
Proof.
  intros HS Hh H. unfold build_S in H. bok H. bok H. destruct m; [| |discriminate].
  - bok H. injection H as <- <-. split; auto. unfold initialise_S in E1. bok E1. bok E1. injection E1 as <-.
    destruct (layers_S4_ok _ _ _ _ _ _ _ E3) as [L1 L2]. intros l Hl. cbn [s_layers] in Hl. unfold told_regions. cbn [s_layers].
    destruct (nth_error a3 l) as [[[e w] sh]|] eqn:En; [|apply nth_error_None in En; lia]. destruct (L2 _ _ _ _ En) as (_ & _ & g & C & D).
    rewrite (nth_error_nth _ _ _ (map_nth_error snd _ _ En)). cbn [snd]. rewrite (nth_error_nth _ _ _ C), map_map, (shapes_S4_drawn _ _ _ _ D).
    apply map_ext. intros s. apply wanted_heq. auto.
  - unfold initialise_S_inkstone in H. bok H. injection H as <- <-. destruct (layers_ink_steady hv0 _ _ _ _ (HS eq_refl) _ _ _ Hh E1) as [L0 L2]. split; auto.
    intros l Hl. cbn [s_layers] in Hl. unfold told_regions. cbn [s_layers].
    destruct (nth_error (snd a1) l) as [[[e w] sh]|] eqn:En; [|apply nth_error_None in En; lia]. destruct (L2 _ _ _ _ En) as (g & C & D).
    rewrite (nth_error_nth _ _ _ (map_nth_error snd _ _ En)). cbn [snd]. rewrite (nth_error_nth _ _ _ C), map_map. auto.
Qed.
