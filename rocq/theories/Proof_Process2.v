(* Which structures are accepted; consequences for the calls of process_structure. *)
From Coq Require Import Reals List ZArith Bool String Lia Lra.
From Verif Require Import Base Lib Model_Structure Model_Angles Model_Cache Model_Process Spec_Process Proof_RTStruct3 Proof_Process.
Import ListNotations.
Local Notation length := List.length.
Open Scope list_scope.
Open Scope R_scope.

Section P.
Context {M V T : Type}.
Implicit Types (SC : list (item M V T)) (c : call_made M V T) (f : interface M V T).

Lemma in_process inc tr SC oi ow c : In c (calls_of inc tr SC oi ow) -> exists i f cs,
  nth_error SC i = Some (OIface f) /\ In c cs /\
  (table_calls inc tr SC ow i f = Ok cs \/ matrix_calls inc tr SC oi ow i f = Ok cs).
Proof.
  intros H. apply until_in in H. destruct H as [cs [H Hc]]. apply in_app_or in H.
  destruct H as [H|H]; apply in_map_iff in H; destruct H as [[i e] [E Hin]]; apply in_enumerate in Hin;
    unfold per_item in E; cbn [fst snd] in E; destruct e as [b|f|];
    try (injection E as <-; contradiction); exists i, f, cs; auto.
Qed.

Lemma completes_iff inc tr SC oi ow : completes inc tr SC oi ow <->
  forall i f, nth_error SC i = Some (OIface f) ->
    (exists cs, table_calls inc tr SC ow i f = Ok cs) /\ (exists cs, matrix_calls inc tr SC oi ow i f = Ok cs).
Proof.
  unfold completes, process_calls. rewrite until_none. split.
  - intros H i f Hi. apply in_enumerate in Hi. split.
    + destruct (H (per_item (table_calls inc tr SC ow) (i, OIface f))) as [cs E]; [|exists cs; auto].
      apply in_or_app. left. apply in_map. auto.
    + destruct (H (per_item (matrix_calls inc tr SC oi ow) (i, OIface f))) as [cs E]; [|exists cs; auto].
      apply in_or_app. right. apply in_map. auto.
  - intros H x Hx. apply in_app_or in Hx.
    destruct Hx as [Hx|Hx]; apply in_map_iff in Hx; destruct Hx as [[i e] [<- Hin]]; apply in_enumerate in Hin;
      unfold per_item; cbn [fst snd]; destruct e as [b|f|]; try (exists []; reflexivity); destruct (H i f Hin); auto.
Qed.

Lemma process_calls_in inc tr SC oi ow i f cs c : completes inc tr SC oi ow -> nth_error SC i = Some (OIface f) ->
  table_calls inc tr SC ow i f = Ok cs \/ matrix_calls inc tr SC oi ow i f = Ok cs -> In c cs -> In c (calls_of inc tr SC oi ow).
Proof.
  intros Hc Hi H Hin. unfold calls_of, process_calls. apply until_all with cs; auto. apply in_enumerate in Hi.
  apply in_or_app. destruct H as [<-|<-]; [left|right].
  - change (table_calls inc tr SC ow i f) with (per_item (table_calls inc tr SC ow) (i, OIface f)). apply in_map. auto.
  - change (matrix_calls inc tr SC oi ow i f) with (per_item (matrix_calls inc tr SC oi ow) (i, OIface f)). apply in_map. auto.
Qed.

(* ---------- C142 ---------- *)

Lemma calls_media inc tr SC oi ow c : In c (calls_of inc tr SC oi ow) ->
  exists i f, nth_error SC i = Some (OIface f) /\ has_value f "name" (c_name c) /\ c_method c = i_method f /\ c_overwrites c = ow /\
    forall a b, c_media c = Some (a, b) -> above inc SC i a /\ below tr SC i b.
Proof.
  intros H. destruct (in_process _ _ _ _ _ _ H) as [i [f [cs [Hi [Hin [E|E]]]]]]; exists i, f; split; auto.
  - destruct (table_ok _ _ _ _ _ _ _ _ Hi E Hin) as [A [B [C [D [_ [_ [a [b [F [G1 G2]]]]]]]]]].
    do 3 (split; auto). intros a' b' Hm. rewrite F in Hm. injection Hm as <- <-. auto.
  - destruct (matrix_ok _ _ _ _ _ _ _ _ _ Hi E Hin) as [A [B [C [D [_ [_ [a [b [F [G1 G2]]]]]]]]]].
    do 3 (split; auto). intros a' b' Hm. apply G2 in Hm. injection Hm as -> ->. auto.
Qed.

Lemma sides_calculated inc tr SC oi ow i f s : completes inc tr SC oi ow -> nth_error SC i = Some (OIface f) ->
  optical (i_method f) -> lit SC i s ->
  exists c, In c (calls_of inc tr SC oi ow) /\ c_side c = Some s /\ has_value f "name" (c_name c) /\ c_method c = i_method f /\
    exists a b, c_media c = Some (a, b) /\ above inc SC i a /\ below tr SC i b.
Proof.
  intros Hc Hi Hm Hs. pose proof (nth_error_lt _ _ _ Hi) as Hl.
  destruct (proj1 (completes_iff _ _ _ _ _) Hc i f Hi) as [_ [cs Hcs]].
  assert (G : exists c, In c cs /\ c_side c = Some s /\ exists x, c_media c = Some x).
  { apply sides_lit in Hs; auto. unfold matrix_calls in Hcs. ok Hcs.
    destruct Hm as [E'|[E'|[E'|[E'|[]]]]]; rewrite <- E' in Hcs; cbn [String.eqb Ascii.eqb Bool.eqb] in Hcs; ok Hcs; injection Hcs as <-.
    - eexists. split; [apply in_map_iff; exists s; split; [reflexivity|auto]|]. cbn. eauto.
    - eexists. split; [apply in_map_iff; exists s; split; [reflexivity|auto]|]. cbn. eauto.
    - eexists. split; [apply in_map_iff; exists s; split; [reflexivity|auto]|]. cbn. eauto.
    - eexists. split; [apply in_map_iff; exists s; split; [reflexivity|auto]|]. cbn. eauto. }
  destruct G as [c [Hin [Sd [x Hx]]]].
  destruct (matrix_ok _ _ _ _ _ _ _ _ _ Hi Hcs Hin) as [A [B [_ [_ [_ [_ [a [b [F [G1 G2]]]]]]]]]].
  exists c. split; [eapply process_calls_in; eauto|]. do 3 (split; auto). exists a, b. pose proof (G2 x Hx). subst x. auto.
Qed.

Lemma table_calculated inc tr SC oi ow i f : completes inc tr SC oi ow -> nth_error SC i = Some (OIface f) ->
  i_method f = "RT_TMM"%string ->
  exists c, In c (calls_of inc tr SC oi ow) /\ c_side c = None /\ has_value f "name" (c_name c) /\ describes f c /\
    exists a b, c_media c = Some (a, b) /\ above inc SC i a /\ below tr SC i b.
Proof.
  intros Hc Hi Hm. destruct (proj1 (completes_iff _ _ _ _ _) Hc i f Hi) as [[cs Hcs] _].
  assert (G : exists c, In c cs). { pose proof Hcs as H. unfold table_calls in H. rewrite Hm, String.eqb_refl in H. ok H.
    injection H as <-. eexists. left. reflexivity. }
  destruct G as [c Hin]. destruct (table_ok _ _ _ _ _ _ _ _ Hi Hcs Hin) as [A [B [C [_ [_ [D F]]]]]].
  exists c. split; [eapply process_calls_in; eauto|]. auto.
Qed.

(* ---------- C143: counting ---------- *)

Definition nI SC : nat := length (ifaces SC).
Definition nB SC : nat := length (bulks SC).

Inductive alt : list (item M V T) -> Prop :=
| alt_one f : alt [OIface f]
| alt_more f b r : alt r -> alt (OIface f :: OBulk b :: r).

Definition placed (p : bool) SC : Prop := forall i f, nth_error SC i = Some (OIface f) ->
  match i with O => p = true | S j => exists b, nth_error SC j = Some (OBulk b) end /\
  (S i = length SC \/ exists b, nth_error SC (S i) = Some (OBulk b)).

Lemma placed_tail p e SC : placed p (e :: SC) -> placed (match e with OBulk _ => true | _ => false end) SC.
Proof.
  intros H i f Hi. destruct (H (S i) f Hi) as [[b H1] H2]. split.
  - destruct i as [|j]; cbn [nth_error] in H1; [injection H1 as ->; auto|eauto].
  - destruct H2 as [H2|[b' H2]]; [left; cbn [length] in H2; lia|right; exists b'; exact H2].
Qed.

Lemma nI_bulk b SC : nI (OBulk b :: SC) = nI SC. Proof. reflexivity. Qed.
Lemma nB_bulk b SC : nB (OBulk b :: SC) = S (nB SC). Proof. reflexivity. Qed.
Lemma nI_iface f SC : nI (OIface f :: SC) = S (nI SC). Proof. reflexivity. Qed.
Lemma nB_iface f SC : nB (OIface f :: SC) = nB SC. Proof. reflexivity. Qed.
Lemma nI_other SC : nI (OOther :: SC) = nI SC. Proof. reflexivity. Qed.
Lemma nB_other SC : nB (OOther :: SC) = nB SC. Proof. reflexivity. Qed.
#[local] Hint Rewrite nI_bulk nB_bulk nI_iface nB_iface nI_other nB_other : counts.

Lemma count_placed n : forall p SC, (length SC <= n)%nat -> placed p SC ->
  (nI SC <= nB SC + 1)%nat /\ (nI SC = nB SC + 1 -> p = true /\ alt SC)%nat.
Proof.
  induction n as [|n IH]; intros p SC Hl HP.
  - destruct SC; [|cbn in Hl; lia]. cbn. split; [lia|intros; lia].
  - destruct SC as [|e SC]; [cbn; split; [lia|intros; lia]|]. cbn [length] in Hl.
    pose proof (placed_tail _ _ _ HP) as HT. destruct e as [b|f|].
    + destruct (IH _ SC ltac:(lia) HT) as [H1 H2]. autorewrite with counts. split; lia.
    + destruct (HP 0%nat f eq_refl) as [Hp Hn]. destruct SC as [|e SC].
      * cbn. split; [lia|]. intros _. split; auto. constructor.
      * destruct Hn as [Hn|[b Hn]]; [cbn in Hn; lia|]. cbn in Hn. injection Hn as ->.
        pose proof (placed_tail _ _ _ HT) as HT2. cbn [length] in Hl.
        destruct (IH _ SC ltac:(lia) HT2) as [H1 H2]. autorewrite with counts. split; [lia|].
        intros Hc. split; auto. constructor. apply H2. lia.
    + destruct (IH _ SC ltac:(lia) HT) as [H1 H2]. autorewrite with counts. split; [lia|].
      intros Hc. destruct H2; [lia|discriminate].
Qed.

Lemma alt_counts SC : alt SC -> nI SC = (nB SC + 1)%nat.
Proof. induction 1; autorewrite with counts; [reflexivity|lia]. Qed.

Lemma alt_alternates SC : alt SC <-> alternates SC.
Proof.
  split.
  - induction 1 as [f|f b r H [IH1 IH2]].
    + split; auto. intros [|[|i]] e E; cbn in *; try discriminate. injection E as <-. eexists. reflexivity.
    + split; [exact IH1|]. intros [|[|i]] e E.
      * injection E as <-. eexists. reflexivity.
      * injection E as <-. eexists. reflexivity.
      * exact (IH2 i e E).
  - intros H. assert (G : forall n SC, (length SC <= n)%nat -> alternates SC -> alt SC); [|eapply G; eauto].
    clear SC H. induction n as [|n IH]; intros SC Hl [H1 H2].
    + destruct SC; [discriminate|cbn in Hl; lia].
    + destruct SC as [|e [|e2 SC]]; [discriminate| |].
      * destruct (H2 0%nat e eq_refl) as [f ->]. constructor.
      * destruct (H2 0%nat e eq_refl) as [f ->]. destruct (H2 1%nat e2 eq_refl) as [b ->]. constructor.
        apply IH; [cbn in Hl; lia|]. split; [exact H1|]. intros i x Hx. apply (H2 (S (S i)) x Hx).
Qed.

Lemma names_iff SC : (exists l, names_loaded SC = Ok l) <-> (nB SC + 1 <= nI SC)%nat.
Proof.
  unfold names_loaded, nB, nI. split.
  - intros [l H]. destruct (Nat.le_gt_cases (length (bulks SC) + 1) (length (ifaces SC))) as [|Hgt]; auto. exfalso.
    assert (G : forall (l : list nat), (exists i, In i l /\ (length (ifaces SC) <= i)%nat) ->
      forall r, rmap (fun i => py_index (ifaces SC) (Z.of_nat i)) l <> Ok r).
    { clear. induction l as [|a l IH]; intros [i [Hin Hi]] r; [contradiction|]. cbn [rmap].
      destruct (py_index (ifaces SC) (Z.of_nat a)) as [x|] eqn:E; cbn [rbind]; [|discriminate].
      destruct Hin as [->|Hin]; [rewrite py_index_over in E by auto; discriminate|].
      destruct (rmap _ l) as [r'|] eqn:E'; cbn [rbind]; [|discriminate]. exfalso.
      eapply IH; eauto. }
    apply (G (seq 0 (length (bulks SC) + 1))) in H; auto. exists (length (ifaces SC)). split; auto. apply in_seq. lia.
  - intros H.
    assert (G : forall (l : list nat), (forall i, In i l -> (i < length (ifaces SC))%nat) ->
      exists r, rmap (fun i => py_index (ifaces SC) (Z.of_nat i)) l = Ok r).
    { clear. induction l as [|a l IH]; intros Hl; [exists []; auto|]. cbn [rmap].
      assert (Ha : (a < length (ifaces SC))%nat) by (apply Hl; left; auto). apply nth_error_Some in Ha.
      destruct (nth_error (ifaces SC) a) as [x|] eqn:E; [|congruence]. rewrite (py_index_nat _ _ _ E). cbn [rbind].
      destruct IH as [r Hr]; [intros; apply Hl; right; auto|]. rewrite Hr. cbn [rbind]. eauto. }
    apply G. intros i Hi. apply in_seq in Hi. lia.
Qed.

(* what an interface needs to be processed *)
Lemma iface_calls_ok inc tr SC oi ow i f : nth_error SC i = Some (OIface f) -> In (i_method f) valid_methods ->
  ((exists cs, table_calls inc tr SC ow i f = Ok cs) /\ (exists cs, matrix_calls inc tr SC oi ow i f = Ok cs) ->
   (exists a, above inc SC i a) /\ (exists b, below tr SC i b) /\ equipped f) /\
  ((exists a, above inc SC i a) -> (exists b, below tr SC i b) -> equipped f ->
   (forall e, In e SC -> is_iface e \/ is_bulk e) ->
   (exists cs, table_calls inc tr SC ow i f = Ok cs) /\ (exists cs, matrix_calls inc tr SC oi ow i f = Ok cs)).
Proof.
  intros Hi Hm. pose proof (nth_error_lt _ _ _ Hi) as Hl. split.
  - intros [[cs1 H1] [cs2 H2]]. pose proof H2 as H. unfold matrix_calls in H. ok H. apply above_ok in E. apply below_ok in E0; auto.
    split; [eauto|]. split; [eauto|].
    unfold equipped. unfold table_calls in H1.
    destruct Hm as [Em|[Em|[Em|[Em|[Em|[Em|[]]]]]]]; rewrite <- Em in *; cbn [String.eqb Ascii.eqb Bool.eqb] in H, H1; ok H; ok H1;
      (split; [apply attr_has; eauto|]).
    + split; [intros [F|F]; discriminate|]. split; intros; discriminate.
    + split; [|split; [|intros; discriminate]].
      * intros _. unfold determine_coherency in *. destruct (i_coherent f); auto. right.
        match goal with X : rbind (attr f "coherency_list") _ = Ok _ |- _ => ok X end. apply attr_has. eauto.
      * intros _. unfold n_layers in *. destruct (i_layers f); [discriminate|discriminate].
    + split; [intros [F|F]; discriminate|]. split; [intros; discriminate|]. intros _. split; apply attr_has; eauto.
    + split; [|split; [|intros; discriminate]].
      * intros _. unfold determine_coherency in *. destruct (i_coherent f); auto. right.
        match goal with X : rbind (attr f "coherency_list") _ = Ok _ |- _ => ok X end. apply attr_has. eauto.
      * discriminate.
    + split; [intros [F|F]; discriminate|]. split; intros; discriminate.
    + split; [intros [F|F]; discriminate|]. split; intros; discriminate.
  - intros [a Ha] [b Hb] [N [C [L R]]] Hall. apply attr_has in N. destruct N as [nm N].
    apply above_ok in Ha. apply below_ok in Hb; auto.
    assert (DC : (i_method f = "TMM" \/ i_method f = "RT_TMM")%string -> exists co, determine_coherency f = Ok co).
    { intros F. unfold determine_coherency. destruct (C F) as [->|F2]; [eauto|]. destruct (i_coherent f); [eauto|].
      apply attr_has in F2. destruct F2 as [v ->]. cbn [rbind]. eauto. }
    unfold table_calls, matrix_calls. rewrite Ha, Hb, N. cbn [rbind].
    destruct Hm as [Em|[Em|[Em|[Em|[Em|[Em|[]]]]]]]; rewrite <- Em in *; cbn [String.eqb Ascii.eqb Bool.eqb]; (split; [|try (cbn [rbind]; eauto; fail)]); try (eauto; fail).
    + destruct DC as [co ->]; auto. cbn [rbind]. eauto.
    + unfold n_layers. destruct (i_layers f) as [lay|]; [|exfalso; apply L; auto]. cbn [rbind].
      rewrite (py_index_nat _ _ _ (widths_at _ _ _ Hall Hi)). cbn [rbind]. eauto.
    + destruct (R eq_refl) as [R1 R2]. apply attr_has in R1, R2. destruct R1 as [x ->]. destruct R2 as [y ->]. cbn [rbind]. eauto.
    + destruct DC as [co ->]; auto. cbn [rbind]. eauto.
Qed.

Lemma accepted_iff inc tr SC oi ow : (forall f, In (OIface f) SC -> In (i_method f) valid_methods) ->
  ((completes inc tr SC oi ow /\ exists l, names_loaded SC = Ok l) <->
   (alternates SC /\ inc <> None /\ tr <> None /\ forall f, In (OIface f) SC -> equipped f)).
Proof.
  intros Hval. split.
  - intros [Hc Hn]. apply names_iff in Hn. rewrite completes_iff in Hc.
    assert (HI : forall i f, nth_error SC i = Some (OIface f) -> (exists a, above inc SC i a) /\ (exists b, below tr SC i b) /\ equipped f).
    { intros i f Hi. apply (iface_calls_ok inc tr SC oi ow i f Hi); [apply Hval; eapply nth_error_In; eauto|]. apply Hc; auto. }
    assert (HP : placed true SC).
    { intros i f Hi. destruct (HI i f Hi) as [[a Ha] [[b Hb] _]]. split.
      - destruct i as [|j]; auto. destruct Ha as [[F _]|[x [_ [Hx _]]]]; [discriminate|]. replace (S j - 1)%nat with j in Hx by lia. eauto.
      - destruct Hb as [[Hb _]|[x [Hx _]]]; auto. replace (i + 1)%nat with (S i) in Hx by lia. eauto. }
    destruct (count_placed (length SC) true SC (Nat.le_refl _) HP) as [H1 H2].
    destruct H2 as [_ HA]; [lia|]. split; [apply alt_alternates; auto|].
    assert (HF : exists f, nth_error SC 0 = Some (OIface f)) by (inversion HA; eexists; reflexivity).
    destruct HF as [f0 HF].
    assert (HL : exists f, nth_error SC (length SC - 1) = Some (OIface f)).
    { clear - HA. induction HA as [f|f b r H [g IH]]; [eexists; reflexivity|]. cbn [length]. destruct r; [inversion H|].
      cbn [length] in *. replace (S (S (S (length r))) - 1)%nat with (S (S (S (length r) - 1)))%nat by lia. cbn [nth_error]. eauto. }
    destruct HL as [f1 HL].
    split; [|split].
    + destruct (HI _ _ HF) as [[a [[_ ->]|[b [F _]]]] _]; [discriminate|lia].
    + destruct (HI _ _ HL) as [_ [[b [[_ ->]|[x [Hx _]]]] _]]; [discriminate|].
      apply nth_error_lt in Hx. apply nth_error_lt in HF. lia.
    + intros f Hf. apply In_nth_error in Hf. destruct Hf as [i Hi]. apply (HI i f Hi).
  - intros [HA [Hinc [Htr He]]]. pose proof HA as HA'. apply alt_alternates in HA'. split.
    + apply completes_iff. intros i f Hi. pose proof (nth_error_lt _ _ _ Hi) as Hl. destruct HA as [Ho HA].
      assert (Ev : Nat.even i = true). { specialize (HA i _ Hi). destruct (Nat.even i); auto. destruct HA; discriminate. }
      apply (iface_calls_ok inc tr SC oi ow i f Hi).
      * apply Hval. eapply nth_error_In; eauto.
      * destruct i as [|j].
        { destruct inc as [a|]; [|congruence]. exists a. left. auto. }
        assert (Hj : (j < length SC)%nat) by lia. apply nth_error_Some in Hj. destruct (nth_error SC j) as [e|] eqn:Ee; [|congruence].
        specialize (HA j e Ee). rewrite Nat.even_succ, <- Nat.negb_even, negb_true_iff in Ev. rewrite Ev in HA. destruct HA as [b ->].
        exists (b_material b). right. exists b. split; [lia|]. replace (S j - 1)%nat with j by lia. auto.
      * destruct (Nat.eq_dec (S i) (length SC)) as [Es|Es].
        { destruct tr as [m|]; [|congruence]. exists m. left. auto. }
        assert (Hj : (S i < length SC)%nat) by lia. apply nth_error_Some in Hj. destruct (nth_error SC (S i)) as [e|] eqn:Ee; [|congruence].
        specialize (HA (S i) e Ee). rewrite Nat.even_succ, <- Nat.negb_even, Ev in HA. destruct HA as [b ->].
        exists (b_material b). right. exists b. replace (i + 1)%nat with (S i) by lia. auto.
      * apply He. eapply nth_error_In; eauto.
      * intros e Hin. apply In_nth_error in Hin. destruct Hin as [k Hk]. specialize (HA k e Hk). destruct (Nat.even k); auto.
    + apply names_iff. rewrite (alt_counts _ HA'). lia.
Qed.

(* ---------- C144 ---------- *)

Lemma only_incidence_rt inc tr SC oi ow c : In c (calls_of inc tr SC oi ow) -> c_only c = true ->
  oi = true /\ c_side c = Some Front /\ exists f, nth_error SC 0 = Some (OIface f) /\ has_value f "name" (c_name c).
Proof.
  intros H Ho. destruct (in_process _ _ _ _ _ _ H) as [i [f [cs [Hi [Hin [E|E]]]]]].
  - destruct (table_ok _ _ _ _ _ _ _ _ Hi E Hin) as [_ [_ [_ [_ [F _]]]]]. congruence.
  - destruct (matrix_ok _ _ _ _ _ _ _ _ _ Hi E Hin) as [A [_ [_ [_ [B _]]]]]. destruct (proj1 B Ho) as [B1 [-> [B2 _]]].
    split; auto. split; auto. eauto.
Qed.

Lemma only_incidence_front inc tr SC ow f : completes inc tr SC true ow -> nth_error SC 0 = Some (OIface f) ->
  (i_method f = "RT_TMM" \/ i_method f = "RT_Fresnel")%string ->
  exists c, In c (calls_of inc tr SC true ow) /\ c_side c = Some Front /\ has_value f "name" (c_name c) /\ c_only c = true.
Proof.
  intros Hc Hi Hm.
  destruct (proj1 (completes_iff _ _ _ _ _) Hc _ f Hi) as [_ [cs Hcs]].
  assert (G : exists c, In c cs /\ c_side c = Some Front).
  { assert (In Front (sides_of SC 0)) by (unfold sides_of; destruct (Nat.eqb _ _); left; auto).
    pose proof Hcs as K. unfold matrix_calls in K. ok K.
    destruct Hm as [E'|E']; rewrite E' in K; cbn [String.eqb Ascii.eqb Bool.eqb] in K; ok K; injection K as <-;
      (eexists; split; [apply in_map_iff; exists Front; split; [reflexivity|auto]|reflexivity]). }
  destruct G as [c [Hin Sd]].
  destruct (matrix_ok _ _ _ _ _ _ _ _ _ Hi Hcs Hin) as [A [_ [_ [_ [B _]]]]].
  exists c. split; [eapply process_calls_in; eauto|]. split; auto. split; auto. apply B. auto 6.
Qed.

(* ---------- C145 ---------- *)

Lemma calls_describe inc tr SC oi ow c : (forall e, In e SC -> is_iface e \/ is_bulk e) -> In c (calls_of inc tr SC oi ow) ->
  exists i f, nth_error SC i = Some (OIface f) /\ has_value f "name" (c_name c) /\ c_method c = i_method f /\ describes f c.
Proof.
  intros Ha H. destruct (in_process _ _ _ _ _ _ H) as [i [f [cs [Hi [Hin [E|E]]]]]]; exists i, f; split; auto.
  - destruct (table_ok _ _ _ _ _ _ _ _ Hi E Hin) as [A [B [_ [_ [_ [C _]]]]]]. auto.
  - destruct (matrix_ok _ _ _ _ _ _ _ _ _ Hi E Hin) as [A [B [_ [_ [_ [C _]]]]]]. auto.
Qed.
End P.

(* ---------- C144 (other methods), C145 (widths) ---------- *)

Section Q.
Context {M V T : Type}.
Implicit Types (SC : list (item M V T)) (c : call_made M V T) (f : interface M V T).

Lemma not_only inc tr SC oi ow f c : nth_error SC 0 = Some (OIface f) -> In c (calls_of inc tr SC oi ow) ->
  (c_method c = "TMM" \/ c_method c = "RCWA")%string -> c_only c = false.
Proof.
  intros Hi H Hm. destruct (c_only c) eqn:E; auto. exfalso.
  destruct (in_process _ _ _ _ _ _ H) as [i [f' [cs [Hi' [Hin [E'|E']]]]]].
  - destruct (table_ok _ _ _ _ _ _ _ _ Hi' E' Hin) as [_ [_ [_ [_ [F _]]]]]. congruence.
  - destruct (matrix_ok _ _ _ _ _ _ _ _ _ Hi' E' Hin) as [_ [A [_ [_ [B _]]]]]. destruct (proj1 B E) as [_ [_ [_ [F|F]]]];
      rewrite A, F in Hm; destruct Hm; discriminate.
Qed.

Lemma only_ignored inc tr SC ow f : completes inc tr SC true ow -> nth_error SC 0 = Some (OIface f) ->
  (i_method f = "TMM" \/ i_method f = "RCWA")%string ->
  exists c, In c (calls_of inc tr SC true ow) /\ c_side c = Some Front /\ has_value f "name" (c_name c) /\ c_only c = false.
Proof.
  intros Hc Hi Hm.
  destruct (sides_calculated inc tr SC true ow 0 f Front Hc Hi) as [c [A [B [C [D _]]]]].
  - unfold optical. destruct Hm as [->| ->]; cbn; auto 6.
  - exact I.
  - exists c. split; auto. split; auto. split; auto. eapply not_only; eauto. rewrite D. auto.
Qed.

Definition width_nm (e : larg M V) : R :=
  match e with LLayer _ w => w * 10 ^ 9 | LList (Some (w, _)) => w | LList None => 0 end.

Lemma widths_nm method (layers : list (larg M V)) (texture : T) prof coherent kwargs f :
  new_interface method (Some layers) texture prof coherent kwargs = Ok f ->
  map (fun w => w * 10 ^ 9) (i_widths f) = map width_nm layers.
Proof.
  unfold new_interface. destruct (existsb _ _); [|discriminate]. intros H. ok H. injection H as <-. cbn [i_widths].
  revert l E. induction layers as [|e layers IH]; intros l E; cbn [rmap] in E.
  - injection E as <-. auto.
  - ok E. injection E as <-. cbn [map]. rewrite (IH l0 eq_refl). f_equal.
    destruct e as [m w|[[w r]|]]; cbn in E0; try discriminate; injection E0 as <-; cbn [fst width_nm]; auto.
    field.
Qed.
End Q.
