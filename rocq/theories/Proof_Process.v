(* Proofs about the calls of process_structure. *)
From Coq Require Import Reals List ZArith Bool String Lia Lra.
From Verif Require Import Base Lib Model_Structure Model_Angles Model_Cache Model_Process Spec_Process Proof_RTStruct3.
Import ListNotations.
Local Notation length := List.length.
Open Scope list_scope.
Open Scope R_scope.

Ltac ok H := repeat match type of H with
  | rbind ?x _ = Ok _ => let E := fresh "E" in destruct x eqn:E; cbn [rbind] in H; [|discriminate H]
  end.

Section P.
Context {M V T : Type}.
Implicit Types (SC : list (item M V T)) (c : call_made M V T) (f : interface M V T).

Lemma until_in (l : list (res (list (call_made M V T)))) c : In c (fst (until_error l)) ->
  exists cs, In (Ok cs) l /\ In c cs.
Proof.
  induction l as [|[cs|e] l IH]; cbn [until_error]; try contradiction.
  destruct (until_error l) as [r e] eqn:E. cbn [fst] in *. intros H. apply in_app_or in H. destruct H as [H|H].
  - exists cs. split; auto. left. auto.
  - destruct (IH H) as [cs' [H1 H2]]. exists cs'. split; auto. right. auto.
Qed.

Lemma until_none (l : list (res (list (call_made M V T)))) : snd (until_error l) = None <->
  forall x, In x l -> exists cs, x = Ok cs.
Proof.
  induction l as [|[cs|e] l IH]; cbn [until_error].
  - split; auto. intros _ x [].
  - destruct (until_error l) as [r e] eqn:E. cbn [snd] in *. rewrite IH. split.
    + intros H x [<-|Hx]; eauto.
    + intros H x Hx. apply H. right. auto.
  - cbn [snd]. split; [discriminate|]. intros H. destruct (H (Err e)) as [cs Hcs]; [left; auto|discriminate].
Qed.

Lemma until_all (l : list (res (list (call_made M V T)))) cs c : snd (until_error l) = None -> In (Ok cs) l -> In c cs ->
  In c (fst (until_error l)).
Proof.
  induction l as [|[cs'|e] l IH]; cbn [until_error]; try contradiction; [|discriminate].
  destruct (until_error l) as [r e] eqn:E. cbn [fst snd] in *. intros He [H|H] Hc.
  - injection H as ->. apply in_or_app. auto.
  - apply in_or_app. auto.
Qed.

Lemma lookup_value k (l : list (string * V)) v : lookup k l = Some v <-> exists a b, l = a ++ (k, v) :: b /\ ~ In k (map fst a).
Proof.
  induction l as [|[k' v'] l IH]; cbn [lookup].
  - split; [discriminate|]. intros [[|] [b [E _]]]; discriminate.
  - destruct (String.eqb_spec k k') as [->|Hn].
    + split.
      * intros E. injection E as ->. exists [], l. split; auto.
      * intros [[|[k2 v2] a] [b [E N]]]; cbn in E; inversion E; subst; auto. exfalso. apply N. left. auto.
    + rewrite IH. split.
      * intros [a [b [-> N]]]. exists ((k', v') :: a), b. split; auto. intros [H|H]; [cbn in H; congruence|auto].
      * intros [[|[k2 v2] a] [b [E N]]]; cbn in E; inversion E; subst; [congruence|].
        exists a, b. split; auto. intros H. apply N. right. auto.
Qed.

Lemma lookup_has k (l : list (string * V)) : In k (map fst l) <-> exists v, lookup k l = Some v.
Proof.
  induction l as [|[k' v'] l IH]; cbn [lookup map fst].
  - split; [intros []|intros [v H]; discriminate].
  - destruct (String.eqb_spec k k') as [->|Hn].
    + split; [eauto|]. intros _. left. auto.
    + rewrite <- IH. split; [intros [H|H]; [congruence|auto]|]. intros H. right. auto.
Qed.

Lemma attr_value f k v : attr f k = Ok v <-> has_value f k v.
Proof.
  unfold attr, has_value. rewrite <- lookup_value. destruct (lookup k (i_extra f)); split; try congruence.
Qed.

Lemma attr_has f k : (exists v, attr f k = Ok v) <-> has f k.
Proof.
  unfold attr, has. rewrite lookup_has. destruct (lookup k (i_extra f)) as [v|]; split; intros [x H]; eauto; discriminate.
Qed.

Lemma above_ok inc SC i m : medium_above inc SC i = Ok m <-> above inc SC i m.
Proof.
  unfold medium_above, above, given, material_of. destruct i as [|j].
  - destruct inc; split.
    + intros E. injection E as ->. left. auto.
    + intros [[_ E]|[b [H _]]]; [injection E as ->; auto|lia].
    + discriminate.
    + intros [[_ E]|[b [H _]]]; [discriminate|lia].
  - replace (S j - 1)%nat with j by lia. destruct (nth_error SC j) as [[b|f|]|]; split; try discriminate.
    + intros E. injection E as <-. right. exists b. split; [lia|auto].
    + intros [[H _]|[b' [_ [E <-]]]]; [lia|]. injection E as ->. auto.
    + intros [[H _]|[b' [_ [E <-]]]]; [lia|discriminate].
    + intros [[H _]|[b' [_ [E <-]]]]; [lia|discriminate].
    + intros [[H _]|[b' [_ [E <-]]]]; [lia|discriminate].
Qed.

Lemma below_ok tr SC i m : (i < length SC)%nat -> (medium_below tr SC i = Ok m <-> below tr SC i m).
Proof.
  intros Hi. unfold medium_below, below, given, material_of. replace (i + 1)%nat with (S i) by lia.
  destruct (Nat.eqb_spec i (length SC - 1)) as [E|E].
  - assert (N : nth_error SC (S i) = None) by (apply nth_error_None; lia). rewrite N. destruct tr; split.
    + intros H. injection H as ->. left. split; auto. lia.
    + intros [[_ H]|[b [H _]]]; [injection H as ->; auto|discriminate].
    + discriminate.
    + intros [[_ H]|[b [H _]]]; discriminate.
  - destruct (nth_error SC (S i)) as [[b|f|]|]; split; try discriminate.
    + intros H. injection H as <-. right. exists b. auto.
    + intros [[H _]|[b' [H <-]]]; [lia|]. injection H as ->. auto.
    + intros [[H _]|[b' [H <-]]]; [lia|discriminate].
    + intros [[H _]|[b' [H <-]]]; [lia|discriminate].
    + intros [[H _]|[b' [H <-]]]; [lia|discriminate].
Qed.

Lemma sides_lit SC i s : (i < length SC)%nat -> (In s (sides_of SC i) <-> lit SC i s).
Proof.
  intros Hi. unfold sides_of, lit. destruct (Nat.eqb_spec i (length SC - 1)); destruct s; cbn [In].
  - split; auto.
  - split; [intros [H|[]]; discriminate|lia].
  - split; auto.
  - split; [lia|auto].
Qed.


Lemma coh_ok f co : determine_coherency f = Ok co -> coherency_given f (fst co) (snd co).
Proof.
  unfold determine_coherency, coherency_given. destruct (i_coherent f); intros H; ok H; injection H as <-; cbn [fst snd]; auto.
  split; auto. eexists. split; eauto. apply attr_value. auto.
Qed.

(* every element is an interface or a bulk layer *)
Lemma widths_at SC i f : (forall e, In e SC -> is_iface e \/ is_bulk e) -> nth_error SC i = Some (OIface f) ->
  nth_error (layer_widths SC) i = Some (map (fun w => w * 10 ^ 9) (i_widths f)).
Proof.
  revert i. induction SC as [|e SC IH]; intros i Ha Hi; [destruct i; discriminate|].
  assert (Hr : forall e, In e SC -> is_iface e \/ is_bulk e) by (intros; apply Ha; right; auto).
  unfold layer_widths. cbn [flat_map]. fold (layer_widths SC).
  destruct (Ha e (or_introl eq_refl)) as [[f' ->]|[b ->]]; destruct i as [|i]; cbn [nth_error app] in *; auto; try discriminate.
  injection Hi as ->. auto.
Qed.

Lemma table_ok inc tr SC ow i f cs c : nth_error SC i = Some (OIface f) -> table_calls inc tr SC ow i f = Ok cs -> In c cs ->
  has_value f "name" (c_name c) /\ c_method c = i_method f /\ c_side c = None /\ c_overwrites c = ow /\ c_only c = false /\
  describes f c /\ exists a b, c_media c = Some (a, b) /\ above inc SC i a /\ below tr SC i b.
Proof.
  intros Hi H Hc. unfold table_calls in H. destruct (String.eqb_spec (i_method f) "RT_TMM") as [Em|]; [|injection H as <-; contradiction].
  ok H. injection H as <-. destruct Hc as [<-|[]]. cbn.
  split; [apply attr_value; auto|]. do 4 (split; auto). split; [split; auto; split; auto; apply coh_ok; auto|].
  eexists. eexists. split; eauto. split; [apply above_ok; auto|apply below_ok; auto]. eapply nth_error_lt; eauto.
Qed.

Lemma matrix_ok inc tr SC oi ow i f cs c : nth_error SC i = Some (OIface f) -> matrix_calls inc tr SC oi ow i f = Ok cs -> In c cs ->
  has_value f "name" (c_name c) /\ c_method c = i_method f /\ (exists s, c_side c = Some s /\ lit SC i s) /\ c_overwrites c = ow /\
  (c_only c = true <-> oi = true /\ i = 0%nat /\ c_side c = Some Front /\ (i_method f = "RT_TMM" \/ i_method f = "RT_Fresnel")%string) /\
  ((forall e, In e SC -> is_iface e \/ is_bulk e) -> describes f c) /\
  (exists a b, above inc SC i a /\ below tr SC i b /\ forall x, c_media c = Some x -> x = (a, b)).
Proof.
  intros Hi H Hc. pose proof (nth_error_lt _ _ _ Hi) as Hl. unfold matrix_calls in H. ok H.
  apply above_ok in E. apply below_ok in E0; auto.
  assert (Hm : exists a b, above inc SC i a /\ below tr SC i b /\ forall x, Some (m, m0) = Some x -> x = (a, b)).
  { exists m, m0. split; auto. split; auto. intros x Hx. injection Hx as ->. auto. }
  assert (HmN : exists a b, above inc SC i a /\ below tr SC i b /\ forall x, None = Some x -> x = (a, b)).
  { exists m, m0. split; auto. split; auto. discriminate. }
  assert (DI : forall s, determine_only_incidence s i oi = true <-> oi = true /\ i = 0%nat /\ s = Front).
  { intros []; cbn [determine_only_incidence]; [|split; [discriminate|intros [_ [_ F]]; discriminate]].
    rewrite andb_true_iff, Nat.eqb_eq. tauto. }
  repeat match type of H with context [String.eqb (i_method f) ?s] => destruct (String.eqb_spec (i_method f) s) as [Em|] end;
    ok H; injection H as <-; try contradiction.
  - destruct Hc as [<-|[]]. cbn. rewrite Em. split; [apply attr_value; auto|]. split; auto. split; [exists Front; split; auto; exact I|].
    split; auto. split; [split; [discriminate|intros [_ [_ [_ [F|F]]]]; discriminate]|]. auto.
  - destruct Hc as [<-|[]]. cbn. rewrite Em. split; [apply attr_value; auto|]. split; auto. split; [exists Front; split; auto; exact I|].
    split; auto. split; [split; [discriminate|intros [_ [_ [_ [F|F]]]]; discriminate]|]. auto.
  - apply in_map_iff in Hc. destruct Hc as [s [<- Hs]]. apply sides_lit in Hs; auto. cbn. rewrite Em.
    split; [apply attr_value; auto|]. split; auto. split; [exists s; auto|]. split; auto.
    split; [split; [discriminate|intros [_ [_ [_ [F|F]]]]; discriminate]|]. split; auto.
    intros _. split; auto. split; auto. apply coh_ok. auto.
  - apply in_map_iff in Hc. destruct Hc as [s [<- Hs]]. apply sides_lit in Hs; auto. cbn. rewrite Em.
    split; [apply attr_value; auto|]. split; auto. split; [exists s; auto|]. split; auto.
    split.
    { rewrite DI. split; [intros [A [B C]]; subst; auto|]. intros [A [B [C D]]]. injection C as ->. auto. }
    split; auto. intros Ha. split; auto.
    split; [|split; auto].
    + unfold n_layers in E1. destruct (i_layers f) as [lay|]; [|discriminate]. injection E1 as <-. eauto.
    + rewrite (py_index_nat _ _ _ (widths_at _ _ _ Ha Hi)) in E3. injection E3 as <-. auto.
  - apply in_map_iff in Hc. destruct Hc as [s [<- Hs]]. apply sides_lit in Hs; auto. cbn. rewrite Em.
    split; [apply attr_value; auto|]. split; auto. split; [exists s; auto|]. split; auto.
    split.
    { rewrite DI. split; [intros [A [B C]]; subst; auto|]. intros [A [B [C D]]]. injection C as ->. auto. }
    split; auto.
  - apply in_map_iff in Hc. destruct Hc as [s [<- Hs]]. apply sides_lit in Hs; auto. cbn. rewrite Em.
    split; [apply attr_value; auto|]. split; auto. split; [exists s; auto|]. split; auto.
    split; [split; [discriminate|intros [_ [_ [_ [F|F]]]]; discriminate]|]. split; auto.
    intros _. split; auto. split; [apply attr_value; auto|]. split; auto. apply attr_value; auto.
Qed.
End P.
