From Coq Require Import Reals List ZArith Bool String Lia Lra.
From Verif Require Import Base Lib Model_Structure Spec_Structure.
Import ListNotations.
Local Notation length := List.length.
Open Scope R_scope.

Lemma valid_iff m : existsb (String.eqb m) valid_methods = true <-> documented m.
Proof.
  rewrite existsb_exists. unfold valid_methods, documented. split.
  - intros (x & H & E). apply String.eqb_eq in E. subst x. cbn [In] in H. intuition auto.
  - intros H. exists m. split; [|apply String.eqb_refl]. cbn [In]. intuition auto.
Qed.
Lemma reserved_iff k : existsb (String.eqb k) assigned = true <-> reserved k.
Proof.
  rewrite existsb_exists. unfold assigned, reserved. split.
  - intros (x & H & E). apply String.eqb_eq in E. subst x. cbn [In] in H. intuition auto.
  - intros H. exists k. split; [|apply String.eqb_refl]. cbn [In]. intuition auto.
Qed.

Lemma read_ok {M V} (l : list (larg M V)) : (forall e, In e l -> described e) ->
  exists r, rmap read_layer l = Ok r /\ length r = length l /\
    forall i e w m, nth_error l i = Some e -> nth_error r i = Some (w, m) -> layer_has e w m.
Proof.
  induction l as [|e l IH]; intros H.
  - exists []. split; auto. split; auto. intros [|i]; discriminate.
  - destruct IH as (r & E & L & P); [intros; apply H; right; auto|].
    assert (D := H e (or_introl eq_refl)). cbn [rmap]. rewrite E. destruct e as [m w|[[nm rest]|]]; [| |destruct D; auto]; cbn [read_layer rbind].
    + eexists. split; [reflexivity|]. split; [cbn; auto|]. intros [|i] e' w' m'; cbn [nth_error]; [|apply P]. intros A B. injection A as <-. injection B as <- <-.
      left. eauto.
    + eexists. split; [reflexivity|]. split; [cbn; auto|]. intros [|i] e' w' m'; cbn [nth_error]; [|apply P]. intros A B. injection A as <-. injection B as <- <-.
      right. exists nm, rest. split; auto.
Qed.
Lemma read_bad {M V} (l : list (larg M V)) : In (LList None) l -> rmap read_layer l = Err IndexError.
Proof.
  induction l as [|e l IH]; intros H; [destruct H|]. cbn [rmap]. destruct e as [m w|[[nm rest]|]]; cbn [read_layer rbind]; auto;
    (destruct H as [H|H]; [discriminate|]; rewrite IH; auto).
Qed.

Lemma interface_ok {M V T} method (layers : option (list (larg M V))) (texture : T) prof coherent kwargs :
  documented method -> (forall e, In e (layers_in layers) -> described e) ->
  exists i, new_interface method layers texture prof coherent kwargs = Ok i /\
    i_method i = method /\ i_layers i = layers /\ i_texture i = texture /\ i_prof i = prof /\ i_coherent i = coherent /\
    length (i_widths i) = length (layers_in layers) /\ length (i_materials i) = length (layers_in layers) /\
    (forall k e w m, nth_error (layers_in layers) k = Some e -> nth_error (i_widths i) k = Some w -> nth_error (i_materials i) k = Some m ->
       layer_has e w m) /\
    (forall name v, In (name, v) (i_extra i) <-> In (name, v) kwargs /\ ~ reserved name).
Proof.
  intros Hm Hl. unfold new_interface. rewrite (proj2 (valid_iff method) Hm). destruct (read_ok (layers_in layers) Hl) as (r & E & L & P).
  unfold layers_in in E. rewrite E. cbn [rbind]. eexists. split; [reflexivity|]. cbn [i_method i_layers i_texture i_prof i_coherent i_widths i_materials i_extra].
  do 5 (split; auto). split; [rewrite map_length; auto|]. split; [rewrite map_length; auto|]. split.
  - intros k e w m A B C. rewrite nth_error_map in B, C. destruct (nth_error r k) as [[w' m']|] eqn:Er; [|discriminate].
    cbn in B, C. injection B as <-. injection C as <-. eauto.
  - intros name v. rewrite filter_In. cbn [fst]. rewrite negb_true_iff. pose proof (reserved_iff name) as Q.
    destruct (existsb (String.eqb name) assigned); split; intros [A B]; split; auto; try discriminate.
    + destruct B. apply Q. auto.
    + intros R. apply Q in R. discriminate.
Qed.
Lemma interface_method {M V T} method (layers : option (list (larg M V))) (texture : T) prof coherent kwargs :
  ~ documented method -> new_interface method layers texture prof coherent kwargs = Err ValueError.
Proof. intros H. unfold new_interface. destruct (existsb _ _) eqn:E; auto. apply valid_iff in E. tauto. Qed.
Lemma interface_empty {M V T} method (layers : option (list (larg M V))) (texture : T) prof coherent kwargs :
  documented method -> In (LList None) (layers_in layers) ->
  new_interface method layers texture prof coherent kwargs = Err IndexError.
Proof.
  intros Hm H. unfold new_interface. rewrite (proj2 (valid_iff method) Hm). apply read_bad in H. unfold layers_in in H. rewrite H. auto.
Qed.

Lemma shown_new {E} (l : list E) : map fst (st_shown (new_structure l)) = l.
Proof. unfold st_shown, new_structure. cbn [st_items st_labels]. induction l; cbn; congruence. Qed.
Lemma shown_append {E} (l : list E) e : map fst (st_shown (st_append (new_structure l) e)) = l.
Proof. unfold st_shown, st_append, new_structure. cbn [st_items st_labels]. induction l; cbn; congruence. Qed.
Lemma shown_pop {E} (l : list E) : map fst (st_shown (st_pop (new_structure l))) = removelast l.
Proof.
  unfold st_shown, st_pop, new_structure. cbn [st_items st_labels]. induction l as [|a [|b l] IH]; auto.
  cbn [removelast repeat length combine map fst] in *. f_equal. auto.
Qed.
