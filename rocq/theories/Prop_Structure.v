(* C67, C118 *)
From Coq Require Import Reals List ZArith Bool String Lia Lra.
From Verif Require Import Base Lib Model_Structure Spec_Structure Proof_Structure.
Import ListNotations.
Local Notation length := List.length.
Open Scope R_scope.

Theorem C67_interface_construction : forall (M V T : Type) method (layers : option (list (larg M V))) (texture : T) prof coherent kwargs,
  documented method -> (forall e, In e (layers_in layers) -> described e) ->
  exists i, new_interface method layers texture prof coherent kwargs = Ok i /\
    i_method i = method /\ i_layers i = layers /\ i_texture i = texture /\ i_prof i = prof /\ i_coherent i = coherent /\
    length (i_widths i) = length (layers_in layers) /\ length (i_materials i) = length (layers_in layers) /\
    (forall k e w m, nth_error (layers_in layers) k = Some e -> nth_error (i_widths i) k = Some w -> nth_error (i_materials i) k = Some m ->
       layer_has e w m) /\
    (forall name v, In (name, v) (i_extra i) <-> In (name, v) kwargs /\ ~ reserved name).
Proof. exact @interface_ok. Qed.
Print Assumptions C67_interface_construction.

Theorem C67_interface_other_methods : forall (M V T : Type) method (layers : option (list (larg M V))) (texture : T) prof coherent kwargs,
  ~ documented method -> new_interface method layers texture prof coherent kwargs = Err ValueError.
Proof. exact @interface_method. Qed.
Print Assumptions C67_interface_other_methods.

Theorem C67_interface_empty_layer : forall (M V T : Type) method (layers : option (list (larg M V))) (texture : T) prof coherent kwargs,
  documented method -> In (LList None) (layers_in layers) ->
  new_interface method layers texture prof coherent kwargs = Err IndexError.
Proof. exact @interface_empty. Qed.
Print Assumptions C67_interface_empty_layer.

Example C67_ex : exists i, new_interface "TMM"%string (Some [LLayer 7%nat (/ 10); LList (Some (100, [1; 2; 3]))]) tt (Some [1%Z]) false
    [("coherency_list", 5); ("widths", 6)]%string = Ok i /\
  i_widths i = [/ 10; 100 * / 10 ^ 9] /\ i_materials i = [MMat 7%nat; MData [1; 2]] /\ i_extra i = [("coherency_list", 5)]%string /\
  documented "TMM".
Proof. eexists. split; [reflexivity|]. cbn [i_widths i_materials i_extra]. repeat split; auto. unfold documented. auto. Qed.
Example C67_ex2 : ~ documented "tmm" /\ @new_interface nat nat unit "tmm" None tt None true [] = Err ValueError.
Proof.
  assert (H : ~ documented "tmm") by (unfold documented; intuition discriminate). split; auto.
Qed.

(* str(structure) lists the elements: as constructed *)
Theorem C118_structure_listing_partial : forall (E : Type) (l : list E),
  map fst (st_shown (new_structure l)) = l /\ map fst (st_shown (st_pop (new_structure l))) = st_items (st_pop (new_structure l)).
Proof. intros E l. split; [apply shown_new|apply shown_pop]. Qed.
Print Assumptions C118_structure_listing_partial.

(* an appended element is never listed *)
Theorem C118_structure_listing_refuted :
  (forall (E : Type) (l : list E) (e : E), map fst (st_shown (st_append (new_structure l) e)) = l) /\
  exists (l : list nat) (e : nat), map fst (st_shown (st_append (new_structure l) e)) <> st_items (st_append (new_structure l) e).
Proof. split; [apply @shown_append|]. exists [1%nat], 2%nat. rewrite shown_append. cbn. discriminate. Qed.
Print Assumptions C118_structure_listing_refuted.

Example C118_ex : st_shown (st_append (new_structure [1%nat; 2%nat]) 3%nat) = [(1%nat, None); (2%nat, None)].
Proof. reflexivity. Qed.
