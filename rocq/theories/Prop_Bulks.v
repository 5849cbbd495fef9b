(* calculate_RAT with several bulk layers (C188, C189) *)
From Coq Require Import Reals List ZArith Bool Lia Lra.
From Verif Require Import Base Lib Model_Angles Spec_Angles Model_Ideal Model_MatMul Model_Bulks Spec_Matrix Spec_MatMul Spec_Bulks
  Proof_RAT Proof_RAT3 Proof_Bulks Prop_MatMul.
Import ListNotations.
Local Notation length := List.length.
Open Scope list_scope.
Open Scope R_scope.

(* ---------------- C188 ---------------- *)

(* Two bulk layers are reported to absorb more light than falls on the structure, although every interface accounts for all
   light that reaches it. *)
Theorem C188_several_bulks_refuted : exists n phi_sym c sp g m theta phi_in bs fronts rears thresh prof fuel sts o,
  valid_request n phi_sym c /\ make_angle_vector n phi_sym c sp = Ok g /\ length (g_av g) = 2%nat /\ m_fold m phi_sym /\
  relabel_ok n m g /\ good_direction phi_sym theta phi_in /\ length bs = 2%nat /\
  (forall b, In b bs -> length (bk_alphas b) = 1%nat /\ 0 < bk_thick b /\ forall a, In a (bk_alphas b) -> 0 <= a) /\
  (forall f, In f fronts \/ In f rears -> file_conserves 1 1 f) /\ length fronts = 3%nat /\ length rears = 2%nat /\
  calculate_RAT_bulks n phi_sym c sp theta phi_in 1 bs fronts rears thresh prof fuel = Ok (Some (sts, o)) /\
  ro_T o <> None /\ ro_A_interface o <> None /\ 1 < absorbed_in_bulks o 2 0.
Proof. exact bulks_too_much. Qed.
Print Assumptions C188_several_bulks_refuted.

(* What is reported instead: the row of every bulk layer is the result of a structure that consists of this bulk layer, the
   interface above and the interface below, lit by the same incident light. *)
Theorem C188_each_alone_partial : forall n phi_sym c sp theta phi_in nw bs fronts rears thresh prof fuel sts o,
  calculate_RAT_bulks n phi_sym c sp theta phi_in nw bs fronts rears thresh prof fuel = Ok (Some (sts, o)) ->
  (forall b, In b bs -> length (bk_alphas b) = nw) ->
  bs <> [] /\ length sts = length bs /\ length (ro_R o) = length bs /\
  forall i b, nth_error bs i = Some b -> exists f0 b0 f1 st o1,
    nth_error fronts i = Some f0 /\ nth_error rears i = Some b0 /\ nth_error fronts (S i) = Some f1 /\
    calculate_RAT n phi_sym c sp theta phi_in (bk_alphas b) (bk_thick b) f0 b0 f1 thresh prof fuel = Ok (Some (st, o1)) /\
    nth_error sts i = Some st /\ nth_error (ro_R o) i = Some (o_R o1) /\
    (forall T, ro_T o = Some T -> exists Ti, o_T o1 = Some Ti /\ nth_error T i = Some Ti) /\
    (forall A, ro_A_bulk o = Some A -> exists Ai, o_A_bulk o1 = Some Ai /\ nth_error A i = Some Ai).
Proof. exact bulks_alone. Qed.
Print Assumptions C188_each_alone_partial.

(* The absorption reported for an interface is what the bulk layer above and the one below each lose there. *)
Theorem C188_interfaces_partial : forall n phi_sym c sp theta phi_in nw bs fronts rears thresh prof fuel sts o a,
  calculate_RAT_bulks n phi_sym c sp theta phi_in nw bs fronts rears thresh prof fuel = Ok (Some (sts, o)) ->
  ro_A_interface o = Some a ->
  length a = S (length bs) /\
  forall i w, (i <= length bs)%nat -> (w < nw)%nat -> cell a i w = lost_in_interface sts i w.
Proof. exact bulks_interfaces. Qed.
Print Assumptions C188_interfaces_partial.
(* the structure of C188_several_bulks_refuted: three interfaces *)
Example C188_interfaces_case : exists sts o a, ro_A_interface o = Some a /\ length sts = 2%nat /\ length a = 3%nat /\
  cell a 1 0 = lost_in_interface sts 1 0.
Proof.
  destruct bulks_too_much as (n & phi_sym & c & sp & g & m & theta & phi_in & bs & fronts & rears & thresh & prof & fuel & sts & o &
    _ & _ & _ & _ & _ & _ & Lb & Hb & _ & _ & _ & Hrun & _ & HI & _).
  destruct (ro_A_interface o) as [a|] eqn:Ea; [|congruence]. exists sts, o, a. split; auto.
  destruct (C188_interfaces_partial _ _ _ _ _ _ _ _ _ _ _ _ _ _ _ a Hrun Ea) as [La E].
  destruct (C188_each_alone_partial _ _ _ _ _ _ _ _ _ _ _ _ _ _ _ Hrun (fun b H => proj1 (Hb b H))) as (_ & L & _).
  split; [congruence|]. split; [congruence|]. apply E; lia.
Qed.

(* The incident light is therefore counted once for every bulk layer. *)
Theorem C188_counted_partial : forall n phi_sym c sp g h m theta phi_in nw bs fronts rears thresh prof fuel sts o,
  valid_request n phi_sym c -> make_angle_vector n phi_sym c sp = Ok g -> length (g_av g) = (2 * h)%nat ->
  m_fold m phi_sym -> relabel_ok n m g -> good_direction phi_sym theta phi_in ->
  (forall b, In b bs -> length (bk_alphas b) = nw) ->
  (forall f, In f fronts \/ In f rears -> file_conserves nw h f) ->
  calculate_RAT_bulks n phi_sym c sp theta phi_in nw bs fronts rears thresh prof fuel = Ok (Some (sts, o)) ->
  ro_T o <> None ->
  forall w, (w < nw)%nat ->
    (forall i, (i < length bs)%nat -> reported_for o sts i w = 1) /\
    rsum (map (fun i => reported_for o sts i w) (seq 0 (length bs))) = INR (length bs).
Proof. exact bulks_counted. Qed.
Print Assumptions C188_counted_partial.
(* the structure of C188_several_bulks_refuted meets the hypotheses: two bulk layers, twice the incident light *)
Example C188_case : exists sts o, rsum (map (fun i => reported_for o sts i 0) (seq 0 2)) = 2 /\ length sts = 2%nat.
Proof.
  destruct bulks_too_much as (n & phi_sym & c & sp & g & m & theta & phi_in & bs & fronts & rears & thresh & prof & fuel & sts & o &
    Hv & Hg & Hl & Hm & Hok & Hd & Lb & Hb & HF & _ & _ & Hrun & HT & _).
  exists sts, o.
  destruct (C188_counted_partial n phi_sym c sp g 1 m theta phi_in 1 bs fronts rears thresh prof fuel sts o Hv Hg Hl Hm Hok Hd
    (fun b H => proj1 (Hb b H)) HF Hrun HT 0%nat ltac:(lia)) as [_ E].
  rewrite Lb in E. split; [rewrite E; simpl; lra|].
  destruct (C188_each_alone_partial _ _ _ _ _ _ _ _ _ _ _ _ _ _ _ Hrun (fun b H => proj1 (Hb b H))) as (_ & L & _). congruence.
Qed.

(* With one bulk layer the light is accounted for. *)
Theorem C188_one_bulk_partial : forall n phi_sym c sp g h m theta phi_in b f0 b0 f1 thresh prof fuel,
  valid_request n phi_sym c -> make_angle_vector n phi_sym c sp = Ok g -> length (g_av g) = (2 * h)%nat ->
  m_fold m phi_sym -> relabel_ok n m g -> good_direction phi_sym theta phi_in ->
  file_conserves (length (bk_alphas b)) h f0 -> file_conserves (length (bk_alphas b)) h b0 ->
  file_conserves (length (bk_alphas b)) h f1 ->
  exists r, calculate_RAT_bulks n phi_sym c sp theta phi_in (length (bk_alphas b)) [b] [f0; f1] [b0] thresh prof fuel = Ok r /\
    forall sts o, r = Some (sts, o) -> forall w, (w < length (bk_alphas b))%nat -> reported_for o sts 0 w = 1.
Proof. exact one_bulk. Qed.
Print Assumptions C188_one_bulk_partial.
Example C188_one_bulk_case : exists g h, valid_request 5 (PI / 2) (1 / 4) /\
  make_angle_vector 5 (PI / 2) (1 / 4) SpSin = Ok g /\ length (g_av g) = (2 * h)%nat /\
  m_fold 4 (PI / 2) /\ relabel_ok 5 4 g /\ good_direction (PI / 2) (PI / 6) (PhiNum 1) /\
  file_conserves (length (bk_alphas (mk_bulk [1; 2] 1))) h (half_mirror h).
Proof.
  destruct sample_grid as [g [h [A [B [C [D [E [F G]]]]]]]]. exists g, h. auto 12 using half_mirror_conserves.
Qed.

(* ---------------- C189 ---------------- *)

(* No light reaches the last bulk layer: the absorption of the first one, more than half of the light, is left out of the
   result. *)
Theorem C189_dropped_refuted : exists n phi_sym c sp g m theta phi_in bs fronts rears thresh prof fuel sts o,
  valid_request n phi_sym c /\ make_angle_vector n phi_sym c sp = Ok g /\ length (g_av g) = 2%nat /\ m_fold m phi_sym /\
  relabel_ok n m g /\ good_direction phi_sym theta phi_in /\ length bs = 2%nat /\
  (forall b, In b bs -> length (bk_alphas b) = 1%nat /\ 0 < bk_thick b /\ forall a, In a (bk_alphas b) -> 0 <= a) /\
  (forall f, In f fronts \/ In f rears -> file_conserves 1 1 f) /\ length fronts = 3%nat /\ length rears = 2%nat /\
  calculate_RAT_bulks n phi_sym c sp theta phi_in 1 bs fronts rears thresh prof fuel = Ok (Some (sts, o)) /\
  (exists st, nth_error sts 0 = Some st /\ 1 / 2 < nth 0 (sum0 1 (s_A st)) 0) /\
  ro_A_bulk o = None /\ ro_T o = None.
Proof. exact bulks_dropped. Qed.
Print Assumptions C189_dropped_refuted.

(* No light reaches the first bulk layer: ValueError. *)
Theorem C189_exception_refuted : exists n phi_sym c sp g m theta phi_in bs fronts rears thresh prof fuel,
  valid_request n phi_sym c /\ make_angle_vector n phi_sym c sp = Ok g /\ length (g_av g) = 2%nat /\ m_fold m phi_sym /\
  relabel_ok n m g /\ good_direction phi_sym theta phi_in /\ length bs = 2%nat /\
  (forall b, In b bs -> length (bk_alphas b) = 1%nat /\ 0 < bk_thick b /\ forall a, In a (bk_alphas b) -> 0 <= a) /\
  (forall f, In f fronts \/ In f rears -> file_conserves 1 1 f) /\ length fronts = 3%nat /\ length rears = 2%nat /\
  calculate_RAT_bulks n phi_sym c sp theta phi_in 1 bs fronts rears thresh prof fuel = Err ValueError.
Proof. exact bulks_error. Qed.
Print Assumptions C189_exception_refuted.

(* If more than the threshold enters every bulk layer at some wavelength, there is a row for every bulk layer and, with
   profiles, one for every interface. *)
Theorem C189_all_rows_partial : forall n phi_sym c sp g h m theta phi_in nw bs fronts rears thresh prof fuel row,
  valid_request n phi_sym c -> make_angle_vector n phi_sym c sp = Ok g -> length (g_av g) = (2 * h)%nat ->
  m_fold m phi_sym -> relabel_ok n m g -> good_direction phi_sym theta phi_in -> bs <> [] ->
  (forall b, In b bs -> length (bk_alphas b) = nw) ->
  (forall f, In f fronts -> file_shaped nw h f) ->
  make_v0_row g theta (fold_phi_in phi_in phi_sym) = Ok row ->
  (forall i f, (i < length bs)%nat -> nth_error fronts i = Some f ->
     exists w, (w < nw)%nat /\ thresh < rsum (map (fun r => dot r row) (skipn h (at_wl (f_RT f) w)))) ->
  length fronts = S (length bs) -> length rears = length bs ->
  exists r, calculate_RAT_bulks n phi_sym c sp theta phi_in nw bs fronts rears thresh prof fuel = Ok r /\
  forall sts o, r = Some (sts, o) ->
    length (ro_R o) = length bs /\
    (exists T A, ro_T o = Some T /\ ro_A_bulk o = Some A /\ length T = length bs /\ length A = length bs) /\
    (prof = true -> ro_has_profiles o = true /\
       exists a, ro_A_interface o = Some a /\ length a = length fronts).
Proof. exact bulks_complete. Qed.
Print Assumptions C189_all_rows_partial.
(* three half-transparent interfaces, two bulk layers *)
Example C189_case : exists g h row, valid_request 5 (PI / 2) (1 / 4) /\
  make_angle_vector 5 (PI / 2) (1 / 4) SpSin = Ok g /\ length (g_av g) = (2 * h)%nat /\
  m_fold 4 (PI / 2) /\ relabel_ok 5 4 g /\ good_direction (PI / 2) (PI / 6) (PhiNum 1) /\
  (forall f, In f (repeat (half_mirror h) 3) -> file_shaped 2 h f) /\
  make_v0_row g (PI / 6) (fold_phi_in (PhiNum 1) (PI / 2)) = Ok row /\
  forall i f, (i < 2)%nat -> nth_error (repeat (half_mirror h) 3) i = Some f ->
    exists w, (w < 2)%nat /\ 1 / 1000 < rsum (map (fun r => dot r row) (skipn h (at_wl (f_RT f) w))).
Proof.
  destruct sample_grid as [g [h [A [B [C [D [E [F G]]]]]]]].
  destruct (v0_good 5 (PI / 2) (1 / 4) SpSin g h A B C (PI / 6) (PhiNum 1) G) as [row [H1 [H2 [H3 _]]]].
  exists g, h, row. do 6 (split; auto). split.
  { intros f Hf. apply repeat_spec in Hf. subst f. apply (half_mirror_conserves 2). }
  split; auto. intros i f _ Hf. apply nth_error_In, repeat_spec in Hf. subst f. exists 1%nat. split; [lia|].
  change (at_wl (f_RT (half_mirror h)) 1) with (half_id h ++ half_id h).
  destruct (half_id_shape h) as [L _]. replace (skipn h (half_id h ++ half_id h)) with (half_id h) by (symmetry; apply skipn_half; auto).
  assert (HH : rsum (matvec (half_id h) row) = 1 / 2); [|apply (Rlt_le_trans _ (1 / 2)); [lra|right; symmetry; exact HH]].
  rewrite (Proof_MatMul.rsum_matvec (half_id h) row h h); auto using half_id_shape.
  rewrite (rsum_map_ext _ (fun k => 1 / 2 * nth k row 0)).
  - rewrite rsum_map_scal, <- (Proof_MatMul.rsum_nth_seq row h), H3; auto. ring.
  - intros k Hk. apply in_seq in Hk. rewrite half_id_col by lia. auto.
Qed.
