(* C165 to C168 *)
From Coq Require Import Reals List ZArith Bool Lia Lra String.
From Verif Require Import Base Lib Model_Diff Model_RCWA Model_RCWAObj Spec_RCWAObj Spec_RCWAEdit Proof_RCWAObj2 Proof_RCWAObj4 Proof_RCWAObj5 Proof_RCWAEdit.
Import ListNotations.
Open Scope R_scope.
Local Notation length := List.length.

(* ---------- C165: the unit cell set by the user is used ---------- *)

(* the stacks passed to the solver, now and after any calls that do not set the cell again, have that cell *)
Theorem C165_cell : forall W SV SV' strict st sz es st' o,
  history W SV strict (ESetSize sz :: es) st = Ok st' -> (forall e, In e es -> keeps_size e) ->
  agree_on (fun S _ _ _ _ => s_size S = sz) SV SV' ->
  calculate W SV strict o st' = calculate W SV' strict o st' /\ calculate_profile W SV strict o st' = calculate_profile W SV' strict o st'.
Proof. intros W SV SV' strict [ob h] sz es st' o H. exact (size_kept W SV SV' strict ob h sz es st' o H). Qed.
Print Assumptions C165_cell.

(* ---------- C166: edited shapes are used ---------- *)

(* the shapes drawn are the edited ones; polygons that Inkstone moves (C60) excepted *)
Theorem C166_edit : forall W SV SV' strict ob h l gi f es st' o, history W SV strict (EEdit l gi f :: es) (ob, h) = Ok st' ->
  (forall g, edited l gi f (o_geom ob) g -> safe (h_v h) g (p_meth o) /\ forall e, In e es -> no_edit e /\ uses_options (fun o => safe (h_v h) g (p_meth o)) e) ->
  agree_on (fun S _ _ _ _ => exists g, edited l gi f (o_geom ob) g /\ has_shapes (h_v h) g S) SV SV' ->
  calculate W SV strict o st' = calculate W SV' strict o st' /\ calculate_profile W SV strict o st' = calculate_profile W SV' strict o st'.
Proof.
  intros W SV SV' strict ob h l gi f es st' o H. cbn [history step fst snd] in H. destruct (edit_geom l gi f ob) as [ob1|] eqn:E; [|discriminate].
  exact (edit_used W SV SV' strict ob h l gi f ob1 es st' o E H).
Qed.
Print Assumptions C166_edit.

Theorem C166_only_that_shape : forall l gi f ob ob', edit_geom l gi f ob = Ok ob' -> edited l gi f (o_geom ob) (o_geom ob').
Proof. exact edit_edited. Qed.
Print Assumptions C166_only_that_shape.

(* and each has the permittivity of a material of the name it has now *)
Theorem C166_materials : forall W SV SV' strict order structure size o0 inc tra ob h es st' o,
  new_obj W order structure size o0 inc tra = Ok ob -> history W SV strict es (ob, h) = Ok st' ->
  agree_on (fun S th ph pol f => th = p_theta o /\ ph = p_phi o /\ process_pol (p_pol o) = Ok pol /\
     exists x, In x (p_wl o) /\ f = freq x /\ named_materials W (o_geom (fst st')) x S) SV SV' ->
  calculate W SV strict o st' = calculate W SV' strict o st' /\ calculate_profile W SV strict o st' = calculate_profile W SV' strict o st'.
Proof. exact named_used. Qed.
Print Assumptions C166_materials.

Definition ex_circles : list (shape smat) := [mk_shape (MObj 0) (Circle (0, 0) 1); mk_shape (MObj 1) (Circle (1, 1) 2)].
Definition ex_wider (s : shape string) : shape string := mk_shape (sh_mat s) (Circle (1, 1) 3).

(* a new cell, a wider circle, then calculations at the wavelength of the object and at another one *)
Example C165_C166_ex : forall SV strict, exists ob ob1 st1 st2,
  new_obj wit_names wit_order (wit_struct ex_circles) wit_size (wit_opts [1] 0) wit_inc wit_tra = Ok ob /\
  edit_geom 1 1 ex_wider (obj_set_size ((3, 0), (0, 3)) ob) = Ok ob1 /\
  history wit_names SV strict [ESetSize ((3, 0), (0, 3)); EEdit 1 1 ex_wider; ECalc (wit_opts [2] 0)] (ob, wit_heap) = Ok st1 /\
  history wit_names SV strict [EEdit 1 1 ex_wider; ECalc (wit_opts [2] 0)] (obj_set_size ((3, 0), (0, 3)) ob, wit_heap) = Ok st2 /\
  forall g, edited 1 1 ex_wider (o_geom ob) g -> safe (h_v wit_heap) g MInk.
Proof.
  intros SV strict.
  assert (E : exists ob ob1 hv' D, new_obj wit_names wit_order (wit_struct ex_circles) wit_size (wit_opts [1] 0) wit_inc wit_tra = Ok ob /\
    edit_geom 1 1 ex_wider (obj_set_size ((3, 0), (0, 3)) ob) = Ok ob1 /\ o_wl ob1 = [1] /\
    build_S (update_oc wit_names [2] ob1) (h_v wit_heap) MInk 1 (o_user ob1) 0 = Ok (hv', D) /\ (exists a b c d, o_geom ob = [None; Some [mk_shape a (Circle b c); d]; None])).
  { do 4 eexists. split; [reflexivity|]. split; [reflexivity|]. split; [reflexivity|]. split; [reflexivity|]. do 4 eexists. reflexivity. }
  destruct E as (ob & ob1 & hv' & D & E1 & E2 & E3 & E4 & a0 & b0 & c0 & d0 & E5).
  assert (C : exists st, step wit_names SV strict (ECalc (wit_opts [2] 0)) (ob1, wit_heap) = Ok st).
  { cbn [step]. rewrite (calculate_one wit_names SV strict (wit_opts [2] 0) ob1 wit_heap (PolPair 1 0) (false, update_oc wit_names [2] ob1) hv' D 2);
      [cbn [rbind]; eauto|reflexivity|reflexivity|discriminate|reflexivity| |exact E4].
    unfold refresh. cbn [p_wl wit_opts]. rewrite E3, np_differ by lra. reflexivity. }
  destruct C as [st C]. exists ob, ob1, st, st. split; auto. split; auto. split; [|split].
  - cbn [history]. change (step wit_names SV strict (ESetSize ((3, 0), (0, 3))) (ob, wit_heap)) with (Ok (obj_set_size ((3, 0), (0, 3)) ob, wit_heap)). cbn [rbind].
    change (step wit_names SV strict (EEdit 1 1 ex_wider) (obj_set_size ((3, 0), (0, 3)) ob, wit_heap))
      with (rbind (edit_geom 1 1 ex_wider (obj_set_size ((3, 0), (0, 3)) ob)) (fun o => Ok (o, wit_heap))). rewrite E2. cbn [rbind]. rewrite C. reflexivity.
  - cbn [history]. change (step wit_names SV strict (EEdit 1 1 ex_wider) (obj_set_size ((3, 0), (0, 3)) ob, wit_heap))
      with (rbind (edit_geom 1 1 ex_wider (obj_set_size ((3, 0), (0, 3)) ob)) (fun o => Ok (o, wit_heap))). rewrite E2. cbn [rbind]. rewrite C. reflexivity.
  - intros g (L & O & a & b & s & A1 & A2 & A3 & A4 & A5 & A6) _ x y Hx Hy. rewrite E5 in A1, L, O. cbn in A1, L. injection A1 as <-. cbn in A3. cbn in A4. injection A4 as <-.
    destruct (In_nth_error _ _ Hx) as (k & Hk). destruct k as [|[|[|k]]].
    + rewrite O in Hk by lia. injection Hk as <-. contradiction.
    + rewrite Hk in A2. injection A2 as ->. cbn [shapes_of] in Hy. destruct (In_nth_error _ _ Hy) as (j & Hj). destruct j as [|[|j]].
      * rewrite A6 in Hj by lia. injection Hj as <-. exact I.
      * rewrite A5 in Hj. injection Hj as <-. exact I.
      * assert (nth_error b (S (S j)) <> None) as Q by congruence. apply nth_error_Some in Q. lia.
    + rewrite O in Hk by lia. injection Hk as <-. contradiction.
    + assert (nth_error g (S (S (S k))) <> None) as Q by congruence. apply nth_error_Some in Q. lia.
Qed.

(* ---------- C167: a shape can be given any material ---------- *)

(* a material that none of the shapes had at construction: no result *)
Theorem C167_new_material_refuted : forall W SV strict o ob h l gi f ob1 s r, edit_geom l gi f ob = Ok ob1 ->
  (exists a, nth_error (o_geom ob) l = Some (Some a) /\ nth_error a gi = Some s) -> known (f s) = true -> ~ In (sh_mat (f s)) (o_names ob) ->
  p_wl o = o_wl ob -> (l < length (o_widths ob))%nat -> calculate W SV strict o (ob1, h) <> Ok r.
Proof. exact new_material. Qed.
Print Assumptions C167_new_material_refuted.

Example C167_ex : exists ob ob1 e, new_obj wit_names wit_order (wit_struct ex_circles) wit_size (wit_opts [1] 0) wit_inc wit_tra = Ok ob /\
  edit_geom 1 1 (fun s => mk_shape "c"%string (sh_geo s)) ob = Ok ob1 /\
  forall SV strict, calculate wit_names SV strict (wit_opts [1] 0) (ob1, wit_heap) = Err e.
Proof.
  do 3 eexists. split; [reflexivity|]. split; [reflexivity|]. intros SV strict. unfold calculate, refresh. cbn -[Reqb].
  rewrite Reqb_refl. cbn. reflexivity.
Qed.

(* ---------- C168: results returned with a profile belong to the structure as it is ---------- *)

(* R, T and A are still those calculated before the widths, the cell or a shape was changed *)
Theorem C168_outdated : forall W SV SV' strict o e st ob1 h1 a1 ob2 h2 ob3 h3 a3, calculate W SV strict o st = Ok (ob1, h1, a1) -> changes_structure e ->
  step W SV strict e (ob1, h1) = Ok (ob2, h2) -> calculate_profile W SV' strict o (ob2, h2) = Ok (ob3, h3, a3) -> answers h3 a3 = answers h1 a1.
Proof. exact profile_outdated. Qed.
Print Assumptions C168_outdated.

Theorem C168_outdated_refuted : exists ob,
  new_obj wit_world wit_order (wit_struct []) wit_size (wit_opts [1] 0) wit_inc wit_tra = Ok ob /\
  forall strict, let SV := on_stack (fun D => fst (fst (s_size D))) in
  exists ob1 h1 a1 st ob2 h2 a2 ob3 h3 a3, calculate wit_world SV strict (wit_opts [1] 0) (ob, wit_heap) = Ok (ob1, h1, a1) /\
    step wit_world SV strict (ESetSize ((2, 0), (0, 2))) (ob1, h1) = Ok st /\
    calculate_profile wit_world SV strict (wit_opts [1] 0) st = Ok (ob2, h2, a2) /\
    calculate wit_world SV strict (wit_opts [1] 0) st = Ok (ob3, h3, a3) /\ answers h2 a2 <> answers h3 a3.
Proof.
  destruct outdated_witness as (ob & E & H). exists ob. split; [exact E|]. intros strict SV.
  destruct (H strict) as (ob1 & h1 & a1 & ob2 & h2 & a2 & ob3 & h3 & a3 & H1 & H2 & H3 & H4).
  exists ob1, h1, a1, (obj_set_size ((2, 0), (0, 2)) ob1, h1), ob2, h2, a2, ob3, h3, a3. split; [exact H1|]. split; [reflexivity|]. split; [exact H2|]. split; [exact H3|exact H4].
Qed.
Print Assumptions C168_outdated_refuted.
