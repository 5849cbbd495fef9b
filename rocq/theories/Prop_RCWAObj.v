(* Properties of the rcwa_structure object: C59-C63, C103-C117. *)
From Coq Require Import Reals List ZArith Bool String Lia Lra.
From Verif Require Import Base Lib Model_Diff Model_RCWA Model_RCWAObj Spec_RCWAObj Proof_RCWAObj Proof_RCWAObj2 Proof_RCWAObj3
  Proof_RCWAObj4 Proof_RCWAObj5 Proof_RCWAObj6 Proof_RCWAObj7 Proof_RCWAOrd.
Import ListNotations.
Local Notation length := List.length.
Open Scope R_scope.

(* ---------- C117: a well formed structure can be calculated ---------- *)

Theorem C117_calculate_returns : forall W SV strict order structure size o0 inc tra ob h es ob' h' o pol,
  let layers := List.concat (map entry_layers structure) in
  set_order order -> new_obj W order structure size o0 inc tra = Ok ob -> history W SV strict es (ob, h) = Ok (ob', h') ->
  (forall e, In e es -> no_edit e /\ widths_ok (fun ws => length ws = length layers) e) ->
  p_meth o <> MOther -> (p_meth o = MS4 -> p_meth o0 = MS4) -> complete_for (p_meth o) layers ->
  process_pol (p_pol o) = Ok pol -> p_wl o <> [] -> length (p_wl o) = length (o_wl ob') -> p_perorder o = false ->
  exists ob2 h2 a d, calculate W SV strict o (ob', h') = Ok (ob2, h2, a) /\ nth_error (h_res h2) a = Some d /\
    length (r_R d) = length (p_wl o) /\ length (r_T d) = length (p_wl o) /\ length (r_A d) = length (p_wl o) /\
    forall x, In x (r_A d) -> length x = length layers /\
      (forall y, In y x -> (forall D th ph pl f k, 0 < fst (fx (so_flux (SV D th ph pl f)) k)) -> 0 <= y).
Proof. exact calculate_total. Qed.
Print Assumptions C117_calculate_returns.

Lemma two_calcs W geom SV strict : Forall (fun s => sh_mat s <> MList) geom -> exists ob ob1 h1,
  new_obj W wit_order (wit_struct geom) wit_size (wit_opts [1] 0) wit_inc wit_tra = Ok ob /\
  history W SV strict [ESetWidths [7]; ECalc (wit_opts [1] 0); ECalc (wit_opts [2] 0)] (ob, wit_heap) = Ok (ob1, h1) /\ length (o_wl ob1) = 1%nat.
Proof.
  intros HF.
  assert (E : exists ob, new_obj W wit_order (wit_struct geom) wit_size (wit_opts [1] 0) wit_inc wit_tra = Ok ob).
  { unfold new_obj, set_of. destruct (rmap_ok_all (fun m => match m with MObj i => Ok i | MList => Err TypeError end)
      (mat_list ([] :: map ol_geom (List.concat (map entry_layers (wit_struct geom))) ++ [[]]))) as [r ->]; [|cbn [rbind]; eauto].
    intros m Hm. apply in_mat_list in Hm. unfold shape_mats_of in Hm. cbn in Hm. rewrite app_nil_r in Hm. apply in_map_iff in Hm. destruct Hm as (s & <- & Hs).
    rewrite Forall_forall in HF. specialize (HF s Hs). destruct (sh_mat s); [eauto|congruence]. }
  destruct E as [ob Hob]. exists ob.
  assert (Q : forall es ob1 h1 x, history W SV strict es (ob, wit_heap) = Ok (ob1, h1) -> (forall e, In e es -> no_edit e /\ widths_ok (fun ws => length ws = 1%nat) e) ->
    length (o_wl ob1) = 1%nat -> exists ob2 h2, step W SV strict (ECalc (wit_opts [x] 0)) (ob1, h1) = Ok (ob2, h2) /\ length (o_wl ob2) = 1%nat).
  { intros es ob1 h1 x Hh He HL. destruct (calculate_total W SV strict wit_order (wit_struct geom) wit_size (wit_opts [1] 0) wit_inc wit_tra ob wit_heap es ob1 h1 (wit_opts [x] 0) (PolPair 1 0))
      as (ob2 & h2 & a & d & HC & _); auto using wit_order_ok; try discriminate.
    - exists ob2, h2. split; [cbn [step]; rewrite HC; auto|]. destruct (calculate_parts _ _ _ _ _ _ _ _ HC) as (pol & rf & out & _ & Hr & _ & _ & -> & _). cbn [fst] in Hr.
      unfold with_results. cbn [o_wl]. unfold refresh in Hr. apply rbind_ok in Hr. destruct Hr as (t & _ & Hr). injection Hr as <-. cbn [snd]. destruct t; auto. }
  assert (L0 : length (o_wl ob) = 1%nat). { unfold new_obj in Hob. apply rbind_ok in Hob. destruct Hob as (? & _ & Hob). injection Hob as <-. reflexivity. }
  destruct (Q [ESetWidths [7]] (obj_set_widths [7] ob) wit_heap 1) as (ob1 & h1 & H1 & L1); auto. { intros e [<-|[]]. cbn. auto. }
  assert (G1 : history W SV strict [ESetWidths [7]; ECalc (wit_opts [1] 0)] (ob, wit_heap) = Ok (ob1, h1)).
  { cbn [history]. change (step W SV strict (ESetWidths [7]) (ob, wit_heap)) with (Ok (obj_set_widths [7] ob, wit_heap)). cbn [rbind]. rewrite H1. auto. }
  destruct (Q _ ob1 h1 2 G1) as (ob2 & h2 & H2 & L2); auto. { intros e [<-|[<-|[]]]; cbn; auto. }
  exists ob2, h2. split; auto. split; auto. cbn [history] in *. change (step W SV strict (ESetWidths [7]) (ob, wit_heap)) with (Ok (obj_set_widths [7] ob, wit_heap)) in *. cbn [rbind] in *. rewrite H1. cbn [rbind]. rewrite H2. auto.
Qed.

Example C117_calculate_returns_ex : forall SV strict, set_order wit_order /\ exists ob ob1 h1,
  new_obj wit_names wit_order (wit_struct two_shapes) wit_size (wit_opts [1] 0) wit_inc wit_tra = Ok ob /\
  history wit_names SV strict [ESetWidths [7]; ECalc (wit_opts [1] 0); ECalc (wit_opts [2] 0)] (ob, wit_heap) = Ok (ob1, h1) /\ length (o_wl ob1) = 1%nat.
Proof. intros SV strict. split; [exact wit_order_ok|]. apply two_calcs. repeat constructor; discriminate. Qed.

(* ---------- C59: every shape gets its own material ---------- *)

(* Missing: materials that print the same name but differ, see below; edit_geom_list, see C116. *)
Theorem C59_materials_partial : forall W order structure size o0 inc tra ob SV SV' strict h es st' o,
  let layers := List.concat (map entry_layers structure) in
  set_order order -> new_obj W order structure size o0 inc tra = Ok ob -> clash_free W layers ->
  history W SV strict es (ob, h) = Ok st' ->
  (forall e, In e es -> no_edit e /\ widths_ok (fun ws => length ws = length layers) e) ->
  agree_on (fun S th ph pol f => th = p_theta o /\ ph = p_phi o /\ process_pol (p_pol o) = Ok pol /\
     exists x, In x (p_wl o) /\ f = freq x /\ own_materials W layers inc tra x S) SV SV' ->
  calculate W SV strict o st' = calculate W SV' strict o st' /\ calculate_profile W SV strict o st' = calculate_profile W SV' strict o st'.
Proof. exact materials_kept. Qed.
Print Assumptions C59_materials_partial.

Example C59_materials_partial_ex : clash_free wit_names (List.concat (map entry_layers (wit_struct two_shapes))) /\
  forall SV strict, exists ob st', new_obj wit_names wit_order (wit_struct two_shapes) wit_size (wit_opts [1] 0) wit_inc wit_tra = Ok ob /\
  history wit_names SV strict [ESetWidths [7]; ECalc (wit_opts [1] 0); ECalc (wit_opts [2] 0)] (ob, wit_heap) = Ok st'.
Proof.
  split.
  - intros i j Hi Hj. unfold shape_mats_of in *. cbn in Hi, Hj. destruct Hi as [Hi|[Hi|[]]], Hj as [Hj|[Hj|[]]]; injection Hi as <-; injection Hj as <-; cbn; auto; discriminate.
  - intros SV strict. destruct (two_calcs wit_names two_shapes SV strict) as (ob & ob1 & h1 & A & B & _); [repeat constructor; discriminate|]. eauto.
Qed.

(* Two materials of the same name and different permittivity: one of them is wrong in every stack that is solved. *)
Theorem C59_names_refuted : forall W order structure size o inc tra ob hv m orders d i hv' D x l1 lay1 s1 i1 l2 lay2 s2 i2,
  let layers := List.concat (map entry_layers structure) in
  new_obj W order structure size o inc tra = Ok ob -> build_S ob hv m orders d i = Ok (hv', D) ->
  nth_error layers l1 = Some lay1 -> In s1 (ol_geom lay1) -> known s1 = true -> sh_mat s1 = MObj i1 ->
  nth_error layers l2 = Some lay2 -> In s2 (ol_geom lay2) -> known s2 = true -> sh_mat s2 = MObj i2 ->
  m_name W i1 = m_name W i2 -> m_eps W i1 x <> m_eps W i2 x -> ~ own_materials W layers inc tra x D.
Proof. exact clash_wrong. Qed.
Print Assumptions C59_names_refuted.

(* and the result of calculate shows it *)
Theorem C59_result_refuted : exists ob,
  new_obj wit_world wit_order (wit_struct two_shapes) wit_size (wit_opts [1] 0) wit_inc wit_tra = Ok ob /\
  agree_on (fun S th ph pol f => exists x, own_materials wit_world (List.concat (map entry_layers (wit_struct two_shapes))) wit_inc wit_tra x S)
    (on_stack (fun D => eps_at D 1 1 - eps_at D 1 0 - 1)) (on_stack (fun _ => 0)) /\
  forall strict, exists ob1 h1 a1 ob2 h2 a2,
    calculate wit_world (on_stack (fun D => eps_at D 1 1 - eps_at D 1 0 - 1)) strict (wit_opts [1] 0) (ob, wit_heap) = Ok (ob1, h1, a1) /\
    calculate wit_world (on_stack (fun _ => 0)) strict (wit_opts [1] 0) (ob, wit_heap) = Ok (ob2, h2, a2) /\ answers h1 a1 <> answers h2 a2.
Proof. exact clash_witness. Qed.
Print Assumptions C59_result_refuted.

Example C59_names_refuted_ex : exists ob hv' D,
  new_obj wit_world wit_order (wit_struct two_shapes) wit_size (wit_opts [1] 0) wit_inc wit_tra = Ok ob /\
  build_S ob (h_v wit_heap) MInk 1 None 0 = Ok (hv', D) /\ m_name wit_world 0 = m_name wit_world 1 /\ m_eps wit_world 0 1 <> m_eps wit_world 1 1 /\
  told_eps D 1 = Some (m_eps wit_world 0 1) /\ told_eps D 2 = Some (m_eps wit_world 1 1) /\ map fst (nth 1 (map snd (s_layers D)) []) = [1%nat; 1%nat].
Proof.
  do 3 eexists. split; [reflexivity|]. split; [reflexivity|]. split; [reflexivity|]. split; [|split; [reflexivity|split; reflexivity]].
  cbn [wit_world m_eps]. simpl INR. intros E. injection E as E. lra.
Qed.

(* ---------- C60: the geometry stays the same ---------- *)

(* Missing: polygons with a centre off the origin given as a list, with Inkstone; polygon angles with Inkstone. *)
Theorem C60_geometry_partial : forall W SV SV' strict ob h es st' o,
  history W SV strict es (ob, h) = Ok st' ->
  (forall e, In e es -> no_edit e /\ uses_options (fun o => safe (h_v h) (o_geom ob) (p_meth o)) e) ->
  safe (h_v h) (o_geom ob) (p_meth o) -> agree_on (fun S _ _ _ _ => has_shapes (h_v h) (o_geom ob) S) SV SV' ->
  (calculate W SV strict o st' = calculate W SV' strict o st' /\ calculate_profile W SV strict o st' = calculate_profile W SV' strict o st') /\
  forall v, h_v (snd st') v = h_v h v.
Proof. exact shapes_kept. Qed.
Print Assumptions C60_geometry_partial.

Definition steady_shapes : list (shape smat) :=
  [mk_shape (MObj 0) (Polygon (Some (0, 0)) (Some 0) 0); mk_shape (MObj 1) (Rectangle (3, 4) 30 (1, 2))].
Example C60_geometry_partial_ex : forall SV strict, exists ob st',
  new_obj wit_names wit_order (wit_struct steady_shapes) wit_size (wit_opts [1] 0) wit_inc wit_tra = Ok ob /\
  history wit_names SV strict [ESetWidths [7]; ECalc (wit_opts [1] 0); ECalc (wit_opts [2] 0)] (ob, wit_heap) = Ok st' /\
  safe (h_v wit_heap) (o_geom ob) MInk.
Proof.
  intros SV strict. destruct (two_calcs wit_names steady_shapes SV strict) as (ob & ob1 & h1 & A & B & _); [repeat constructor; discriminate|]. exists ob, (ob1, h1). split; auto. split; auto.
  intros _ g s Hg Hs. destruct (new_obj_keeps _ _ _ _ _ _ _ _ A) as (_ & S1 & _ & _ & G & _). rewrite G, S1 in Hg. cbn in Hg. destruct Hg as [<-|[<-|[<-|[]]]]; cbn [shapes_of In] in Hs; try tauto.
  destruct Hs as [<-|[<-|[]]]; cbn [steady sh_geo name_shape]; auto 10.
Qed.

(* A polygon with a centre moves with every wavelength and every call. *)
Theorem C60_geometry_refuted : exists ob,
  new_obj wit_world wit_order (wit_struct one_polygon) wit_size (wit_opts [1] 0) wit_inc wit_tra = Ok ob /\
  agree_on (fun S _ _ _ _ => has_shapes (h_v wit_heap) (o_geom ob) S) (on_stack vertex_x) (on_stack (fun _ => 0)) /\
  forall strict, exists ob1 h1 a1,
  calculate wit_world (on_stack vertex_x) strict (wit_opts [1] 0) (ob, wit_heap) = Ok (ob1, h1, a1) /\
  h_v h1 0%nat <> h_v wit_heap 0%nat /\
  exists ob2 h2 a2 ob3 h3 a3,
    calculate wit_world (on_stack vertex_x) strict (wit_opts [1] 0) (ob1, h1) = Ok (ob2, h2, a2) /\
    calculate wit_world (on_stack (fun _ => 0)) strict (wit_opts [1] 0) (ob1, h1) = Ok (ob3, h3, a3) /\ answers h2 a2 <> answers h3 a3 /\ answers h2 a2 <> answers h1 a1.
Proof. exact drift_witness. Qed.
Print Assumptions C60_geometry_refuted.

(* ---------- C61: widths set by the user are used ---------- *)

(* Missing: calls with other wavelengths than those of the object, see below. *)
Theorem C61_widths_partial : forall W SV SV' strict ob h ws es st' o,
  history W SV strict es (obj_set_widths ws ob, h) = Ok st' ->
  (forall e, In e es -> uses_options (fun o => p_wl o = o_wl ob) e /\ widths_ok (fun _ => False) e) ->
  p_wl o = o_wl ob -> agree_on (fun S _ _ _ _ => has_widths ws S) SV SV' ->
  calculate W SV strict o st' = calculate W SV' strict o st' /\ calculate_profile W SV strict o st' = calculate_profile W SV' strict o st'.
Proof. exact widths_kept. Qed.
Print Assumptions C61_widths_partial.

Example C61_widths_partial_ex : forall SV strict, exists ob st',
  new_obj wit_names wit_order (wit_struct two_shapes) wit_size (wit_opts [1] 0) wit_inc wit_tra = Ok ob /\ o_wl ob = [1] /\
  history wit_names SV strict [ECalc (wit_opts [1] 0)] (obj_set_widths [7] ob, wit_heap) = Ok st'.
Proof.
  intros SV strict. destruct (two_calcs wit_names two_shapes SV strict) as (ob & ob1 & h1 & A & B & _); [repeat constructor; discriminate|]. exists ob.
  cbn [history] in B. change (step wit_names SV strict (ESetWidths [7]) (ob, wit_heap)) with (Ok (obj_set_widths [7] ob, wit_heap)) in B. cbn [rbind] in B.
  apply rbind_ok in B. destruct B as (st1 & E1 & _). exists st1. split; auto. cbn [history]. rewrite E1. split; auto.
  unfold new_obj in A. apply rbind_ok in A. destruct A as (? & _ & A). injection A as <-. reflexivity.
Qed.

(* set_widths then a calculation at another wavelength: the widths of the construction are back. *)
Theorem C61_widths_refuted : exists ob,
  new_obj wit_world wit_order (wit_struct []) wit_size (wit_opts [1] 0) wit_inc wit_tra = Ok ob /\
  agree_on (fun S _ _ _ _ => has_widths [7] S) (on_stack extra_width) (on_stack (fun _ => 0)) /\
  forall strict, exists ob1 h1 a1 ob2 h2 a2,
    calculate wit_world (on_stack extra_width) strict (wit_opts [2] 0) (obj_set_widths [7] ob, wit_heap) = Ok (ob1, h1, a1) /\
    calculate wit_world (on_stack (fun _ => 0)) strict (wit_opts [2] 0) (obj_set_widths [7] ob, wit_heap) = Ok (ob2, h2, a2) /\ answers h1 a1 <> answers h2 a2 /\
    o_widths ob1 = [None; Some 5; None].
Proof. exact widths_witness. Qed.
Print Assumptions C61_widths_refuted.

(* ---------- C62: profiles belong to the options passed ---------- *)

(* Missing: an object that has results for the same wavelengths and other options, see below. *)
Theorem C62_fresh_partial : forall W SV strict o ob h ob2 h2 a2,
  o_ratA ob = None \/ np_all_eq strict (p_wl o) (o_wl ob) = Ok false ->
  calculate_profile W SV strict o (ob, h) = Ok (ob2, h2, a2) ->
  exists ob1 h1, calculate W SV strict o (ob, h) = Ok (ob1, h1, a2) /\ answers h2 a2 = answers h1 a2.
Proof. exact profile_fresh. Qed.
Print Assumptions C62_fresh_partial.

Theorem C62_after_partial : forall W SV strict o st ob1 h1 a1 ob2 h2 a2,
  calculate W SV strict o st = Ok (ob1, h1, a1) -> calculate_profile W SV strict o (ob1, h1) = Ok (ob2, h2, a2) ->
  a2 = a1 /\ answers h2 a2 = answers h1 a1.
Proof. exact profile_after. Qed.
Print Assumptions C62_after_partial.

Theorem C62_stale_refuted : exists ob,
  new_obj wit_world wit_order (wit_struct []) wit_size (wit_opts [1] 0) wit_inc wit_tra = Ok ob /\
  forall strict, exists ob1 h1 a1, calculate wit_world on_theta strict (wit_opts [1] 0) (ob, wit_heap) = Ok (ob1, h1, a1) /\
  exists ob2 h2 a2 ob3 h3 a3,
    calculate_profile wit_world on_theta strict (wit_opts [1] (1 / 4)) (ob1, h1) = Ok (ob2, h2, a2) /\
    calculate wit_world on_theta strict (wit_opts [1] (1 / 4)) (ob1, h1) = Ok (ob3, h3, a3) /\ answers h2 a2 <> answers h3 a3.
Proof. exact stale_witness. Qed.
Print Assumptions C62_stale_refuted.

(* the hypotheses of C62_after_partial are met, and those of C62_fresh_partial by the object before any call *)
Example C62_partial_ex : exists ob, new_obj wit_world wit_order (wit_struct []) wit_size (wit_opts [1] 0) wit_inc wit_tra = Ok ob /\ o_ratA ob = None /\
  forall strict, exists ob1 h1 a1 ob2 h2 a2, calculate wit_world on_theta strict (wit_opts [1] (1 / 4)) (ob, wit_heap) = Ok (ob1, h1, a1) /\
    calculate_profile wit_world on_theta strict (wit_opts [1] (1 / 4)) (ob1, h1) = Ok (ob2, h2, a2) /\ np_all_eq strict [2] (o_wl ob1) = Ok false.
Proof.
  destruct shared_witness as (ob & A & B). exists ob. split; auto. assert (W : o_wl ob = [1] /\ o_ratA ob = None). { unfold new_obj in A. apply rbind_ok in A. destruct A as (? & _ & A). injection A as <-. auto. }
  destruct W as [W1 W2]. split; auto. intros strict. destruct (B strict) as (ob1 & h1 & a1 & ob2 & h2 & a2 & ob3 & h3 & a3 & H1 & H2 & _). exists ob1, h1, a1, ob2, h2, a2. split; auto. split; auto.
  assert (P : p_wl (wit_opts [1] (1 / 4)) = o_wl (fst (ob, wit_heap))) by (cbn [fst]; rewrite W1; reflexivity). destruct (calculate_same_wl _ _ _ _ _ _ _ _ P H1) as [-> _]. cbn [fst]. rewrite W1. apply np_differ. lra.
Qed.

(* ---------- C63: layer numbering ---------- *)

(* Missing: get_fields_z_integral, and layer 0 of get_fields and get_fields_unit_cell (C108). *)
Theorem C63_numbering_partial : forall ob ws m l d, o_widths ob = stack_of ws -> m <> MOther -> (1 <= l <= length ws + 1)%nat -> 0 <= d ->
  ((l <= length ws)%nat -> d < nth (l - 1) ws 0) ->
  (exists p, fields_place ob m l d = Ok p /\ place_is ws l d p) /\
  (m = MS4 -> exists p, cell_place ob m l d = Ok p /\ place_is ws l d p) /\
  (d = 1 / 10 ^ 10 -> m = MS4 -> exists p, epsilon_place ob m l = Ok p /\ place_is ws l d p) /\
  (m = MInk -> exists p, epsilon_place ob m l = Ok p /\ place_is ws l 0 p) /\
  (exists p, epsilon_place ob MS4 0 = Ok p /\ place_is ws 0 (-1) p).
Proof. exact places_ok. Qed.
Print Assumptions C63_numbering_partial.

Example C63_numbering_partial_ex : exists ob, new_obj wit_world wit_order [LayObj 5 (fun _ => (2, 0)) []; LayList 4 6 (fun _ => (2, 0)) []] wit_size (wit_opts [1] 0) wit_inc wit_tra = Ok ob /\
  o_widths ob = stack_of [5; 6] /\ fields_place ob MS4 2 1 = Ok (AtZ (0 + 0 + 5 + 1)) /\ fields_place ob MInk 2 1 = Ok (InLayer 3 1) /\ in_layer [5; 6] 2 (0 + 0 + 5 + 1).
Proof.
  eexists. split; [reflexivity|]. split; [reflexivity|]. split; [reflexivity|]. split; [reflexivity|]. cbn [in_layer firstn rsum length]. split; [lra|]. split; [intros; lra|lia].
Qed.

(* get_fields_z_integral uses the solver's layer_l where every other method uses layer_(l+1): the layer above. *)
Theorem C63_z_integral_refuted : forall m l k, z_integral_layer m l = Ok k -> k <> postscript_layer l /\ (l = 0%nat -> k = 0%nat) /\
  forall ob d, fields_place ob MInk (l - 1) d = Ok (InLayer k d) \/ l = 0%nat \/ (forall p, fields_place ob MInk (l - 1) d <> Ok p).
Proof. exact z_integral_off. Qed.
Print Assumptions C63_z_integral_refuted.

Example C63_z_integral_refuted_ex : z_integral_layer MS4 1 = Ok 1%nat /\ postscript_layer 1 = 2%nat.
Proof. split; reflexivity. Qed.

(* ---------- C103: dictionaries already returned stay as they are ---------- *)

(* Missing: calculate_profile changes the dictionary returned by the last calculate, see below. *)
Theorem C103_calculate_partial : forall W SV strict o ob h ob' h' a, calculate W SV strict o (ob, h) = Ok (ob', h', a) ->
  a = length (h_res h) /\ forall k, (k < length (h_res h))%nat -> nth_error (h_res h') k = nth_error (h_res h) k.
Proof. exact calculate_append. Qed.
Print Assumptions C103_calculate_partial.

Theorem C103_profile_partial : forall W SV strict o ob h ob' h' a k, calculate_profile W SV strict o (ob, h) = Ok (ob', h', a) ->
  (k < length (h_res h))%nat -> o_results ob <> Some k -> nth_error (h_res h') k = nth_error (h_res h) k.
Proof. exact profile_touches. Qed.
Print Assumptions C103_profile_partial.

(* The second profile replaces the first one in the dictionary the caller got for the first. *)
Theorem C103_shared_refuted : exists ob,
  new_obj wit_world wit_order (wit_struct []) wit_size (wit_opts [1] 0) wit_inc wit_tra = Ok ob /\
  forall strict, exists ob1 h1 a1 ob2 h2 a2 ob3 h3 a3, calculate wit_world on_theta strict (wit_opts [1] (1 / 4)) (ob, wit_heap) = Ok (ob1, h1, a1) /\
    calculate_profile wit_world on_theta strict (wit_opts [1] (1 / 4)) (ob1, h1) = Ok (ob2, h2, a2) /\
    option_map r_profile (nth_error (h_res h2) a2) = Some (Some [[1 / 4]]) /\
    calculate_profile wit_world on_theta strict (wit_opts [1] (1 / 2)) (ob2, h2) = Ok (ob3, h3, a3) /\
    option_map r_profile (nth_error (h_res h3) a2) = Some (Some [[1 / 2]]).
Proof. exact shared_witness. Qed.
Print Assumptions C103_shared_refuted.

(* ---------- C104: calculate accepts any list of wavelengths ---------- *)

(* Missing: a list of another length than the stored one. *)
Theorem C104_wavelengths_partial : forall W strict o ob, length (p_wl o) = length (o_wl ob) ->
  exists rf, refresh W strict o ob = Ok rf /\ o_wl (snd rf) = p_wl o.
Proof. exact wl_refreshed. Qed.
Print Assumptions C104_wavelengths_partial.

(* Another length (neither list of length one): numpy 1.25 and later refuse the comparison. *)
Theorem C104_wavelengths_refuted : forall W SV o ob h pol, process_pol (p_pol o) = Ok pol ->
  length (p_wl o) <> length (o_wl ob) -> length (p_wl o) <> 1%nat -> length (o_wl ob) <> 1%nat ->
  calculate W SV true o (ob, h) = Err ValueError /\ calculate_profile W SV true o (ob, h) = Err ValueError.
Proof. exact wl_length_error. Qed.
Print Assumptions C104_wavelengths_refuted.

Example C104_wavelengths_ex : exists ob, new_obj wit_world wit_order (wit_struct two_shapes) wit_size (wit_opts [1; 2] 0) wit_inc wit_tra = Ok ob /\
  length (p_wl (wit_opts [3; 4] 0)) = length (o_wl ob) /\ length (p_wl (wit_opts [1; 2; 3] 0)) <> length (o_wl ob) /\ length (o_wl ob) <> 1%nat /\ process_pol (p_pol (wit_opts [1; 2; 3] 0)) = Ok (PolPair 1 0).
Proof. eexists. split; [reflexivity|]. cbn. repeat split; discriminate. Qed.

(* ---------- C105: S4 options that are not given take their defaults ---------- *)

(* Missing: make_S, used for A per order and by the field methods, see below. *)
Theorem C105_options_partial : forall u, exists l, read_options (Some (merge_options u)) = Ok l /\
  Forall2 (fun kd v => v = match match u with Some d => d (fst kd) | None => None end with Some w => w | None => snd kd end) s4_documented l.
Proof. exact merged_documented. Qed.
Print Assumptions C105_options_partial.

(* make_S reads the options of the call as they are: a call that lacks any one of them raises KeyError. *)
Theorem C105_options_refuted : forall W SV strict o ob h st a, p_meth o = MS4 ->
  match p_s4 o with None => True | Some d => exists k, In k (map fst s4_documented) /\ d k = None end ->
  calculate W SV strict (with_perorder false o) (ob, h) = Ok (st, a) -> calculate W SV strict (with_perorder true o) (ob, h) = Err KeyError.
Proof. exact perorder_missing. Qed.
Print Assumptions C105_options_refuted.

Definition s4_opts (wl : list R) : ropts := mk_ropts wl 0 0 (PolTup [1; 0]) 1 false MS4 None 1 (Some [1]) None.
Example C105_options_ex : read_options (Some (merge_options (Some (fun k => if String.eqb k "Verbosity" then Some "9" else None)%string)))
    = Ok ["Circular"; "False"; "8"; "False"; "Default"; "False"; "False"; "False"; "False"; "9"]%string /\
  forall SV strict, exists ob r, new_obj wit_names wit_order (wit_struct two_shapes) wit_size (s4_opts [1]) wit_inc wit_tra = Ok ob /\
    calculate wit_names SV strict (with_perorder false (s4_opts [1])) (ob, wit_heap) = Ok r.
Proof.
  split; [reflexivity|]. intros SV strict. eexists. match goal with |- exists r, _ = Ok ?o /\ _ => destruct (calculate_total wit_names SV strict wit_order (wit_struct two_shapes) wit_size (s4_opts [1]) wit_inc wit_tra o wit_heap [] o wit_heap
    (s4_opts [1]) (PolPair 1 0)) as (ob2 & h2 & a & d & HC & _) end; try reflexivity; try discriminate; auto using wit_order_ok; [| |].
  - intros e [].
  - intros _ l s Hl Hs. cbn in Hl. destruct Hl as [<-|[]]. cbn in Hs. destruct Hs as [<-|[<-|[]]]; exact I.
  - exists (ob2, h2, a). split; [reflexivity|exact HC].
Qed.

(* ---------- C106: absorption per order with Inkstone ---------- *)

Theorem C106_inkstone_orders_refuted : forall W SV strict o ob h st a, p_meth o = MInk ->
  calculate W SV strict (with_perorder false o) (ob, h) = Ok (st, a) -> calculate W SV strict (with_perorder true o) (ob, h) = Err IndexError.
Proof. exact perorder_ink. Qed.
Print Assumptions C106_inkstone_orders_refuted.

Example C106_inkstone_orders_refuted_ex : forall strict, exists ob r,
  new_obj wit_world wit_order (wit_struct []) wit_size (wit_opts [1] 0) wit_inc wit_tra = Ok ob /\
  calculate wit_world on_theta strict (with_perorder false (wit_opts [1] (1 / 4))) (ob, wit_heap) = Ok r.
Proof. intros strict. destruct shared_witness as (ob & A & B). destruct (B strict) as (ob1 & h1 & a1 & ? & ? & ? & ? & ? & ? & H1 & _). exists ob, (ob1, h1, a1). split; [exact A|exact H1]. Qed.

(* ---------- C107: field methods use the optical constants of the wavelength asked for ---------- *)

(* Missing: a wavelength that is not one of the object's. *)
Theorem C107_wavelength_partial : forall ob x, In x (o_wl ob) -> exists i, wl_index ob (x * 10 ^ 9) = Ok i /\ nth_error (o_wl ob) i = Some x.
Proof. exact wl_index_found. Qed.
Print Assumptions C107_wavelength_partial.

(* Otherwise those of the nearest stored wavelength, however far. *)
Theorem C107_wavelength_refuted : forall ob w, (exists i x, wl_index ob w = Ok i /\ nth_error (o_wl ob) i = Some x /\
  forall y, In y (o_wl ob) -> Rabs (x * 10 ^ 9 - w) <= Rabs (y * 10 ^ 9 - w)) \/ o_wl ob = [].
Proof. exact wl_index_nearest. Qed.
Print Assumptions C107_wavelength_refuted.

Example C107_wavelength_ex : exists ob, new_obj wit_world wit_order (wit_struct two_shapes) wit_size (wit_opts [1] 0) wit_inc wit_tra = Ok ob /\ In 1 (o_wl ob) /\ wl_index ob 300 = Ok 0%nat.
Proof. eexists. split; [reflexivity|]. split; [left; reflexivity|reflexivity]. Qed.

(* ---------- C108: layer 0 is the incidence medium for the field methods ---------- *)

Theorem C108_fields_refuted : forall ob d, fields_place ob MS4 0 d = Err UnboundLocalError.
Proof. exact fields_layer0. Qed.
Print Assumptions C108_fields_refuted.

Theorem C108_cell_refuted : forall ob ws d p, cell_place ob MS4 0 d = Ok p -> 0 <= d -> ((0 < length ws)%nat -> d < nth 0 ws 0) ->
  exists z, p = AtZ z /\ in_layer ws 1 z /\ ~ in_layer ws 0 z.
Proof. exact cell_layer0. Qed.
Print Assumptions C108_cell_refuted.

Example C108_cell_refuted_ex : exists ob, new_obj wit_world wit_order (wit_struct []) wit_size (wit_opts [1] 0) wit_inc wit_tra = Ok ob /\ cell_place ob MS4 0 1 = Ok (AtZ 1) /\ 1 < nth 0 [5] 0.
Proof. eexists. split; [reflexivity|]. split; [reflexivity|]. cbn [nth]. lra. Qed.

(* ---------- C109: every entry of the structure is a layer ---------- *)

(* Missing: lists of other lengths. *)
Theorem C109_entries_partial : forall structure,
  (forall e, In e structure -> match e with LayList n _ _ _ => n = 4%nat \/ n = 5%nat | _ => True end) ->
  length (List.concat (map entry_layers structure)) = length structure.
Proof. exact entries_one. Qed.
Print Assumptions C109_entries_partial.

(* A list of another length (for instance without a geometry entry) is dropped without an error. *)
Theorem C109_entries_refuted : forall W order n w ep g l1 l2 size o inc tra, n <> 4%nat -> n <> 5%nat ->
  new_obj W order (l1 ++ LayList n w ep g :: l2) size o inc tra = new_obj W order (l1 ++ l2) size o inc tra.
Proof. exact new_obj_dropped. Qed.
Print Assumptions C109_entries_refuted.

Example C109_entries_ex : exists ob, new_obj wit_world wit_order [LayList 3 5 (fun _ => (2, 0)) []; LayObj 6 (fun _ => (2, 0)) []] wit_size (wit_opts [1] 0) wit_inc wit_tra = Ok ob /\
  o_widths ob = [None; Some 6; None].
Proof. eexists. split; reflexivity. Qed.

(* ---------- C110: S4 and Inkstone are told the same structure ---------- *)

(* Missing: polygons with an angle or moving vertices. *)
Theorem C110_solvers_partial : forall ob hv orders d i j orders' hv1 D1 hv2 D2, all_steady hv (o_geom ob) ->
  build_S ob hv MS4 orders d i = Ok (hv1, D1) -> build_S ob hv MInk orders' j i = Ok (hv2, D2) ->
  told_widths D1 = told_widths D2 /\ told_mats D1 = told_mats D2 /\ s_shape_eps D1 = s_shape_eps D2 /\ s_size D1 = s_size D2 /\
  forall l, told_regions D1 l = told_regions D2 l.
Proof. exact same_told. Qed.
Print Assumptions C110_solvers_partial.

Example C110_solvers_partial_ex : exists ob, new_obj wit_world wit_order (wit_struct steady_shapes) wit_size (s4_opts [1]) wit_inc wit_tra = Ok ob /\
  all_steady (h_v wit_heap) (o_geom ob) /\ exists r1 r2, build_S ob (h_v wit_heap) MS4 1 (o_user ob) 0 = Ok r1 /\ build_S ob (h_v wit_heap) MInk 1 None 0 = Ok r2.
Proof.
  eexists. split; [reflexivity|]. split.
  - intros g s Hg Hs. cbn in Hg. destruct Hg as [<-|[<-|[<-|[]]]]; cbn [shapes_of In] in Hs; try tauto. destruct Hs as [<-|[<-|[]]]; cbn [steady sh_geo name_shape]; auto 10.
  - do 2 eexists. split; reflexivity.
Qed.

(* Inkstone ignores the angle of a polygon. *)
Theorem C110_solvers_refuted : exists hv g c1 c2, region_S4 hv g = Ok [c1] /\ snd (region_ink hv g) = [c2] /\ drawn c1 <> drawn c2 /\ wanted hv g = Some (drawn c1).
Proof. exact polygon_angle_differs. Qed.
Print Assumptions C110_solvers_refuted.

(* ---------- C111: set_widths checks the number of widths ---------- *)

(* Too many: the next calculation raises an exception. *)
Theorem C111_too_many_partial : forall W order structure size o inc tra ob SV strict o' h ws, new_obj W order structure size o inc tra = Ok ob ->
  (length (List.concat (map entry_layers structure)) < length ws)%nat -> p_wl o' = p_wl o -> forall r, calculate W SV strict o' (obj_set_widths ws ob, h) <> Ok r.
Proof. exact too_many_fails. Qed.
Print Assumptions C111_too_many_partial.

(* Too few: a stack of fewer layers is solved, with a layer in place of the transmission medium. *)
Theorem C111_too_few_refuted : forall W order structure size o inc tra ob hv m orders d i ws hv' D x,
  new_obj W order structure size o inc tra = Ok ob -> nth_error (p_wl o) i = Some x ->
  (length ws < length (List.concat (map entry_layers structure)))%nat ->
  build_S (obj_set_widths ws ob) hv m orders d i = Ok (hv', D) ->
  told_mats D = inc x :: map (fun l => ol_eps l x) (firstn (length ws + 1) (List.concat (map entry_layers structure))) /\ has_widths ws D.
Proof.
  intros W order structure size o inc tra ob hv m orders d i ws hv' D x H Hx Hl HB. destruct (new_obj_keeps _ _ _ _ _ _ _ _ H) as (C & S1 & S2 & _). rewrite <- S1, <- S2.
  apply (too_few_widths W ob hv m orders d i ws hv' D x C); auto; [|rewrite S1; auto]. unfold new_obj in H. apply rbind_ok in H. destruct H as (? & _ & H). injection H as <-. exact Hx.
Qed.
Print Assumptions C111_too_few_refuted.

Example C111_widths_ex : exists ob r, new_obj wit_world wit_order [LayObj 5 (fun _ => (2, 0)) []; LayObj 6 (fun _ => (4, 0)) []] wit_size (wit_opts [1] 0) wit_inc wit_tra = Ok ob /\
  build_S (obj_set_widths [7] ob) (h_v wit_heap) MInk 1 None 0 = Ok r /\ told_mats (snd r) = [(1, 0); (2, 0); (4, 0)].
Proof. do 2 eexists. split; [reflexivity|]. split; reflexivity. Qed.

(* ---------- C112: each value of the profile belongs to the layer that contains its depth; zeros only where the stored total
   absorption is not positive ---------- *)

Theorem C112_profile_values : forall W SV strict o st ob' h' a ws, calculate_profile W SV strict o st = Ok (ob', h', a) -> o_widths ob' = stack_of ws ->
  exists zs d p pol rA, profile_depths o ws zs /\ nth_error (h_res h') a = Some d /\ r_profile d = Some p /\ process_pol (p_pol o) = Ok pol /\
    o_ratA ob' = Some rA /\ length p = length (p_wl o) /\
    forall i row, nth_error p i = Some row -> length row = length zs /\
      ((nth i rA 0 <= 0 /\ forall x, In x row -> x = 0) \/
       exists D, 0 < nth i rA 0 /\ told_widths D = 0 :: ws ++ [0] /\ forall j z x, nth_error zs j = Some z -> nth_error row j = Some x ->
         exists l, in_layer ws l z /\ forall s dl, s = SV D (p_theta o) (p_phi o) pol (freq (nth i (p_wl o) 0)) -> dl = z - rsum (firstn (l - 1) ws) ->
           x = Rmax 0 ((so_at s (l + 1) (dl - 1 / 10 ^ 9) - so_at s (l + 1) (dl + 1 / 10 ^ 9)) / (2 * (1 / 10 ^ 9) * fst (fx (so_flux s) 1)))).
Proof. exact profile_values. Qed.
Print Assumptions C112_profile_values.

(* and a depth is in one layer only *)
Theorem C112_layer_unique : forall ws l l' z, Forall (fun w => 0 <= w) ws -> in_layer ws l z -> in_layer ws l' z -> l = l'.
Proof. exact in_layer_one. Qed.
Print Assumptions C112_layer_unique.

Example C112_profile_values_ex : exists ob, new_obj wit_world wit_order (wit_struct []) wit_size (wit_opts [1] 0) wit_inc wit_tra = Ok ob /\ o_widths ob = stack_of [5] /\
  (forall strict, exists st h a, calculate_profile wit_world on_theta strict (wit_opts [1] (1 / 4)) st = Ok (fst st, h, a) /\ o_widths (fst st) = stack_of [5]) /\
  in_layer [5; 6] 2 7 /\ Forall (fun w => 0 <= w) [5; 6].
Proof.
  destruct shared_witness as (ob & A & B). exists ob. split; auto. assert (Wd : o_widths ob = stack_of [5] /\ o_wl ob = [1]). { unfold new_obj in A. apply rbind_ok in A. destruct A as (? & _ & A). injection A as <-. auto. }
  destruct Wd as [W1 W2]. split; auto. split.
  - intros strict. destruct (B strict) as (ob1 & h1 & a1 & ob2 & h2 & a2 & ob3 & h3 & a3 & H1 & H2 & _).
    destruct (calculate_parts _ _ _ _ _ _ _ _ H1) as (pol & rf & out & _ & Hr & _ & _ & E1 & _). cbn [fst] in Hr. rewrite refresh_same in Hr by (rewrite W2; reflexivity). injection Hr as <-. cbn [snd] in E1.
    destruct (profile_stale wit_world on_theta strict (wit_opts [1] (1 / 4)) ob1 h1 ob2 h2 a2 (map rsum (map (fun x => snd (fst x)) (snd out))) a1) as (_ & _ & ->); auto; [rewrite E1; auto|rewrite E1; auto|rewrite E1; cbn [with_results o_wl]; rewrite W2; apply wit_np|].
    exists (ob1, h1), h2, a2. split; [exact H2|]. rewrite E1. exact W1.
  - split; [|repeat constructor; lra]. cbn [in_layer firstn rsum length]. split; [lra|]. split; [intros; lra|lia].
Qed.

(* ---------- C113: shape materials given as lists ---------- *)

Theorem C113_list_material_refuted : forall W order structure size o inc tra, In MList (shape_mats_of (List.concat (map entry_layers structure))) ->
  new_obj W order structure size o inc tra = Err TypeError.
Proof. exact list_material. Qed.
Print Assumptions C113_list_material_refuted.

Example C113_list_material_refuted_ex : In MList (shape_mats_of (List.concat (map entry_layers (wit_struct [mk_shape (MObj 0) OtherShape; mk_shape MList (Circle (0, 0) 1)])))).
Proof. cbn. auto. Qed.

(* ---------- C114: one object, either solver ---------- *)

Theorem C114_other_solver_refuted : forall W order structure size o0 inc tra ob SV strict o h pol, new_obj W order structure size o0 inc tra = Ok ob ->
  p_meth o0 = MInk -> p_meth o = MS4 -> process_pol (p_pol o) = Ok pol -> p_wl o <> [] -> length (p_wl o) = length (p_wl o0) ->
  calculate W SV strict o (ob, h) = Err TypeError.
Proof.
  intros W order structure size o0 inc tra ob SV strict o h pol H Hm0 Hm Hp Hw HL. destruct (new_obj_keeps _ _ _ _ _ _ _ _ H) as (C & _).
  apply (no_user_options W SV strict o ob h pol); auto; unfold new_obj in H; apply rbind_ok in H; destruct H as (? & _ & H); injection H as <-; [cbn [update_oc o_user]; rewrite Hm0; reflexivity|exact HL].
Qed.
Print Assumptions C114_other_solver_refuted.

Example C114_other_solver_refuted_ex : forall SV strict, exists ob, new_obj wit_world wit_order (wit_struct two_shapes) wit_size (wit_opts [1] 0) wit_inc wit_tra = Ok ob /\
  calculate wit_world SV strict (s4_opts [1]) (ob, wit_heap) = Err TypeError.
Proof. intros SV strict. eexists. split; [reflexivity|]. 
  apply (C114_other_solver_refuted wit_world wit_order (wit_struct two_shapes) wit_size (wit_opts [1] 0) wit_inc wit_tra) with (pol := PolPair 1 0); try reflexivity. discriminate.
Qed.

(* ---------- C115: the attribute width ---------- *)

(* Missing: set_widths. *)
Theorem C115_width_partial : forall W order structure size o inc tra ob SV strict h es st', new_obj W order structure size o inc tra = Ok ob ->
  history W SV strict es (ob, h) = Ok st' -> (forall e, In e es -> widths_ok (fun _ => False) e) ->
  o_width (fst st') = rsum (inner (o_widths (fst st'))) / 10 ^ 9.
Proof.
  intros W order structure size o inc tra ob SV strict h es st' H Hh He. apply (history_width W SV strict es (ob, h) st' Hh He).
  unfold new_obj in H. apply rbind_ok in H. destruct H as (? & _ & H). injection H as <-. reflexivity.
Qed.
Print Assumptions C115_width_partial.

Theorem C115_width_refuted : forall ob ws, o_width (obj_set_widths ws ob) = o_width ob /\ inner (o_widths (obj_set_widths ws ob)) = ws.
Proof. intros ob ws. split; [reflexivity|]. exact (inner_stack ws). Qed.
Print Assumptions C115_width_refuted.

Example C115_width_ex : exists ob, new_obj wit_world wit_order (wit_struct []) wit_size (wit_opts [1] 0) wit_inc wit_tra = Ok ob /\
  o_width (obj_set_widths [7] ob) = (5 + 0) / 10 ^ 9 /\ forall SV strict, exists st', history wit_world SV strict [ESetSize ((2, 0), (0, 2))] (ob, wit_heap) = Ok st'.
Proof. eexists. split; [reflexivity|]. split; [reflexivity|]. intros. eexists. reflexivity. Qed.

(* ---------- C116: a new material by edit_geom_list ---------- *)

Theorem C116_new_material_refuted : forall W SV strict o h ob ob' layer gi f, edit_geom layer gi f ob = Ok ob' ->
  length (o_widths ob) = (length (o_stack ob) + 2)%nat -> (layer <= length (o_stack ob) + 1)%nat ->
  (forall s, known (f s) = true /\ ~ In (sh_mat (f s)) (o_names ob)) -> forall r, calculate W SV strict o (ob', h) <> Ok r.
Proof. exact edit_new_fails. Qed.
Print Assumptions C116_new_material_refuted.

Example C116_new_material_refuted_ex : exists ob ob', new_obj wit_names wit_order (wit_struct two_shapes) wit_size (wit_opts [1] 0) wit_inc wit_tra = Ok ob /\
  edit_geom 1 1 (fun _ => mk_shape "c"%string (Circle (0, 0) 2)) ob = Ok ob' /\ length (o_widths ob) = (length (o_stack ob) + 2)%nat /\ ~ In "c"%string (o_names ob).
Proof. do 2 eexists. split; [reflexivity|]. split; [reflexivity|]. split; [reflexivity|]. cbn [o_names update_oc map wit_names m_name]. cbn. intros [E|[E|[]]]; discriminate. Qed.
