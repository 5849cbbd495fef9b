(* The path of a ray depends on its random numbers through finitely many comparisons. *)
From Coq Require Import Reals List Bool ZArith Lia Lra FunctionalExtensionality.
From Verif Require Import Base Lib Model_Angles Model_Optics Model_OpticsC Model_RayIface Model_RayStack Model_Surface Model_RTStruct Model_Trace
  Model_StackRay Model_StackCalc Spec_Mean Proof_Mean Proof_Trees.
Import ListNotations.
Open Scope R_scope.

(* ---------- functions of a sequence of which numbers j, j + 1, ... are used ---------- *)

Definition from (j : nat) (v : nat -> R) : nat -> R := fun i => v (i - j)%nat.
Definition uses {A} (j D : nat) (f : (nat -> R) -> A) : Prop :=
  (forall r r', (forall i, (j <= i)%nat -> r i = r' i) -> f r = f r') /\ tree D (fun v => f (from j v)).

Lemma uses_const {A} j D (a : A) : uses j D (fun _ => a).
Proof. split; [reflexivity|apply (tree_const D a)]. Qed.
Lemma uses_more {A} j D D' (f : (nat -> R) -> A) : (D <= D')%nat -> uses j D f -> uses j D' f.
Proof. intros H [E T]. split; [exact E|exact (tree_more D D' _ H T)]. Qed.
Lemma uses_map {A B} (g : A -> B) j D f : uses j D f -> uses j D (fun r => g (f r)).
Proof. intros [E T]. split; [intros r r' H; now rewrite (E r r' H)|exact (tree_map g D _ T)]. Qed.
Lemma uses_ext {A} j D (f g : (nat -> R) -> A) : (forall r, f r = g r) -> uses j D f -> uses j D g.
Proof.
  intros H [E T]. split; [intros r r' R; rewrite <- !H; auto|]. apply (tree_ext D (fun v => f (from j v))); [intros; apply H|exact T].
Qed.
Lemma uses_choose {A} j D (f f1 f2 f3 : (nat -> R) -> A) r1 r2 : uses (S j) D f1 -> uses (S j) D f2 -> uses (S j) D f3 ->
  (forall r, f r = if Rleb (r j) r1 then f1 r else if Rleb (r j) r2 then f2 r else f3 r) -> uses j (S D) f.
Proof.
  intros [E1 T1] [E2 T2] [E3 T3] E. split.
  - intros r r' H. rewrite !E, (H j (le_n j)). rewrite (E1 r r'), (E2 r r'), (E3 r r') by (intros; apply H; lia). reflexivity.
  - apply (tree_choose D _ _ _ _ r1 r2 T1 T2 T3). intros v u _ _. rewrite E.
    assert (H0 : from j (before v u) j = v) by (unfold from; now rewrite Nat.sub_diag). rewrite H0.
    assert (H1 : forall i, (S j <= i)%nat -> from j (before v u) i = from (S j) u i).
    { intros i Hi. unfold from. replace (i - j)%nat with (S (i - S j)) by lia. reflexivity. }
    rewrite (E1 _ _ H1), (E2 _ _ H1), (E3 _ _ H1). reflexivity.
Qed.

(* ---------- decisions ---------- *)

Definition by_comparison (dec : decision) : Prop := forall side th d N, exists r1 r2 x1 x2 x3,
  forall v, dec side th d N v = if Rleb v r1 then x1 else if Rleb v r2 then x2 else x3.

Lemma chosen_by_comparison p t ni nj : by_comparison (chosen p t ni nj).
Proof.
  intros side th d N. unfold chosen. destruct t as [ent|].
  - unfold table_decision_c, decide_RT_TMM_c. destruct (Z.eqb side 1).
    + match goal with |- context [ent ?a ?b] => set (e' := ent a b) end.
      eexists (te_R e'), (te_R e' + te_T e'), _, _, _. intros v. destruct (Rleb v (te_R e')) eqn:Q; [reflexivity|].
      apply Rleb_false in Q. rewrite (proj2 (Rltb_true _ _) Q). cbn [andb]. reflexivity.
    + match goal with |- context [ent ?a ?b] => set (e' := ent a b) end.
      eexists (te_R e'), (te_R e' + te_T e'), _, _, _. intros v. destruct (Rleb v (te_R e')) eqn:Q; [reflexivity|].
      apply Rleb_false in Q. rewrite (proj2 (Rltb_true _ _) Q). cbn [andb]. reflexivity.
  - unfold fresnel_decision_c, decide_RT_Fresnel_c. destruct (Z.eqb side 1).
    + match goal with |- context [fresnel_Rc ?a ?b ?c ?d] => set (e' := fresnel_Rc a b c d) end.
      eexists e', e', _, (d, side, None), _. intros v. destruct (Rleb v e') eqn:Q; reflexivity.
    + match goal with |- context [fresnel_Rc ?a ?b ?c ?d] => set (e' := fresnel_Rc a b c d) end.
      eexists e', e', _, (d, side, None), _. intros v. destruct (Rleb v e') eqn:Q; reflexivity.
Qed.

(* ---------- one surface ---------- *)

Definition with_rnd (E : env) (r : nat -> R) : env :=
  {| e_surf := e_surf E; e_rnd := r; e_xy := e_xy E; e_Lx := e_Lx E; e_Ly := e_Ly E; e_dec := e_dec E |}.

Section Surface.
  Variables (B : Type) (E : env) (D : nat) (none : B) (err : Base.err -> B) (cont : iresult -> (nat -> R) -> B).
  Hypothesis Hdec : by_comparison (e_dec E).
  Hypothesis Hcont : forall x, uses (r_nint x) D (cont x).

  Definition go_on (a : option (res iresult)) (r : nat -> R) : B :=
    match a with None => none | Some (Err e) => err e | Some (Ok x) => cont x r end.

  Lemma uses_irun fuel : forall d0z st, uses (i_nint st) (fuel + D) (fun r => go_on (irun fuel (with_rnd E r) d0z st) r).
  Proof.
    induction fuel as [|n IH]; intros d0z st; [apply (uses_const (i_nint st) D none)|].
    cbn [irun]. unfold istep. cbn [e_surf with_rnd e_xy e_Lx e_Ly e_dec e_rnd].
    destruct (check_pos (i_r st) (i_d st) (e_surf E (i_ref st))) as [h|].
    - destruct (Hdec (i_side st) (h_theta h) (i_d st) (vscale (IZR (i_side st)) (h_N h))) as (r1 & r2 & x1 & x2 & x3 & DE).
      set (after := fun (x : vec * Z * option (list R)) (r : nat -> R) =>
        go_on (match (let '(d', side', A) := x in
                      let r' := Some (vadd (h_point h) (vscale (1 / 10 ^ 9) d')) in
                      match A with
                      | None => inl {| i_r := r'; i_d := d'; i_side := side'; i_checked := false; i_misses := i_misses st; i_i1 := Datatypes.S (i_i1 st);
                                       i_theta := Some (h_theta h); i_nint := Datatypes.S (i_nint st); i_ref := i_ref st |}
                      | Some A => inr (Ok {| r_out := OAbsorbed A; Model_RayIface.r_pos := r'; r_dir := d'; r_loc := h_theta h; r_nint := Datatypes.S (i_nint st); r_side := side' |})
                      end) with inl st' => irun n (with_rnd E r) d0z st' | inr o => Some o end) r).
      assert (UA : forall x, uses (Datatypes.S (i_nint st)) (n + D) (after x)).
      { intros [[d' side'] [A|]]; unfold after.
        - cbn [go_on]. apply (uses_more _ D); [lia|]. exact (Hcont {| r_out := OAbsorbed A; Model_RayIface.r_pos := _; r_dir := d'; r_loc := h_theta h; r_nint := Datatypes.S (i_nint st); r_side := side' |}).
        - exact (IH d0z {| i_r := _; i_d := d'; i_side := side'; i_checked := false; i_misses := i_misses st; i_i1 := Datatypes.S (i_i1 st);
                           i_theta := Some (h_theta h); i_nint := Datatypes.S (i_nint st); i_ref := i_ref st |}). }
      apply (uses_choose (i_nint st) (n + D) _ (after x1) (after x2) (after x3) r1 r2 (UA x1) (UA x2) (UA x3)).
      intros r. rewrite DE. unfold after. destruct (Rleb (r (i_nint st)) r1); [reflexivity|]. destruct (Rleb (r (i_nint st)) r2); reflexivity.
    - apply (uses_more _ (n + D)); [lia|]. destruct (negb (i_checked st)).
      + destruct (Nat.ltb 1 (Datatypes.S (i_i1 st))).
        * match goal with |- uses _ _ (fun r => go_on (irun n (with_rnd E r) d0z ?s) r) => exact (IH d0z s) end.
        * destruct (Nat.ltb (i_misses st) 100).
          -- destruct (e_xy E (i_misses st)) as [x y]. match goal with |- uses _ _ (fun r => go_on (irun n (with_rnd E r) d0z ?s) r) => exact (IH d0z s) end.
          -- cbn [go_on]. apply (uses_more _ D); [lia|]. match goal with |- uses _ _ (fun r => cont ?x r) => exact (Hcont x) end.
      + destruct (still_inside (i_side st) (i_d st) (i_r st) (e_surf E (i_ref st))).
        * match goal with |- uses _ _ (fun r => go_on (irun n (with_rnd E r) d0z ?s) r) => exact (IH d0z s) end.
        * destruct (i_theta st) as [theta|]; cbn [go_on]; [|apply uses_const].
          apply (uses_more _ D); [lia|]. match goal with |- uses _ _ (fun r => cont ?x r) => exact (Hcont x) end.
  Qed.

  Lemma uses_cell fuel : forall d0z pos d side theta n_int,
    uses n_int (fuel + D) (fun r => go_on (option_map Ok (cell_run fuel (with_rnd E r) d0z pos d side theta n_int)) r).
  Proof.
    induction fuel as [|n IH]; intros d0z pos d side theta n_int; [apply (uses_const n_int D none)|].
    cbn [cell_run]. cbn [e_surf with_rnd e_dec e_rnd]. destruct (check_pos pos d (e_surf E 0)) as [h|].
    - destruct (Hdec side (h_theta h) d (vscale (IZR side) (h_N h))) as (r1 & r2 & x1 & x2 & x3 & DE).
      set (after := fun (x : vec * Z * option (list R)) (r : nat -> R) =>
        go_on (option_map Ok (let '(d', side', A) := x in
                      let r' := Some (vadd (h_point h) (vscale (1 / 10 ^ 9) d')) in
                      match A with
                      | None => cell_run n (with_rnd E r) d0z r' d' side' (h_theta h) (Datatypes.S n_int)
                      | Some A => Some {| r_out := OAbsorbed A; Model_RayIface.r_pos := r'; r_dir := d'; r_loc := h_theta h; r_nint := Datatypes.S n_int; r_side := side' |}
                      end)) r).
      assert (UA : forall x, uses (Datatypes.S n_int) (n + D) (after x)).
      { intros [[d' side'] [A|]]; unfold after.
        - cbn [go_on option_map]. apply (uses_more _ D); [lia|]. exact (Hcont {| r_out := OAbsorbed A; Model_RayIface.r_pos := _; r_dir := d'; r_loc := h_theta h; r_nint := Datatypes.S n_int; r_side := side' |}).
        - apply IH. }
      apply (uses_choose n_int (n + D) _ (after x1) (after x2) (after x3) r1 r2 (UA x1) (UA x2) (UA x3)).
      intros r. rewrite DE. unfold after. destruct (Rleb (r n_int) r1); [reflexivity|]. destruct (Rleb (r n_int) r2); reflexivity.
    - cbn [go_on option_map]. apply (uses_more _ D); [lia|]. match goal with |- uses _ _ (fun r => cont ?x r) => exact (Hcont x) end.
  Qed.
End Surface.

(* ---------- a ray ---------- *)

Definition renumbered (U : setup) (r : nat -> R) : setup :=
  {| u_K := u_K U; u_faces := u_faces U; u_nks := u_nks U; u_draws := {| dr_rnd := r; dr_xy := dr_xy (u_draws U); dr_uv := dr_uv (u_draws U) |};
     u_randomize := u_randomize U; u_periodic := u_periodic U |}.

Section Ray.
  Variables (U : setup) (fuel : nat).
  Hypothesis Hdec : forall i f ni nj, py_index (u_faces U) i = Ok f -> by_comparison (f_dec f ni nj).

  Lemma uses_frun outer : forall st, uses (x_nint st) (outer * fuel) (fun r => frun outer fuel (renumbered U r) st).
  Proof.
    induction outer as [|n IH]; intros st; [apply (uses_const (x_nint st) 0 (@None (res fstate)))|].
    cbn [frun Nat.mul]. unfold fstep. cbn [renumbered u_faces u_nks u_K u_periodic].
    destruct (py_index (u_faces U) (s_surf (x_st st))) as [f|e] eqn:F; [|apply (uses_const _ _ (Some (Err e)))].
    assert (FR : forall r, face_ray (renumbered U r) f (x_checks st) (s_passes (x_st st)) (s_dir (x_st st)) (x_pos st) (x_dir st) =
      face_ray U f (x_checks st) (s_passes (x_st st)) (s_dir (x_st st)) (x_pos st) (x_dir st)) by reflexivity.
    destruct (face_ray U f (x_checks st) (s_passes (x_st st)) (s_dir (x_st st)) (x_pos st) (x_dir st)) as [p d] eqn:FE.
    match goal with |- context [rbind (py_index (u_nks U) ?a) ?k] => destruct (rbind (py_index (u_nks U) a) k) as [[ni nj]|e] eqn:NI end.
    2:{ apply (uses_ext _ _ (fun _ => Some (Err e))); [intros r; rewrite FR; reflexivity|apply uses_const]. }
    set (cont := fun (x : iresult) (r : nat -> R) =>
      match sstep (u_K U) (x_st st) (r_out x) with
      | Err e => Some (Err e)
      | Ok (inl s') => frun n fuel (renumbered U r) {| x_st := s'; x_pos := Model_RayIface.r_pos x; x_dir := r_dir x; x_nint := r_nint x; x_checks := Datatypes.S (x_checks st); x_phi := check_phi x; x_loc := r_loc x |}
      | Ok (inr s') => Some (Ok {| x_st := s'; x_pos := Model_RayIface.r_pos x; x_dir := r_dir x; x_nint := r_nint x; x_checks := Datatypes.S (x_checks st); x_phi := check_phi x; x_loc := r_loc x |})
      end).
    assert (HC : forall x, uses (r_nint x) (n * fuel) (cont x)).
    { intros x. unfold cont. destruct (sstep (u_K U) (x_st st) (r_out x)) as [[s'|s']|e]; [|apply uses_const|apply uses_const].
      exact (IH {| x_st := s'; x_pos := Model_RayIface.r_pos x; x_dir := r_dir x; x_nint := r_nint x; x_checks := Datatypes.S (x_checks st); x_phi := check_phi x; x_loc := r_loc x |}). }
    set (E := face_env U f (x_checks st) ni nj). assert (HD : by_comparison (e_dec E)) by (apply (Hdec _ _ _ _ F)).
    assert (FEnv : forall r, face_env (renumbered U r) f (x_checks st) ni nj = with_rnd E r) by reflexivity.
    destruct (u_periodic U).
    - apply (uses_ext _ _ (fun r => go_on _ None (fun e => Some (Err e)) cont (single_interface_check fuel (with_rnd E r) p d (s_dir (x_st st)) (x_nint st)) r)).
      + intros r. rewrite FR, FEnv. destruct (single_interface_check _ _ _ _ _ _) as [[x|e]|]; [|reflexivity|reflexivity]. cbn [go_on]. unfold cont. destruct (sstep _ _ _) as [[s'|s']|e]; reflexivity.
      + exact (uses_irun _ E (n * fuel) None (fun e => Some (Err e)) cont HD HC fuel (vz d) (istart p d (s_dir (x_st st)) (x_nint st))).
    - apply (uses_ext _ _ (fun r => go_on _ None (fun e => Some (Err e)) cont (option_map Ok (single_cell_check fuel (with_rnd E r) p d (s_dir (x_st st)) (x_nint st))) r)).
      + intros r. rewrite FR, FEnv. destruct (single_cell_check _ _ _ _ _ _) as [x|]; [|reflexivity]. cbn [go_on option_map]. unfold cont. destruct (sstep _ _ _) as [[s'|s']|e]; reflexivity.
      + exact (uses_cell _ E (n * fuel) None (fun e => Some (Err e)) cont HD HC fuel (vz d) p d (s_dir (x_st st)) 0 (x_nint st)).
  Qed.

  Lemma trace_tree outer r_a_0 x y m d : tree (outer * fuel) (fun v => trace_stack outer fuel (renumbered U v) r_a_0 x y m d).
  Proof.
    unfold trace_stack, fstart. cbn [renumbered u_K]. destruct (stack_start (k_widths (u_K U)) r_a_0 x y m d) as [pds|e]; cbn [rbind]; [|apply tree_const].
    match goal with |- tree _ (fun v => frun outer fuel (renumbered U v) ?s) => destruct (uses_frun outer s) as [_ T] end.
    cbn [x_nint] in T. revert T. apply tree_ext. intros v _. f_equal. f_equal. apply functional_extensionality. intros i. unfold from. f_equal. lia.
  Qed.
End Ray.
