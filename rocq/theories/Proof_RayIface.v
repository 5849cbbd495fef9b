(* Lemmas about single_interface_check (C39, C69). *)
From Coq Require Import Reals List Bool ZArith Lra Lia Psatz.
From Verif Require Import Base Lib Model_Optics Spec_Optics Proof_Optics Proof_Geom Proof_OpticsProps
  Model_OpticsC Spec_OpticsC Proof_OpticsC Proof_OpticsC2 Model_RayIface Spec_RayIface.
Import ListNotations.
Open Scope R_scope.

(* ---------- decisions keep directions normalised ---------- *)

Lemma normalise_nonzero v : 0 < dot v v -> unit (normalise v).
Proof.
  intros H. unfold unit, normalise. rewrite dot_scale_scale.
  assert (Hn : 0 < norm v) by (unfold norm; apply sqrt_lt_R0, H).
  rewrite <- (norm_sq v). field. lra.
Qed.

Lemma refract_nonzero n0 n1 d N : unit d -> unit N -> 0 < dot (refract n0 n1 d N) (refract n0 n1 d N).
Proof.
  intros Hd HN. unfold refract.
  set (p := vscale (n0 / n1) (vsub d (vscale (dot d N) N))).
  set (c := - real_sqrt (1 - norm p ^ 2)).
  assert (Hp : dot p N = 0).
  { unfold p. rewrite dot_scale_l. fold (tang d N). rewrite tang_perp by exact HN. ring. }
  assert (E : dot (vadd p (vscale c N)) (vadd p (vscale c N)) = dot p p + 2 * c * dot p N + c * c * dot N N)
    by (vexp; ring).
  rewrite E, Hp. replace (dot N N) with 1 by (symmetry; exact HN).
  assert (Hn : norm p ^ 2 = dot p p) by (replace (norm p ^ 2) with (norm p * norm p) by ring; apply norm_sq).
  assert (Hc : c * c = if Rltb (1 - norm p ^ 2) 0 then 0 else 1 - norm p ^ 2).
  { unfold c, real_sqrt. destruct (Rltb (1 - norm p ^ 2) 0) eqn:B; [ring|].
    apply Rltb_false in B. replace (- sqrt (1 - norm p ^ 2) * - sqrt (1 - norm p ^ 2))
      with (sqrt (1 - norm p ^ 2) * sqrt (1 - norm p ^ 2)) by ring. apply sqrt_sqrt. lra. }
  destruct (Rltb (1 - norm p ^ 2) 0) eqn:B.
  - apply Rltb_true in B. lra.
  - lra.
Qed.

Lemma fresnel_keeps n0 n1 th d N side p rnd : unit d -> unit N -> pm1 side ->
  let '(d', s', A) := decide_RT_Fresnel n0 n1 th d N side p rnd in
  unit d' /\ pm1 s' /\ A = None.
Proof.
  intros Hd HN Hs. unfold decide_RT_Fresnel. destruct (Rleb _ _).
  - rewrite normalise_unit by (apply reflect_unit; assumption).
    split; [apply reflect_unit; assumption|]. split; [exact Hs|reflexivity].
  - split; [apply normalise_nonzero, refract_nonzero; assumption|].
    split; [|reflexivity]. destruct Hs as [-> | ->]; [right|left]; reflexivity.
Qed.

Lemma tmm_keeps e n0 n1 d N side rnd : unit d -> unit N -> pm1 side ->
  let '(d', s', A) := decide_RT_TMM e n0 n1 d N side rnd in
  unit d' /\ pm1 s' /\ (A = None \/ A = Some (te_A e) /\ d' = d).
Proof.
  intros Hd HN Hs. unfold decide_RT_TMM. destruct (Rleb _ _); [|destruct (_ && _)].
  - rewrite normalise_unit by (apply reflect_unit; assumption).
    split; [apply reflect_unit; assumption|]. split; [exact Hs|left; reflexivity].
  - split; [apply normalise_nonzero, refract_nonzero; assumption|].
    split; [|left; reflexivity]. destruct Hs as [-> | ->]; [right|left]; reflexivity.
  - split; [exact Hd|]. split; [exact Hs|]. right. split; reflexivity.
Qed.

Lemma fresnel_c_keeps n0 n1 th d N side p rnd : unit d -> unit N -> pm1 side ->
  let '(d', s', A) := decide_RT_Fresnel_c n0 n1 th d N side p rnd in
  unit d' /\ pm1 s' /\ A = None.
Proof.
  intros Hd HN Hs. unfold decide_RT_Fresnel_c. destruct (Rleb _ _).
  - rewrite normalise_unit by (apply reflect_unit; assumption).
    split; [apply reflect_unit; assumption|]. split; [exact Hs|reflexivity].
  - split; [apply normalise_nonzero, refract_nonzero; assumption|].
    split; [|reflexivity]. destruct Hs as [-> | ->]; [right|left]; reflexivity.
Qed.

Lemma tmm_c_keeps e n0 n1 d N side rnd : optical_medium n0 -> optical_medium n1 -> unit d -> unit N -> pm1 side ->
  let '(d', s', A) := decide_RT_TMM_c e n0 n1 d N side rnd in
  unit d' /\ pm1 s' /\ (A = None \/ A = Some (te_A e) /\ d' = d).
Proof.
  intros M0 M1 Hd HN Hs. unfold decide_RT_TMM_c. destruct (Rleb _ _); [|destruct (_ && _)].
  - rewrite normalise_unit by (apply reflect_unit; assumption).
    split; [apply reflect_unit; assumption|]. split; [exact Hs|left; reflexivity].
  - split; [apply normalise_nonzero, refract_c_nonzero; assumption|].
    split; [|left; reflexivity]. destruct Hs as [-> | ->]; [right|left]; reflexivity.
  - split; [exact Hd|]. split; [exact Hs|]. right. split; reflexivity.
Qed.

Lemma decision_keeps dec side th d N rnd : real_decision dec -> unit d -> unit N -> pm1 side ->
  let '(d', s', A) := dec side th d N rnd in
  unit d' /\ pm1 s' /\ (forall l, A = Some l -> absorbs dec th rnd l).
Proof.
  intros Hr Hd HN Hs.
  assert (K : let '(d', s', A) := dec side th d N rnd in unit d' /\ pm1 s'); [|].
  2:{ destruct (dec side th d N rnd) as [[d' s'] A] eqn:E. destruct K as [K1 K2]. split; [exact K1|]. split; [exact K2|].
      intros l ->. exists side, d, N. rewrite E. auto. }
  destruct Hr as [ni nj p|ni nj entry|ni nj p|ni nj entry M0 M1].
  3:{ unfold fresnel_decision_c.
      assert (X : forall n0 n1, let '(d', s', A) := decide_RT_Fresnel_c n0 n1 th d N side p rnd in unit d' /\ pm1 s').
      { intros n0 n1. pose proof (fresnel_c_keeps n0 n1 th d N side p rnd Hd HN Hs) as H.
        destruct (decide_RT_Fresnel_c _ _ _ _ _ _ _ _) as [[d' s'] A]. tauto. }
      destruct (Z.eqb side 1); apply X. }
  3:{ unfold table_decision_c. set (e := entry side (Rabs th)).
      assert (X : forall n0 n1, optical_medium n0 -> optical_medium n1 -> let '(d', s', A) := decide_RT_TMM_c e n0 n1 d N side rnd in unit d' /\ pm1 s').
      { intros n0 n1 H0 H1. pose proof (tmm_c_keeps e n0 n1 d N side rnd H0 H1 Hd HN Hs) as H.
        destruct (decide_RT_TMM_c _ _ _ _ _ _ _) as [[d' s'] A]. tauto. }
      destruct (Z.eqb side 1); apply X; assumption. }
  - unfold fresnel_decision. destruct (Z.eqb side 1).
    + pose proof (fresnel_keeps ni nj th d N side p rnd Hd HN Hs) as H.
      destruct (decide_RT_Fresnel _ _ _ _ _ _ _ _) as [[d' s'] A]. destruct H as (H1 & H2 & ->).
      split; [exact H1|exact H2].
    + pose proof (fresnel_keeps nj ni th d N side p rnd Hd HN Hs) as H.
      destruct (decide_RT_Fresnel _ _ _ _ _ _ _ _) as [[d' s'] A]. destruct H as (H1 & H2 & ->).
      split; [exact H1|exact H2].
  - remember (table_decision ni nj entry) as dec eqn:Ed.
    assert (X : let '(d', s', A) := dec side th d N rnd in
                unit d' /\ pm1 s' /\ (A = None \/ A = Some (te_A (entry side (Rabs th))) /\ d' = d)).
    { rewrite Ed. unfold table_decision. destruct (Z.eqb side 1); apply tmm_keeps; assumption. }
    destruct (dec side th d N rnd) as [[d' s'] A]. destruct X as (H1 & H2 & H3).
    split; [exact H1|exact H2].
Qed.

Lemma hit_N_unit r d S h side : unit d -> pm1 side -> check_pos r d S = Some h ->
  unit (vscale (IZR side) (h_N h)) /\ - (PI / 2) < h_theta h < PI / 2.
Proof.
  intros Hd Hs Hc. destruct r as [r|]; [|discriminate]. cbn [check_pos] in Hc.
  destruct (hit_facts r d _ h side Hd Hc Hs) as (HU & Hth & _ & _).
  split; [exact HU|]. destruct Hth as [_ Hth]. apply Rabs_def2 in Hth. lra.
Qed.

(* ---------- invariant ---------- *)

Definition iinv (d0 : vec) (side0 : Z) (n0 : nat) (st : istate) : Prop :=
  unit (i_d st) /\ pm1 (i_side st) /\ (n0 <= i_nint st)%nat /\
  ((i_i1 st = 0%nat /\ i_d st = d0 /\ i_side st = side0 /\ i_checked st = false /\
    i_ref st = 0%nat /\ i_nint st = n0) \/
   ((0 < i_i1 st)%nat /\ (n0 < i_nint st)%nat /\
    exists th, i_theta st = Some th /\ - (PI / 2) < th < PI / 2)).

Definition contract (E : env) (d0 : vec) (n0 : nat) (o : res iresult) : Prop :=
  exists res, o = Ok res /\ unit (r_dir res) /\ pm1 (r_side res) /\
    (n0 <= r_nint res)%nat /\ - (PI / 2) < r_loc res < PI / 2 /\
    match r_out res with
    | OReflected th => th = acos (vz (r_dir res)) /\ turned_back (vz d0) (r_dir res)
    | OTransmitted th => th = acos (vz (r_dir res)) /\ went_on (vz d0) (r_dir res) /\ (n0 < r_nint res)%nat
    | OAbsorbed A => absorbs (e_dec E) (r_loc res) (e_rnd E (r_nint res - 1)) A /\ (n0 < r_nint res)%nat
    end.

Lemma polar_unit d : unit d -> polar d = acos (vz d).
Proof. intros H. unfold polar. rewrite norm_unit by exact H. f_equal. field. Qed.

Lemma sgn_same x y : x <> 0 -> Z.eqb (sgn x) (sgn y) = true -> 0 < x * y.
Proof.
  intros Hx. unfold sgn. destruct (Rltb x 0) eqn:A; destruct (Rltb y 0) eqn:B;
    repeat match goal with H : Rltb _ _ = true |- _ => apply Rltb_true in H
                         | H : Rltb _ _ = false |- _ => apply Rltb_false in H end.
  - intros _. nra.
  - destruct (Rltb 0 y); discriminate.
  - destruct (Rltb 0 x); discriminate.
  - destruct (Rltb 0 x) eqn:C; destruct (Rltb 0 y) eqn:D; try discriminate;
    repeat match goal with H : Rltb _ _ = true |- _ => apply Rltb_true in H
                         | H : Rltb _ _ = false |- _ => apply Rltb_false in H end; intros _; nra.
Qed.

Lemma sgn_diff x y : Z.eqb (sgn x) (sgn y) = false -> x * y <= 0.
Proof.
  unfold sgn. destruct (Rltb x 0) eqn:A; destruct (Rltb y 0) eqn:B; try discriminate;
    destruct (Rltb 0 x) eqn:C; destruct (Rltb 0 y) eqn:D; try discriminate;
    repeat match goal with H : Rltb _ _ = true |- _ => apply Rltb_true in H
                         | H : Rltb _ _ = false |- _ => apply Rltb_false in H end; intros _; nra.
Qed.

Lemma flip_unit d : unit d -> unit (mkv (vx d) (vy d) (- vz d)).
Proof. unfold unit, dot; cbn [vx vy vz]. intros <-. ring. Qed.

Lemma istep_inv E d0 side0 n0 st : real_decision (e_dec E) -> vz d0 <> 0 -> iinv d0 side0 n0 st ->
  match istep E (vz d0) st with
  | inl st' => iinv d0 side0 n0 st'
  | inr o => contract E d0 n0 o
  end.
Proof.
  intros Hr Hz (Hu & Hs & Hn & Hc). pose proof PI_RGT_0 as HPI. unfold istep.
  destruct (check_pos (i_r st) (i_d st) (e_surf E (i_ref st))) as [h|] eqn:Eh.
  - destruct (hit_N_unit _ _ _ _ _ Hu Hs Eh) as [HN Hth].
    pose proof (decision_keeps (e_dec E) (i_side st) (h_theta h) (i_d st)
                  (vscale (IZR (i_side st)) (h_N h)) (e_rnd E (i_nint st)) Hr Hu HN Hs) as Hd.
    destruct (e_dec E (i_side st) (h_theta h) (i_d st) _ _) as [[d' s'] [A|]].
    + destruct Hd as (H1 & H2 & H3). eexists. split; [reflexivity|].
      cbn [r_dir r_side r_nint r_out r_loc].
      split; [exact H1|]. split; [exact H2|]. split; [lia|]. split; [exact Hth|].
      rewrite Nat.sub_1_r, Nat.pred_succ. split; [apply H3; reflexivity|lia].
    + destruct Hd as (H1 & H2 & _). unfold iinv. cbn [i_d i_side i_nint i_i1 i_theta].
      split; [exact H1|]. split; [exact H2|]. split; [lia|]. right.
      split; [lia|]. split; [lia|]. exists (h_theta h). split; [reflexivity|exact Hth].
  - destruct (i_checked st) eqn:Ec; cbn [negb].
    + destruct Hc as [(_ & _ & _ & Hf & _)|(H1 & H2 & th & Hth & Hb)]; [congruence|].
      destruct (still_inside _ _ _ _).
      * unfold iinv. cbn [i_d i_side i_nint i_i1 i_theta].
        split; [exact Hu|]. split; [exact Hs|]. split; [exact Hn|]. right.
        split; [lia|]. split; [exact H2|]. exists th. split; [exact Hth|exact Hb].
      * rewrite Hth. eexists. split; [reflexivity|]. cbn [r_dir r_side r_nint r_out r_loc].
        split; [exact Hu|]. split; [exact Hs|]. split; [exact Hn|]. split; [exact Hb|].
        destruct (Z.eqb _ _) eqn:Es.
        { rewrite polar_unit by exact Hu. split; [reflexivity|].
          split; [apply sgn_same; assumption|exact H2]. }
        { rewrite polar_unit by exact Hu. split; [reflexivity|]. apply sgn_diff, Es. }
    + destruct (Nat.ltb 1 (S (i_i1 st))) eqn:E1.
      * apply Nat.ltb_lt in E1. destruct Hc as [(Hi & _)|(H1 & H2 & th & Hth & Hb)]; [lia|].
        unfold iinv. cbn [i_d i_side i_nint i_i1 i_theta].
        split; [exact Hu|]. split; [exact Hs|]. split; [exact Hn|]. right.
        split; [lia|]. split; [exact H2|]. exists th. split; [exact Hth|exact Hb].
      * apply Nat.ltb_ge in E1.
        destruct Hc as [(Hi & Hd & Hsd & _ & Href & Hni)|(H1 & _)]; [|lia].
        destruct (Nat.ltb (i_misses st) 100).
        { destruct (e_xy E (i_misses st)) as [x y]. unfold iinv.
          cbn [i_d i_side i_nint i_i1 i_theta i_checked i_ref].
          split; [exact Hu|]. split; [exact Hs|]. split; [exact Hn|]. left.
          repeat split; assumption. }
        { eexists. split; [reflexivity|]. cbn [r_dir r_side r_nint r_out r_loc].
          split; [apply flip_unit, Hu|]. split; [exact Hs|]. split; [exact Hn|]. split; [lra|].
          rewrite polar_unit by (apply flip_unit, Hu). split; [reflexivity|].
          unfold turned_back. cbn [vz]. rewrite Hd. nra. }
Qed.

Lemma irun_contract E d0 side0 n0 fuel : real_decision (e_dec E) -> vz d0 <> 0 ->
  forall st o, iinv d0 side0 n0 st -> irun fuel E (vz d0) st = Some o -> contract E d0 n0 o.
Proof.
  intros Hr Hz. induction fuel as [|n IH]; intros st o Hi H; [discriminate|].
  cbn [irun] in H. pose proof (istep_inv E d0 side0 n0 st Hr Hz Hi) as Hs.
  destruct (istep E (vz d0) st) as [st'|o'].
  - exact (IH st' o Hs H).
  - injection H as <-. exact Hs.
Qed.

Lemma istart_inv r d side n : unit d -> pm1 side -> iinv d side n (istart r d side n).
Proof.
  intros Hu Hs. unfold iinv, istart. cbn [i_d i_side i_nint i_i1 i_theta i_checked i_ref].
  split; [exact Hu|]. split; [exact Hs|]. split; [lia|]. left. repeat split.
Qed.

Lemma interface_contract E r d side n fuel o :
  real_decision (e_dec E) -> unit d -> vz d <> 0 -> pm1 side ->
  single_interface_check fuel E r d side n = Some o -> contract E d n o.
Proof.
  intros Hr Hu Hz Hs H. unfold single_interface_check in H.
  exact (irun_contract E d side n fuel Hr Hz _ _ (istart_inv r d side n Hu Hs) H).
Qed.

(* ---------- consecutive misses at the start ---------- *)

Definition imiss (E : env) (r : option vec) (d : vec) (side : Z) (n k : nat) : istate :=
  {| i_r := start_pos E r d k; i_d := d; i_side := side; i_checked := false; i_misses := k;
     i_i1 := 0; i_theta := None; i_nint := n; i_ref := 0 |}.

Definition given_up (E : env) (r : option vec) (d : vec) (side : Z) (n : nat) : iresult :=
  {| r_out := OReflected (polar (mkv (vx d) (vy d) (- vz d)));
     r_pos := start_pos E r d 100; r_dir := mkv (vx d) (vy d) (- vz d);
     r_loc := 0; r_nint := n; r_side := side |}.

Lemma imiss_step E r d side n k d0z : (k <= 100)%nat ->
  check_pos (start_pos E r d k) d (e_surf E 0) = None ->
  istep E d0z (imiss E r d side n k) =
  if Nat.ltb k 100 then inl (imiss E r d side n (S k)) else inr (Ok (given_up E r d side n)).
Proof.
  intros Hk Hm. unfold istep, imiss. cbn [i_r i_d i_side i_checked i_misses i_i1 i_theta i_nint i_ref].
  rewrite Hm. cbn [negb]. change (Nat.ltb 1 1) with false. cbn iota.
  destruct (Nat.ltb k 100) eqn:E1.
  - cbn [start_pos]. destruct (e_xy E k) as [x y]. cbn [fst snd].
    destruct (Rltb (vz d) 0); reflexivity.
  - apply Nat.ltb_ge in E1. assert (k = 100%nat) by lia. subst k. reflexivity.
Qed.

Lemma imiss_run E r d side n d0z m : forall k, (k + m = 100)%nat ->
  (forall j, (k <= j <= 100)%nat -> check_pos (start_pos E r d j) d (e_surf E 0) = None) ->
  irun (S m) E d0z (imiss E r d side n k) = Some (Ok (given_up E r d side n)).
Proof.
  induction m as [|m IH]; intros k Hk Hm.
  - cbn [irun]. rewrite imiss_step; [|lia|apply Hm; lia].
    assert (k = 100%nat) by lia. subst k. reflexivity.
  - change (irun (S (S m)) E d0z (imiss E r d side n k)) with
      (match istep E d0z (imiss E r d side n k) with
       | inl st' => irun (S m) E d0z st' | inr o => Some o end).
    rewrite imiss_step; [|lia|apply Hm; lia].
    replace (Nat.ltb k 100) with true by (symmetry; apply Nat.ltb_lt; lia).
    apply IH; [lia|]. intros j Hj. apply Hm. lia.
Qed.

Lemma gives_up E r d side n :
  (forall k, (k <= 100)%nat -> check_pos (start_pos E r d k) d (e_surf E 0) = None) ->
  forall fuel, (101 <= fuel)%nat ->
  single_interface_check fuel E r d side n = Some (Ok (given_up E r d side n)).
Proof.
  intros Hm fuel Hf. unfold single_interface_check.
  change (istart r d side n) with (imiss E r d side n 0).
  assert (Hmono : forall f st o, irun 101 E (vz d) st = Some o -> irun (101 + f) E (vz d) st = Some o).
  { generalize 101%nat. induction n0 as [|m IH]; intros f st o H; [discriminate|].
    cbn [irun plus] in *. destruct (istep E (vz d) st); [apply IH, H|exact H]. }
  replace fuel with (101 + (fuel - 101))%nat by lia. apply Hmono.
  apply imiss_run; [lia|]. intros j Hj. apply Hm. lia.
Qed.
