(* General lemmas about the vocabulary of Base.v *)
From Coq Require Import Reals List ZArith Bool Lia Lra Psatz.
From Verif Require Import Base.
Import ListNotations.
Open Scope R_scope.

(* ---------- boolean comparisons ---------- *)

Lemma Rltb_true x y : Rltb x y = true <-> x < y.
Proof. unfold Rltb; destruct (Rlt_dec x y); split; intros; try discriminate; auto; contradiction. Qed.
Lemma Rltb_false x y : Rltb x y = false <-> y <= x.
Proof. unfold Rltb; destruct (Rlt_dec x y); split; intros; try discriminate; auto; lra. Qed.
Lemma Rleb_true x y : Rleb x y = true <-> x <= y.
Proof. unfold Rleb; destruct (Rle_dec x y); split; intros; try discriminate; auto; contradiction. Qed.
Lemma Rleb_false x y : Rleb x y = false <-> y < x.
Proof. unfold Rleb; destruct (Rle_dec x y); split; intros; try discriminate; auto; lra. Qed.
Lemma Reqb_true x y : Reqb x y = true <-> x = y.
Proof. unfold Reqb; destruct (Req_EM_T x y); split; intros; try discriminate; auto; contradiction. Qed.
Lemma Reqb_false x y : Reqb x y = false <-> x <> y.
Proof. unfold Reqb; destruct (Req_EM_T x y); split; intros; try discriminate; auto; contradiction. Qed.
Lemma Reqb_refl x : Reqb x x = true.
Proof. now apply Reqb_true. Qed.

(* decide every boolean real comparison in the goal, closing absurd branches *)
Ltac rcase :=
  match goal with
  | |- context [Rltb ?a ?b] =>
      let H := fresh "Hc" in
      destruct (Rltb a b) eqn:H; [apply Rltb_true in H | apply Rltb_false in H]
  | |- context [Rleb ?a ?b] =>
      let H := fresh "Hc" in
      destruct (Rleb a b) eqn:H; [apply Rleb_true in H | apply Rleb_false in H]
  | |- context [Reqb ?a ?b] =>
      let H := fresh "Hc" in
      destruct (Reqb a b) eqn:H; [apply Reqb_true in H | apply Reqb_false in H]
  end.
Ltac rcases := repeat (rcase; try (exfalso; lra)).

(* ---------- floor, ceiling, modulo ---------- *)

Lemma Zfloor_bounds x : IZR (Zfloor x) <= x < IZR (Zfloor x) + 1.
Proof. unfold Zfloor. destruct (base_Int_part x) as [H1 H2]. split; lra. Qed.

Lemma Zfloor_unique x z : IZR z <= x < IZR z + 1 -> Zfloor x = z.
Proof.
  intros [H1 H2]. unfold Zfloor, Int_part.
  rewrite <- (up_tech x z); [lia|lra|rewrite plus_IZR; lra].
Qed.

Lemma Zfloor_add_Z x z : Zfloor (x + IZR z) = (Zfloor x + z)%Z.
Proof.
  apply Zfloor_unique. rewrite plus_IZR.
  destruct (Zfloor_bounds x). lra.
Qed.

Lemma Zfloor_IZR z : Zfloor (IZR z) = z.
Proof. apply Zfloor_unique. lra. Qed.

Lemma Zceil_bounds x : IZR (Zceil x) - 1 < x <= IZR (Zceil x).
Proof.
  unfold Zceil. rewrite opp_IZR. destruct (base_Int_part (- x)) as [H1 H2]. lra.
Qed.

Lemma Zceil_unique x z : IZR z - 1 < x <= IZR z -> Zceil x = z.
Proof.
  intros [H1 H2]. unfold Zceil.
  rewrite <- (Z.opp_involutive z). f_equal.
  apply Zfloor_unique. rewrite opp_IZR. lra.
Qed.

Lemma Zceil_pos x : 0 < x -> (1 <= Zceil x)%Z.
Proof.
  intros Hx. destruct (Zceil_bounds x) as [_ H].
  assert (0 < Zceil x)%Z by (apply lt_IZR; lra). lia.
Qed.

Lemma pymod_range x y : 0 < y -> 0 <= pymod x y < y.
Proof.
  intros Hy. unfold pymod. destruct (Zfloor_bounds (x / y)) as [H1 H2].
  assert (Hx : x = y * (x / y)) by (field; lra).
  set (q := IZR (Zfloor (x / y))) in *. set (d := x / y) in *.
  rewrite Hx. split; nra.
Qed.

Lemma pymod_congr x y : exists k : Z, pymod x y = x + IZR k * y.
Proof.
  exists (- Zfloor (x / y))%Z. unfold pymod. rewrite opp_IZR. ring.
Qed.

Lemma pymod_unique x y r (k : Z) : 0 < y -> 0 <= r < y -> x = r + IZR k * y -> pymod x y = r.
Proof.
  intros Hy [Hr1 Hr2] ->. unfold pymod.
  assert (Hk : Zfloor ((r + IZR k * y) / y) = k).
  { apply Zfloor_unique. replace ((r + IZR k * y) / y) with (r / y + IZR k) by (field; lra).
    assert (0 <= r / y) by (apply Rmult_le_pos; [lra | left; apply Rinv_0_lt_compat; lra]).
    assert (r / y < 1). { apply Rmult_lt_reg_r with y; [lra|]. unfold Rdiv. rewrite Rmult_assoc, Rinv_l; lra. }
    lra. }
  rewrite Hk. ring.
Qed.

Lemma pymod_add_multiple x y (k : Z) : 0 < y -> pymod (x + IZR k * y) y = pymod x y.
Proof.
  intros Hy. destruct (pymod_congr x y) as [j Hj].
  apply pymod_unique with (k := (k - j)%Z); auto.
  - apply pymod_range; auto.
  - rewrite Hj. rewrite minus_IZR. ring.
Qed.

Lemma pymod_small x y : 0 <= x < y -> pymod x y = x.
Proof. intros H. apply pymod_unique with (k := 0%Z); lra. Qed.

(* ---------- rsum ---------- *)

Lemma rsum_app l m : rsum (l ++ m) = rsum l + rsum m.
Proof. induction l; simpl; lra. Qed.

Lemma rsum_nonneg l : (forall x, In x l -> 0 <= x) -> 0 <= rsum l.
Proof.
  induction l; simpl; intros H; [lra|].
  assert (0 <= a) by (apply H; auto). assert (0 <= rsum l) by (apply IHl; intros; apply H; auto). lra.
Qed.

Lemma rsum_pos l : l <> [] -> (forall x, In x l -> 0 < x) -> 0 < rsum l.
Proof.
  destruct l as [|a l]; [congruence|]. intros _ H. simpl.
  assert (0 < a) by (apply H; simpl; auto).
  assert (0 <= rsum l) by (apply rsum_nonneg; intros; left; apply H; simpl; auto). lra.
Qed.

Lemma rsum_repeat x n : rsum (repeat x n) = INR n * x.
Proof.
  induction n.
  - simpl; lra.
  - rewrite S_INR. simpl repeat. simpl rsum. rewrite IHn. lra.
Qed.

Lemma rsum_map_mult c l : rsum (map (fun x => c * x) l) = c * rsum l.
Proof. induction l; simpl; [lra|]. rewrite IHl. lra. Qed.

Lemma rsum_map_div c l : rsum (map (fun x => x / c) l) = rsum l / c.
Proof. induction l; simpl; [unfold Rdiv; lra|]. rewrite IHl. unfold Rdiv. lra. Qed.

Lemma rsum_map_ext {A} (f g : A -> R) l :
  (forall x, In x l -> f x = g x) -> rsum (map f l) = rsum (map g l).
Proof.
  induction l; simpl; intros H; auto.
  rewrite H by auto. rewrite IHl; auto.
Qed.

Lemma rsum_map_plus {A} (f g : A -> R) l :
  rsum (map (fun x => f x + g x) l) = rsum (map f l) + rsum (map g l).
Proof. induction l; simpl; lra. Qed.

Lemma rsum_map_minus {A} (f g : A -> R) l :
  rsum (map (fun x => f x - g x) l) = rsum (map f l) - rsum (map g l).
Proof. induction l; simpl; lra. Qed.

Lemma rsum_map_scal {A} c (f : A -> R) l :
  rsum (map (fun x => c * f x) l) = c * rsum (map f l).
Proof. induction l; simpl; lra. Qed.

Lemma rsum_map_0 {A} (f : A -> R) l : (forall x, In x l -> f x = 0) -> rsum (map f l) = 0.
Proof. induction l; simpl; intros H; auto. rewrite H, IHl; auto. lra. Qed.

Lemma rsum_map_le {A} (f g : A -> R) l :
  (forall x, In x l -> f x <= g x) -> rsum (map f l) <= rsum (map g l).
Proof.
  induction l; simpl; intros H; [lra|].
  assert (f a <= g a) by auto. assert (rsum (map f l) <= rsum (map g l)) by (apply IHl; auto). lra.
Qed.

Lemma rsum_map_const {A} c (l : list A) : rsum (map (fun _ => c) l) = INR (length l) * c.
Proof. induction l; simpl length; [simpl; lra|]. rewrite S_INR. simpl. lra. Qed.

Lemma rsum_swap {A B} (f : A -> B -> R) (l : list A) (m : list B) :
  rsum (map (fun a => rsum (map (fun b => f a b) m)) l) =
  rsum (map (fun b => rsum (map (fun a => f a b) l)) m).
Proof.
  induction l; simpl.
  - symmetry. apply rsum_map_0. auto.
  - rewrite IHl, <- rsum_map_plus. auto.
Qed.

Lemma rsum_flat_map {A} (f : A -> list R) l :
  rsum (flat_map f l) = rsum (map (fun x => rsum (f x)) l).
Proof. induction l; simpl; auto. rewrite rsum_app, IHl. auto. Qed.

Lemma rsum_rev l : rsum (rev l) = rsum l.
Proof. induction l; simpl; auto. rewrite rsum_app, IHl. simpl. lra. Qed.

(* sum with a single non-zero position *)
Lemma rsum_map_single (f : nat -> R) n i :
  (i < n)%nat -> (forall j, (j < n)%nat -> j <> i -> f j = 0) ->
  rsum (map f (seq 0 n)) = f i.
Proof.
  revert f i. induction n; intros f i Hi Hz; [lia|].
  rewrite seq_S, map_app, rsum_app. simpl.
  destruct (Nat.eq_dec i n) as [->|Hne].
  - rewrite rsum_map_0; [lra|]. intros x Hx. apply in_seq in Hx. apply Hz; lia.
  - rewrite (IHn f i); [|lia|intros; apply Hz; lia]. rewrite (Hz n); lia || lra.
Qed.

(* ---------- map2, nth ---------- *)

Lemma map2_length {A B C} (f : A -> B -> C) l m :
  length (map2 f l m) = Nat.min (length l) (length m).
Proof. revert m; induction l; intros [|b m]; simpl; auto. Qed.

Lemma map2_nth {A B C} (f : A -> B -> C) l m i da db dc :
  (i < length l)%nat -> (i < length m)%nat ->
  nth i (map2 f l m) dc = f (nth i l da) (nth i m db).
Proof.
  revert m i; induction l; intros [|b m] i; simpl; intros H1 H2; try lia.
  destruct i; auto. apply IHl; lia.
Qed.

Lemma nth_map_lt {A B} (f : A -> B) l i da db :
  (i < length l)%nat -> nth i (map f l) db = f (nth i l da).
Proof. revert i; induction l; intros i; simpl; intros H; [lia|]. destruct i; auto. apply IHl; lia. Qed.

Lemma nth_seq0 n i d : (i < n)%nat -> nth i (seq 0 n) d = i.
Proof. intros. rewrite seq_nth; lia. Qed.

Lemma removelast_length {A} (l : list A) : length (removelast l) = (length l - 1)%nat.
Proof. rewrite removelast_firstn_len, firstn_length. lia. Qed.

Lemma nth_removelast {A} (l : list A) i d :
  (i < length l - 1)%nat -> nth i (removelast l) d = nth i l d.
Proof.
  revert i; induction l as [|a l IH]; intros i H; simpl in H; [lia|].
  destruct l as [|b l]; [simpl in H; lia|].
  change (removelast (a :: b :: l)) with (a :: removelast (b :: l)).
  destruct i; auto. change (nth i (removelast (b :: l)) d = nth i (b :: l) d).
  apply IH. simpl in *. lia.
Qed.

Lemma nth_tl {A} (l : list A) i d : nth i (tl l) d = nth (S i) l d.
Proof. destruct l; simpl; auto. destruct i; auto. Qed.

Lemma tl_length {A} (l : list A) : length (tl l) = (length l - 1)%nat.
Proof. destruct l; simpl; lia. Qed.

Lemma middles_length e : length (middles e) = (length e - 1)%nat.
Proof. unfold middles. rewrite map2_length, removelast_length, tl_length. lia. Qed.

Lemma middles_nth e i d : (i < length e - 1)%nat ->
  nth i (middles e) d = (nth i e 0 + nth (S i) e 0) / 2.
Proof.
  intros H. unfold middles.
  rewrite map2_nth with (da := 0) (db := 0); rewrite ?removelast_length, ?tl_length; try lia.
  rewrite nth_removelast, nth_tl by lia. auto.
Qed.

Lemma linspace_length a b n : length (linspace a b n) = n.
Proof. unfold linspace. rewrite map_length, seq_length. auto. Qed.

Lemma linspace_nth a b n i d : (i < n)%nat ->
  nth i (linspace a b n) d = a + INR i * ((b - a) / INR (n - 1)).
Proof.
  intros H. unfold linspace. rewrite nth_map_lt with (da := 0%nat) by (rewrite seq_length; auto).
  rewrite nth_seq0; auto.
Qed.

Lemma enumerate_length {A} (l : list A) : length (enumerate l) = length l.
Proof. unfold enumerate. rewrite combine_length, seq_length. lia. Qed.

Lemma nth_enumerate {A} (l : list A) i d : (i < length l)%nat ->
  nth i (enumerate l) d = (i, nth i l (snd d)).
Proof.
  intros H. unfold enumerate. destruct d as [d1 d2].
  rewrite combine_nth by (rewrite seq_length; auto). rewrite nth_seq0; auto.
Qed.

(* ---------- lists as tabulated functions ---------- *)

Lemma map_nth_seq {A} (l : list A) d : map (fun i => nth i l d) (seq 0 (length l)) = l.
Proof.
  induction l; simpl; auto. f_equal. rewrite <- seq_shift, map_map. auto.
Qed.

Lemma list_ext {A} (l m : list A) d :
  length l = length m -> (forall i, (i < length l)%nat -> nth i l d = nth i m d) -> l = m.
Proof. intros. apply nth_ext with (d := d) (d' := d); auto. Qed.

Lemma nth_repeat_any {A} (x d : A) n i : (i < n)%nat -> nth i (repeat x n) d = x.
Proof. revert i; induction n; intros [|i] H; simpl; try lia; auto. apply IHn; lia. Qed.

(* ---------- python indexing ---------- *)

Lemma py_index_ok {A} (l : list A) i d : (0 <= i < Z.of_nat (length l))%Z ->
  py_index l i = Ok (nth (Z.to_nat i) l d).
Proof.
  intros H. unfold py_index.
  destruct (i <? 0)%Z eqn:E; [apply Z.ltb_lt in E; lia|].
  rewrite E. rewrite nth_error_nth' with (d := d) by lia. auto.
Qed.

Lemma py_pos_ok n i : (0 <= i < Z.of_nat n)%Z -> py_pos n i = Ok (Z.to_nat i).
Proof.
  intros H. unfold py_pos.
  destruct (i <? 0)%Z eqn:E; [apply Z.ltb_lt in E; lia|]. rewrite E.
  destruct (Z.of_nat n <=? i)%Z eqn:E2; [apply Z.leb_le in E2; lia|]. auto.
Qed.

(* ---------- digitize on strictly increasing edges ---------- *)

Definition increasing (l : list R) : Prop :=
  forall i j, (i < j < length l)%nat -> nth i l 0 < nth j l 0.

Lemma increasing_cons a l : increasing (a :: l) ->
  increasing l /\ forall x, In x l -> a < x.
Proof.
  intros H. split.
  - intros i j Hij. apply (H (S i) (S j)). simpl. lia.
  - intros x Hx. apply In_nth with (d := 0) in Hx. destruct Hx as [k [Hk <-]].
    apply (H 0%nat (S k)). simpl. lia.
Qed.

Lemma digitize_right_below x l : (forall y, In y l -> x <= y) -> digitize_right x l = 0%nat.
Proof.
  unfold digitize_right. induction l; simpl; intros H; auto.
  rcases; [exfalso; assert (x <= a) by auto; lra|]. apply IHl; auto.
Qed.

Lemma digitize_right_spec l x i : increasing l -> (S i < length l)%nat ->
  nth i l 0 < x <= nth (S i) l 0 -> digitize_right x l = S i.
Proof.
  revert i. induction l as [|a l IH]; intros i Hinc Hlen Hx; simpl in Hlen; [lia|].
  destruct (increasing_cons _ _ Hinc) as [Hl Ha].
  unfold digitize_right. simpl.
  assert (Hax : a < x).
  { destruct i; simpl in Hx; [lra|].
    assert (a < nth i l 0) by (apply Ha; apply nth_In; lia). lra. }
  destruct (Rltb a x) eqn:E; [|apply Rltb_false in E; lra]. simpl. f_equal.
  destruct i.
  - apply digitize_right_below. intros y Hy. simpl in Hx.
    apply In_nth with (d := 0) in Hy. destruct Hy as [k [Hk <-]].
    destruct k; [lra|]. assert (nth 0 l 0 < nth (S k) l 0) by (apply Hl; lia). lra.
  - apply IH; auto; lia.
Qed.

Lemma digitize_left_spec l x i : increasing l -> (S i < length l)%nat ->
  nth i l 0 <= x < nth (S i) l 0 -> digitize_left x l = S i.
Proof.
  revert i. induction l as [|a l IH]; intros i Hinc Hlen Hx; simpl in Hlen; [lia|].
  destruct (increasing_cons _ _ Hinc) as [Hl Ha].
  unfold digitize_left. simpl.
  assert (Hax : a <= x).
  { destruct i; simpl in Hx; [lra|].
    assert (a < nth i l 0) by (apply Ha; apply nth_In; lia). lra. }
  destruct (Rleb a x) eqn:E; [|apply Rleb_false in E; lra]. simpl. f_equal.
  destruct i.
  - enough (filter (fun b => Rleb b x) l = []) as -> by auto.
    assert (Hall : forall y, In y l -> x < y).
    { intros y Hy. simpl in Hx.
      apply In_nth with (d := 0) in Hy. destruct Hy as [k [Hk <-]].
      destruct k; [lra|]. assert (nth 0 l 0 < nth (S k) l 0) by (apply Hl; lia). lra. }
    clear - Hall. induction l as [|b l IHl]; simpl; auto.
    destruct (Rleb b x) eqn:E; [apply Rleb_true in E; assert (x < b) by (apply Hall; simpl; auto); lra|].
    apply IHl. intros; apply Hall; simpl; auto.
  - apply IH; auto; lia.
Qed.

(* a value between the first and the last edge is between two consecutive edges *)
Lemma find_interval_right l x : increasing l -> (2 <= length l)%nat ->
  nth 0 l 0 < x <= nth (length l - 1) l 0 ->
  exists i, (S i < length l)%nat /\ nth i l 0 < x <= nth (S i) l 0.
Proof.
  induction l as [|a l IH]; intros Hinc Hlen Hx; [simpl in Hlen; lia|].
  destruct l as [|b l]; [simpl in Hlen; lia|].
  destruct (Rle_dec x b) as [Hxb|Hxb].
  - exists 0%nat. simpl in *. split; [lia|lra].
  - destruct l as [|c l].
    + simpl in Hx. lra.
    + destruct (IH) as [i [Hi1 Hi2]].
      * destruct (increasing_cons _ _ Hinc); auto.
      * simpl; lia.
      * simpl in *. lra.
      * exists (S i). simpl in *. split; [lia|auto].
Qed.

Lemma find_interval_left l x : increasing l -> (2 <= length l)%nat ->
  nth 0 l 0 <= x < nth (length l - 1) l 0 ->
  exists i, (S i < length l)%nat /\ nth i l 0 <= x < nth (S i) l 0.
Proof.
  induction l as [|a l IH]; intros Hinc Hlen Hx; [simpl in Hlen; lia|].
  destruct l as [|b l]; [simpl in Hlen; lia|].
  destruct (Rlt_dec x b) as [Hxb|Hxb].
  - exists 0%nat. simpl in *. split; [lia|lra].
  - destruct l as [|c l].
    + simpl in Hx. lra.
    + destruct (IH) as [i [Hi1 Hi2]].
      * destruct (increasing_cons _ _ Hinc); auto.
      * simpl; lia.
      * simpl in *. lra.
      * exists (S i). simpl in *. split; [lia|auto].
Qed.

Lemma increasing_step l :
  (forall i, (S i < length l)%nat -> nth i l 0 < nth (S i) l 0) -> increasing l.
Proof.
  intros H i j Hij. destruct Hij as [Hij Hj].
  induction j; [lia|].
  destruct (Nat.eq_dec i j) as [->|Hne].
  - apply H; auto.
  - apply Rlt_trans with (nth j l 0); [apply IHj; lia|apply H; auto].
Qed.

Lemma increasing_inj_interval l x i j : increasing l -> (S i < length l)%nat -> (S j < length l)%nat ->
  nth i l 0 < x <= nth (S i) l 0 -> nth j l 0 < x <= nth (S j) l 0 -> i = j.
Proof.
  intros Hinc Hi Hj Hxi Hxj.
  destruct (Nat.lt_trichotomy i j) as [H|[H|H]]; auto; exfalso.
  - assert (nth (S i) l 0 <= nth j l 0).
    { destruct (Nat.eq_dec (S i) j) as [->|]; [lra|left; apply Hinc; lia]. } lra.
  - assert (nth (S j) l 0 <= nth i l 0).
    { destruct (Nat.eq_dec (S j) i) as [->|]; [lra|left; apply Hinc; lia]. } lra.
Qed.

Lemma increasing_linspace a b n : a < b -> (2 <= n)%nat -> increasing (linspace a b n).
Proof.
  intros Hab Hn. apply increasing_step. rewrite linspace_length. intros i Hi.
  rewrite !linspace_nth by lia. rewrite S_INR.
  assert (0 < INR (n - 1)) by (apply lt_0_INR; lia).
  assert (0 < (b - a) / INR (n - 1)) by (apply Rdiv_lt_0_compat; lra). lra.
Qed.

Lemma linspace_first a b n d : (1 <= n)%nat -> nth 0 (linspace a b n) d = a.
Proof. intros. rewrite linspace_nth by lia. simpl. lra. Qed.

Lemma linspace_last a b n d : (2 <= n)%nat -> nth (n - 1) (linspace a b n) d = b.
Proof.
  intros. rewrite linspace_nth by lia.
  assert (0 < INR (n - 1)) by (apply lt_0_INR; lia). field. lra.
Qed.

(* ---------- argmin over Z distances ---------- *)

Lemma argmin_go_min {A} (ltb : A -> A -> bool) l : forall bi b i,
  (forall x, In x l -> ltb x b = false) -> argmin_go ltb bi b i l = bi.
Proof.
  induction l; intros bi b i H; simpl; auto.
  rewrite H by (simpl; auto). apply IHl. intros; apply H; simpl; auto.
Qed.

Lemma argminZ_go_first l : forall p bi b i,
  (forall x, In x l -> (0 <= x)%Z) -> (0 < b)%Z -> (p < length l)%nat -> nth p l 0%Z = 0%Z ->
  (forall q, (q < p)%nat -> (0 < nth q l 0)%Z) ->
  argmin_go Z.ltb bi b i l = (i + p)%nat.
Proof.
  induction l as [|a l IH]; intros p bi b i Hpos Hb Hp Hz Hbefore; simpl in Hp; [lia|].
  destruct p; simpl in Hz.
  - subst a. simpl. destruct (0 <? b)%Z eqn:E; [|apply Z.ltb_ge in E; lia].
    rewrite argmin_go_min; [lia|]. intros x Hx. apply Z.ltb_ge. apply Hpos. simpl; auto.
  - assert (0 < a)%Z by (apply (Hbefore 0%nat); lia). simpl.
    destruct (a <? b)%Z.
    + rewrite (IH p); try lia; auto.
      * intros; apply Hpos; simpl; auto.
      * intros q Hq. apply (Hbefore (S q)). lia.
    + rewrite (IH p); try lia; auto.
      * intros; apply Hpos; simpl; auto.
      * intros q Hq. apply (Hbefore (S q)). lia.
Qed.

Lemma argminZ_first l p :
  (forall x, In x l -> (0 <= x)%Z) -> (p < length l)%nat -> nth p l 0%Z = 0%Z ->
  (forall q, (q < p)%nat -> (0 < nth q l 0)%Z) ->
  argmin Z.ltb l = Ok p.
Proof.
  destruct l as [|a l]; intros Hpos Hp Hz Hbefore; simpl in Hp; [lia|]. simpl. f_equal.
  destruct p.
  - simpl in Hz. subst a. rewrite argmin_go_min; auto.
    intros x Hx. apply Z.ltb_ge. apply Hpos. simpl; auto.
  - assert (0 < a)%Z by (apply (Hbefore 0%nat); lia).
    rewrite (argminZ_go_first l p); auto; try lia.
    + intros; apply Hpos; simpl; auto.
    + intros q Hq. apply (Hbefore (S q)). lia.
Qed.

(* ---------- flat_map and offsets ---------- *)

Fixpoint nsum (l : list nat) : nat := match l with [] => 0%nat | x :: r => (x + nsum r)%nat end.

Lemma nsum_app l m : nsum (l ++ m) = (nsum l + nsum m)%nat.
Proof. induction l; simpl; lia. Qed.

Lemma nsum_rev l : nsum (rev l) = nsum l.
Proof. induction l; simpl; auto. rewrite nsum_app, IHl. simpl. lia. Qed.

Lemma length_flat_map {A B} (f : A -> list B) l :
  length (flat_map f l) = nsum (map (fun x => length (f x)) l).
Proof. induction l; simpl; auto. rewrite app_length, IHl. auto. Qed.

Definition offset {A B} (f : A -> list B) (l : list A) (i : nat) : nat :=
  nsum (map (fun x => length (f x)) (firstn i l)).

Lemma flat_map_nth {A B} (f : A -> list B) l i j da db :
  (i < length l)%nat -> (j < length (f (nth i l da)))%nat ->
  nth (offset f l i + j) (flat_map f l) db = nth j (f (nth i l da)) db.
Proof.
  revert i. induction l as [|a l IH]; intros i Hi Hj; simpl in Hi; [lia|].
  destruct i; simpl in *.
  - unfold offset; simpl. apply app_nth1. auto.
  - unfold offset; simpl.
    rewrite app_nth2 by lia.
    replace (length (f a) + nsum (map (fun x => length (f x)) (firstn i l)) + j - length (f a))%nat
      with (offset f l i + j)%nat by (unfold offset; lia).
    apply IH; auto; lia.
Qed.

Lemma flat_map_decompose {A B} (f : A -> list B) l k da :
  (k < length (flat_map f l))%nat ->
  exists i j, (i < length l)%nat /\ (j < length (f (nth i l da)))%nat /\ k = (offset f l i + j)%nat.
Proof.
  revert k. induction l as [|a l IH]; intros k Hk; simpl in Hk; [lia|].
  rewrite app_length in Hk.
  destruct (Nat.lt_ge_cases k (length (f a))) as [H|H].
  - exists 0%nat, k. simpl. unfold offset. simpl. repeat split; auto; lia.
  - destruct (IH (k - length (f a))%nat) as [i [j [H1 [H2 H3]]]]; [lia|].
    exists (S i), j. simpl. repeat split; auto; [lia|]. unfold offset in *. simpl. lia.
Qed.

Lemma offset_mono {A B} (f : A -> list B) l i i' : (i <= i')%nat -> (offset f l i <= offset f l i')%nat.
Proof.
  intros H. unfold offset. revert i i' H. induction l as [|a l IH]; intros i i' H.
  - rewrite !firstn_nil. simpl. lia.
  - destruct i, i'; simpl; try lia. specialize (IH i i' ltac:(lia)). lia.
Qed.

Lemma offset_S {A B} (f : A -> list B) l i da : (i < length l)%nat ->
  offset f l (S i) = (offset f l i + length (f (nth i l da)))%nat.
Proof.
  unfold offset. revert i. induction l as [|a l IH]; intros i Hi; simpl in Hi; [lia|].
  destruct i; simpl; [lia|]. specialize (IH i ltac:(lia)). simpl in IH. rewrite IH. lia.
Qed.

Lemma offset_inj {A B} (f : A -> list B) l i j i' j' da :
  (i < length l)%nat -> (j < length (f (nth i l da)))%nat ->
  (i' < length l)%nat -> (j' < length (f (nth i' l da)))%nat ->
  (offset f l i + j = offset f l i' + j')%nat -> i = i' /\ j = j'.
Proof.
  intros Hi Hj Hi' Hj' E.
  destruct (Nat.lt_trichotomy i i') as [H|[H|H]].
  - exfalso. pose proof (offset_mono f l (S i) i' ltac:(lia)).
    rewrite offset_S with (da := da) in H0 by auto. lia.
  - subst. split; auto. lia.
  - exfalso. pose proof (offset_mono f l (S i') i ltac:(lia)).
    rewrite offset_S with (da := da) in H0 by auto. lia.
Qed.

Lemma offset_length {A B} (f : A -> list B) l : offset f l (length l) = length (flat_map f l).
Proof. unfold offset. rewrite firstn_all, length_flat_map. auto. Qed.

(* ---------- set_nth ---------- *)

Lemma set_nth_length {A} n (x : A) l : length (set_nth n x l) = length l.
Proof. revert n; induction l; intros [|n]; simpl; auto. Qed.

Lemma set_nth_nth {A} n (x : A) l i d : (n < length l)%nat ->
  nth i (set_nth n x l) d = if Nat.eqb i n then x else nth i l d.
Proof.
  revert n i; induction l; intros n i H; simpl in H; [lia|].
  destruct n, i; simpl; auto. apply IHl; lia.
Qed.

(* ---------- trapz ---------- *)

Lemma trapz_scale c y x : trapz (map (fun v => c * v) y) x = c * trapz y x.
Proof.
  revert x; induction y as [|y0 y IH]; intros x; simpl; [lra|].
  destruct y as [|y1 y]; simpl.
  - destruct x as [|? [|? ?]]; simpl; lra.
  - destruct x as [|x0 x]; [lra|]. destruct x as [|x1 x]; [lra|].
    specialize (IH (x1 :: x)). simpl in IH. rewrite IH. lra.
Qed.
