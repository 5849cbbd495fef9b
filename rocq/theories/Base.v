(* Vocabulary shared by all model files: Python/numpy primitives on exact reals,
   lists and Python integers.  Definitions only. *)
From Coq Require Import Reals List ZArith Bool.
Import ListNotations.
Open Scope R_scope.

(* ---------- results and exceptions ---------- *)

Inductive err :=
| IndexError | KeyError | ValueError | TypeError | AttributeError
| UnboundLocalError | FileNotFoundError | AssertionError | ZeroDivision.

(* A Python computation either returns a value or raises. *)
Inductive res (A : Type) :=
| Ok : A -> res A
| Err : err -> res A.
Arguments Ok {A} _.
Arguments Err {A} _.

Definition rbind {A B} (x : res A) (f : A -> res B) : res B :=
  match x with Ok a => f a | Err e => Err e end.

Fixpoint rmap {A B} (f : A -> res B) (l : list A) : res (list B) :=
  match l with
  | [] => Ok []
  | x :: r => rbind (f x) (fun y => rbind (rmap f r) (fun ys => Ok (y :: ys)))
  end.

(* ---------- comparisons on reals ---------- *)

Definition Rltb (x y : R) : bool := if Rlt_dec x y then true else false.
Definition Rleb (x y : R) : bool := if Rle_dec x y then true else false.
Definition Reqb (x y : R) : bool := if Req_EM_T x y then true else false.

(* ---------- Python floor division and modulo (exact arithmetic) ---------- *)

(* floor *)
Definition Zfloor (x : R) : Z := Int_part x.
(* np.ceil, then int() *)
Definition Zceil (x : R) : Z := (- Int_part (- x))%Z.
(* x // y *)
Definition pyfloordiv (x y : R) : R := IZR (Zfloor (x / y)).
(* x % y *)
Definition pymod (x y : R) : R := x - y * IZR (Zfloor (x / y)).

(* ---------- lists ---------- *)

Fixpoint rsum (l : list R) : R :=
  match l with [] => 0 | x :: r => x + rsum r end.

Fixpoint map2 {A B C} (f : A -> B -> C) (l : list A) (m : list B) : list C :=
  match l, m with
  | x :: l', y :: m' => f x y :: map2 f l' m'
  | _, _ => []
  end.

Definition enumerate {A} (l : list A) : list (nat * A) :=
  combine (seq 0 (length l)) l.

(* l[i] for a Python integer i: negative indices count from the end, IndexError outside *)
Definition py_index {A} (l : list A) (i : Z) : res A :=
  let n := Z.of_nat (length l) in
  let i' := (if i <? 0 then i + n else i)%Z in
  if (i' <? 0)%Z then Err IndexError
  else match nth_error l (Z.to_nat i') with
       | Some x => Ok x
       | None => Err IndexError
       end.

(* position addressed by l[i] (for assignments) *)
Definition py_pos (n : nat) (i : Z) : res nat :=
  let n' := Z.of_nat n in
  let i' := (if i <? 0 then i + n' else i)%Z in
  if (i' <? 0)%Z then Err IndexError
  else if (n' <=? i')%Z then Err IndexError
  else Ok (Z.to_nat i').

Fixpoint set_nth {A} (n : nat) (x : A) (l : list A) : list A :=
  match l, n with
  | [], _ => []
  | _ :: r, O => x :: r
  | y :: r, S m => y :: set_nth m x r
  end.

(* ---------- numpy ---------- *)

(* np.linspace(a, b, num) *)
Definition linspace (a b : R) (num : nat) : list R :=
  map (fun i => a + INR i * ((b - a) / INR (num - 1))) (seq 0 num).

(* np.digitize(x, bins, right=True) for increasing bins: the number of edges < x *)
Definition digitize_right (x : R) (bins : list R) : nat :=
  length (filter (fun b => Rltb b x) bins).

(* np.digitize(x, bins) (right=False) for increasing bins: the number of edges <= x *)
Definition digitize_left (x : R) (bins : list R) : nat :=
  length (filter (fun b => Rleb b x) bins).

(* np.argmin: position of the first minimal element; numpy raises ValueError on an empty array *)
Fixpoint argmin_go {A} (ltb : A -> A -> bool) (besti : nat) (best : A) (i : nat) (l : list A) : nat :=
  match l with
  | [] => besti
  | x :: r => if ltb x best then argmin_go ltb i x (S i) r
              else argmin_go ltb besti best (S i) r
  end.
Definition argmin {A} (ltb : A -> A -> bool) (l : list A) : res nat :=
  match l with
  | [] => Err ValueError
  | x :: r => Ok (argmin_go ltb 0 x 1 r)
  end.

(* np.cumsum *)
Fixpoint cumsum_go (acc : R) (l : list R) : list R :=
  match l with [] => [] | x :: r => (acc + x) :: cumsum_go (acc + x) r end.
Definition cumsum (l : list R) : list R := cumsum_go 0 l.

(* np.trapz(y, x) *)
Fixpoint trapz (y x : list R) : R :=
  match y, x with
  | y0 :: ((y1 :: _) as y'), x0 :: ((x1 :: _) as x') =>
      (x1 - x0) * (y0 + y1) / 2 + trapz y' x'
  | _, _ => 0
  end.

(* middle points of consecutive edges: (e[:-1] + e[1:]) / 2 *)
Definition middles (e : list R) : list R :=
  map2 (fun a b => (a + b) / 2) (removelast e) (tl e).

(* np.arange(0, stop, step) for step > 0: the multiples of step below stop *)
Definition arange0 (stop step : R) : list R :=
  map (fun i => INR i * step) (seq 0 (Z.to_nat (Zceil (stop / step)))).
