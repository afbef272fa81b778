(** Numeric operations used by the model.

    Every function of the model is written once, over an arbitrary type [A]
    with the operations of class [Num].  The class has no laws; theorems are
    proved about the instances [Num_R] (exact reals), [Num_XR] (reals with
    infinities and NaN, IEEE propagation without rounding) and evaluated on
    [Num_Q] (rationals, executable). *)

From Coq Require Import Reals ZArith QArith Qreals Qround Bool List Lia Lra.
Import ListNotations.

Class Num (A : Type) := {
  n0 : A;
  n1 : A;
  nadd : A -> A -> A;
  nsub : A -> A -> A;
  nmul : A -> A -> A;
  ndiv : A -> A -> A;
  nopp : A -> A;
  nabs : A -> A;
  nsqrt : A -> A;
  nleb : A -> A -> bool;
  nltb : A -> A -> bool;
  neqb : A -> A -> bool;
  nlit : Z -> positive -> A;      (* the rational literal z/p *)
  npowr : A -> A -> A;            (* np.power with a fractional exponent, base >= 0 *)
  ntanh : A -> A;
  nfloor : A -> Z                 (* int(np.floor x) *)
}.

Declare Scope num_scope.
Delimit Scope num_scope with num.
Infix "+!" := nadd (at level 50, left associativity) : num_scope.
Infix "-!" := nsub (at level 50, left associativity) : num_scope.
Infix "*!" := nmul (at level 40, left associativity) : num_scope.
Infix "/!" := ndiv (at level 40, left associativity) : num_scope.
Infix "<=?!" := nleb (at level 70, no associativity) : num_scope.
Infix "<?!" := nltb (at level 70, no associativity) : num_scope.
Infix "=?!" := neqb (at level 70, no associativity) : num_scope.

Section Derived.
  Context {A : Type} `{Num A}.
  Open Scope num_scope.

  (** integer literals *)
  Definition nZ (z : Z) : A := nlit z 1.
  Definition nnat (k : nat) : A := nZ (Z.of_nat k).

  (** [np.isnan x]: NaN is the only value that differs from itself *)
  Definition nisnan (x : A) : bool := negb (x =?! x).

  (** [np.square] and integer powers *)
  Definition nsqr (x : A) : A := x *! x.
  Fixpoint npow (x : A) (k : nat) : A :=
    match k with O => n1 | S k' => x *! npow x k' end.

  (** [np.sign] (no NaN handling: [np.sign nan = nan]) *)
  Definition nsign (x : A) : A :=
    if n0 <?! x then n1 else if x <?! n0 then nopp n1 else
    if x =?! n0 then n0 else x.

  Definition nmax (x y : A) : A := if x <?! y then y else x.
  Definition nmin (x y : A) : A := if y <?! x then y else x.
End Derived.

(* ------------------------------------------------------------------ *)
(** * Real numbers *)

Definition Rleb (x y : R) : bool := if Rle_dec x y then true else false.
Definition Rltb (x y : R) : bool := if Rlt_dec x y then true else false.
Definition Reqb (x y : R) : bool := if Req_EM_T x y then true else false.

(** power with real exponent for a non-negative base; 0^0 = 1; for a negative
    base numpy returns NaN, which this instance cannot express (value 0 here,
    never reached under the hypotheses of the theorems). *)
Definition Rpowr (x y : R) : R :=
  if Rlt_dec 0 x then Rpower x y
  else if Req_EM_T y 0 then 1%R else 0%R.

#[export] Instance Num_R : Num R := {
  n0 := 0%R; n1 := 1%R;
  nadd := Rplus; nsub := Rminus; nmul := Rmult; ndiv := Rdiv;
  nopp := Ropp; nabs := Rabs; nsqrt := sqrt;
  nleb := Rleb; nltb := Rltb; neqb := Reqb;
  nlit := fun z p => (IZR z / IZR (Zpos p))%R;
  npowr := Rpowr;
  ntanh := tanh;
  nfloor := Int_part
}.

(* ------------------------------------------------------------------ *)
(** * Rationals (executable) *)

(** exact when [num * den] is a perfect square, truncated otherwise; used in
    computed witnesses only where the argument is a perfect square *)
Definition Qsqrt (q : Q) : Q :=
  let r := Qred q in
  if (Qnum r <? 0)%Z then 0%Q
  else Qred (Z.sqrt (Qnum r * Zpos (Qden r)) # Qden r).

Definition Qpowr (x y : Q) : Q :=
  let y' := Qred y in
  if (Qden y' =? 1)%positive then Qred (Qpower x (Qnum y'))
  else if (Qden y' =? 2)%positive then Qred (Qpower (Qsqrt x) (Qnum y'))
  else 0%Q.

Definition Qltb (x y : Q) : bool := negb (Qle_bool y x).

#[export] Instance Num_Q : Num Q := {
  n0 := 0%Q; n1 := 1%Q;
  nadd := fun x y => Qred (x + y);
  nsub := fun x y => Qred (x - y);
  nmul := fun x y => Qred (x * y);
  ndiv := fun x y => Qred (x / y);
  nopp := fun x => Qred (- x);
  nabs := fun x => Qred (Qabs.Qabs x);
  nsqrt := Qsqrt;
  nleb := Qle_bool; nltb := Qltb; neqb := Qeq_bool;
  nlit := fun z p => Qred (z # p);
  npowr := Qpowr;
  ntanh := fun x => x; (* placeholder: never used in computed witnesses *)
  nfloor := Qfloor
}.

(* ------------------------------------------------------------------ *)
(** * Extended reals: finite | +inf | -inf | NaN *)

Inductive XR : Type := Fin (r : R) | PInf | NInf | NaN.

Definition XRsgninf (r : R) : XR :=
  if Rlt_dec 0 r then PInf else if Rlt_dec r 0 then NInf else NaN.

Definition XRadd (x y : XR) : XR :=
  match x, y with
  | Fin a, Fin b => Fin (a + b)
  | NaN, _ | _, NaN => NaN
  | PInf, NInf | NInf, PInf => NaN
  | PInf, _ | _, PInf => PInf
  | NInf, _ | _, NInf => NInf
  end.

Definition XRopp (x : XR) : XR :=
  match x with Fin a => Fin (- a) | PInf => NInf | NInf => PInf | NaN => NaN end.

Definition XRsub (x y : XR) : XR := XRadd x (XRopp y).

Definition XRmul (x y : XR) : XR :=
  match x, y with
  | Fin a, Fin b => Fin (a * b)
  | NaN, _ | _, NaN => NaN
  | Fin a, PInf | PInf, Fin a => XRsgninf a
  | Fin a, NInf | NInf, Fin a => XRopp (XRsgninf a)
  | PInf, PInf | NInf, NInf => PInf
  | PInf, NInf | NInf, PInf => NInf
  end.

(** a zero denominator counts as +0 *)
Definition XRdiv (x y : XR) : XR :=
  match x, y with
  | NaN, _ | _, NaN => NaN
  | Fin a, Fin b => if Req_EM_T b 0 then XRsgninf a else Fin (a / b)
  | Fin _, _ => Fin 0
  | PInf, Fin b => if Rlt_dec b 0 then NInf else PInf
  | NInf, Fin b => if Rlt_dec b 0 then PInf else NInf
  | _, _ => NaN
  end.

Definition XRabs (x : XR) : XR :=
  match x with Fin a => Fin (Rabs a) | NaN => NaN | _ => PInf end.

Definition XRsqrt (x : XR) : XR :=
  match x with
  | Fin a => if Rlt_dec a 0 then NaN else Fin (sqrt a)
  | PInf => PInf | _ => NaN
  end.

Definition XRltb (x y : XR) : bool :=
  match x, y with
  | Fin a, Fin b => Rltb a b
  | NaN, _ | _, NaN => false
  | NInf, NInf | PInf, _ | _, NInf => false
  | NInf, _ | _, PInf => true
  end.

Definition XReqb (x y : XR) : bool :=
  match x, y with
  | Fin a, Fin b => Reqb a b
  | PInf, PInf | NInf, NInf => true
  | _, _ => false
  end.

Definition XRleb (x y : XR) : bool := XRltb x y || XReqb x y.

Definition XRpowr (x y : XR) : XR :=
  match x, y with
  | Fin a, Fin b =>
      if Rlt_dec a 0 then NaN
      else if Req_EM_T a 0 then (if Rlt_dec b 0 then PInf else Fin (Rpowr a b))
      else Fin (Rpowr a b)
  | _, _ => NaN
  end.

Definition XRtanh (x : XR) : XR :=
  match x with Fin a => Fin (tanh a) | PInf => Fin 1 | NInf => Fin (-1) | NaN => NaN end.

#[export] Instance Num_XR : Num XR := {
  n0 := Fin 0; n1 := Fin 1;
  nadd := XRadd; nsub := XRsub; nmul := XRmul; ndiv := XRdiv;
  nopp := XRopp; nabs := XRabs; nsqrt := XRsqrt;
  nleb := XRleb; nltb := XRltb; neqb := XReqb;
  nlit := fun z p => Fin (IZR z / IZR (Zpos p))%R;
  npowr := XRpowr;
  ntanh := XRtanh;
  nfloor := fun x => match x with Fin a => Int_part a | _ => 0%Z end
}.

(* ------------------------------------------------------------------ *)
(** * Reflection for the real comparisons *)

Lemma Rleb_true : forall x y, Rleb x y = true <-> (x <= y)%R.
Proof. intros x y; unfold Rleb; destruct (Rle_dec x y); split; intros; auto; try discriminate; contradiction. Qed.
Lemma Rleb_false : forall x y, Rleb x y = false <-> (y < x)%R.
Proof. intros x y; unfold Rleb; destruct (Rle_dec x y); split; intros; auto; try discriminate; lra. Qed.
Lemma Rltb_true : forall x y, Rltb x y = true <-> (x < y)%R.
Proof. intros x y; unfold Rltb; destruct (Rlt_dec x y); split; intros; auto; try discriminate; contradiction. Qed.
Lemma Rltb_false : forall x y, Rltb x y = false <-> (y <= x)%R.
Proof. intros x y; unfold Rltb; destruct (Rlt_dec x y); split; intros; auto; try discriminate; lra. Qed.
Lemma Reqb_true : forall x y, Reqb x y = true <-> x = y.
Proof. intros x y; unfold Reqb; destruct (Req_EM_T x y); split; intros; auto; try discriminate; contradiction. Qed.
Lemma Reqb_false : forall x y, Reqb x y = false <-> x <> y.
Proof. intros x y; unfold Reqb; destruct (Req_EM_T x y); split; intros; auto; try discriminate; contradiction. Qed.
Lemma Reqb_refl : forall x, Reqb x x = true.
Proof. intros; apply Reqb_true; reflexivity. Qed.

(** unfold the class operations at the real instance *)
Ltac rnum :=
  cbn [n0 n1 nadd nsub nmul ndiv nopp nabs nsqrt nleb nltb neqb nlit npowr ntanh nfloor Num_R] in *.

Lemma nisnan_R : forall x : R, nisnan x = false.
Proof. intros x; unfold nisnan; rnum; rewrite Reqb_refl; reflexivity. Qed.

Lemma nZ_R : forall z, nZ (A:=R) z = IZR z.
Proof. intros; unfold nZ; rnum; field. Qed.

Lemma nnat_R : forall k, nnat (A:=R) k = INR k.
Proof. intros; unfold nnat; rewrite nZ_R, <- INR_IZR_INZ; reflexivity. Qed.

Lemma npow_R : forall (x : R) k, npow x k = pow x k.
Proof. intros x k; induction k as [|k IH]; cbn; [reflexivity | rewrite IH; reflexivity]. Qed.

(** case split on every real comparison in sight *)
Ltac rcmp_all :=
  repeat match goal with
  | H : Rleb _ _ = true |- _ => apply Rleb_true in H
  | H : Rleb _ _ = false |- _ => apply Rleb_false in H
  | H : Rltb _ _ = true |- _ => apply Rltb_true in H
  | H : Rltb _ _ = false |- _ => apply Rltb_false in H
  | H : Reqb _ _ = true |- _ => apply Reqb_true in H
  | H : Reqb _ _ = false |- _ => apply Reqb_false in H
  end.
