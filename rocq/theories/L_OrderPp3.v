(** Indices and capi with the cases in another order; the starting value. *)

From Coq Require Import String Reals List Arith ZArith Bool Lia Lra Permutation.
Import List. Import ListNotations.
From Verif Require Import Num Err Vec VecR L_Mat S_Stats S_Order L_Order M_Utils M_Preproc M_Robcent M_Dicomo L_OrderDi M_Ipopt M_Ppdire M_Capi S_Ppdire2 L_Pp8 S_OrderPp L_OrderPp L_OrderPp2.
Import List. Open Scope R_scope.

Lemma dicomo_index_free : forall dc s, dcor_order_free dc -> index_order_free (fun x kw => snd (dicomo_fit dc s x kw)).
Proof. intros dc s Hd n o x kw Ho Hx Hy Hm. rewrite (dicomo_order_l dc n) by auto. reflexivity. Qed.
Lemma dicomo_pindex_free : forall dc est mode center, dcor_order_free dc -> pindex_order_free (dicomo_index dc est mode center).
Proof.
  intros dc est mode center Hd n o s x y i j kw Ho Hx Hy Hm. cbn [dicomo_index pi_fit]. change (with_oyo (kw_reorder o kw) (areorder o y) i j) with (kw_reorder o (with_oyo kw y i j)).
  apply (dicomo_order_l dc n); auto. intros y' H. cbn in H. injection H as <-. auto.
Qed.
Section Capi.
  Context {St : Type} (pi : pindex R St).
  Hypothesis HP : pindex_order_free pi.
  Variables (n : nat) (o : list nat) (x y : arr R) (kw : dkw R).
  Hypothesis Ho : case_order n o.
  Hypothesis Hx : cases n x.
  Hypothesis Hy : cases n y.
  Hypothesis Hm : forall d, k_metric kw = Some d -> symmetric_metric d.
  Lemma capi_inner_order : forall opts m i b ms, capi_inner pi m (areorder o x) (areorder o y) (kw_reorder o kw) i b opts ms = capi_inner pi m x y kw i b opts ms.
  Proof.
    induction opts as [|j opts IH]; intros m i b ms; cbn [capi_inner]; [reflexivity|]. rewrite (HP n o) by auto. destruct (pi_fit pi m x y i j kw) as [m' [v|e]]; [|reflexivity].
    destruct (set_slot ms (b + j) v) as [ms'|e]; [|reflexivity]. apply IH.
  Qed.
  Lemma capi_outer_order : forall is m modes opts k ms, capi_outer pi m (areorder o x) (areorder o y) (kw_reorder o kw) modes opts is k ms = capi_outer pi m x y kw modes opts is k ms.
  Proof.
    induction is as [|i is IH]; intros m modes opts k ms; cbn [capi_outer]; [reflexivity|]. destruct (nth_error modes _) as [mode|]; [|reflexivity]. destruct (pi_mode pi m mode) as [m1|e]; [|reflexivity].
    cbv zeta. rewrite capi_inner_order. destruct (capi_inner pi m1 x y kw i _ _ ms) as [m2 [ms'|e]]; [|reflexivity]. apply IH.
  Qed.
  Lemma capi_order_l : forall s, capi_fit pi s (areorder o x) (areorder o y) (kw_reorder o kw) = capi_fit pi s x y kw.
  Proof. intros s. unfold capi_fit. rewrite capi_outer_order. reflexivity. Qed.
End Capi.
Lemma capi_index_free : forall {St} (pi : pindex R St) s, pindex_order_free pi ->
  index_order_free (fun x kw => match k_y kw with Some y => snd (capi_fit pi s x y kw) | None => Err TypeError end).
Proof.
  intros St pi s HP n o x kw Ho Hx Hy Hm. cbn [kw_reorder k_y]. destruct (k_y kw) as [y|] eqn:E; cbn [option_map]; [|reflexivity].
  f_equal. apply (capi_order_l pi HP n o x y kw Ho Hx (Hy y eq_refl) Hm).
Qed.
