(** When the concentration steps of kstepLTS stop *)

From Coq Require Import Reals List Arith Bool Lra Lia.
Import ListNotations.
From Verif Require Import Num Err Vec VecR OrdR L_Mat S_Stats L_Stats M_Utils M_Preproc M_Robcent L_Scaling L_Snipls S_Options L_Preproc.
Open Scope R_scope.

Lemma vsub_nth : forall (a b : list R) j, (j < length a)%nat -> length b = length a -> nth j (vsub a b) 0 = nth j a 0 - nth j b 0.
Proof.
  induction a as [|x a IH]; intros b j Hj Hl; [cbn in Hj; lia|]. destruct b as [|y b]; [discriminate|].
  destruct j as [|j]; [reflexivity|]. cbn in *. apply IH; lia.
Qed.
Lemma vsub_len : forall (a b : list R), length b = length a -> length (vsub a b) = length a.
Proof. induction a as [|x a IH]; intros [|y b] Hl; try discriminate; [reflexivity|]. cbn in *. f_equal. apply IH. lia. Qed.
Lemma close_max : forall tol p (a b : list R), (1 <= p)%nat -> length a = p -> length b = p ->
  (tol <?! vmaxl (map nabs (vsub a b)))%num = false <-> moved_at_most tol p a b.
Proof.
  intros tol p a b Hp La Lb. assert (L : length (map nabs (vsub a b)) = p) by (rewrite map_length, vsub_len; lia).
  assert (NE : map nabs (vsub a b) <> []) by (intros E; rewrite E in L; cbn in L; lia).
  destruct (vmaxl_is_max _ NE) as [HI HM]. unfold moved_at_most.
  assert (EN : forall j, (j < p)%nat -> nth j (map nabs (vsub a b)) 0 = Rabs (nth j b 0 - nth j a 0)).
  { intros j Hj. rewrite (nth_map_lt _ _ _ 0) by (rewrite vsub_len; lia). rewrite vsub_nth by lia. rewrite Rabs_minus_sym. reflexivity. }
  split.
  - intros E j Hj. rewrite <- EN by auto. apply Rle_trans with (vmaxl (map nabs (vsub a b))).
    + apply HM. apply nth_In. lia.
    + cbn in E. unfold Rltb in E. destruct (Rlt_dec _ _); [discriminate|]. cbn. lra.
  - intros HC. cbn. unfold Rltb. destruct (Rlt_dec _ _) as [HL|]; [|reflexivity]. exfalso. 
    destruct (In_nth _ _ 0 HI) as [j [Hj Ej]]. rewrite L in Hj. rewrite EN in Ej by auto. specialize (HC j Hj). cbn in HL, Ej. lra.
Qed.

Lemma lts_loop_stop : forall fuel tol n p (X : list (list R)) m, wf n p X -> (1 <= n)%nat -> (1 <= p)%nat -> length m = p ->
  let at_ i := Nat.iter i (lts_step X) m in
  exists k, (k <= fuel)%nat /\ fst (lts_loop fuel tol X m) = at_ k /\ (k = fuel \/ (0 < k)%nat /\ moved_at_most tol p (at_ (k - 1)%nat) (at_ k)) /\
    forall i, (i + 1 < k)%nat -> ~ moved_at_most tol p (at_ i) (at_ (i + 1)%nat).
Proof.
  induction fuel as [|f IH]; intros tol n p X m W Hn Hp Lm at_; cbn [lts_loop].
  - exists 0%nat. repeat split; auto. intros; lia.
  - assert (Ls : length (lts_step X m) = p) by (apply (lts_step_length n p); auto).
    pose proof (close_max tol p m (lts_step X m) Hp Lm Ls) as HC. destruct (nltb tol _) eqn:E.
    + destruct (IH tol n p X (lts_step X m) W Hn Hp Ls) as [k [Hk [E1 [H1 H2]]]]. destruct (lts_loop f tol X (lts_step X m)) as [r k'] eqn:EL. cbn [fst] in E1 |- *.
      assert (SW : forall i, Nat.iter i (lts_step X) (lts_step X m) = at_ (S i)) by (intros; apply iter_swap).
      exists (S k). split; [lia|]. split; [rewrite E1; apply SW|]. split.
      * destruct H1 as [->|[Hk0 HM]]; [left; reflexivity|right]. split; [lia|]. rewrite !SW in HM. replace (S k - 1)%nat with (S (k - 1)) by lia. exact HM.
      * intros [|i] Hi; [|specialize (H2 i ltac:(lia)); rewrite !SW in H2; exact H2]. cbn [at_ Nat.iter Nat.add]. intros HM. apply HC in HM. discriminate HM.
    + exists 1%nat. split; [lia|]. split; [reflexivity|]. split; [right; split; [lia|]; apply HC; reflexivity|intros; lia].
Qed.

Lemma C15_scaler_l : forall (env : prep_env R) s t X n p st', is_matrix n p X -> (2 <= n)%nat -> (1 <= p)%nat -> length (l1median (env_l1opt env) X) = p ->
  sc_fit env (new_scaler CKstepLTS s t) (A2 X) = (st', Ok tt) ->
  let at_ i := Nat.iter i (lts_step X) (l1median (env_l1opt env) X) in
  exists k, (k <= 5)%nat /\ a_center st' = Some (at_ k) /\ (k = 5%nat \/ (0 < k)%nat /\ moved_at_most (1 / 10 ^ 10) p (at_ (k - 1)%nat) (at_ k)) /\
    forall i, (i + 1 < k)%nat -> ~ moved_at_most (1 / 10 ^ 10) p (at_ i) (at_ (i + 1)%nat).
Proof.
  intros env s t X n p st' W Hn Hp Ll E at_. apply fit_ok_inv in E as [m [sv [E1 [_ [_ [_ ->]]]]]]. rewrite (check_input_id n p) in E1 by auto. cbn [a_center]. cbn [sc_center new_scaler location sc_trimming] in E1. apply Ok_inj in E1 as <-.
  destruct (lts_loop_stop 5 (1 / 10 ^ 10) n p X (l1median (env_l1opt env) X) W ltac:(lia) Hp Ll) as [k [H1 [H2 [H3 H4]]]]. exists k. split; [exact H1|]. split; [|split; [exact H3|exact H4]].
  f_equal. unfold at_. rewrite <- H2. unfold kstepLTS. replace (nlit 1 10000000000) with (1 / 10 ^ 10) by (rnum; lra). reflexivity.
Qed.
