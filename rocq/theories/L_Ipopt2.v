(** Lemmas for the interior-point wrapper, continued. *)

From Coq Require Import String Reals List Arith ZArith QArith Bool Lia Lra.
Import ListNotations.
From Verif Require Import Num Err Vec VecR L_Mat L_Lin S_Stats M_Ipopt S_Ipopt L_Ipopt.
Import List.
Open Scope R_scope.

(** ** difference quotients *)
Lemma moved_length : forall x i t, length (moved x i t) = length x.
Proof. intros; unfold moved; rewrite map_length, seq_length; auto. Qed.
Lemma step_moved : forall x i t, vadd x (unit_step (length x) i t) = moved x i t.
Proof.
  intros x i t. assert (Hl : length (unit_step (length x) i t) = length x) by (unfold unit_step; rewrite map_length, seq_length; auto).
  apply (nth_ext _ _ 0 0); [unfold vadd; rewrite map2_length, Hl, moved_length; lia|].
  intros k Hk. assert (Hk' : (k < length x)%nat) by (unfold vadd in Hk; rewrite map2_length, Hl in Hk; lia).
  rewrite nth_vadd by auto. unfold moved, unit_step. rewrite !nth_map_lt with (db := 0%nat) by (rewrite seq_length; auto).
  rewrite seq_nth by auto. reflexivity.
Qed.
Lemma moved_0 : forall x i, moved x i 0 = x.
Proof.
  intros x i. apply (nth_ext _ _ 0 0); [apply moved_length|]. intros k Hk. rewrite moved_length in Hk. unfold moved.
  rewrite nth_map_lt with (db := 0%nat) by (rewrite seq_length; auto). rewrite seq_nth by auto. cbn. destruct (k =? i)%nat; ring.
Qed.
Lemma vadd_zeros : forall x : list R, vadd x (vzeros (length x)) = x.
Proof. induction x as [|a x IH]; cbn; auto. rnum. rewrite Rplus_0_r. f_equal. apply IH. Qed.

Lemma transposed_matrix : forall m n (rows : list (list R)), length rows = n -> is_matrix m n (transposed m rows).
Proof.
  intros m n rows Hl. unfold transposed. split; [rewrite map_length, seq_length; auto|].
  apply Forall_forall. intros r Hr. apply in_map_iff in Hr as (k & <- & _). rewrite map_length; auto.
Qed.
Lemma transposed_cell : forall m (rows : list (list R)) r i, (r < m)%nat -> (i < length rows)%nat ->
  cell (transposed m rows) r i = nth r (nth i rows []) 0.
Proof.
  intros m rows r i Hr Hi. unfold cell, transposed. rewrite nth_map_lt with (db := 0%nat) by (rewrite seq_length; auto). rewrite seq_nth by auto.
  cbn [plus]. rewrite nth_map_lt with (db := []) by auto. reflexivity.
Qed.

Section Jac.
  Context {Ar : Type}.
  Variable f : list R -> Ar -> list R.
  Variable a : Ar.
  Variables n m : nat.
  Hypothesis Hout : outputs f a n m.
  Variable x : list R.
  Hypothesis Hx : length x = n.
  Variable c : vcache (A := R).
  Hypothesis Hc : sound f a c.

  Lemma forward_matrix : forall eps, is_matrix m n (snd (jac_forward f eps c x a)).
  Proof.
    intros eps. destruct (jac_forward_eq f a eps c x Hc) as [_ E]. rewrite E. cbv zeta. rewrite vadd_zeros. rewrite (Hout x Hx).
    apply transposed_matrix. rewrite map_length, seq_length. auto.
  Qed.
  Lemma forward_cell : forall eps r i, (r < m)%nat -> (i < n)%nat ->
    cell (snd (jac_forward f eps c x a)) r i = (comp f a r (moved x i eps) - comp f a r x) / eps.
  Proof.
    intros eps r i Hr Hi. destruct (jac_forward_eq f a eps c x Hc) as [_ E]. rewrite E. cbv zeta. rewrite vadd_zeros.
    rewrite (Hout x Hx). rewrite transposed_cell by (auto; rewrite map_length, seq_length; lia).
    rewrite nth_map_lt with (db := 0%nat) by (rewrite seq_length; lia). rewrite seq_nth by lia. cbn [plus]. rewrite step_moved.
    assert (L1 : length (f (moved x i eps) a) = m) by (apply Hout; rewrite moved_length; auto).
    rewrite nth_map_lt with (db := 0) by (unfold vsub; rewrite map2_length, L1, (Hout x Hx); lia).
    rewrite nth_vsub by (rewrite ?L1, ?(Hout x Hx); auto). reflexivity.
  Qed.
  Lemma central_matrix : forall eps, (0 < n)%nat -> is_matrix m n (snd (jac_central f eps c x a)).
  Proof.
    intros eps Hn. destruct (jac_central_eq f a eps c x Hc) as [_ E]; [lia|]. rewrite E. cbv zeta. rewrite step_moved.
    rewrite Hout by (rewrite moved_length; auto). apply transposed_matrix. rewrite map_length, seq_length. auto.
  Qed.
  Lemma central_cell : forall eps r i, (r < m)%nat -> (i < n)%nat ->
    cell (snd (jac_central f eps c x a)) r i = (comp f a r (moved x i eps) - comp f a r (moved x i (- eps))) / (2 * eps).
  Proof.
    intros eps r i Hr Hi. destruct (jac_central_eq f a eps c x Hc) as [_ E]; [lia|]. rewrite E. cbv zeta. rewrite step_moved.
    rewrite (Hout (moved x 0 (- eps))) by (rewrite moved_length; auto). rewrite transposed_cell by (auto; rewrite map_length, seq_length; lia).
    rewrite nth_map_lt with (db := 0%nat) by (rewrite seq_length; lia). rewrite seq_nth by lia. cbn [plus]. rewrite !step_moved.
    assert (L1 : forall t, length (f (moved x i t) a) = m) by (intros; apply Hout; rewrite moved_length; auto).
    rewrite nth_map_lt with (db := 0) by (unfold vsub; rewrite map2_length, !L1; lia).
    rewrite nth_vsub by (rewrite ?L1; auto). reflexivity.
  Qed.
  Lemma forward_exact : forall eps r i, eps <> 0 -> (r < m)%nat -> (i < n)%nat -> affine_line (comp f a r) x i ->
    is_partial (comp f a r) x i (cell (snd (jac_forward f eps c x a)) r i).
  Proof.
    intros eps r i He Hr Hi (u & v & E). rewrite forward_cell by auto.
    assert (E0 : comp f a r x = u + v * 0) by (rewrite <- E, moved_0; auto). rewrite E0, E.
    replace ((u + v * eps - (u + v * 0)) / eps) with v by (field; auto).
    intros e Hpos. exists (mkposreal 1 Rlt_0_1). intros h Hh _. rewrite !E.
    replace ((u + v * (0 + h) - (u + v * 0)) / h - v) with 0 by (field; auto). rewrite Rabs_R0. auto.
  Qed.
  Lemma central_exact : forall eps r i, eps <> 0 -> (r < m)%nat -> (i < n)%nat -> quadratic_line (comp f a r) x i ->
    is_partial (comp f a r) x i (cell (snd (jac_central f eps c x a)) r i).
  Proof.
    intros eps r i He Hr Hi (u & v & w & E). rewrite central_cell by auto. rewrite !E.
    replace ((u + v * eps + w * (eps * eps) - (u + v * - eps + w * (- eps * - eps))) / (2 * eps)) with v by (field; auto).
    intros e Hpos. assert (Hd : 0 < e / (Rabs w + 1)) by (apply Rdiv_lt_0_compat; auto; pose proof (Rabs_pos w); lra).
    exists (mkposreal _ Hd). intros h Hh Hlt. cbn in Hlt. rewrite !E.
    replace ((u + v * (0 + h) + w * ((0 + h) * (0 + h)) - (u + v * 0 + w * (0 * 0))) / h - v) with (w * h) by (field; auto).
    rewrite Rabs_mult. apply Rle_lt_trans with (Rabs w * (e / (Rabs w + 1))).
    - apply Rmult_le_compat_l; [apply Rabs_pos|lra].
    - pose proof (Rabs_pos w). apply Rlt_le_trans with ((Rabs w + 1) * (e / (Rabs w + 1))); [apply Rmult_lt_compat_r; auto; lra|].
      right. field. lra.
  Qed.
  Lemma forward_consistent : forall r i d, (r < m)%nat -> (i < n)%nat -> is_partial (comp f a r) x i d ->
    forall tol, 0 < tol -> exists delta, 0 < delta /\ forall eps, eps <> 0 -> Rabs eps < delta ->
      Rabs (cell (snd (jac_forward f eps c x a)) r i - d) < tol.
  Proof.
    intros r i d Hr Hi HP tol Ht. destruct (HP tol Ht) as [delta Hd]. exists delta. split; [apply cond_pos|].
    intros eps He Hlt. rewrite forward_cell by auto. specialize (Hd eps He Hlt). rewrite Rplus_0_l, moved_0 in Hd. exact Hd.
  Qed.
  Lemma central_consistent : forall r i d, (r < m)%nat -> (i < n)%nat -> is_partial (comp f a r) x i d ->
    forall tol, 0 < tol -> exists delta, 0 < delta /\ forall eps, eps <> 0 -> Rabs eps < delta ->
      Rabs (cell (snd (jac_central f eps c x a)) r i - d) < tol.
  Proof.
    intros r i d Hr Hi HP tol Ht. destruct (HP tol Ht) as [delta Hd]. exists delta. split; [apply cond_pos|].
    intros eps He Hlt. rewrite central_cell by auto. assert (H1 := Hd eps He Hlt). assert (H2 := Hd (- eps) ltac:(lra)).
    rewrite Rabs_Ropp in H2. specialize (H2 Hlt). rewrite Rplus_0_l, moved_0 in H1, H2.
    set (p := comp f a r (moved x i eps)) in *. set (q := comp f a r (moved x i (- eps))) in *. set (o := comp f a r x) in *.
    replace ((p - q) / (2 * eps) - d) with (/ 2 * ((p - o) / eps - d) + / 2 * ((q - o) / - eps - d)) by (field; lra).
    eapply Rle_lt_trans; [apply Rabs_triang|]. rewrite !Rabs_mult. rewrite (Rabs_right (/ 2)) by lra. lra.
  Qed.
End Jac.

(** ** histories *)
Lemma jresult_sound : forall {Ar} (f : list R -> Ar -> list R) eps a o c, jop_ok o -> sound f a c ->
  sound f a (fst (jresult f eps c a o)) /\ snd (jresult f eps c a o) = snd (jresult f eps [] a o).
Proof.
  intros Ar f eps a o c Hok Hc. assert (Hn : sound f a []) by (intros x v []). destruct o as [x|x|x]; cbn [jresult].
  - destruct (cached_call_sound f a c x Hc) as [H1 H2]. destruct (cached_call_sound f a [] x Hn) as [_ H4].
    destruct (cached_call f c x a); destruct (cached_call f [] x a); cbn [fst snd] in *. split; [exact H1|subst; auto].
  - destruct (jac_forward_eq f a eps c x Hc) as [H1 H2]. destruct (jac_forward_eq f a eps [] x Hn) as [_ H4]. rewrite H2, H4. auto.
  - assert (Hx : (0 < length x)%nat) by (destruct x; [cbn in Hok; congruence|cbn; lia]).
    destruct (jac_central_eq f a eps c x Hc Hx) as [H1 H2]. destruct (jac_central_eq f a eps [] x Hn Hx) as [_ H4]. rewrite H2, H4. auto.
Qed.
Lemma jrun_sound : forall {Ar} (f : list R -> Ar -> list R) eps a h c, (forall o a', In (o, a') h -> jop_ok o /\ a' = a) -> sound f a c ->
  jrun f eps c h = map (fun oa => snd (jresult f eps [] a (fst oa))) h.
Proof.
  intros Ar f eps a h; induction h as [|[o a'] h IH]; intros c Hh Hc; auto. cbn [jrun map fst].
  destruct (Hh o a' (or_introl eq_refl)) as [Hok ->]. destruct (jresult_sound f eps a o c Hok Hc) as [H1 H2].
  destruct (jresult f eps c a o) as [c' v]. cbn [fst snd] in *. rewrite H2. f_equal. apply IH; auto. intros; apply Hh; right; auto.
Qed.

(** ** objective and gradient with jac=True *)
Lemma fg_run_plain_gen : forall f ops h s,
  fresh_writes ops ->
  (forall l, fg_last s = Some l -> fg_value s = Some (f (h l)) /\ forall j v, nth_error ops j <> Some (FWrite l v)) ->
  fg_run f h s ops = fg_plain f h ops.
Proof.
  intros f ops; induction ops as [|o ops IH]; intros h s HF HI; auto.
  assert (HF' : fresh_writes ops). { intros i j l v E Hij. destruct (HF (S i) (S j) l v E ltac:(lia)); auto. }
  assert (key : forall l, (o = FObjective l \/ o = FGradient l) -> let '(s', r) := evaluate_fun_with_grad f h s l in
     r = Ok (f (h l)) /\ forall k, fg_last s' = Some k -> fg_value s' = Some (f (h k)) /\ forall j v, nth_error ops j <> Some (FWrite k v)).
  { intros l Ho. assert (Hfl : forall j v, nth_error ops j <> Some (FWrite l v)).
    { intros j v E. destruct (HF 0%nat (S j) l v E ltac:(lia)) as [G1 G2]. destruct Ho as [->| ->]; [apply G1|apply G2]; reflexivity. }
    unfold evaluate_fun_with_grad. destruct (fg_last s) as [k|] eqn:EL.
    - destruct (HI k eq_refl) as [E1 E2]. destruct (veqb (h k) (h l)) eqn:EV.
      + apply veqb_eq in EV. rewrite E1, EV. split; auto. intros k' Ek'. rewrite EL in Ek'. injection Ek' as <-. split; [congruence|].
        intros j v. apply (E2 (S j) v).
      + split; auto. cbn. intros k' Ek'. injection Ek' as <-. split; auto.
    - split; auto. cbn. intros k' Ek'. injection Ek' as <-. split; auto. }
  destruct o as [l v|l|l]; cbn [fg_run fg_plain].
  - f_equal. apply IH; auto. intros k Ek. destruct (HI k Ek) as [E1 E2]. split; [|intros j v0; apply (E2 (S j) v0)].
    rewrite E1. unfold hset. destruct (k =? l)%nat eqn:E; auto. apply Nat.eqb_eq in E as ->. exfalso. apply (E2 0%nat v). reflexivity.
  - specialize (key l (or_introl eq_refl)). destruct (evaluate_fun_with_grad f h s l) as [s' r]. destruct key as [-> K].
    cbn [bind]. f_equal. apply IH; auto.
  - specialize (key l (or_intror eq_refl)). destruct (evaluate_fun_with_grad f h s l) as [s' r]. destruct key as [-> K].
    cbn [bind]. f_equal. apply IH; auto.
Qed.
Lemma fg_run_plain : forall f ops h, fresh_writes ops -> fg_run f h fg0 ops = fg_plain f h ops.
Proof. intros f ops h HF. apply fg_run_plain_gen; auto. intros l E. discriminate. Qed.

(** ** constraints *)
Section Cons.
  Context {Ar : Type}.
  Definition con_dim (x0 : list R) (c : con R Ar) : nat := length (c_fun c x0 (c_args c)).
  Definition upper (c : con R Ar) : R := if (c_type c =? "eq")%string then 0 else 10000000000000000000.
  Lemma inf_R : (ipopt_inf : R) = 10000000000000000000. Proof. unfold ipopt_inf, nZ. rnum. field. Qed.
  Lemma bounds_ok : forall (l : list (con R Ar)) x0, Forall known_type l ->
    con_bounds (map CDict l) x0 = Ok (concat (map (fun c => repeat 0 (con_dim x0 c)) l), concat (map (fun c => repeat (upper c) (con_dim x0 c)) l)).
  Proof.
    induction l as [|c l IH]; intros x0 HF; auto. inversion HF as [|? ? Hk HF']; subst. cbn [map con_bounds concat].
    rewrite IH by auto. assert (EU : upper c = if (c_type c =? "eq")%string then 0 else 10000000000000000000) by reflexivity.
    rewrite EU, inf_R. destruct Hk as [E|E]; rewrite E; reflexivity.
  Qed.
  Lemma bounds_bad : forall (l : list (con R Ar)) x0, ~ Forall known_type l -> con_bounds (map CDict l) x0 = Err ValueError.
  Proof.
    induction l as [|c l IH]; intros x0 HF; [exfalso; apply HF; constructor|]. cbn [map con_bounds].
    destruct (c_type c =? "eq")%string eqn:E1; [|destruct (c_type c =? "ineq")%string eqn:E2].
    - cbn [bind]. rewrite IH; auto. intros HF'. apply HF. constructor; auto. left. apply String.eqb_eq; auto.
    - cbn [bind]. rewrite IH; auto. intros HF'. apply HF. constructor; auto. right. apply String.eqb_eq; auto.
    - reflexivity.
  Qed.
  Lemma bounds_nested : forall (l : list (con R Ar)) l1 l2 x0, Forall known_type l -> con_bounds (map CDict l ++ CSeq l1 :: l2) x0 = Err TypeError.
  Proof.
    induction l as [|c l IH]; intros l1 l2 x0 HF; auto. inversion HF as [|? ? Hk HF']; subst. cbn [map app con_bounds].
    rewrite IH by auto. destruct Hk as [E|E]; rewrite E; reflexivity.
  Qed.
  Lemma wrap_nested : forall (l : list (con R Ar)) l1 l2, wrap_cons (A := R) (map CDict l ++ CSeq l1 :: l2) = Err TypeError.
  Proof. induction l as [|c l IH]; intros; auto. cbn [map app wrap_cons]. rewrite IH. reflexivity. Qed.
  Lemma wrap_ok : forall (l : list (con R Ar)), wrap_cons (A := R) (map CDict l) = Ok (map (fun c => (c, [])) l).
  Proof. induction l as [|c l IH]; auto. cbn [map wrap_cons]. rewrite IH. reflexivity. Qed.

  (** any sequence of constraint and Jacobian evaluations *)
  Definition wsound (w : wrapper (A := R) (Ar := Ar)) : Prop := Forall (fun cw => sound (c_fun (fst cw)) (c_args (fst cw)) (snd cw)) w.
  Lemma wrapper_constraints_eq : forall w x, wsound w -> wsound (fst (wrapper_constraints w x)) /\ map fst (fst (wrapper_constraints w x)) = map fst w /\
    snd (wrapper_constraints w x) = concat (map (fun c => c_fun c x (c_args c)) (map fst w)).
  Proof.
    induction w as [|[c k] w IH]; intros x HW; [repeat split; constructor|]. inversion HW as [|? ? Hs HW']; subst. cbn [fst snd] in Hs.
    destruct (IH x HW') as (H1 & H2 & H3). cbn [wrapper_constraints eval_con map concat fst]. destruct (c_jac c) as [j|].
    - destruct (wrapper_constraints w x) as [w1 vs]. cbn [fst snd map] in *. repeat split; [constructor; auto|f_equal; auto|subst; auto].
    - destruct (cached_call_sound (c_fun c) (c_args c) k x Hs) as [K1 K2]. destruct (cached_call (c_fun c) k x (c_args c)) as [k' v].
      destruct (wrapper_constraints w x) as [w1 vs]. cbn [fst snd map] in *. repeat split; [constructor; auto|f_equal; auto|subst; auto].
  Qed.
  Lemma wrapper_jacobian_eq : forall w x, wsound w -> wsound (fst (wrapper_jacobian w x)) /\ map fst (fst (wrapper_jacobian w x)) = map fst w /\
    snd (wrapper_jacobian w x) = concat (map (fun c => match c_jac c with Some j => j x (c_args c) | None => snd (jac_forward (c_fun c) wrap_eps [] x (c_args c)) end) (map fst w)).
  Proof.
    induction w as [|[c k] w IH]; intros x HW; [repeat split; constructor|]. inversion HW as [|? ? Hs HW']; subst. cbn [fst snd] in Hs.
    destruct (IH x HW') as (H1 & H2 & H3). cbn [wrapper_jacobian jac_con map concat fst]. destruct (c_jac c) as [j|].
    - destruct (wrapper_jacobian w x) as [w1 vs]. cbn [fst snd map] in *. repeat split; [constructor; auto|f_equal; auto|subst; auto].
    - destruct (jac_forward_eq (c_fun c) (c_args c) wrap_eps k x Hs) as [K1 K2].
      destruct (jac_forward_eq (c_fun c) (c_args c) wrap_eps [] x (sound_nil _ _)) as [_ K4].
      destruct (jac_forward (c_fun c) wrap_eps k x (c_args c)) as [k' v].
      destruct (wrapper_jacobian w x) as [w1 vs]. cbn [fst snd map] in *. repeat split; [constructor; auto|f_equal; auto|rewrite K2, <- K4, H3; auto].
  Qed.
  Lemma wsound_new : forall l : list (con R Ar), wsound (map (fun c => (c, [])) l).
  Proof. intros l. apply Forall_forall. intros cw Hin. apply in_map_iff in Hin as (c & <- & _). apply sound_nil. Qed.

  Lemma within_app : forall l1 v1 u1 l2 v2 u2, length l1 = length v1 -> length u1 = length v1 ->
    (within (l1 ++ l2) (v1 ++ v2) (u1 ++ u2) <-> within l1 v1 u1 /\ within l2 v2 u2).
  Proof.
    intros l1 v1 u1 l2 v2 u2 E1 E2. unfold within. rewrite !app_length. split.
    - intros (H1 & H2 & H3). split; split; try lia; (split; [lia|]).
      + intros i Hi. specialize (H3 i ltac:(lia)). rewrite !app_nth1 in H3 by lia. exact H3.
      + intros i Hi. specialize (H3 (length v1 + i)%nat ltac:(lia)). rewrite !app_nth2 in H3 by lia. rewrite E1, E2 in H3.
        replace (length v1 + i - length v1)%nat with i in H3 by lia. exact H3.
    - intros ((H1 & H2 & H3) & H4 & H5 & H6). split; [lia|split; [lia|]]. intros i Hi. destruct (Nat.lt_ge_cases i (length v1)).
      + rewrite !app_nth1 by lia. apply H3; auto.
      + rewrite !app_nth2 by lia. rewrite E1, E2. apply H6. lia.
  Qed.
  Lemma within_repeat : forall v b, within (repeat 0 (length v)) v (repeat b (length v)) <-> forall x, In x v -> 0 <= x <= b.
  Proof.
    intros v b. unfold within. rewrite !repeat_length. split.
    - intros (_ & _ & H3) x Hin. apply (In_nth _ _ 0) in Hin as (i & Hi & <-). specialize (H3 i Hi).
      rewrite nth_repeat in H3. rewrite (nth_indep (repeat b (length v)) 0 b) in H3 by (rewrite ?repeat_length; auto). rewrite nth_repeat in H3. exact H3.
    - intros HA. repeat split; auto; rewrite ?nth_repeat; [apply HA, nth_In; auto|].
      rewrite (nth_indep (repeat b (length v)) 0 b) by (rewrite repeat_length; auto). rewrite nth_repeat. apply HA, nth_In; auto.
  Qed.
  Lemma feasible : forall (l : list (con R Ar)) x0 x, Forall known_type l ->
    Forall (fun c => length (c_fun c x (c_args c)) = length (c_fun c x0 (c_args c))) l ->
    (within (concat (map (fun c => repeat 0 (con_dim x0 c)) l)) (concat (map (fun c => c_fun c x (c_args c)) l))
       (concat (map (fun c => repeat (upper c) (con_dim x0 c)) l)) <-> Forall (fun c => satisfied c x) l).
  Proof.
    induction l as [|c l IH]; intros x0 x HK HD.
    - cbn. split; [constructor|]. intros _. repeat split; auto; cbn in *; lia.
    - inversion HK as [|? ? Hk HK']; subst. inversion HD as [|? ? Hd HD']; subst. cbn [map concat]. unfold con_dim at 1 3. rewrite <- Hd.
      rewrite within_app by (rewrite repeat_length; auto). rewrite (IH x0 x HK' HD'). rewrite within_repeat.
      assert (E : (forall v, In v (c_fun c x (c_args c)) -> 0 <= v <= upper c) <-> satisfied c x).
      { unfold satisfied, upper. destruct (c_type c =? "eq")%string; [|tauto].
        split; intros HA v Hv; specialize (HA v Hv); lra. }
      rewrite E. split; [intros [H1 H2]; constructor; auto|intros HF; inversion HF; auto].
  Qed.
End Cons.

(** ** collected statements *)
Lemma jrun_expected : forall {Ar} (f : list R -> Ar -> list R) eps a h, (forall o a', In (o, a') h -> jop_ok o /\ a' = a) ->
  Forall2 (expected f eps a) (map fst h) (jrun f eps [] h).
Proof.
  intros Ar f eps a h Hh. rewrite (jrun_sound f eps a h [] Hh (sound_nil _ _)).
  assert (HO : forall o, In o (map fst h) -> jop_ok o). { intros o Hin. apply in_map_iff in Hin as ([o' a'] & <- & Hin). apply (Hh o' a' Hin). }
  rewrite <- (map_map fst (fun o => snd (jresult f eps [] a o))). clear Hh. induction (map fst h) as [|o l IH]; cbn [map]; constructor.
  - assert (Hok := HO o (or_introl eq_refl)). destruct o as [x|x|x]; cbn [expected jresult].
    + destruct (cached_call_sound f a [] x (sound_nil _ _)) as [_ E]. destruct (cached_call f [] x a); cbn in *. subst; auto.
    + intros m Hm. split; [apply forward_matrix; auto; apply sound_nil|]. intros; apply (forward_cell f a (length x) m); auto; apply sound_nil.
    + intros m Hm. assert ((0 < length x)%nat) by (destruct x; [cbn in Hok; congruence|cbn; lia]).
      split; [apply central_matrix; auto; apply sound_nil|]. intros; apply (central_cell f a (length x) m); auto; apply sound_nil.
  - apply IH. intros; apply HO; right; auto.
Qed.

(** the wrapper after any evaluations *)
Lemma after_sound : forall {Ar} (ops : list (bool * list R)) (w : wrapper (A := R) (Ar := Ar)), wsound w ->
  wsound (after w ops) /\ map fst (after w ops) = map fst w.
Proof.
  intros Ar ops; induction ops as [|[b y] ops IH]; intros w Hw; cbn [after]; auto.
  destruct b.
  - destruct (wrapper_jacobian_eq w y Hw) as (H1 & H2 & _). destruct (IH _ H1) as [K1 K2]. rewrite K2; auto.
  - destruct (wrapper_constraints_eq w y Hw) as (H1 & H2 & _). destruct (IH _ H1) as [K1 K2]. rewrite K2; auto.
Qed.
Lemma map_fst_new : forall {Ar} (l : list (con R Ar)), map fst (map (fun c => (c, ([] : vcache (A := R)))) l) = l.
Proof. intros. rewrite map_map. apply map_id. Qed.
Lemma C80_feasible_l : forall {Ar} (l : list (con R Ar)) x0, Forall known_type l -> exists cl cu w,
  get_constraint_bounds (CMany (map CDict l)) x0 = Ok (cl, cu) /\ wrap_cons (A := R) (map CDict l) = Ok w /\
  forall ops x, Forall (fun c => length (c_fun c x (c_args c)) = length (c_fun c x0 (c_args c))) l ->
    (within cl (snd (wrapper_constraints (after w ops) x)) cu <-> Forall (fun c => satisfied c x) l).
Proof.
  intros Ar l x0 HK. do 3 eexists. split; [apply bounds_ok; auto|]. split; [apply wrap_ok|]. intros ops x HD.
  destruct (after_sound ops (map (fun c => (c, [])) l) (wsound_new l)) as [W1 W2].
  destruct (wrapper_constraints_eq _ x W1) as (_ & _ & E). rewrite E, W2, map_fst_new. apply feasible; auto.
Qed.
Lemma C80_wrapper_l : forall {Ar} (l : list (con R Ar)) w ops x, wrap_cons (A := R) (map CDict l) = Ok w ->
  snd (wrapper_constraints (after w ops) x) = concat (map (fun c => c_fun c x (c_args c)) l) /\
  snd (wrapper_jacobian (after w ops) x) = concat (map (fun c => match c_jac c with Some j => j x (c_args c) | None => snd (jac_forward (c_fun c) wrap_eps [] x (c_args c)) end) l).
Proof.
  intros Ar l w ops x E. rewrite wrap_ok in E. apply Ok_inj in E as <-.
  destruct (after_sound ops (map (fun c => (c, [])) l) (wsound_new l)) as [W1 W2].
  destruct (wrapper_constraints_eq _ x W1) as (_ & _ & E). destruct (wrapper_jacobian_eq _ x W1) as (_ & _ & E').
  rewrite E, E', W2, map_fst_new. auto.
Qed.

(** ** the call *)
Lemma minimize_eq : forall {Ar} solve x0 (l : list (con R Ar)) tol d, Forall known_type l -> exists cl cu w,
  minimize_ipopt solve x0 (CMany (map CDict l)) tol d = (solver_options tol d, solve (solver_options tol d) cl cu w x0).
Proof.
  intros Ar solve x0 l tol d HK. unfold minimize_ipopt. cbn [con_list]. rewrite wrap_ok. unfold get_constraint_bounds. cbn [con_list].
  rewrite bounds_ok by auto. do 3 eexists. reflexivity.
Qed.
Lemma minimize_err : forall {Ar} solve x0 (l : list (con R Ar)) tol d, ~ Forall known_type l ->
  minimize_ipopt solve x0 (CMany (map CDict l)) tol d = (d, Err ValueError).
Proof.
  intros Ar solve x0 l tol d HK. unfold minimize_ipopt. cbn [con_list]. rewrite wrap_ok. unfold get_constraint_bounds. cbn [con_list].
  rewrite bounds_bad by auto. reflexivity.
Qed.
Lemma minimize_nested : forall {Ar} solve x0 (l : list (con R Ar)) l1 l2 tol d,
  minimize_ipopt solve x0 (CMany (map CDict l ++ CSeq l1 :: l2)) tol d = (d, Err TypeError).
Proof. intros. unfold minimize_ipopt. cbn [con_list]. rewrite wrap_nested. reflexivity. Qed.
Lemma C81_options_l : forall {Ar} solve x0 (l : list (con R Ar)) tol d, Forall known_type l -> keys_distinct d ->
  exists d' cl cu w, minimize_ipopt solve x0 (CMany (map CDict l)) tol d = (d', solve d' cl cu w x0) /\ keys_distinct d' /\
    (forall s, plain_name s -> dget (KBytes s) d' = match user_option d s with Some v => Some v | None => default_option tol s end) /\
    dget (KBytes "print_level") d' = Some (match user_option d "print_level", user_option d "disp" with Some v, _ => v | None, Some v => v | None, None => VInt 0 end) /\
    dget (KBytes "max_iter") d' = (match user_option d "max_iter" with Some v => Some v | None => user_option d "maxiter" end) /\
    (forall s, dget (KStr s) d' = None).
Proof.
  intros Ar solve x0 l tol d HK ND. destruct (minimize_eq solve x0 l tol d HK) as (cl & cu & w & E).
  exists (solver_options tol d), cl, cu, w. split; [exact E|]. split; [apply solver_distinct; auto|]. split; [|split; [|split]].
  - intros s (H1 & H2 & H3 & H4). rewrite (solver_get tol d s ND). apply String.eqb_neq in H1, H2, H3, H4. rewrite H1, H2, H3, H4. reflexivity.
  - rewrite (solver_get tol d _ ND). cbn [String.eqb Ascii.eqb Bool.eqb]. destruct (user_option d "print_level"), (user_option d "disp"); reflexivity.
  - rewrite (solver_get tol d _ ND). reflexivity.
  - intros s. apply solver_str; auto.
Qed.
Lemma C81_history_l : forall {Ar} solve1 solve2 x1 x2 (l1 l2 : list (con R Ar)) tol1 tol2 d, Forall known_type l1 -> Forall known_type l2 -> keys_distinct d ->
  let d1 := fst (minimize_ipopt solve1 x1 (CMany (map CDict l1)) tol1 d) in
  let d2 := fst (minimize_ipopt solve2 x2 (CMany (map CDict l2)) tol2 d1) in
  (forall s, dget (KBytes s) d2 = dget (KBytes s) d1) /\
  (user_option d "tol" = None -> dget (KBytes "tol") d2 = Some (if truthy tol1 then tol1 else VFloat (1 # 100000000))).
Proof.
  intros Ar solve1 solve2 x1 x2 l1 l2 tol1 tol2 d H1 H2 ND. cbv zeta.
  destruct (minimize_eq solve1 x1 l1 tol1 d H1) as (cl & cu & w & ->). cbn [fst].
  destruct (minimize_eq solve2 x2 l2 tol2 (solver_options tol1 d) H2) as (cl' & cu' & w' & ->). cbn [fst].
  split; [intros; apply solver_twice; auto|intros E; apply sticky_tol; auto].
Qed.
