(** Property theorems C80-C83: the interior-point wrapper. *)

From Coq Require Import String Reals QArith List Arith ZArith Bool Lia Lra.
Import ListNotations.
From Verif Require Import Num Err Vec VecR L_Mat S_Stats M_Ipopt S_Ipopt L_Ipopt L_Ipopt2.
Import List. Open Scope R_scope.

(** concrete cases *)
Definition eq1 : con R R := mk_con "eq" (fun x a => [nth 0 x 0 - a]) None 1.
Definition in1 : con R R := mk_con "ineq" (fun x a => [nth 0 x 0; nth 1 x 0 * a]) None 2.
Definition bad1 : con R R := mk_con "le" (fun x a => [nth 0 x 0 - a]) None 1.
Lemma eqin_known : Forall known_type [eq1; in1]. Proof. constructor; [left; reflexivity|]. constructor; [right; reflexivity|constructor]. Qed.
Lemma bad_unknown : ~ Forall known_type [eq1; bad1].
Proof. intros HF. inversion HF as [|? ? _ HF']; subst. inversion HF' as [|? ? Hk _]; subst. destruct Hk as [E|E]; discriminate E. Qed.
Definition opt1 : dict := [(KStr "maxiter", VInt 10); (KBytes "tol", VFloat 1); (KStr "acceptable_iter", VInt 3)].
Lemma opt1_distinct : keys_distinct opt1.
Proof. unfold keys_distinct, opt1. cbn. repeat constructor; cbn; intuition discriminate. Qed.
Lemma nil_distinct : keys_distinct []. Proof. constructor. Qed.

(* ------------------------------------------------------------------ *)
(** C80 *)
Theorem C80_bounds : forall {Ar} (l : list (con R Ar)) x0, Forall known_type l ->
  get_constraint_bounds (CMany (map CDict l)) x0 =
  Ok (concat (map (fun c => repeat 0 (length (c_fun c x0 (c_args c)))) l),
      concat (map (fun c => repeat (if (c_type c =? "eq")%string then 0 else 10000000000000000000) (length (c_fun c x0 (c_args c)))) l)).
Proof. intros Ar l x0. exact (bounds_ok l x0). Qed.
Print Assumptions C80_bounds.
(** the point the solver sees is within the bounds exactly if the user's constraints hold,
    whatever was evaluated before *)
Theorem C80_feasible : forall {Ar} (l : list (con R Ar)) x0, Forall known_type l -> exists cl cu w,
  get_constraint_bounds (CMany (map CDict l)) x0 = Ok (cl, cu) /\ wrap_cons (A := R) (map CDict l) = Ok w /\
  forall ops x, Forall (fun c => length (c_fun c x (c_args c)) = length (c_fun c x0 (c_args c))) l ->
    (within cl (snd (wrapper_constraints (after w ops) x)) cu <-> Forall (fun c => satisfied c x) l).
Proof. exact @C80_feasible_l. Qed.
Print Assumptions C80_feasible.
Theorem C80_values : forall {Ar} (l : list (con R Ar)) w ops x, wrap_cons (A := R) (map CDict l) = Ok w ->
  snd (wrapper_constraints (after w ops) x) = concat (map (fun c => c_fun c x (c_args c)) l) /\
  snd (wrapper_jacobian (after w ops) x) = concat (map (fun c => match c_jac c with Some j => j x (c_args c) | None => snd (jac_forward (c_fun c) (1 / 100000000) [] x (c_args c)) end) l).
Proof. exact @C80_wrapper_l. Qed.
Print Assumptions C80_values.
Theorem C80_unknown_type : forall {Ar} solve x0 (l : list (con R Ar)) tol d, ~ Forall known_type l ->
  minimize_ipopt solve x0 (CMany (map CDict l)) tol d = (d, Err ValueError).
Proof. exact @minimize_err. Qed.
Print Assumptions C80_unknown_type.
Theorem C80_nested : forall {Ar} solve x0 (l : list (con R Ar)) l1 l2 tol d,
  minimize_ipopt solve x0 (CMany (map CDict l ++ CSeq l1 :: l2)) tol d = (d, Err TypeError).
Proof. exact @minimize_nested. Qed.
Print Assumptions C80_nested.
Theorem C80_single : forall {Ar} (solve : dict -> list R -> list R -> wrapper -> list R -> res (list R)) x0 (c : con R Ar) tol d, minimize_ipopt solve x0 (COne c) tol d = minimize_ipopt solve x0 (CMany [CDict c]) tol d.
Proof. reflexivity. Qed.
Print Assumptions C80_single.
Example C80_case : Forall known_type [eq1; in1] /\ ~ Forall known_type [eq1; bad1] /\
  Forall (fun c => length (c_fun c [1; 2] (c_args c)) = length (c_fun c [3; 4] (c_args c))) [eq1; in1] /\
  Forall (fun c => satisfied c [1; 2]) [eq1; in1] /\ ~ Forall (fun c => satisfied c [2; 2]) [eq1; in1].
Proof.
  split; [exact eqin_known|]. split; [exact bad_unknown|]. split; [repeat constructor|]. split.
  - apply Forall_cons; [|apply Forall_cons; [|apply Forall_nil]]; intros v Hv; cbn in Hv |- *.
    + destruct Hv as [<-|[]]; lra.
    + destruct Hv as [<-|[<-|[]]]; lra.
  - intros HF. inversion HF as [|? ? Hs _]; subst. specialize (Hs (2 - 1) (or_introl eq_refl)). cbn in Hs. lra.
Qed.

(* ------------------------------------------------------------------ *)
(** C81 *)
Theorem C81_idempotent : forall d, keys_distinct d -> convert_to_bytes (convert_to_bytes d) = convert_to_bytes d.
Proof. exact C81_idempotent_l. Qed.
Print Assumptions C81_idempotent.
Theorem C81_values : forall d, keys_distinct d ->
  (forall s, dget (KBytes s) (convert_to_bytes d) = user_option d s) /\ (forall s, dget (KStr s) (convert_to_bytes d) = None) /\
  (forall j, dget (KOther j) (convert_to_bytes d) = dget (KOther j) d).
Proof. exact C81_values_l. Qed.
Print Assumptions C81_values.
(** what the solver receives; d' is also what the caller's dictionary has become *)
Theorem C81_options : forall {Ar} solve x0 (l : list (con R Ar)) tol d, Forall known_type l -> keys_distinct d ->
  exists d' cl cu w, minimize_ipopt solve x0 (CMany (map CDict l)) tol d = (d', solve d' cl cu w x0) /\ keys_distinct d' /\
    (forall s, plain_name s -> dget (KBytes s) d' = match user_option d s with Some v => Some v | None => default_option tol s end) /\
    dget (KBytes "print_level") d' = Some (match user_option d "print_level", user_option d "disp" with Some v, _ => v | None, Some v => v | None, None => VInt 0 end) /\
    dget (KBytes "max_iter") d' = (match user_option d "max_iter" with Some v => Some v | None => user_option d "maxiter" end) /\
    (forall s, dget (KStr s) d' = None).
Proof. exact @C81_options_l. Qed.
Print Assumptions C81_options.
(** a second call with the same dictionary passes the options of the first, tolerance included *)
Theorem C81_sticky : forall {Ar} solve1 solve2 x1 x2 (l1 l2 : list (con R Ar)) tol1 tol2 d, Forall known_type l1 -> Forall known_type l2 -> keys_distinct d ->
  let d1 := fst (minimize_ipopt solve1 x1 (CMany (map CDict l1)) tol1 d) in
  let d2 := fst (minimize_ipopt solve2 x2 (CMany (map CDict l2)) tol2 d1) in
  (forall s, dget (KBytes s) d2 = dget (KBytes s) d1) /\
  (user_option d "tol" = None -> dget (KBytes "tol") d2 = Some (if truthy tol1 then tol1 else VFloat (1 # 100000000))).
Proof. exact @C81_history_l. Qed.
Print Assumptions C81_sticky.
(** "the caller's dictionary is not changed" is false *)
Theorem C81_unchanged_refuted : exists (solve : dict -> list R -> list R -> wrapper -> list R -> res (list R)) (x0 : list R) (l : list (con R R)) d t1 t2,
  Forall known_type l /\ keys_distinct d /\ truthy t2 = true /\
  fst (minimize_ipopt solve x0 (CMany (map CDict l)) t1 d) <> d /\
  dget (KBytes "tol") (fst (minimize_ipopt solve x0 (CMany (map CDict l)) t2 d)) = Some t2 /\
  dget (KBytes "tol") (fst (minimize_ipopt solve x0 (CMany (map CDict l)) t2 (fst (minimize_ipopt solve x0 (CMany (map CDict l)) t1 d)))) <> Some t2.
Proof.
  exists (fun _ _ _ _ x => Ok x), [1; 2], [eq1; in1], [], (VFloat (1 # 2)), (VFloat (1 # 4)).
  split; [exact eqin_known|]. split; [exact nil_distinct|]. split; [reflexivity|]. split; [|split; [reflexivity|]]; vm_compute; discriminate.
Qed.
Print Assumptions C81_unchanged_refuted.
Example C81_case : keys_distinct opt1 /\ plain_name "acceptable_iter" /\ user_option opt1 "maxiter" = Some (VInt 10) /\ user_option [] "tol" = None /\
  dget (KBytes "max_iter") (solver_options VNone opt1) = Some (VInt 10) /\ dget (KBytes "tol") (solver_options VNone opt1) = Some (VFloat 1).
Proof. split; [exact opt1_distinct|]. split; [repeat split; discriminate|]. repeat split. Qed.

(* ------------------------------------------------------------------ *)
(** C82; [c] is whatever earlier evaluations with the same arguments left in the cache *)
Theorem C82_shape : forall {Ar} (f : list R -> Ar -> list R) a n m, outputs f a n m -> forall x, length x = n -> forall c, sound f a c ->
  forall eps, is_matrix m n (snd (jac_forward f eps c x a)) /\ ((0 < n)%nat -> is_matrix m n (snd (jac_central f eps c x a))).
Proof. intros Ar f a n m Hm x Hx c Hc eps. split; [exact (forward_matrix f a n m Hm x Hx c Hc eps)|exact (central_matrix f a n m Hm x Hx c Hc eps)]. Qed.
Print Assumptions C82_shape.
Theorem C82_forward_affine : forall {Ar} (f : list R -> Ar -> list R) a n m, outputs f a n m -> forall x, length x = n -> forall c, sound f a c ->
  forall eps r i, eps <> 0 -> (r < m)%nat -> (i < n)%nat -> affine_line (comp f a r) x i ->
  is_partial (comp f a r) x i (cell (snd (jac_forward f eps c x a)) r i).
Proof. exact @forward_exact. Qed.
Print Assumptions C82_forward_affine.
Theorem C82_central_quadratic : forall {Ar} (f : list R -> Ar -> list R) a n m, outputs f a n m -> forall x, length x = n -> forall c, sound f a c ->
  forall eps r i, eps <> 0 -> (r < m)%nat -> (i < n)%nat -> quadratic_line (comp f a r) x i ->
  is_partial (comp f a r) x i (cell (snd (jac_central f eps c x a)) r i).
Proof. exact @central_exact. Qed.
Print Assumptions C82_central_quadratic.
(** for any differentiable function the error vanishes with the step *)
Theorem C82_consistent : forall {Ar} (f : list R -> Ar -> list R) a n m, outputs f a n m -> forall x, length x = n -> forall c, sound f a c ->
  forall r i d, (r < m)%nat -> (i < n)%nat -> is_partial (comp f a r) x i d -> forall tol, 0 < tol -> exists delta, 0 < delta /\
  forall eps, eps <> 0 -> Rabs eps < delta ->
    Rabs (cell (snd (jac_forward f eps c x a)) r i - d) < tol /\ Rabs (cell (snd (jac_central f eps c x a)) r i - d) < tol.
Proof.
  intros Ar f a n m Hm x Hx c Hc r i d Hr Hi HP tol Ht.
  destruct (forward_consistent f a n m Hm x Hx c Hc r i d Hr Hi HP tol Ht) as (d1 & P1 & H1).
  destruct (central_consistent f a n m Hm x Hx c Hc r i d Hr Hi HP tol Ht) as (d2 & P2 & H2).
  exists (Rmin d1 d2). split; [apply Rmin_pos; auto|]. intros eps He Hlt. pose proof (Rmin_l d1 d2). pose proof (Rmin_r d1 d2).
  split; [apply H1|apply H2]; auto; lra.
Qed.
Print Assumptions C82_consistent.
(** forward differences are not exact for quadratics *)
Theorem C82_forward_quadratic_refuted : exists (f : list R -> unit -> list R) x eps, outputs f tt 1 1 /\ eps <> 0 /\ quadratic_line (comp f tt 0) x 0 /\
  ~ is_partial (comp f tt 0) x 0 (cell (snd (jac_forward f eps [] x tt)) 0 0).
Proof.
  exists (fun x _ => [nth 0 x 0 * nth 0 x 0]), [0], 1. assert (HO : outputs (fun x (_ : unit) => [nth 0 x 0 * nth 0 x 0]) tt 1 1) by (intros x _; reflexivity).
  split; [exact HO|]. split; [lra|].
  assert (HQ : quadratic_line (comp (fun x (_ : unit) => [nth 0 x 0 * nth 0 x 0]) tt 0) [0] 0) by (exists 0, 0, 1; intros t; cbn; ring).
  split; [exact HQ|]. intros HP.
  assert (HC := central_exact _ tt 1 1 HO [0] eq_refl [] (sound_nil _ _) 1 0 0 R1_neq_R0 ltac:(lia) ltac:(lia) HQ).
  unfold is_partial in HP, HC. pose proof (uniqueness_limite _ _ _ _ HP HC) as E.
  rewrite (forward_cell _ tt 1 1 HO [0] eq_refl [] (sound_nil _ _)) in E by lia.
  rewrite (central_cell _ tt 1 1 HO [0] eq_refl [] (sound_nil _ _)) in E by lia. cbn in E. lra.
Qed.
Print Assumptions C82_forward_quadratic_refuted.
Example C82_case : outputs (fun x (a : R) => [nth 0 x 0 * nth 1 x 0; a * nth 0 x 0 * nth 0 x 0]) 3 2 2 /\
  affine_line (comp (fun x (a : R) => [nth 0 x 0 * nth 1 x 0; a * nth 0 x 0 * nth 0 x 0]) 3 0) [1; 2] 1 /\
  quadratic_line (comp (fun x (a : R) => [nth 0 x 0 * nth 1 x 0; a * nth 0 x 0 * nth 0 x 0]) 3 1) [1; 2] 0.
Proof.
  split; [intros x _; reflexivity|]. split.
  - exists 2, 1. intros t. cbn. ring.
  - exists 3, 6, 3. intros t. cbn. ring.
Qed.

(* ------------------------------------------------------------------ *)
(** C83 *)
Theorem C83_same_args : forall {Ar} (f : list R -> Ar -> list R) eps a h, (forall o a', In (o, a') h -> jop_ok o /\ a' = a) ->
  Forall2 (expected f eps a) (map fst h) (jrun f eps [] h).
Proof. exact @jrun_expected. Qed.
Print Assumptions C83_same_args.
(** with other arguments at a point seen before the old value is returned *)
Theorem C83_args_refuted : exists (f : list R -> R -> list R) eps x a b,
  jrun f eps [] [(JCall x, a); (JCall x, b)] = [[f x a]; [f x a]] /\ f x a <> f x b.
Proof.
  exists (fun x a => [a]), 1, [0], 1, 2. split.
  - assert (E : forall v : list R, veqb v v = true) by (intros; apply veqb_eq; reflexivity).
    unfold jrun, jresult, cached_call. cbn [find app fst snd]. rewrite E. reflexivity.
  - intros E. injection E. lra.
Qed.
Print Assumptions C83_args_refuted.
(** objective and gradient with jac=True *)
Theorem C83_fun_with_grad : forall (f : list R -> R * list R) ops h, fresh_writes ops -> fg_run f h fg0 ops = fg_plain f h ops.
Proof. exact fg_run_plain. Qed.
Print Assumptions C83_fun_with_grad.
(** ... but a solver that reuses its array is given the value at the old point *)
Theorem C83_inplace_refuted : exists (f : list R -> R * list R) h v,
  fg_run f h fg0 [FObjective 0; FWrite 0 v; FObjective 0] = [Some (Ok (inl (fst (f (h 0%nat))))); None; Some (Ok (inl (fst (f (h 0%nat)))))] /\
  fst (f v) <> fst (f (h 0%nat)).
Proof.
  exists (fun x => (nth 0 x 0, [1])), (fun _ => [0]), [5]. split; [|cbn; lra].
  cbn [fg_run evaluate_fun_with_grad fg_last fg0]. assert (E : forall v : list R, veqb v v = true) by (intros; apply veqb_eq; reflexivity). rewrite E. reflexivity.
Qed.
Print Assumptions C83_inplace_refuted.
Example C83_case : fresh_writes [FWrite 0 [1]; FObjective 0; FGradient 0; FWrite 1 [2]; FGradient 1] /\
  forall o a', In (o, a') [(JCall [1; 2], 3); (JCentral [1; 2], 3); (JForward [4], 3); (JCall [1; 2], 3)] -> jop_ok o /\ a' = 3.
Proof.
  split.
  - intros i j l v E Hij. destruct j as [|[|[|[|[|j]]]]]; cbn in E; try discriminate; [lia|injection E as <- <-|destruct j; discriminate].
    destruct i as [|[|[|i]]]; cbn; split; discriminate || lia.
  - intros o a' Hin. cbn in Hin. repeat (destruct Hin as [Hin|Hin]; [injection Hin as <- <-; split; [cbn; try exact I; discriminate|reflexivity]|]). destruct Hin.
Qed.
