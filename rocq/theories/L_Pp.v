(** ppdire.fit: inversion of a successful fit, the chain of components. *)

From Coq Require Import String Reals List Arith ZArith Bool Lia Lra.
Import List. Import ListNotations.
From Verif Require Import Num Err Vec VecR L_Mat L_Lin L_Matmul L_Deflate M_Utils M_Preproc M_Robcent L_Stats L_Scaling M_Dicomo M_Ipopt M_Ppdire
  S_Stats S_Regress L_Snipls L_Snipls2 S_Ppdire.
Open Scope R_scope.

Definition rect (X : list (list R)) : Prop := wf (length X) (ncols X) X.
Lemma wf_rect : forall n p X, wf n p X -> rect X.
Proof.
  intros n p X HX. unfold rect. destruct X as [|r X]; [split; [auto|constructor]|]. rewrite (wf_ncols n p) by (auto; destruct HX; cbn in *; lia).
  rewrite (wf_length _ _ _ HX). exact HX.
Qed.
Lemma check_input_rect : forall X, rect X -> rect (check_input (A2 X)).
Proof.
  intros X HX. unfold check_input. destruct (_ && _); auto. apply (wf_rect (length (hd [] X)) 1). split; [apply map_length|].
  apply Forall_forall. intros r Hr. apply in_map_iff in Hr as (a & <- & _). reflexivity.
Qed.
Lemma scale_data_rect : forall X m s Z, rect X -> scale_data X m s = Ok Z -> rect Z.
Proof.
  intros X m s Z HX E. destruct X as [|r X].
  - assert (Z = []); [|subst; split; [auto|constructor]]. unfold scale_data in E. cbn [ncols hd length Nat.eqb] in E.
    destruct m as [|m0 [|m1 m]]; cbn [length Nat.eqb bind] in E; try discriminate; destruct (handle_zeros s) as [|s0 [|s1 s']]; cbn in E; try discriminate; inversion E; reflexivity.
  - apply (wf_rect (length (r :: X)) (ncols (r :: X))). apply (scale_data_wf _ _ (r :: X) Z m s); auto. cbn; lia.
Qed.
Lemma matmul_rect : forall X Y : list (list R), rect (matmul X Y).
Proof.
  intros X Y. apply (wf_rect (length X) (length (cols Y))). split; [apply map_length|]. apply Forall_forall. intros r Hr.
  apply in_map_iff in Hr as (x & <- & _). apply map_length.
Qed.
Lemma rect_map : forall (g : R -> R) X, rect X -> rect (map (map g) X).
Proof. intros g X HX. apply (wf_rect (length X) (ncols X)). apply wf_mapmap; auto. Qed.

Lemma fit_transform_inv : forall env c s (t : R) x st Z, sc_fit_transform env (new_scaler c s t) x = (st, Ok Z) ->
  exists m v, a_col_loc st = Some m /\ a_col_sca st = Some v /\ scale_data (check_input x) m v = Ok Z /\
    location env c t (check_input x) = Ok m /\ scale_est env s t (check_input x) = Ok v.
Proof.
  intros env c s t x st Z E. apply C01_fit_transform_l in E as (st1 & F1 & F2). apply fit_ok_inv in F1 as (m & v & Hl & Hs & _ & _ & ->).
  exists m, v. unfold sc_transform in F2. cbn [a_center a_scale a_col_loc a_col_sca] in F2.
  destruct (scale_data (check_input x) m v) as [Z'|] eqn:Es; [|discriminate]. injection F2 as <- <-. cbn [a_col_loc a_col_sca]. auto.
Qed.
Lemma pp_scaled_inv : forall (env : pp_env R) c s t X m v Z, pp_scaled env c s t X = Ok (m, v, Z) ->
  scale_data (check_input (A2 X)) m v = Ok Z /\ location (pe_prep env) c t (check_input (A2 X)) = Ok m /\ scale_est (pe_prep env) s t (check_input (A2 X)) = Ok v.
Proof.
  intros env c s t X m v Z E. unfold pp_scaled in E. destruct (sc_fit_transform _ _ _) as [st [Z'|e]] eqn:Ef; [|discriminate].
  apply fit_transform_inv in Ef as (m' & v' & Em & Ev & Es & Hl & Hs). rewrite Em, Ev in E. inversion E; subst. auto.
Qed.
Lemma pp_scaled_rect : forall (env : pp_env R) c s t X m v Z, rect X -> pp_scaled env c s t X = Ok (m, v, Z) -> rect Z.
Proof. intros env c s t X m v Z HX E. apply pp_scaled_inv in E as [E _]. apply (scale_data_rect _ _ _ _ (check_input_rect _ HX) E). Qed.

Lemma nsqr_vnorm : forall t : list R, nsqr (vnorm t) = dot t t.
Proof.
  intros t. unfold nsqr, vnorm. rnum. rewrite sqrt_sqrt.
  - unfold vsqnorm, dot. f_equal. rewrite map2_same. reflexivity.
  - apply vsum_map_nonneg. intros x _. unfold nsqr. rnum. apply Rle_0_sqr.
Qed.

(** ** one component *)
Definition gfact (prm : pparams R) (most : arr R -> dkw R -> res R) (kw : dkw R) (two : bool) (K : option (list (list R))) (n p : nat)
    (E : list (list R)) (c : pcomp R) : Prop :=
  wf n p E /\ length (g_dir c) = p /\ g_t c = matvec E (g_dir c) /\
  g_p c = vscale (/ dot (g_t c) (g_t c)) (tmatvec E (g_t c)) /\ g_E c = msub E (outer (g_t c) (g_p c)) /\
  length (g_w c) = p /\ (K = None -> g_w c = g_dir c) /\
  (two = true -> exists tw u, npdot E (g_w c) = Ok tw /\ most (as_col tw) kw = Ok u /\ g_crit c = if pp_square prm then u * u else u).

Lemma tmatvec_len : forall (E : list (list R)) t, length (tmatvec E t) = ncols E.
Proof. intros. unfold tmatvec, cols. rewrite !map_length, seq_length. reflexivity. Qed.

Lemma component_inv : forall prm most kw two K n p E wi omax c, rect E -> (0 < n)%nat ->
  component prm most kw two K n p E (wi, omax) = Ok c ->
  gfact prm most kw two K n p E c /\ g_dir c = wi /\
  match omax with Some o => g_max c = o | None => most (as_col (g_t c)) kw = Ok (g_max c) end.
Proof.
  intros prm most kw two K n p E wi omax c HE Hn Ec. unfold component in Ec.
  destruct (npdot E wi) as [t|e] eqn:Et; cbn [bind] in Ec; [|discriminate]. unfold npdot in Et.
  destruct (Nat.eqb_spec (ncols E) (length wi)) as [El|]; [|discriminate]. apply Ok_inj in Et. 
  destruct (match omax with Some o => Ok o | None => most (as_col t) kw end) as [mx|e] eqn:Em; cbn [bind] in Ec; [|discriminate].
  set (w := match K with None => wi | Some K' => _ end) in Ec.
  set (pl := map (fun v => ndiv v (nsqr (vnorm t))) (tmatvec E t)) in Ec.
  destruct (negb _) eqn:Ek; [discriminate|]. apply negb_false_iff, andb_prop in Ek as [Ek E3]. apply andb_prop in Ek as [E1 E2].
  apply Nat.eqb_eq in E1, E2, E3. unfold pl in E3. rewrite map_length, tmatvec_len in E3. rewrite <- Et, matvec_length in E2.
  destruct (if two then _ else _) as [cr|e] eqn:Ecr; cbn [bind] in Ec; [|discriminate]. apply Ok_inj in Ec. subst c.
  unfold gfact. cbn [g_dir g_t g_p g_E g_w g_max g_crit].
  assert (Hwf : wf n p E) by (unfold rect in HE; rewrite E2, E3 in HE; exact HE).
  assert (Epl : pl = vscale (/ dot t t) (tmatvec E t)).
  { unfold pl, vscale. apply map_ext. intros v. rewrite nsqr_vnorm. rnum. unfold Rdiv. ring. }
  split; [|split; [reflexivity|destruct omax; [apply Ok_inj in Em; auto|exact Em]]].
  split; [exact Hwf|]. split; [lia|]. split; [auto|]. split; [exact Epl|]. split; [reflexivity|]. split; [exact E1|].
  split; [intros ->; reflexivity|]. intros ->. destruct (npdot E w) as [tw|e] eqn:Ew; cbn [bind] in Ecr; [|discriminate].
  destruct (most (as_col tw) kw) as [u|e] eqn:Eu; cbn [bind] in Ecr; [|discriminate]. apply Ok_inj in Ecr. exists tw, u. split; [first [exact Ew|reflexivity]|]. split; [first [exact Eu|reflexivity]|].
  rewrite <- Ecr. reflexivity.
Qed.

Lemma g_E_rect : forall prm most kw two K n p E c, gfact prm most kw two K n p E c -> rect (g_E c).
Proof.
  intros prm most kw two K n p E c (HE & Hd & Ht & Hp & He & _). rewrite He. apply (wf_rect n p). apply wf_msub; auto.
  assert (Hlt : length (g_t c) = n) by (rewrite Ht, matvec_length; apply (wf_length _ _ _ HE)).
  destruct (Nat.eq_dec n 0) as [Z0|N0].
  - rewrite Z0 in *. rewrite (proj1 (length_zero_iff_nil _) Hlt). split; [reflexivity|constructor].
  - assert (Hlp : length (g_p c) = p) by (rewrite Hp, vscale_length, tmatvec_len; apply (wf_ncols n p); auto; lia).
    rewrite <- Hlt, <- Hlp. apply wf_outer.
Qed.

Fixpoint gchain (prm : pparams R) most kw two K n p (E : list (list R)) (l : list (pcomp R)) : Prop :=
  match l with [] => True | c :: l' => gfact prm most kw two K n p E c /\ gchain prm most kw two K n p (g_E c) l' end.
Definition todc (c : pcomp R) : dcomp := mk_dcomp (g_dir c) (g_t c) (g_p c).

Lemma gchain_chain : forall prm most kw two K n p l E, gchain prm most kw two K n p E l -> Forall (fun c => dot (g_t c) (g_t c) <> 0) l ->
  is_chain p E (map todc l).
Proof.
  intros prm most kw two K n p l. induction l as [|c l IH]; intros E Hc HF; [exact I|]. destruct Hc as ((H1 & H2 & H3 & H4 & H5 & _) & Hc). inversion HF as [|? ? Hz HF']; subst.
  cbn [map is_chain todc d_w d_t d_q]. repeat (split; auto). unfold deflated. cbn [d_t d_q todc]. rewrite <- H5. apply IH; auto.
Qed.

(** ** where the directions come from *)
Definition max_fact (env : pp_env R) (prm : pparams R) (most : arr R -> dkw R -> res R) (kw : dkw R) (d : dict) (p : nat) (E : list (list R)) (c : pcomp R) : Prop :=
  match pp_optim prm with
  | OGrid => exists ndir maxiter, opt_int "ndir" d = Ok ndir /\ opt_int "maxiter" d = Ok maxiter /\
      grid_search (pe_trig env) most (plane_args env prm kw (Z.to_nat ndir) AmTuple) (plane_args env prm kw (Z.to_nat ndir) AmArray) maxiter E p = Ok (g_dir c, g_max c)
  | _ => most (as_col (g_t c)) kw = Ok (g_max c) /\ exists x, length x = p /\ g_dir c = map (fun v => v / sqrt (vsum (map nsqr x))) x
  end.

Lemma direction_inv : forall (env : pp_env R) prm most kw d p E d' w o, direction env prm most kw d p E = (d', Ok (w, o)) ->
  match pp_optim prm with
  | OGrid => d' = d /\ exists ndir maxiter ob, o = Some ob /\ opt_int "ndir" d = Ok ndir /\ opt_int "maxiter" d = Ok maxiter /\
      grid_search (pe_trig env) most (plane_args env prm kw (Z.to_nat ndir) AmTuple) (plane_args env prm kw (Z.to_nat ndir) AmArray) maxiter E p = Ok (w, ob)
  | _ => o = None /\ exists x, length x = p /\ w = map (fun v => v / sqrt (vsum (map nsqr x))) x
  end.
Proof.
  intros env prm most kw d p E d' w o Ed. unfold direction in Ed. destruct (pp_optim prm) as [| | |meth].
  - apply pair_equal_spec in Ed as [Ed0 E2]. split; [auto|]. destruct (opt_int "ndir" d) as [nd|] eqn:En; cbn [bind] in E2; [|discriminate].
    destruct (opt_int "maxiter" d) as [mi|] eqn:Em; cbn [bind] in E2; [|discriminate].
    destruct (grid_search (A := R) _ _ _ _ _ _ _) as [[w' ob]|] eqn:Eg; cbn [bind] in E2; [|discriminate]. inversion E2; subst. exists nd, mi, ob. auto.
  - destruct E as [|x0 E]; [discriminate|]. apply pair_equal_spec in Ed as [_ E2]. destruct (pe_opt (A := R) _ _ _ _ _) as [x|]; cbn [bind] in E2; [|discriminate].
    destruct (Nat.eqb_spec (length x) p); [|discriminate]. inversion E2; subst. split; auto. exists x. auto.
  - destruct E as [|x0 E]; [discriminate|]. apply pair_equal_spec in Ed as [_ E2]. destruct (pe_opt (A := R) _ _ _ _ _) as [x|]; cbn [bind] in E2; [|discriminate].
    destruct (Nat.eqb_spec (length x) p); [|discriminate]. inversion E2; subst. split; auto. exists x. auto.
  - destruct E as [|x0 E]; [discriminate|]. apply pair_equal_spec in Ed as [_ E2]. destruct (negb (str_keys d)); [discriminate|]. destruct (pe_opt (A := R) _ _ _ _ _) as [x|]; cbn [bind] in E2; [|discriminate].
    destruct (Nat.eqb_spec (length x) p); [|discriminate]. inversion E2; subst. split; auto. exists x. auto.
Qed.

Fixpoint mchain (env : pp_env R) prm most kw d p (E : list (list R)) (l : list (pcomp R)) : Prop :=
  match l with [] => True | c :: l' => max_fact env prm most kw d p E c /\ mchain env prm most kw d p (g_E c) l' end.
Lemma mchain_d : forall env prm most kw d d' p l E, (pp_optim prm = OGrid -> d' = d) -> mchain env prm most kw d' p E l -> mchain env prm most kw d p E l.
Proof.
  intros env prm most kw d d' p l. induction l as [|c l IH]; intros E Hd Hc; [exact I|]. destruct Hc as [H1 H2]. split; [|apply IH; auto].
  unfold max_fact in *. destruct (pp_optim prm); auto. rewrite <- Hd; auto.
Qed.

(** ** the loop *)
Definition yfact (env : pp_env R) (prm : pparams R) (p : nat) (sX : list R) (y : yinfo R) (cs : list (pcomp R)) (yc : list (R * list R * list R)) (i : nat)
    (c : pcomp R) (q : R * list R * list R) : Prop :=
  length sX = p /\ inner_coef env prm (yi_kw y) (yi_s y) (yi_0 y) (g_t c) = Ok (fst (fst q)) /\
  exists Ri, rotations env p (firstn (S i) cs) = Ok Ri /\ snd q = matvec Ri (map (fun q => fst (fst q)) (firstn (S i) yc)) /\
    snd (fst q) = map2 (fun s b => (yi_sca y / s) * b) sX (snd q).

Definition pc0 : pcomp R := mk_pcomp [] [] [] [] 0 0 [].
Definition q0 : R * list R * list R := (0, [], []).

Lemma loop_inv : forall (env : pp_env R) k prm most kw yi K n p sX d E cs yc R0 d' cs' yc' R', rect E -> (0 < n)%nat -> (yi <> None -> length yc = length cs) ->
  pp_loop env k prm most kw yi K n p sX d E cs yc R0 = (d', Ok (cs', yc', R')) ->
  exists l ly, cs' = cs ++ l /\ length l = k /\ yc' = yc ++ ly /\
    gchain prm most kw (match yi with Some _ => true | None => false end) K n p E l /\ mchain env prm most kw d p E l /\
    ((0 < k)%nat -> rotations env p cs' = Ok R') /\ (k = 0%nat -> R' = R0) /\
    match yi with
    | None => ly = []
    | Some y => length ly = k /\ forall i, (i < k)%nat -> yfact env prm p sX y cs' yc' (length cs + i) (nth i l pc0) (nth i ly q0)
    end.
Proof.
  intros env k. induction k as [|k IH]; intros prm most kw yi K n p sX d E cs yc R0 d' cs' yc' R' HE Hn Hly El.
  - cbn [pp_loop] in El. inversion El; subst. exists [], []. rewrite !app_nil_r. repeat (split; auto; try lia). destruct yi; auto. split; auto. intros; lia.
  - cbn [pp_loop] in El. destruct (direction env prm most kw d p E) as [d1 rw] eqn:Ed. destruct rw as [[w o]|e]; cbn [bind] in El; [|discriminate].
    destruct (component (A := R) _ _ _ _ _ _ _ _ _) as [c|e] eqn:Ec; cbn [bind] in El; [|discriminate].
    destruct (rotations env p (cs ++ [c])) as [R1|e] eqn:Er; cbn [bind] in El; [|discriminate].
    apply (component_inv prm most kw _ K n p E w o c HE Hn) in Ec as (Hg & Hd & Hm).
    assert (Hmf : max_fact env prm most kw d p E c /\ (pp_optim prm = OGrid -> d1 = d)).
    { apply direction_inv in Ed. unfold max_fact. destruct (pp_optim prm).
      - destruct Ed as (-> & nd & mi & ob & -> & En & Ei & Eg). rewrite Hd. cbn in Hm. rewrite Hm. split; auto. exists nd, mi. auto.
      - destruct Ed as (-> & Hx). split; [|discriminate]. split; auto. rewrite Hd. exact Hx.
      - destruct Ed as (-> & Hx). split; [|discriminate]. split; auto. rewrite Hd. exact Hx.
      - destruct Ed as (-> & Hx). split; [|discriminate]. split; auto. rewrite Hd. exact Hx. }
    destruct Hmf as [Hmf Hd1].
    destruct yi as [y|].
    + destruct (inner_coef (A := R) _ _ _ _ _ _) as [ci|e] eqn:Ei; cbn [bind] in El; [|discriminate].
      destruct (negb (length sX =? p)%nat) eqn:Es; [discriminate|]. apply negb_false_iff, Nat.eqb_eq in Es. cbn [bind] in El.
      apply IH in El; [|eapply g_E_rect; eauto|auto|intros _; rewrite !app_length; cbn; rewrite Hly by discriminate; auto].
      destruct El as (l & ly & -> & Hl & -> & Hgc & Hmc & HR & HR0 & Hy & Hyf).
      eexists (c :: l), (_ :: ly). rewrite <- !app_assoc. cbn [app]. split; [reflexivity|]. split; [cbn; lia|]. split; [reflexivity|].
      split; [split; auto|]. split; [split; [auto|eapply mchain_d; eauto]|]. split.
      { intros _. destruct k as [|k]; [|rewrite <- app_assoc in HR; apply HR; lia]. destruct l; [|cbn in Hl; lia]. rewrite HR0 by auto. exact Er. }
      split; [lia|]. split; [cbn; lia|]. intros [|i] Hi.
      * cbn [nth]. rewrite Nat.add_0_r. split; [exact Es|]. split; [exact Ei|]. exists R1. cbn [snd fst]. 
        replace (firstn (S (length cs)) (cs ++ c :: l)) with (cs ++ [c]).
        2: { change (c :: l) with ([c] ++ l). rewrite app_assoc. replace (S (length cs)) with (length (cs ++ [c])) by (rewrite app_length; cbn; lia).
             rewrite firstn_app, Nat.sub_diag, firstn_all. cbn. rewrite app_nil_r. reflexivity. }
        split; [exact Er|]. split; [|reflexivity]. f_equal.
        match goal with |- context [yc ++ ?q :: ly] => change (yc ++ q :: ly) with (yc ++ [q] ++ ly); rewrite app_assoc;
          replace (S (length cs)) with (length (yc ++ [q])) by (rewrite app_length; cbn; rewrite Hly by discriminate; lia);
          rewrite (firstn_app (length (yc ++ [q]))), Nat.sub_diag, firstn_all; cbn [firstn]; rewrite app_nil_r, map_app end. reflexivity.
      * cbn [nth]. specialize (Hyf i ltac:(lia)). rewrite <- !app_assoc in Hyf. cbn [app] in Hyf. rewrite app_length in Hyf. cbn [length] in Hyf.
        replace (length cs + S i)%nat with (length cs + 1 + i)%nat by lia. exact Hyf.
    + cbn [bind] in El. apply IH in El; [|eapply g_E_rect; eauto|auto|congruence].
      destruct El as (l & ly & -> & Hl & -> & Hgc & Hmc & HR & HR0 & ->). exists (c :: l), []. rewrite <- app_assoc. cbn [app]. split; [reflexivity|].
      split; [cbn; lia|]. split; [reflexivity|]. split; [split; auto|]. split; [split; [auto|eapply mchain_d; eauto]|]. split.
      { intros _. destruct k as [|k]; [|rewrite <- app_assoc in HR; apply HR; lia]. destruct l; [|cbn in Hl; lia]. rewrite HR0 by auto. exact Er. }
      split; [lia|reflexivity].
Qed.
