(** Option values: what is refused, what is replaced (C81, C150), and the fit of
    data that are not centred (C35). *)
From Coq Require Import String Reals List Arith ZArith QArith Bool Lia Lra.
Import List. Import ListNotations.
From Verif Require Import Num Err Vec VecR OrdR L_Mat S_Stats M_Utils M_Preproc M_Robcent M_Snipls L_Snipls M_Ipopt S_Ipopt L_Ipopt M_Dicomo M_Ppdire S_Ppdire S_Ppdire2 L_Pp L_Pp2 L_Pp8 T_Scaling T_Snipls T_Ppdire T_Ppdire2.
From Verif Require Import M_PpWorld S_Regress L_Scaling L_Grid3 S_Options3.
Open Scope R_scope.

(** C81: the tolerance the solver receives when the dictionary has none *)
Theorem C81_tolerance : forall tol d, keys_distinct d -> user_option d "tol" = None ->
  (empty_value tol -> dget (KBytes "tol") (solver_options tol d) = Some (VFloat (1 # 100000000))) /\
  (~ empty_value tol -> dget (KBytes "tol") (solver_options tol d) = Some tol).
Proof.
  intros tol d ND E. destruct (sticky_tol tol tol d ND E) as [_ H]. rewrite H. clear H. split; intros H.
  - destruct H as [->|[->|[(q & -> & Hq)|[->| ->]]]]; try reflexivity. cbn. apply Qeq_bool_iff in Hq. rewrite Hq. reflexivity.
  - assert (T : truthy tol = true); [|rewrite T; reflexivity]. apply not_false_iff_true. intros T. apply H. unfold empty_value. destruct tol as [|z|q|s|s|k]; cbn in T; auto; try discriminate; apply negb_false_iff in T.
    + apply Z.eqb_eq in T as ->. auto.
    + apply Qeq_bool_iff in T. right; right; left. eauto.
    + apply String.eqb_eq in T as ->. auto.
    + apply String.eqb_eq in T as ->. auto.
Qed.
Print Assumptions C81_tolerance.
Example C81_tolerance_case : keys_distinct [(KStr "maxiter", VInt 5)] /\ user_option [(KStr "maxiter", VInt 5)] "tol" = None /\ empty_value (VFloat 0) /\ ~ empty_value (VFloat (1 # 2)).
Proof.
  split; [repeat constructor; cbn; tauto|]. split; [reflexivity|]. split; [right; right; left; exists 0%Q; split; reflexivity|].
  intros [A|[A|[(q & A & B)|[A|A]]]]; try discriminate. injection A as <-. discriminate.
Qed.

(** C150: which values of the grid options are refused, and how *)
Lemma fit_refuses : forall (env : pp_env R) prm d X0 f prm' d' m, pp_fit env prm d X0 f = (prm', d', Ok m) ->
  forall d2 e, (forall p, st_check prm' (st_opts prm' d2) p = Err e) -> snd (pp_fit env prm d2 X0 f) = Err e.
Proof.
  intros env prm d X0 f prm' d' m E d2 e H. destruct (fit_inv _ _ _ _ _ _ _ _ E) as (? & ? & ? & ? & ? & ? & ? & ? & ? & ? & ? & ? & ? & ? & EP & _). subst prm'.
  unfold pp_fit in *. cbn zeta in *.
  destruct (ix_dicomo _ && _); [inversion E|]. destruct (ix_new (pp_idx (with_h prm (f_h f)))) as [most|] eqn:Em; [|inversion E].
  destruct (Nat.min (length X0) (ncols X0) <? pp_ncomp (with_h prm (f_h f)))%nat eqn:Eh; [inversion E|].
  set (prm1 := with_whitening (with_h prm (f_h f))) in *.
  destruct (scale_name prm1) as [s|] eqn:Es; [|inversion E].
  change (if (length X0 <? ncols X0)%nat && pp_compress prm1 then _ else _) with (st_compress env prm1 X0) in *.
  destruct (st_compress env prm1 X0) as [[[X p] dims]|] eqn:Ec; [|inversion E].
  change (if pp_center_data prm1 then pp_scaled env (pp_center prm1) s (pp_trim prm1) X else _) with (st_scale env prm1 s p X) in *.
  destruct (st_scale env prm1 s p X) as [[[mX sX] Xs0]|] eqn:Esc; [|inversion E].
  change (if pp_whiten prm1 then _ else Ok (Xs0, None)) with (st_whiten env prm1 p Xs0) in *.
  destruct (st_whiten env prm1 p Xs0) as [[Xs K]|] eqn:Ew; [|inversion E].
  match type of E with match ?g with Ok _ => _ | Err _ => _ end = _ => change g with (st_y env prm1 s (length X0) (f_y f)) in * end.
  destruct (st_y env prm1 s (length X0) (f_y f)) as [yi|] eqn:Ey; [|inversion E].
  change (match pp_optim prm1 with OGrid => grid_options d2 | _ => d2 end) with (st_opts prm1 d2).
  match goal with |- snd (match ?g with Ok _ => _ | Err _ => _ end) = _ => change g with (st_check prm1 (st_opts prm1 d2) p) end.
  rewrite H. reflexivity.
Qed.
Theorem C150_refused : forall (env : pp_env R) prm d X f prm' d' m, pp_optim prm = OGrid -> pp_fit env prm d X f = (prm', d', Ok m) -> forall d2,
  (forall v, dget (KStr "ndir") d2 = Some v -> (forall z, v <> VInt z) -> snd (pp_fit env prm d2 X f) = Err TypeError) /\
  (forall z, dget (KStr "ndir") d2 = Some (VInt z) -> (z < 0)%Z -> snd (pp_fit env prm d2 X f) = Err ValueError) /\
  ((dget (KStr "ndir") d2 = None \/ exists z, dget (KStr "ndir") d2 = Some (VInt z) /\ (0 <= z)%Z) ->
   dget (KStr "maxiter") d2 = None -> snd (pp_fit env prm d2 X f) = Err KeyError).
Proof.
  intros env prm d X f prm' d' m HO E d2.
  assert (HO' : pp_optim prm' = OGrid).
  { destruct (fit_inv _ _ _ _ _ _ _ _ E) as (? & ? & ? & ? & ? & ? & ? & ? & ? & ? & ? & ? & ? & ? & -> & _). unfold with_whitening, with_h. destruct (f_h f); cbn; destruct (pp_whiten prm); cbn; exact HO. }
  pose proof (fit_refuses _ _ _ _ _ _ _ _ E d2) as H. unfold st_check, st_opts in H. rewrite HO' in H.
  assert (HN : dget (KStr "ndir") (grid_options d2) = match dget (KStr "ndir") d2 with Some v => Some v | None => Some (VInt 1000) end).
  { unfold grid_options. rewrite dget_set_default. cbn [key_eqb String.eqb Ascii.eqb Bool.eqb]. destruct (dget _ d2); reflexivity. }
  assert (HM : dget (KStr "maxiter") (grid_options d2) = dget (KStr "maxiter") d2).
  { unfold grid_options. rewrite dget_set_default. cbn [key_eqb String.eqb Ascii.eqb Bool.eqb]. destruct (dget (KStr "maxiter") d2); reflexivity. }
  unfold opt_int in H. rewrite HN, HM in H. split; [|split].
  - intros v Ev Hv. apply H. intros q0. rewrite Ev. destruct v; try reflexivity. exfalso. apply (Hv z). reflexivity.
  - intros z Ev Hz. apply H. intros q0. rewrite Ev. cbn [bind]. apply Z.ltb_lt in Hz. rewrite Hz. reflexivity.
  - intros Hn Hm. apply H. intros q0. rewrite Hm. destruct Hn as [->|(z & -> & Hz)]; [reflexivity|]. cbn [bind]. apply Z.ltb_ge in Hz. rewrite Hz. reflexivity.
Qed.
Print Assumptions C150_refused.
Example C150_refused_case : pp_optim prmG = OGrid /\ (exists prm' d' m, pp_fit ppR prmG default_options I3 (f0 YNone) = (prm', d', Ok m)) /\
  dget (KStr "ndir") [(KStr "ndir", VFloat 50)] = Some (VFloat 50) /\ (forall z, VFloat 50 <> VInt z).
Proof. split; [reflexivity|]. split; [destruct C69_three_columns as (m & E & _); do 3 eexists; exact E|]. split; [reflexivity|discriminate]. Qed.

(** C35: without centring the intercept is zero and the fitted values are linear in
    the data *)
Theorem C35_no_centre : forall (env : prep_env R) inv eta k s X y f, snipls_fit env inv eta k CNone s X y = Ok f ->
  sn_intercept f = 0 /\ sn_fitted f = map (fun r => dot r (sn_coef f)) X.
Proof.
  intros env inv eta k s X y f E. unfold snipls_fit in E. destruct (_ && _); [discriminate|]. destruct (negb _); [discriminate|].
  apply bind_Ok in E as ([[mX sX] X0] & ES & E). apply bind_Ok in E as ([[my sy] Y0] & _ & E). cbv zeta in E. apply bind_Ok in E as ([[B RR] T] & EB & E).
  destruct (negb _); [discriminate|]. apply Ok_inj in E as <-. cbn [sn_intercept sn_fitted sn_coef snipls_intercept]. split; [reflexivity|].
  rewrite (manynan_R X0), (vanynan_R (col 0 Y0)). cbn [orb]. unfold xw, dotv. rewrite map_map. apply map_ext. intros r. rnum. apply Rplus_0_r.
Qed.
Print Assumptions C35_no_centre.
Example C35_no_centre_case : exists f, snipls_fit envQ invQ (1#5)%Q 2 CNone SNone XA yA = Ok f /\ sn_intercept f = 0%Q.
Proof. eexists. split; [vm_compute; reflexivity|reflexivity]. Qed.
