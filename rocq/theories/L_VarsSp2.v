(** Order and direction of the variables: sprm with removed variables and new data. *)

From Coq Require Import Reals String List Arith ZArith Bool Lia Lra Permutation Sorted.
Import List ListNotations.
From Verif Require Import Num Err Vec VecR OrdR L_Mat L_Lin L_Matmul S_Stats L_Stats S_Vars S_Regress M_Utils M_Preproc M_Robcent M_Msupport M_Plot M_Rm M_Snipls M_Sprm
  L_Msupport L_Scaling L_Scaling2 L_Snipls L_Snipls2 L_Rm L_Rm2 L_Sprm L_OrderSc L_OrderSn L_OrderRm L_OrderSp L_UnitsRm L_UnitsSp L_Vars L_VarsSn L_VarsRm L_VarsSp.
Open Scope R_scope.

Lemma estimate_stored : forall env P f k keep p0 (X Xs : list (list R)) y ys mX sXf sX my sy m, snd (sp_estimate env P f k keep p0 X Xs y ys mX sXf sX my sy) = Ok m ->
  sp_keep m = keep /\ sp_xloc m = mX /\ sp_xsca m = sXf /\ sp_p m = (if s_copy P then Some p0 else None).
Proof.
  intros env P f k keep p0 X Xs y ys mX sXf sX my sy m E. unfold sp_estimate in E. destruct (sp_start env P Xs) as [[Us rc]|e]; [|discriminate]. destruct (sp_start_cuts env P rc) as [[[cc cb] cr]|e]; [|discriminate].
  cbv zeta in E. destruct (sp_loop _ _ _ _ _ _ _ _ _) as [calls r]. cbn [snd] in E. destruct r as [[st|e]|]; try discriminate. unfold sp_finish in E. destruct (q_fit st) as [f0|]; [|discriminate]. cbv zeta in E.
  destruct (snd (sc_fit_transform _ _ _)); [|discriminate]. destruct (negb _); [discriminate|]. destruct (sp_colret_of _ _); [|discriminate]. cbn [bind] in E. destruct (sp_loop_cuts env P f k (cc, cb, cr)) as [[u v] w]. apply Ok_inj in E. subst m. repeat split.
Qed.
Section Relabel.
  Variables (p : nat) (q : list (nat * R)).
  Hypothesis Hq : relabelling p q.
  Hypothesis Hp : (0 < p)%nat.
  Lemma zero_scale_rr : forall sX, length sX = p -> zero_scale (relabel_pos q sX) = relabel_set q (zero_scale sX).
  Proof. intros sX L. unfold zero_scale. apply (rs_where p q Hq). exact L. Qed.
  Lemma keep_facts : forall sX : list R, StronglySorted lt (vars_to_keep p sX) /\ forall j, In j (vars_to_keep p sX) -> (j < p)%nat.
  Proof. intros sX. split; [apply filter_sorted, seq_sorted|]. intros j Hj. apply filter_In in Hj as [Hj _]. apply in_seq in Hj. lia. Qed.
  Lemma keep_vars_rr : forall sX, length sX = p -> vars_to_keep p (relabel_pos q sX) = relabel_set q (vars_to_keep p sX).
  Proof.
    intros sX L. apply sorted_lt_ext; [apply keep_facts|apply (rs_sorted q)|]. intros k. unfold vars_to_keep at 1. rewrite filter_In, in_seq, (rs_in p q Hq). rewrite zero_scale_rr by exact L. unfold vars_to_keep. rewrite filter_In, in_seq.
    rewrite !negb_true_iff. split.
    - intros [H1 H2]. assert (Hk : (k < p)%nat) by lia. split; [exact Hk|]. split; [pose proof (sg_lt p q Hq k Hk); lia|]. apply not_true_iff_false. intros H. apply existsb_in_nat in H.
      apply not_true_iff_false in H2. apply H2. apply existsb_in_nat. apply (rs_in p q Hq). auto.
    - intros [Hk [_ H2]]. split; [lia|]. apply not_true_iff_false. intros H. apply existsb_in_nat in H. apply (rs_in p q Hq) in H as [_ H]. apply not_true_iff_false in H2. apply H2. apply existsb_in_nat. exact H.
  Qed.
  Lemma sel_wf : forall keep n (X : list (list R)), length X = n -> wf n (length keep) (map (M_Sprm.sel keep) X).
  Proof. intros keep n X L. split; [rewrite map_length; exact L|]. apply Forall_forall. intros r Hr. apply in_map_iff in Hr as (r0 & <- & _). unfold M_Sprm.sel. apply map_length. Qed.
  Lemma keep_all : forall sX : list R, zero_scale sX = [] -> vars_to_keep p sX = seq 0 p.
  Proof. intros sX E. unfold vars_to_keep. rewrite E. apply filter_true. intros x _. reflexivity. Qed.
  Lemma sprm_vars_l : forall env P df n X y, s_columns P = ColBool false -> column_centre (s_centre P) -> column_scale (s_scale P) -> (s_pcapp P = true -> svd_relabel_free env) ->
    is_matrix n p X -> (2 <= n)%nat -> length y = n ->
    let r := sprm_run env P df X y in let r' := sprm_run env P df (relabel q X) y in
    fst r' = fst r /\ snd (snd r') = match snd (snd r) with Ok m => Ok (relabel_sp q m) | Err e => Err e end /\
    (forall m, snd (snd r) = Ok m -> fst (snd r') = relabel_calls (restrict q (sp_keep m)) (fst (snd r))).
  Proof.
    intros env P df n X y HB Hc Hs HV HX Hn Hy. assert (WU : wf n p (relabel q X)) by (apply (relabel_wf p q Hq); auto). assert (Hn0 : (0 < n)%nat) by lia.
    assert (LX : length X = n) by (eapply wf_length; eauto). assert (LU : length (relabel q X) = n) by (eapply wf_length; eauto).
    assert (Wy : wf n 1 (map (fun v => [v]) y)) by (rewrite <- Hy; apply as_column_wf).
    destruct (ft_relabel p q Hq Hp (re_prep (se_rm env)) (s_centre P) (s_scale P) n X HX Hn Hc Hs) as (mX & sX & Xs & EX & EX' & LmX & LsX & WX0).
    destruct (ft_plain (re_prep (se_rm env)) (s_centre P) (s_scale P) n 1 (map (fun v => [v]) y) Wy Hn (le_n 1) Hc Hs) as (my & sy & Ys & EY & _ & _ & WY & _).
    assert (LY : length (col 0 Ys) = n) by (rewrite col_length; apply (wf_length n 1); auto).
    cbv zeta. unfold sprm_run. rewrite LU, LX, Hy. rewrite (wf_ncols n p X), (wf_ncols n p (relabel q X)) by auto.
    destruct (sp_check P n p) as [[f k]|e] eqn:EC; [|repeat split; reflexivity || discriminate]. unfold sp_columns. rewrite HB.
    rewrite Nat.eqb_refl. cbn [negb]. destruct (Nat.eqb_spec n 1) as [|_]; [lia|]. cbn [andb].
    assert (EP : forall M, match s_scale (set_columns P (ColBool false)) with STau2 => if existsb (fun v : R => neqb v n0) (mad M) then set_scale (set_columns P (ColBool false)) SMad else set_columns P (ColBool false) | _ => set_columns P (ColBool false) end = set_columns P (ColBool false)).
    { intros M. cbn [set_columns s_scale]. destruct Hs as [E|[E|E]]; rewrite E; reflexivity. }
    rewrite !EP. clear EP.
    rewrite (sp_scaled_ft env (set_columns P (ColBool false)) n p X y mX sX Xs my sy Ys) by auto.
    rewrite (sp_scaled_ft env (set_columns P (ColBool false)) n p (relabel q X) y _ _ _ _ _ _ WU Hn Hy EX' EY).
    assert (ED : forall v : list R, sp_drop (ColBool false) p v = Ok (ColBool false)) by (intros v; unfold sp_drop; destruct (zero_scale v); reflexivity). rewrite !ED. clear ED.
    assert (Hk : (1 <= k)%nat).
    { unfold sp_check in EC. destruct (s_ncomp P) as [z|]; [|discriminate]. destruct (_ || _); [discriminate|]. destruct (Z.leb_spec z 0); [discriminate|]. destruct (negb _); [discriminate|].
      destruct (_ || _); [discriminate|]. destruct (rm_check _); [|discriminate]. cbn [bind] in EC. apply Ok_inj in EC. injection EC as _ <-. lia. }
    rewrite keep_vars_rr by exact LsX. set (keep := vars_to_keep p sX). destruct (keep_facts sX) as [KS KB]. fold keep in KS, KB. rewrite (rs_length p q Hq keep KS KB).
    destruct (Nat.ltb_spec (length keep) k) as [|HKk]; [repeat split; reflexivity || discriminate|]. rewrite zero_scale_rr by exact LsX.
    set (P3 := set_columns (set_columns P (ColBool false)) (ColBool false)).
    assert (HZ : forall j, In j (zero_scale sX) -> (j < p)%nat) by (intros j Hj; unfold zero_scale in Hj; apply (where_in _ _ _ 0) in Hj as [Hj _]; lia).
    destruct (zero_scale sX) as [|z0 zs] eqn:EZ.
    - rewrite (rs_empty q). cbn [fst snd]. assert (EKp : keep = seq 0 p) by (apply keep_all; exact EZ).
      rewrite (sp_estimate_rr p q Hq Hp env P3 f k keep (relabel_set q keep) p n X Xs y (col 0 Ys) mX (relabel_row q mX) sX (relabel_pos q sX) sX my sy false) by auto. cbn [fst snd].
      split; [reflexivity|]. destruct (snd (sp_estimate env P3 f k keep p X Xs y (col 0 Ys) mX sX sX my sy)) as [m|e] eqn:EM; [|split; [reflexivity|discriminate]].
      apply estimate_stored in EM as (E1 & E2 & E3 & _). split.
      + f_equal. unfold relabel_sp. rewrite E1, E2, E3, EKp. rewrite (restrict_all p q Hq). reflexivity.
      + intros m0 E0. apply Ok_inj in E0. subst m0. rewrite E1, EKp, (restrict_all p q Hq). reflexivity.
    - destruct (relabel_set q (z0 :: zs)) as [|r0 rs] eqn:ER; [apply (rs_nil p q Hq) in ER; [discriminate|auto]|]. cbn [fst snd]. rewrite !(sel_relabel p q Hq keep KS). rewrite (sel_rp p q Hq keep KS).
      pose proof (restrict_relabelling p q Hq keep KS KB) as HQ.
      rewrite (sp_estimate_rr (length keep) (restrict q keep) HQ ltac:(lia) env P3 f k keep (relabel_set q keep) p n (map (M_Sprm.sel keep) X) (map (M_Sprm.sel keep) Xs) y (col 0 Ys) mX (relabel_row q mX) sX (relabel_pos q sX) (M_Sprm.sel keep sX) my sy false)
        by (auto; first [apply sel_wf; first [exact LX|apply (wf_length n p); exact WX0]|unfold M_Sprm.sel; apply map_length]). cbn [fst snd].
      split; [reflexivity|]. destruct (snd (sp_estimate env P3 f k keep p _ _ y (col 0 Ys) mX sX _ my sy)) as [m|e] eqn:EM; [|split; [reflexivity|discriminate]].
      apply estimate_stored in EM as (E1 & E2 & E3 & _). split.
      + f_equal. unfold relabel_sp. rewrite E1, E2, E3. reflexivity.
      + intros m0 E0. apply Ok_inj in E0. subst m0. rewrite E1. reflexivity.
  Qed.
  (** new data *)
  Lemma finish_shapes : forall env P f k cuts keep p0 p' (X Xs : list (list R)) y ys mX sXf sX my sy st m, length sX = p' -> (forall m0, q_fit st = Some m0 -> fit_ok p' m0) ->
    sp_finish env P f k cuts keep p0 X Xs y ys mX sXf sX my sy st = Ok m -> length (sp_coef m) = p' /\ exists h, wf p' h (sp_R m).
  Proof.
    intros env P f k cuts keep p0 p' X Xs y ys mX sXf sX my sy st m LsX Hm E. unfold sp_finish in E. destruct (q_fit st) as [f0|]; [|discriminate]. cbv zeta in E.
    destruct (snd (sc_fit_transform _ _ _)); [|discriminate]. destruct (negb _); [discriminate|]. destruct (sp_colret_of _ _); [|discriminate]. cbn [bind] in E. destruct cuts as [[u v] w]. apply Ok_inj in E. subst m. cbn [sp_coef sp_R].
    destruct (Hm f0 eq_refl) as [L HR]. split; [rewrite map2_length; lia|exact HR].
  Qed.
  Lemma sprm_shapes : forall env P df n X y m, s_columns P = ColBool false -> column_centre (s_centre P) -> column_scale (s_scale P) -> (s_pcapp P = true -> svd_relabel_free env) ->
    is_matrix n p X -> (2 <= n)%nat -> length y = n -> sprm_fit env P df X y = Ok m ->
    StronglySorted lt (sp_keep m) /\ (forall j, In j (sp_keep m) -> (j < p)%nat) /\ (0 < length (sp_keep m))%nat /\ length (sp_coef m) = length (sp_keep m) /\ exists h, wf (length (sp_keep m)) h (sp_R m).
  Proof.
    intros env P df n X y m HB Hc Hs HV HX Hn Hy E. assert (Hn0 : (0 < n)%nat) by lia. assert (LX : length X = n) by (eapply wf_length; eauto).
    assert (Wy : wf n 1 (map (fun v => [v]) y)) by (rewrite <- Hy; apply as_column_wf).
    destruct (ft_plain (re_prep (se_rm env)) (s_centre P) (s_scale P) n p X HX Hn Hp Hc Hs) as (mX & sX & Xs & EX & LmX & LsX & WX0 & _).
    destruct (ft_plain (re_prep (se_rm env)) (s_centre P) (s_scale P) n 1 (map (fun v => [v]) y) Wy Hn (le_n 1) Hc Hs) as (my & sy & Ys & EY & _ & _ & WY & _).
    assert (LY : length (col 0 Ys) = n) by (rewrite col_length; apply (wf_length n 1); auto).
    unfold sprm_fit, sprm_run in E. rewrite LX, Hy in E. rewrite (wf_ncols n p X) in E by auto.
    destruct (sp_check P n p) as [[f k]|e] eqn:EC; [|discriminate]. unfold sp_columns in E. rewrite HB in E.
    rewrite Nat.eqb_refl in E. cbn [negb] in E. destruct (Nat.eqb_spec n 1) as [|_]; [lia|]. cbn [andb] in E.
    assert (EP : match s_scale (set_columns P (ColBool false)) with STau2 => if existsb (fun v : R => neqb v n0) (mad X) then set_scale (set_columns P (ColBool false)) SMad else set_columns P (ColBool false) | _ => set_columns P (ColBool false) end = set_columns P (ColBool false)).
    { cbn [set_columns s_scale]. destruct Hs as [E0|[E0|E0]]; rewrite E0; reflexivity. }
    cbv zeta in E. rewrite EP in E. clear EP.
    rewrite (sp_scaled_ft env (set_columns P (ColBool false)) n p X y mX sX Xs my sy Ys) in E by auto.
    assert (ED : forall v : list R, sp_drop (ColBool false) p v = Ok (ColBool false)) by (intros v; unfold sp_drop; destruct (zero_scale v); reflexivity). rewrite ED in E. clear ED.
    assert (Hk : (1 <= k)%nat).
    { unfold sp_check in EC. destruct (s_ncomp P) as [z|]; [|discriminate]. destruct (_ || _); [discriminate|]. destruct (Z.leb_spec z 0); [discriminate|]. destruct (negb _); [discriminate|].
      destruct (_ || _); [discriminate|]. destruct (rm_check _); [|discriminate]. cbn [bind] in EC. apply Ok_inj in EC. injection EC as _ <-. lia. }
    set (keep := vars_to_keep p sX) in *. destruct (keep_facts sX) as [KS KB]. fold keep in KS, KB.
    destruct (Nat.ltb_spec (length keep) k) as [|HKk]; [discriminate|].
    set (P3 := set_columns (set_columns P (ColBool false)) (ColBool false)) in E.
    assert (G : forall X1 Xs1 sX1, wf n (length keep) Xs1 -> length sX1 = length keep -> snd (sp_estimate env P3 f k keep p X1 Xs1 y (col 0 Ys) mX sX sX1 my sy) = Ok m ->
      StronglySorted lt (sp_keep m) /\ (forall j, In j (sp_keep m) -> (j < p)%nat) /\ (0 < length (sp_keep m))%nat /\ length (sp_coef m) = length (sp_keep m) /\ exists h, wf (length (sp_keep m)) h (sp_R m)).
    { intros X1 Xs1 sX1 W1 L1 E1. destruct (estimate_stored _ _ _ _ _ _ _ _ _ _ _ _ _ _ _ _ E1) as (-> & _). split; [exact KS|]. split; [exact KB|]. split; [lia|].
      unfold sp_estimate in E1.
      destruct (sp_start env P3 Xs1) as [[Us rc]|e] eqn:ES; [|discriminate].
      assert (LU : length Us = n).
      { assert (HQ : relabelling (length keep) (map (fun j => (j, 1)) (seq 0 (length keep)))).
        { split; [rewrite map_map; cbn [fst]; rewrite map_id; apply Permutation_refl|]. apply Forall_forall. intros x Hx. apply in_map_iff in Hx as (j & <- & _). left. reflexivity. }
        pose proof (sp_start_rr (length keep) _ HQ ltac:(lia) env P3 n Xs1 Hc Hs HV W1 Hn) as HST. rewrite ES in HST. destruct HST as (Us' & _ & _ & LU). exact LU. }
      destruct (sp_start_cuts env P3 rc) as [[[cc cb] cr]|e]; [|discriminate]. cbv zeta in E1.
      set (wx := mweights f cc cb cr (start_dx Us)) in E1. set (wy := mweights f _ _ _ (start_dy (sp_rm P3) y (col 0 Ys))) in E1.
      assert (Lwx : length wx = n) by (unfold wx; rewrite mweights_map, map_length; unfold start_dx; cbv zeta; rewrite !map_length; exact LU).
      assert (Lwy : length wy = n). { unfold wy. rewrite mweights_map, map_length. unfold start_dy. cbv zeta. destruct (r_centre (sp_rm P3)), (r_scale (sp_rm P3)); rewrite ?map_length; auto. }
      set (st0 := mk_ss None wy wx _ _ _ _ _ _) in E1.
      assert (Ls0 : length (q_sw st0) = n) by (unfold st0; cbn [q_sw]; rewrite map_length, floor_len, vmul_len; lia).
      assert (HQ : relabelling (length keep) (map (fun j => (j, 1)) (seq 0 (length keep)))).
      { split; [rewrite map_map; cbn [fst]; rewrite map_id; apply Permutation_refl|]. apply Forall_forall. intros x Hx. apply in_map_iff in Hx as (j & <- & _). left. reflexivity. }
      destruct (sp_loop_rr (length keep) _ HQ ltac:(lia) env P3 f k (sp_loop_cuts env P3 f k (cc, cb, cr)) n Xs1 (col 0 Ys) false eq_refl W1 Hn LY (S (s_maxit P3)) st0 Ls0 ltac:(discriminate)) as [_ EB].
      destruct (sp_loop env (S (s_maxit P3)) P3 f k _ Xs1 (col 0 Ys) st0) as [calls r]. cbn [snd] in *. destruct r as [[st|e]|]; try discriminate. destruct (EB st eq_refl) as [_ HF].
      eapply finish_shapes; [exact L1|exact HF|exact E1]. }
    destruct (zero_scale sX) as [|z0 zs] eqn:EZ; cbn [snd] in E.
    - assert (EKp : keep = seq 0 p) by (apply keep_all; exact EZ). apply (G X Xs sX); [rewrite EKp, seq_length; exact WX0|rewrite EKp, seq_length; exact LsX|exact E].
    - apply (G (map (M_Sprm.sel keep) X) (map (M_Sprm.sel keep) Xs) (M_Sprm.sel keep sX)); [apply sel_wf; apply (wf_length n p); exact WX0|unfold M_Sprm.sel; apply map_length|exact E].
  Qed.
  Lemma sprm_new_vars_l : forall env P df n X y m k Xn, s_columns P = ColBool false -> column_centre (s_centre P) -> column_scale (s_scale P) -> (s_pcapp P = true -> svd_relabel_free env) ->
    is_matrix n p X -> (2 <= n)%nat -> length y = n -> is_matrix k p Xn -> (1 <= k)%nat -> sprm_fit env P df X y = Ok m ->
    exists m', sprm_fit env P df (relabel q X) y = Ok m' /\ sprm_predict m' (A2 (relabel q Xn)) = sprm_predict m (A2 Xn) /\
      sprm_transform m' (A2 (relabel q Xn)) = sprm_transform m (A2 Xn) /\ sprm_weightnewx env m' (A2 (relabel q Xn)) = sprm_weightnewx env m (A2 Xn) /\
      forall yn sc, sprm_valscore m' (A2 (relabel q Xn)) yn sc = sprm_valscore m (A2 Xn) yn sc.
  Proof.
    intros env P df n X y m k Xn HB Hc Hs HV HX Hn Hy HXn Hk E. destruct (sprm_vars_l env P df n X y HB Hc Hs HV HX Hn Hy) as (_ & E' & _). fold (sprm_fit env P df X y) in E'. rewrite E in E'.
    exists (relabel_sp q m). split; [exact E'|]. clear E'. destruct (sprm_shapes env P df n X y m HB Hc Hs HV HX Hn Hy E) as (KS & KB & K0 & LC & h & WR). clear E.
    assert (WU : wf k p (relabel q Xn)) by (apply (relabel_wf p q Hq); auto). pose proof (restrict_relabelling p q Hq _ KS KB) as HQ.
    assert (WS : wf k (length (sp_keep m)) (map (M_Sprm.sel (sp_keep m)) Xn)) by (apply sel_wf; apply (wf_length k p); exact HXn).
    assert (EPr : sprm_predict (relabel_sp q m) (A2 (relabel q Xn)) = sprm_predict m (A2 Xn)).
    { unfold sprm_predict, predict_check_input. rewrite (wf_ncols k p Xn), (wf_ncols k p (relabel q Xn)) by auto. cbn [relabel_sp sp_p sp_keep sp_coef sp_intercept].
      destruct (sp_p m) as [p'|]; [|reflexivity]. destruct (negb (p =? p')%nat); [reflexivity|]. rewrite (sel_relabel p q Hq _ KS). rewrite (matvec_rr _ _ HQ k) by auto. reflexivity. }
    assert (ET : sprm_transform (relabel_sp q m) (A2 (relabel q Xn)) = sprm_transform m (A2 Xn)).
    { unfold sprm_transform, predict_check_input. rewrite (wf_ncols k p Xn), (wf_ncols k p (relabel q Xn)) by auto. cbn [relabel_sp sp_p sp_keep sp_xloc sp_xsca sp_R].
      destruct (sp_p m) as [p'|]; [|reflexivity]. destruct (negb (p =? p')%nat); [reflexivity|]. rewrite (sel_relabel p q Hq _ KS), (sel_rr p q Hq _ KS), (sel_rp p q Hq _ KS).
      destruct (scale_data_rr _ _ HQ K0 k (map (M_Sprm.sel (sp_keep m)) Xn) (M_Sprm.sel (sp_keep m) (sp_xloc m)) (M_Sprm.sel (sp_keep m) (sp_xsca m)) WS Hk (map_length _ _) (map_length _ _)) as (Z & -> & WZ & ->).
      cbn [bind]. rewrite (matmul_rr _ _ HQ K0 k h) by auto. reflexivity. }
    split; [exact EPr|]. split; [exact ET|]. split.
    - unfold sprm_weightnewx. rewrite ET. reflexivity.
    - intros yn sc. unfold sprm_valscore, predict_check_input. rewrite (wf_ncols k p Xn), (wf_ncols k p (relabel q Xn)) by auto. rewrite EPr. reflexivity.
  Qed.
End Relabel.
