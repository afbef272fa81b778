(** Order and direction of the variables: new data in snipls, and rm. *)

From Coq Require Import Reals List Arith ZArith Bool Lia Lra Permutation Sorted.
Import ListNotations.
From Verif Require Import Num Err Vec VecR OrdR L_Mat L_Lin L_Matmul S_Stats L_Stats S_Vars S_Regress M_Utils M_Preproc M_Robcent M_Msupport M_Plot M_Rm M_Snipls
  L_Msupport L_Scaling L_Scaling2 L_Snipls L_Snipls2 L_Rm L_Rm2 L_OrderSc L_OrderSn L_OrderRm L_UnitsRm L_Vars L_VarsSn.
Open Scope R_scope.

Section Relabel.
  Variables (p : nat) (q : list (nat * R)).
  Hypothesis Hq : relabelling p q.
  Hypothesis Hp : (0 < p)%nat.
  Notation sg := (sg q). Notation ep := (ep q).

  Lemma scale_data_rr : forall n Xn m s, wf n p Xn -> (1 <= n)%nat -> length m = p -> length s = p ->
    exists Z, scale_data Xn m s = Ok Z /\ wf n p Z /\ scale_data (relabel q Xn) (relabel_row q m) (relabel_pos q s) = Ok (relabel q Z).
  Proof.
    intros n Xn m s HX Hn Lm Ls. assert (WU : wf n p (relabel q Xn)) by (apply (relabel_wf p q Hq); auto).
    destruct (scale_data_cells n p Xn m s HX Hn Hp Lm Ls) as (Z & E & WZ & HZ). destruct (scale_data_cells n p _ (relabel_row q m) (relabel_pos q s) WU Hn Hp (rr_length p q Hq m) (rp_length p q Hq s)) as (Z' & E' & WZ' & HZ').
    exists Z. split; [exact E|]. split; [exact WZ|]. rewrite E'. f_equal. apply (mat_ext n p); [exact WZ'|apply (relabel_wf p q Hq); exact WZ|].
    intros i k Hi Hk. rewrite (mget_relabel p q Hq n Z i k WZ Hi Hk). rewrite HZ' by auto. rewrite HZ by (auto; apply (sg_lt p q Hq); exact Hk).
    rewrite (rr_nth p q Hq), (rp_nth p q Hq) by auto. rewrite (mget_relabel p q Hq n Xn i k HX Hi Hk). unfold Rdiv. ring.
  Qed.
  Lemma matmul_rr : forall n k (Z M : list (list R)), wf n p Z -> wf p k M -> matmul (relabel q Z) (relabel_rows q M) = matmul Z M.
  Proof.
    intros n k Z M WZ WM. assert (EC : forall j, (j < k)%nat -> col j (relabel_rows q M) = relabel_row q (col j M)).
    { intros j Hj. unfold col at 1, relabel_rows, relabel_row. rewrite map_map. apply map_ext_in. intros je Hje. pose proof (q_in p q Hq je Hje) as Hf.
      assert (LR : length (nth (fst je) M []) = k) by (apply (wf_row p k M); auto; apply nth_In; rewrite (wf_length p k M WM); exact Hf).
      rewrite (nth_map_lt _ _ _ 0) by (rewrite LR; exact Hj). rewrite (nth_col_R M (fst je) j). reflexivity. }
    assert (WR : wf p k (relabel_rows q M)).
    { split; [unfold relabel_rows; rewrite map_length, (q_length p q Hq); reflexivity|]. apply Forall_forall. intros r Hr. apply in_map_iff in Hr as (je & <- & Hje). rewrite map_length.
      apply (wf_row p k M); auto. apply nth_In. rewrite (wf_length p k M WM). apply (q_in p q Hq je Hje). }
    assert (ECs : cols (relabel_rows q M) = map (relabel_row q) (cols M)).
    { unfold cols. rewrite (wf_ncols p k M), (wf_ncols p k _ WR) by auto. rewrite map_map. apply map_ext_in. intros j Hj. apply in_seq in Hj. apply EC. lia. }
    unfold matmul. rewrite ECs. unfold relabel. rewrite map_map. apply map_ext_in. intros r Hr. rewrite map_map. apply map_ext_in. intros c Hc.
    assert (Lr : length r = p) by (apply (wf_row n p Z); auto).
    apply (dot_rr p q Hq); auto. apply in_map_iff in Hc as (j & <- & _). rewrite col_length. apply (wf_length p k); auto.
  Qed.
  Lemma snipls_shapes : forall env inv eta k ce s n X y f, column_centre ce -> column_scale s -> is_matrix n p X -> (2 <= n)%nat -> length y = n ->
    snipls_fit env inv eta k ce s X y = Ok f ->
    sn_p f = p /\ length (sn_coef f) = p /\ length (sn_xloc f) = p /\ length (sn_xsca f) = p /\ exists h, wf p h (sn_R f).
  Proof.
    intros env inv eta k ce s n X y f Hc Hs HX Hn Hy E.
    assert (LX : length X = n) by (eapply wf_length; eauto). unfold snipls_fit in E. rewrite (wf_ncols n p X) in E by (auto; lia).
    destruct ((length X =? 1)%nat && (2 <=? p)%nat); [discriminate|]. destruct (negb (length X =? length y)%nat); [discriminate|].
    rewrite (scaled_ft env ce s n p X) in E by auto. destruct (ft_plain env ce s n p X HX Hn Hp Hc Hs) as (mX & sX & X0 & EX & LmX & LsX & WX0 & _). rewrite EX in E. cbn [bind] in E.
    destruct (scaled env ce s (map (fun v => [v]) y)) as [[[my sy] Y0]|]; [|discriminate]. cbn [bind] in E. cbv zeta in E. set (comps := snipls_loop _ _ _ _ _ _ _ _) in E.
    match type of E with bind ?e _ = _ => assert (LB : forall B Rm T, e = Ok (B, Rm, T) -> length B = p /\ exists h, wf p h Rm); [|destruct e as [[[B Rm] T]|e']; [|discriminate]] end.
    { intros B Rm T E0. destruct comps as [|cp cs].
      - apply Ok_inj in E0. injection E0 as <- <- _. split; [apply repeat_length|]. exists 1%nat. exact (wf_of_cols p [vzeros p]).
      - destruct (inv (matmul _ _)) as [PWi|]; [|discriminate]. cbn [bind] in E0. destruct (inv (matmul _ _)); [|discriminate]. cbn [bind] in E0. apply Ok_inj in E0. injection E0 as <- <- _. split.
        + rewrite matvec_length. unfold of_cols. rewrite map_length, seq_length. reflexivity.
        + exists (ncols PWi). split; [unfold matmul, of_cols; rewrite !map_length, seq_length; reflexivity|]. apply Forall_forall. intros r Hr. unfold matmul in Hr. apply in_map_iff in Hr as (r0 & <- & _). rewrite map_length. apply cols_length. }
    specialize (LB _ _ _ eq_refl) as [LB LR]. cbn [bind] in E. rewrite LsX, Nat.eqb_refl in E. cbn [negb] in E. apply Ok_inj in E. subst f. cbn [sn_p sn_coef sn_xloc sn_xsca sn_R].
    split; [reflexivity|]. split; [rewrite map2_length; lia|]. auto.
  Qed.
  Lemma pred_rr : forall m Xn coef, wf m p Xn -> length coef = p -> matvec (relabel q Xn) (relabel_row q coef) = matvec Xn coef.
  Proof. intros. apply (matvec_rr p q Hq m); auto. Qed.
  Lemma snipls_new_vars_l : forall env inv eta k ce s n X y m Xn f, column_centre ce -> column_scale s -> is_matrix n p X -> (2 <= n)%nat -> length y = n -> is_matrix m p Xn -> (1 <= m)%nat ->
    snipls_fit env inv eta k ce s X y = Ok f ->
    exists f', snipls_fit env inv eta k ce s (relabel q X) y = Ok f' /\
      snipls_predict f' (A2 (relabel q Xn)) = snipls_predict f (A2 Xn) /\ snipls_transform f' (A2 (relabel q Xn)) = snipls_transform f (A2 Xn).
  Proof.
    intros env inv eta k ce s n X y m Xn f Hc Hs HX Hn Hy HXn Hm E. exists (relabel_model q f). rewrite (snipls_vars_l p q Hq Hp env inv eta k ce s n) by auto. rewrite E. split; [reflexivity|].
    destruct (snipls_shapes env inv eta k ce s n X y f Hc Hs HX Hn Hy E) as (Fp & Fc & Fl & Fs & h & FR).
    assert (WU : wf m p (relabel q Xn)) by (apply (relabel_wf p q Hq); auto).
    unfold snipls_predict, snipls_transform, predict_check_input. rewrite (wf_ncols m p Xn), (wf_ncols m p (relabel q Xn)) by auto.
    cbn [relabel_model sn_p sn_coef sn_intercept sn_xloc sn_xsca sn_R]. rewrite Fp, Nat.eqb_refl. cbn [negb]. split.
    - rewrite (pred_rr m) by auto. reflexivity.
    - destruct (scale_data_rr m Xn (sn_xloc f) (sn_xsca f) HXn Hm Fl Fs) as (Z & -> & WZ & ->). cbn [bind]. rewrite (matmul_rr m h) by auto. reflexivity.
  Qed.

  (** rm *)
  Lemma start_dx_rr : forall n X, wf n p X -> start_dx (relabel q X) = start_dx X.
  Proof.
    intros n X [_ HF]. unfold start_dx. cbv zeta.
    assert (E : map (fun r => nsqrt (vsum (map nsqr r))) (relabel q X) = map (fun r : list R => nsqrt (vsum (map nsqr r))) X).
    { unfold relabel. rewrite map_map. apply map_ext_in. intros r Hr. rewrite Forall_forall in HF. f_equal.
      rewrite (map_even p q Hq (nsqr (A := R))) by (auto; intros; unfold nsqr; rnum; ring). apply vsum_perm, Permutation_map, (rp_perm p q Hq). auto. }
    rewrite E. reflexivity.
  Qed.
  Lemma row_scale_rr : forall n u X, wf n p X -> row_scale u (relabel q X) = relabel q (row_scale u X).
  Proof.
    intros n u X [_ HF]. unfold row_scale, relabel. revert u. induction X as [|r X IH]; intros [|a u]; try reflexivity. cbn [map map2]. pose proof (Forall_inv HF) as Hr. pose proof (Forall_inv_tail HF) as HT. f_equal; [|auto].
    unfold vscale at 1. rewrite (map_odd p q Hq (fun x => (a *! x)%num)) by (auto; intros; rnum; ring). reflexivity.
  Qed.
  Lemma row_scale_wf : forall n (u : list R) (X : list (list R)), wf n p X -> length u = n -> wf n p (row_scale u X).
  Proof.
    intros n u X [L HF] Hu. split; [unfold row_scale; rewrite map2_length; lia|]. clear Hu L. unfold row_scale. revert u. induction X as [|r X IH]; intros [|a u]; try constructor.
    - unfold vscale. rewrite map_length. exact (Forall_inv HF).
    - apply IH. exact (Forall_inv_tail HF).
  Qed.
  Lemma sumsq_rr : forall b, length b = p -> vsum (map nsqr (relabel_row q b)) = vsum (map nsqr b).
  Proof. intros b Hb. rewrite (map_even p q Hq (nsqr (A := R))) by (auto; intros; unfold nsqr; rnum; ring). apply vsum_perm, Permutation_map, (rp_perm p q Hq). auto. Qed.
  Definition relabel_st (st : rm_state (A := R)) : rm_state (A := R) :=
    mk_rs (option_map (relabel_row q) (l_b st)) (l_wye st) (l_we st) (l_w0 st) (l_sw st) (l_rold st) (l_diff st) (l_loops st).
  Lemma rm_body_rr : forall f c b2 r3 n Xs ys wx st b, wf n p Xs -> length b = p ->
    rm_body f c b2 r3 (relabel q Xs) ys wx (relabel_st st) (relabel_row q b) = (relabel_st (fst (rm_body f c b2 r3 Xs ys wx st b)), snd (rm_body f c b2 r3 Xs ys wx st b)).
  Proof.
    intros f c b2 r3 n Xs ys wx st b W Lb. unfold rm_body. cbv zeta. rewrite (matvec_rr p q Hq n) by auto. rewrite sumsq_rr by auto. unfold relabel at 1. rewrite map_length. cbn [relabel_st l_rold l_sw l_loops].
    destruct (_ <=? _)%nat; reflexivity.
  Qed.
  Lemma rm_body_len : forall f c b2 r3 n (Xs : list (list R)) ys wx st b, wf n p Xs -> length ys = n -> length wx = n -> length (l_sw st) = n ->
    length (l_sw (fst (rm_body f c b2 r3 Xs ys wx st b))) = n.
  Proof.
    intros f c b2 r3 n Xs ys wx st b W Ly Lw Ls. unfold rm_body. cbv zeta. destruct (_ <=? _)%nat; cbn [fst l_sw]; [exact Ls|]. rewrite map_length, floor_len.
    rewrite mweights_map. unfold vmul. rewrite map2_length, map_length. unfold std_resid. cbv zeta. rewrite map_length. unfold vsub. rewrite map2_length, matvec_length, (wf_length n p Xs W). lia.
  Qed.
  Lemma rm_body_b : forall f c b2 r3 (Xs : list (list R)) ys wx st b, l_b (fst (rm_body f c b2 r3 Xs ys wx st b)) = Some b.
  Proof. intros. unfold rm_body. cbv zeta. destruct (_ <=? _)%nat; reflexivity. Qed.
  Lemma rm_loop_rr : forall env P f n Xs ys wx, lstsq_relabel_free env -> wf n p Xs -> (0 < n)%nat -> length ys = n -> length wx = n -> forall fuel st, length (l_sw st) = n -> (forall b, l_b st = Some b -> length b = p) ->
    rm_loop env fuel P f (relabel q Xs) ys wx (relabel_st st) =
      (relabel_calls q (fst (rm_loop env fuel P f Xs ys wx st)), option_map (fun r => match r with Ok s => Ok (relabel_st s) | Err e => Err e end) (snd (rm_loop env fuel P f Xs ys wx st))) /\
    forall s b, snd (rm_loop env fuel P f Xs ys wx st) = Some (Ok s) -> l_b s = Some b -> length b = p.
  Proof.
    intros env P f n Xs ys wx HL W Hn Ly Lw. induction fuel as [|fuel IH]; intros st Ls Hb; cbn [rm_loop]; [split; [reflexivity|discriminate]|].
    cbn [relabel_st l_diff l_loops l_sw]. destruct (_ && _)%bool.
    - rewrite (row_scale_rr n) by auto. pose proof (HL n p q (row_scale (l_sw st) Xs) (vmul ys (l_sw st)) Hq (row_scale_wf n _ _ W Ls) Hn ltac:(unfold vmul; rewrite map2_length; lia)) as HB.
      destruct (re_lstsq env (row_scale (l_sw st) Xs) (vmul ys (l_sw st))) as [b|e].
      + destruct HB as [Lb ->]. pose proof (rm_body_rr f (cty env P) (cby env P) (cry env P) n Xs ys wx st b W Lb) as EB. unfold relabel_st at 1 in EB. unfold relabel_st at 1. cbn [l_b l_wye l_we l_w0 l_sw l_rold l_diff l_loops] in *. rewrite EB. clear EB.
        pose proof (rm_body_len f (cty env P) (cby env P) (cry env P) n Xs ys wx st b W Ly Lw Ls) as LB. pose proof (rm_body_b f (cty env P) (cby env P) (cry env P) Xs ys wx st b) as EBb.
        destruct (rm_body f (cty env P) (cby env P) (cry env P) Xs ys wx st b) as [st' brk]. cbn [fst snd] in *. destruct brk.
        * split; [reflexivity|]. intros s b' E E'. injection E as <-. congruence.
        * destruct (IH st' LB) as [I1 I2]; [intros b' E'; congruence|]. rewrite I1. destruct (rm_loop env fuel P f Xs ys wx st') as [calls r]. cbn [fst snd] in *. split; [reflexivity|exact I2].
      + rewrite HB. split; [reflexivity|discriminate].
    - split; [reflexivity|]. cbn [snd]. intros s b E E'. injection E as <-. auto.
  Qed.
  Lemma ft_ok_SNone : forall env n (X : list (list R)) st, sc_trimming st = 0 -> column_centre (sc_center st) -> wf n p X -> (2 <= n)%nat -> exists Z, snd (sc_fit_transform env (sc_set_params st None (Some SNone) None) (A2 X)) = Ok Z.
  Proof.
    intros env n X st T HC W Hn. destruct (sc_fit_transform_ft env (sc_set_params st None (Some SNone) None) (A2 X) T) as [-> _]. cbn [sc_set_params sc_center sc_scale]. rewrite (check_input_id n p) by auto.
    destruct (ft_plain env (sc_center st) SNone n p X W Hn Hp HC) as (m & v & Z & E & _); [right; right; reflexivity|]. rewrite E. eexists. reflexivity.
  Qed.
  Lemma rm_finish_rr : forall env P n X Xs y ys wx mX sX my sy st2 st2' st,
    column_centre (r_centre P) -> column_scale (r_scale P) -> (2 <= n)%nat -> wf n p X -> wf n p Xs -> length sX = p -> length (l_sw st) = n -> (forall b, l_b st = Some b -> length b = p) ->
    sc_trimming st2 = 0 -> sc_trimming st2' = 0 -> sc_center st2 = r_centre P -> sc_center st2' = r_centre P ->
    rm_finish env P (relabel q X) (relabel q Xs) y ys wx (relabel_row q mX) (relabel_pos q sX) my sy st2' (relabel_st st) =
    match rm_finish env P X Xs y ys wx mX sX my sy st2 st with Ok m => Ok (relabel_rm q m) | Err e => Err e end.
  Proof.
    intros env P n X Xs y ys wx mX sX my sy st2 st2' st Hc Hs Hn HX HXs LsX Lsw Hb T2 T2' C2 C2'. assert (WU : wf n p (relabel q X)) by (apply (relabel_wf p q Hq); auto). assert (WUs : wf n p (relabel q Xs)) by (apply (relabel_wf p q Hq); auto).
    unfold rm_finish. cbn [relabel_st l_b l_w0 l_we l_wye l_sw]. destruct (l_b st) as [beta|]; [|reflexivity]. cbn [option_map]. specialize (Hb beta eq_refl). cbv zeta. rewrite (wf_ncols n p X), (wf_ncols n p (relabel q X)) by (auto; lia).
    assert (Ls2 : length (map nsqrt (l_sw st)) = n) by (rewrite map_length; exact Lsw).
    destruct (ft_ok_SNone (re_prep env) n (row_scale (map nsqrt (l_sw st)) Xs) st2 T2 ltac:(rewrite C2; exact Hc) (row_scale_wf n _ _ HXs Ls2) Hn) as [Z1 ->].
    destruct (ft_ok_SNone (re_prep env) n (row_scale (map nsqrt (l_sw st)) (relabel q Xs)) st2' T2' ltac:(rewrite C2'; exact Hc) (row_scale_wf n _ _ WUs Ls2) Hn) as [Z2 ->].
    rewrite (rp_length p q Hq), LsX, Nat.eqb_refl. cbn [negb].
    rewrite (bres_rr p q Hq) by auto. set (Bres := map2 _ sX beta). assert (LB : length Bres = p) by (unfold Bres; rewrite map2_length; lia).
    rewrite !(matvec_rr p q Hq n) by auto. destruct (r_scale P), (r_centre P); reflexivity.
  Qed.
  Lemma rm_vars_l : forall env P n X y, column_centre (r_centre P) -> column_scale (r_scale P) -> lstsq_relabel_free env -> is_matrix n p X -> (2 <= n)%nat -> length y = n ->
    fst (rm_run env P (relabel q X) y) = relabel_calls q (fst (rm_run env P X y)) /\
    rm_fit env P (relabel q X) y = match rm_fit env P X y with Ok m => Ok (relabel_rm q m) | Err e => Err e end.
  Proof.
    intros env P n X y Hc Hs HL HX Hn Hy. assert (WU : wf n p (relabel q X)) by (apply (relabel_wf p q Hq); auto).
    assert (LX : length X = n) by (eapply wf_length; eauto). assert (LU : length (relabel q X) = n) by (eapply wf_length; eauto).
    assert (Wy : wf n 1 (map (fun v => [v]) y)) by (rewrite <- Hy; apply as_column_wf).
    destruct (ft_relabel p q Hq Hp (re_prep env) (r_centre P) (r_scale P) n X HX Hn Hc Hs) as (mX & sX & Xs & EX & EX' & LmX & LsX & WX0).
    destruct (ft_plain (re_prep env) (r_centre P) (r_scale P) n 1 (map (fun v => [v]) y) Wy Hn (le_n 1) Hc Hs) as (my & sy & Ys & EY & _ & _ & WY & _).
    destruct (two_fits _ _ _ n p X y _ _ _ _ _ _ HX Hn Hy EX EY) as (st1 & st2 & F1 & F2 & F3 & F4 & F5 & F6 & F7 & F8).
    destruct (two_fits _ _ _ n p (relabel q X) y _ _ _ _ _ _ WU Hn Hy EX' EY) as (st1' & st2' & G1 & G2 & G3 & G4 & G5 & G6 & G7 & G8).
    unfold rm_fit, rm_run. destruct (rm_check P) as [f|e]; [|split; reflexivity]. rewrite LU, LX, Hy, Nat.eqb_refl. cbn [negb].
    destruct (Nat.eqb_spec n 1) as [|_]; [lia|]. cbn [andb]. change (@n0 R Num_R) with 0. rewrite F1, F2, G1, G2, F3, F4, F5, F6, G3, G4, G5, G6.
    rewrite (wf_ncols n p X), (wf_ncols n p (relabel q X)) by (auto; lia). cbv zeta. rewrite (start_dx_rr n) by auto.
    set (ys := col 0 Ys). assert (Lys : length ys = n) by (unfold ys; rewrite col_length; apply (wf_length n 1); auto).
    set (wx := mweights f (ctx env P p) (cbx env P p) (crx env P p) (start_dx Xs)). assert (Lwx : length wx = n) by (unfold wx; rewrite mweights_map, map_length; unfold start_dx; cbv zeta; rewrite !map_length; apply (wf_length n p); auto).
    set (wy := mweights f (cty env P) (cby env P) (cry env P) (start_dy P y ys)).
    assert (Lwy : length wy = n). { unfold wy. rewrite mweights_map, map_length. unfold start_dy. cbv zeta. destruct (r_centre P), (r_scale P); rewrite ?map_length; auto. }
    set (st0 := mk_rs None wy _ _ _ _ _ _).
    assert (Ls0 : length (l_sw st0) = n) by (unfold st0; cbn [l_sw]; rewrite map_length, floor_len, vmul_len; lia).
    destruct (rm_loop_rr env P f n Xs ys wx HL WX0 ltac:(lia) Lys Lwx (S (r_maxit P)) st0 Ls0 ltac:(discriminate)) as [ER EB].
    change (relabel_st st0) with st0 in ER. rewrite ER. clear ER.
    assert (LSW : forall fuel st s, length (l_sw st) = n -> snd (rm_loop env fuel P f Xs ys wx st) = Some (Ok s) -> length (l_sw s) = n).
    { induction fuel as [|fuel IH]; intros st s Ls E; cbn [rm_loop] in E; [discriminate|]. destruct (_ && _)%bool; [|injection E as <-; exact Ls].
      destruct (re_lstsq env _ _) as [b|]; [|discriminate]. pose proof (rm_body_len f (cty env P) (cby env P) (cry env P) n Xs ys wx st b WX0 Lys Lwx Ls) as LB.
      destruct (rm_body f (cty env P) (cby env P) (cry env P) Xs ys wx st b) as [st' brk]. cbn [fst] in LB. destruct brk; [injection E as <-; exact LB|]. specialize (IH st' s LB). destruct (rm_loop env fuel P f Xs ys wx st'). apply IH. exact E. }
    specialize (LSW (S (r_maxit P)) st0). destruct (rm_loop env (S (r_maxit P)) P f Xs ys wx st0) as [calls r]. cbn [fst snd] in *. split; [reflexivity|].
    destruct r as [[st|e]|]; [|reflexivity|reflexivity]. cbn [option_map]. apply (rm_finish_rr env P n); auto. intros b Eb. eapply EB; eauto.
  Qed.
  Lemma rm_new_vars_l : forall m k Xn, is_matrix k p Xn -> (1 <= k)%nat -> length (rm_coef m) = p -> rm_predict (relabel_rm q m) (A2 (relabel q Xn)) = rm_predict m (A2 Xn).
  Proof.
    intros m k Xn HX Hk Lc. assert (WU : wf k p (relabel q Xn)) by (apply (relabel_wf p q Hq); auto).
    unfold rm_predict, predict_check_input in *. rewrite (wf_ncols k p Xn), (wf_ncols k p (relabel q Xn)) by auto.
    cbn [relabel_rm rm_p rm_coef rm_intercept]. rewrite (pred_rr k) by auto. reflexivity.
  Qed.
  Lemma rm_coef_len : forall env P n X y m, column_centre (r_centre P) -> column_scale (r_scale P) -> lstsq_relabel_free env -> is_matrix n p X -> (2 <= n)%nat -> length y = n ->
    rm_fit env P X y = Ok m -> length (rm_coef m) = p.
  Proof.
    intros env P n X y m Hc Hs HL HX Hn Hy E. destruct (rm_vars_l env P n X y Hc Hs HL HX Hn Hy) as [_ E']. rewrite E in E'.
    assert (LX : length X = n) by (eapply wf_length; eauto). assert (Wy : wf n 1 (map (fun v => [v]) y)) by (rewrite <- Hy; apply as_column_wf).
    destruct (ft_plain (re_prep env) (r_centre P) (r_scale P) n p X HX Hn Hp Hc Hs) as (mX & sX & Xs & EX & LmX & LsX & WX0 & _).
    destruct (ft_plain (re_prep env) (r_centre P) (r_scale P) n 1 (map (fun v => [v]) y) Wy Hn (le_n 1) Hc Hs) as (my & sy & Ys & EY & _ & _ & WY & _).
    destruct (two_fits _ _ _ n p X y _ _ _ _ _ _ HX Hn Hy EX EY) as (st1 & st2 & F1 & F2 & F3 & F4 & F5 & F6 & F7 & F8).
    clear E'. unfold rm_fit, rm_run in E. destruct (rm_check P) as [f|e]; [|discriminate]. rewrite LX, Hy, Nat.eqb_refl in E. cbn [negb] in E.
    destruct (Nat.eqb_spec n 1) as [|_]; [lia|]. cbn [andb] in E. change (@n0 R Num_R) with 0 in E. rewrite F1, F2, F3, F4, F5, F6 in E. cbv zeta in E.
    rewrite (wf_ncols n p X) in E by (auto; lia).
    set (ys := col 0 Ys) in E. assert (Lys : length ys = n) by (unfold ys; rewrite col_length; apply (wf_length n 1); auto).
    set (wx := mweights f (ctx env P p) (cbx env P p) (crx env P p) (start_dx Xs)) in E. assert (Lwx : length wx = n) by (unfold wx; rewrite mweights_map, map_length; unfold start_dx; cbv zeta; rewrite !map_length; apply (wf_length n p); auto).
    set (wy := mweights f (cty env P) (cby env P) (cry env P) (start_dy P y ys)) in E.
    assert (Lwy : length wy = n). { unfold wy. rewrite mweights_map, map_length. unfold start_dy. cbv zeta. destruct (r_centre P), (r_scale P); rewrite ?map_length; auto. }
    set (st0 := mk_rs None wy _ _ _ _ _ _) in E.
    assert (Ls0 : length (l_sw st0) = n) by (unfold st0; cbn [l_sw]; rewrite map_length, floor_len, vmul_len; lia).
    destruct (rm_loop_rr env P f n Xs ys wx HL WX0 ltac:(lia) Lys Lwx (S (r_maxit P)) st0 Ls0 ltac:(discriminate)) as [_ EB].
    destruct (rm_loop env (S (r_maxit P)) P f Xs ys wx st0) as [calls r]. cbn [snd] in *. destruct r as [[st|e]|]; [|discriminate|discriminate].
    apply rm_finish_inv in E as (b & Eb & _ & E). cbv zeta in E. destruct E as (_ & -> & _). rewrite map2_length, LsX. rewrite (EB st b eq_refl Eb). lia.
  Qed.
  Lemma rm_new_vars : forall env P n X y m k Xn, column_centre (r_centre P) -> column_scale (r_scale P) -> lstsq_relabel_free env -> is_matrix n p X -> (2 <= n)%nat -> length y = n -> is_matrix k p Xn -> (1 <= k)%nat ->
    rm_fit env P X y = Ok m -> exists m', rm_fit env P (relabel q X) y = Ok m' /\ rm_predict m' (A2 (relabel q Xn)) = rm_predict m (A2 Xn).
  Proof.
    intros env P n X y m k Xn Hc Hs HL HX Hn Hy HXn Hk E. destruct (rm_vars_l env P n X y Hc Hs HL HX Hn Hy) as [_ E']. rewrite E in E'. exists (relabel_rm q m). split; [exact E'|].
    apply (rm_new_vars_l m k); auto. apply (rm_coef_len env P n X y); auto.
  Qed.
End Relabel.
