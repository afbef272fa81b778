(** Every case counted k times: scalers and snipls. *)

From Coq Require Import Reals List Arith ZArith Bool Lia Lra Permutation.
Import ListNotations.
From Verif Require Import Num Err Vec VecR OrdR L_Mat L_Lin L_Matmul S_Stats L_Stats S_Order S_Vars S_Copies L_Order M_Utils M_Preproc M_Robcent M_Plot M_Snipls
  L_Scaling L_Scaling2 L_Msupport L_Snipls L_Snipls2 L_OrderSc L_OrderSn L_Copies.
Open Scope R_scope.

Lemma div_copies : forall c a b, c <> 0 -> (b = 0 -> a = 0) -> c * a / (c * b) = a / b.
Proof.
  intros c a b Hc Hb. destruct (Req_EM_T b 0) as [E|E]; [rewrite Hb by exact E; unfold Rdiv; rewrite Rmult_0_r, !Rmult_0_l; reflexivity|field; auto].
Qed.
Lemma vnorm_scale : forall c (v : list R), 0 < c -> vnorm (map (Rmult c) v) = c * vnorm v.
Proof. intros c v Hc. change (map (Rmult c) v) with (vscale c v). rewrite norm_vscale, Rabs_right by lra. reflexivity. Qed.
Lemma dot_zero_of_self : forall (u v : list R), dot u u = 0 -> length u = length v -> dot v u = 0.
Proof. intros u v H0 Hl. apply dot_self_zero in H0. rewrite dot_comm. apply dot_zero_l. exact H0. Qed.
Lemma normed_scale : forall c (v : list R), 0 < c -> map (fun x => x / vnorm (map (Rmult c) v)) (map (Rmult c) v) = map (fun x => x / vnorm v) v.
Proof.
  intros c v Hc. rewrite vnorm_scale by auto. rewrite map_map. apply map_ext_in. intros x Hx. apply div_copies; [lra|]. intros E.
  assert (D : dot v v = 0) by (rewrite <- norm_sq, E; ring). apply dot_self_zero in D. rewrite Forall_forall in D. apply D, Hx.
Qed.
(** no covariance, no component *)
Lemma step_none : forall nan eta ssx ssy (X : list (list R)) y, Forall (fun v => v = 0) (tmatvec X y) -> snipls_step nan eta ssx ssy X y [] = None.
Proof.
  intros nan eta ssx ssy X y HZ. unfold snipls_step. cbv zeta. rewrite xty_R. set (cov := tmatvec X y) in *.
  assert (E0 : map (fun v => ndiv v (vnorm cov)) cov = cov).
  { apply (eq_trans (y := map (fun v => v) cov)); [|apply map_id]. apply map_ext_in. intros v Hv. rewrite Forall_forall in HZ. rewrite (HZ v Hv). rnum. unfold Rdiv. ring. }
  rewrite E0. set (mx := vmaxl (map nabs cov)).
  assert (Em : mx = 0).
  { unfold mx. destruct cov as [|a cov]; [reflexivity|]. cbn [map vmaxl]. inversion HZ as [|? ? Ha HZ']; subst. rnum. rewrite Rabs_R0.
    clear -HZ'. induction HZ' as [|b l Hb Hl IH]; [reflexivity|]. cbn [map fold_left]. subst b. rewrite Rabs_R0. assert (En : @nmax R Num_R 0 0 = 0) by (unfold nmax; rnum; destruct (Rltb 0 0); reflexivity).
    first [rewrite En; exact IH | change (fold_left nmax (map Rabs l) (@nmax R Num_R 0 0) = 0); rewrite En; exact IH]. }
  rewrite Em. assert (Eg : where_ (fun v : R => nltb n0 v) (map (fun v => nsub (nabs v) (nmul eta 0)) cov) = []).
  { assert (HF : Forall (fun v => v = 0) (map (fun v => nsub (nabs v) (nmul eta 0)) cov)).
    { apply Forall_forall. intros v Hv. apply in_map_iff in Hv. destruct Hv as (u & <- & Hu). rewrite Forall_forall in HZ. rewrite (HZ u Hu). rnum. rewrite Rabs_R0. ring. }
    destruct (where_ _ _) as [|j js] eqn:Ew; [reflexivity|]. exfalso.
    assert (Hj : In j (where_ (fun v : R => nltb n0 v) (map (fun v => nsub (nabs v) (nmul eta 0)) cov))) by (rewrite Ew; left; reflexivity).
    apply (where_in _ _ _ 0) in Hj. destruct Hj as [Hl Hv]. rewrite Forall_forall in HF. rewrite (HF _ (nth_In _ 0 Hl)) in Hv. rnum. unfold Rltb in Hv. destruct (Rlt_dec 0 0); [lra|discriminate]. }
  rewrite Eg. reflexivity.
Qed.

Section Copies.
  Variables (n p k : nat) (o : list nat).
  Hypothesis Ho : case_copies n k o.
  Hypothesis Hk : (1 <= k)%nat.
  Hypothesis Hn : (0 < n)%nat.
  Hypothesis Hp : (0 < p)%nat.
  Let kp : 0 < INR k := kpos k Hk.

  Lemma cp_scale_data : forall q (X : list (list R)) m s, wf n q X -> scale_data (reorder o X) m s = match scale_data X m s with Ok Z => Ok (reorder o Z) | Err e => Err e end.
  Proof.
    intros q X m s HX. assert (WO : wf (k * n) q (reorder o X)) by (apply cp_wf; auto). unfold scale_data. rewrite (wf_ncols n q X) by auto. rewrite (wf_ncols (k * n) q (reorder o X)) by (auto; nia).
    destruct (q =? 1)%nat.
    - destruct m as [|m0 m]; [reflexivity|]. destruct (handle_zeros s); [reflexivity|]. rewrite <- reorder_map. reflexivity.
    - destruct (length m =? q)%nat.
      + cbn [bind]. destruct (length (handle_zeros s) =? q)%nat; [unfold rows_op; rewrite <- !reorder_map; reflexivity|].
        destruct (handle_zeros s) as [|s0 [|]]; try reflexivity. unfold rows_op; rewrite <- !reorder_map; reflexivity.
      + destruct m as [|m0 [|]]; try reflexivity. cbn [bind]. destruct (length (handle_zeros s) =? q)%nat; [unfold rows_op; rewrite <- !reorder_map; reflexivity|].
        destruct (handle_zeros s) as [|s0 [|]]; try reflexivity. rewrite <- !reorder_map; reflexivity.
  Qed.
  Lemma cp_location : forall env c q X, column_centre c -> wf n q X -> location env c 0 (reorder o X) = location env c 0 X.
  Proof.
    intros env c q X Hc HX. destruct Hc as [->|[->| ->]]; cbn [location].
    - apply (cp_mean0 n k o Ho Hk Hn q); auto.
    - f_equal. apply (cp_median n k o Ho Hk Hn q); auto.
    - rewrite (wf_ncols n q X) by auto. rewrite (wf_ncols (k * n) q (reorder o X)) by (try apply cp_wf; auto; nia). reflexivity.
  Qed.
  Lemma cp_scale_est : forall env s q X, column_scale s -> wf n q X -> scale_est env s 0 (reorder o X) = scale_est env s 0 X.
  Proof.
    intros env s q X Hs HX. destruct Hs as [->|[->| ->]]; cbn [scale_est].
    - apply (cp_std0 n k o Ho Hk Hn q); auto.
    - f_equal. apply (cp_mad n k o Ho Hk Hn q); auto.
    - rewrite (wf_ncols n q X) by auto. rewrite (wf_ncols (k * n) q (reorder o X)) by (try apply cp_wf; auto; nia). reflexivity.
  Qed.
  Lemma cp_ft : forall env c s q X, column_centre c -> column_scale s -> wf n q X ->
    ft env c s (reorder o X) = match ft env c s X with Ok (m, v, Z) => Ok (m, v, reorder o Z) | Err e => Err e end.
  Proof.
    intros env c s q X Hc Hs HX. unfold ft. destruct (is_bad c s); [reflexivity|]. rewrite (cp_location env c q) by auto. destruct (location env c 0 X) as [m|]; [|reflexivity]. cbn [bind].
    rewrite (cp_scale_est env s q) by auto. destruct (scale_est env s 0 X) as [v|]; [|reflexivity]. cbn [bind]. rewrite (cp_scale_data q) by auto. destruct (scale_data X m v); reflexivity.
  Qed.

  (** one component *)
  Lemma cp_step : forall nan eta ssx ssy (X : list (list R)) y old, wf n p X -> length y = n -> ssx <> 0 -> ssy <> 0 ->
    snipls_step nan eta (INR k * ssx) (INR k * ssy) (reorder o X) (reorder o y) old = option_map (reorder_comp o) (snipls_step nan eta ssx ssy X y old).
  Proof.
    intros nan eta ssx ssy X y old HX Hy Hx Hyy. unfold snipls_step. cbv zeta.
    assert (LX : length X = n) by (eapply wf_length; eauto).
    rewrite !xty_R, !xw_R, !dotv_R, !reorder_matvec. rewrite (cp_tmatvec n k o Ho Hk Hn p X y) by auto.
    change (@ndiv R Num_R) with Rdiv. rewrite (normed_scale (INR k)) by exact kp.
    match goal with |- match ?g with [] => _ | _ => _ end = _ => destruct g as [|g0 gs]; [reflexivity|] end.
    cbn [option_map]. f_equal. unfold reorder_comp. cbn [c_w c_t c_q c_p c_c c_xev c_yev c_good c_X c_y].
    match goal with |- context [matvec X ?w] => set (t := matvec X w) end.
    assert (Lt : length t = n) by (unfold t; rewrite matvec_length; auto).
    rewrite !nsqr_vnorm. rewrite (cp_dot n k o Ho t t) by auto. rewrite (cp_dot n k o Ho y t) by auto. rewrite (cp_tmatvec n k o Ho Hk Hn p X t) by auto.
    assert (Hc : dot y t * INR k / (dot t t * INR k) = dot y t / dot t t).
    { rewrite (Rmult_comm (dot y t)), (Rmult_comm (dot t t)). apply div_copies; [lra|]. intros E. apply dot_zero_of_self; [exact E|congruence]. }
    assert (Hc' : INR k * dot y t / (INR k * dot t t) = dot y t / dot t t).
    { apply div_copies; [lra|]. intros E. apply dot_zero_of_self; [exact E|congruence]. }
    assert (Hq : map (fun v => v / (INR k * dot t t)) (map (Rmult (INR k)) (tmatvec X t)) = map (fun v => v / dot t t) (tmatvec X t)).
    { rewrite map_map. apply map_ext_in. intros v Hv. apply div_copies; [lra|]. intros E. unfold tmatvec in Hv. apply in_map_iff in Hv. destruct Hv as (c & <- & Hc0).
      apply dot_zero_of_self; [exact E|]. rewrite Lt. symmetry. eapply wf_row; [apply wf_cols; eauto|exact Hc0]. }
    rewrite Hc', Hq. rewrite reorder_outer. unfold msub at 1. rewrite <- (cp_map2 n k o Ho) by (auto; unfold outer; rewrite map_length; auto).
    unfold vsub, vscale. rewrite <- reorder_map. rewrite <- (cp_map2 n k o Ho) by (auto; rewrite map_length; auto).
    f_equal; rnum; f_equal; field; split; lra.
  Qed.
  Lemma cp_loop : forall nan eta ssx ssy, ssx <> 0 -> ssy <> 0 -> forall m (X : list (list R)) y old, wf n p X -> length y = n ->
    snipls_loop nan eta (INR k * ssx) (INR k * ssy) m (reorder o X) (reorder o y) old = map (reorder_comp o) (snipls_loop nan eta ssx ssy m X y old).
  Proof.
    intros nan eta ssx ssy Hx Hyy. induction m as [|m IH]; intros X y old HX Hy; [reflexivity|]. cbn [snipls_loop].
    rewrite (cp_step nan eta ssx ssy) by auto. destruct (snipls_step nan eta ssx ssy X y old) as [c|] eqn:E; [|reflexivity]. cbn [option_map map]. f_equal.
    destruct (step_out_wf nan eta ssx ssy n p X y old c HX Hn Hp Hy E) as (B1 & B2 & _). unfold reorder_comp at 1 2 3. cbn [c_X c_y c_good]. apply IH; auto.
  Qed.
  Lemma loop_none : forall nan eta ssx ssy m (X : list (list R)) y, Forall (fun v => v = 0) (tmatvec X y) -> snipls_loop nan eta ssx ssy m X y [] = [].
  Proof. intros nan eta ssx ssy [|m] X y HZ; [reflexivity|]. cbn [snipls_loop]. rewrite step_none by exact HZ. reflexivity. Qed.
End Copies.

(** the fit *)
Lemma ssq_zero : forall (X : list (list R)), vsum (map vsum (map (map nsqr) X)) = 0 -> forall r, In r X -> Forall (fun v => v = 0) r.
Proof.
  intros X HZ r Hr. assert (HN : forall l : list R, 0 <= vsum (map nsqr l)).
  { induction l as [|a l IH]; [cbn; lra|]. cbn [map]. rewrite vsum_cons. unfold nsqr at 1. rnum. nra. }
  assert (Hall : forall Y : list (list R), 0 <= vsum (map vsum (map (map nsqr) Y))).
  { induction Y as [|a Y IH]; [cbn; lra|]. cbn [map]. rewrite vsum_cons. pose proof (HN a). lra. }
  assert (Hr0 : vsum (map nsqr r) = 0).
  { clear -HZ Hr HN Hall. induction X as [|a X IH]; [destruct Hr|]. cbn [map] in HZ. rewrite vsum_cons in HZ. pose proof (HN a). pose proof (Hall X). destruct Hr as [->|Hr]; [lra|apply IH; auto; lra]. }
  clear -Hr0 HN. induction r as [|a r IH]; [constructor|]. cbn [map] in Hr0. rewrite vsum_cons in Hr0. unfold nsqr at 1 in Hr0. rnum. pose proof (HN r) as H1. constructor; [nra|apply IH; nra].
Qed.
Lemma ssq_y : forall (y : list R), vsum (map nsqr y) = 0 -> Forall (fun v => v = 0) y.
Proof. intros y HZ. apply (ssq_zero [y]); [cbn [map]; rewrite vsum_cons, HZ; change (vsum []) with 0; ring|left; reflexivity]. Qed.
Lemma matvec_row_scale : forall c (M : list (list R)) v, matvec (map (map (Rmult c)) M) v = map (Rmult c) (matvec M v).
Proof. intros c M v. unfold matvec. rewrite !map_map. apply map_ext. intros r. change (map (Rmult c) r) with (vscale c r). apply dot_vscale_l. Qed.
Lemma matvec_arg_scale : forall c (M : list (list R)) v, matvec M (map (Rmult c) v) = map (Rmult c) (matvec M v).
Proof. intros c M v. apply (matvec_vscale M c v). Qed.
Lemma matmul_row_scale : forall c (M N : list (list R)), matmul (map (map (Rmult c)) M) N = map (map (Rmult c)) (matmul M N).
Proof.
  intros c M N. unfold matmul. rewrite !map_map. apply map_ext. intros r. rewrite map_map. apply map_ext. intros d. change (map (Rmult c) r) with (vscale c r). apply dot_vscale_l.
Qed.
Lemma col_scale : forall c j (M : list (list R)), col j (map (map (Rmult c)) M) = map (Rmult c) (col j M).
Proof.
  intros c j M. unfold col. rewrite !map_map. apply map_ext. intros r. rnum. destruct (Nat.lt_ge_cases j (length r)) as [Hj|Hj].
  - rewrite (nth_indep _ 0 (c * 0)) by (rewrite map_length; auto). apply map_nth.
  - rewrite !nth_overflow by (try rewrite map_length; auto). ring.
Qed.
Lemma ncols_scale : forall c (M : list (list R)), ncols (map (map (Rmult c)) M) = ncols M.
Proof. intros c [|r M]; [reflexivity|]. cbn. apply map_length. Qed.
Lemma matmul_arg_scale : forall c (M N : list (list R)), matmul M (map (map (Rmult c)) N) = map (map (Rmult c)) (matmul M N).
Proof.
  intros c M N. unfold matmul. rewrite map_map. apply map_ext. intros r. unfold cols. rewrite ncols_scale, !map_map. apply map_ext. intros j. rewrite col_scale.
  change (map (Rmult c) (col j N)) with (vscale c (col j N)). apply dot_vscale_r.
Qed.
Lemma cp_ssx : forall n p k o (X : list (list R)), case_copies n k o -> wf n p X -> vsum (map vsum (map (map nsqr) (reorder o X))) = INR k * vsum (map vsum (map (map nsqr) X)).
Proof. intros n p k o X Ho HX. rewrite <- !reorder_map. apply (cp_vsum n k o Ho). rewrite !map_length. eapply wf_length; eauto. Qed.

Lemma snipls_copies_l : forall env inv eta h c s n p k o X y, column_centre c -> column_scale s -> inv_homogeneous inv ->
  is_matrix n p X -> (2 <= n)%nat -> (1 <= p)%nat -> length y = n -> case_copies n k o -> (1 <= k)%nat ->
  snipls_fit env inv eta h c s (reorder o X) (reorder o y) =
  match snipls_fit env inv eta h c s X y with Ok f => Ok (reorder_model o f) | Err e => Err e end.
Proof.
  intros env inv eta h c s n p k o X y Hc Hs Hinv HX Hn Hp Hy Ho Hk. assert (Hn0 : (0 < n)%nat) by lia. assert (Hkn : (2 <= k * n)%nat) by nia.
  assert (LX : length X = n) by (eapply wf_length; eauto). pose proof (kpos k Hk) as kp.
  assert (WO : wf (k * n) p (reorder o X)) by (apply cp_wf; auto).
  unfold snipls_fit. rewrite !(cp_length n k o Ho) by auto. rewrite (wf_ncols n p X) by auto. rewrite (wf_ncols (k * n) p (reorder o X)) by (auto; lia). rewrite LX, Hy, !Nat.eqb_refl. cbn [negb].
  replace ((k * n =? 1)%nat) with false by (symmetry; apply Nat.eqb_neq; lia). replace ((n =? 1)%nat) with false by (symmetry; apply Nat.eqb_neq; lia). cbn [andb].
  assert (Wy : wf n 1 (map (fun v => [v]) y)) by (rewrite <- Hy; apply as_column_wf).
  rewrite (scaled_ft env c s (k * n) p (reorder o X)), (scaled_ft env c s n p X) by auto. rewrite (cp_ft n p k o Ho Hk Hn0 ltac:(lia) env c s p) by auto.
  rewrite <- reorder_map. rewrite (scaled_ft env c s (k * n) 1 (reorder o (map (fun v => [v]) y))) by (auto; apply cp_wf; auto). rewrite (scaled_ft env c s n 1 (map (fun v => [v]) y)) by auto.
  rewrite (cp_ft n p k o Ho Hk Hn0 ltac:(lia) env c s 1) by auto.
  destruct (ft env c s X) as [[[mX sX] X0]|e] eqn:EX; [|reflexivity]. cbn [bind].
  destruct (ft env c s (map (fun v => [v]) y)) as [[[my sy] Y0]|e] eqn:EY; [|reflexivity]. cbn [bind].
  assert (WX0 : wf n p X0) by (eapply ft_wf; eauto). assert (WY0 : wf n 1 Y0) by (eapply ft_wf; eauto).
  rewrite reorder_col. set (y0 := col 0 Y0). assert (Ly0 : length y0 = n) by (unfold y0; rewrite col_length; eapply wf_length; eauto).
  rewrite !manynan_R, !vanynan_R. cbn [orb]. rewrite !xty_R. rewrite (cp_gram n k o Ho Hk Hn0 p p) by auto. rewrite (cp_tmatvec n k o Ho Hk Hn0 p) by auto.
  assert (Ens : forall l : list (list R), map nansum l = map vsum l) by (intros; apply map_ext, nansum_R). rewrite !Ens, !nansum_R. rewrite (cp_ssx n p k o X0) by auto. rewrite <- (reorder_map nsqr). rewrite (cp_vsum n k o Ho (map nsqr y0)) by (rewrite map_length; auto).
  set (ssx := vsum (map vsum (map (map nsqr) X0))). set (ssy := vsum (map nsqr y0)).
  assert (EL : snipls_loop false eta (INR k * ssx) (INR k * ssy) h (reorder o X0) (reorder o y0) [] = map (reorder_comp o) (snipls_loop false eta ssx ssy h X0 y0 [])).
  { assert (HD : (ssx <> 0 /\ ssy <> 0) \/ Forall (fun v => v = 0) (tmatvec X0 y0)).
    { destruct (Req_EM_T ssx 0) as [Ex|Ex]; [right|destruct (Req_EM_T ssy 0) as [Ey|Ey]; [right|left; auto]].
      - apply Forall_forall. intros v Hv. unfold tmatvec in Hv. apply in_map_iff in Hv. destruct Hv as (cc & <- & Hcc). apply dot_zero_l. apply Forall_forall. intros z Hz.
        unfold cols in Hcc. apply in_map_iff in Hcc. destruct Hcc as (j & <- & Hj). unfold col in Hz. apply in_map_iff in Hz. destruct Hz as (r & <- & Hr).
        pose proof (ssq_zero X0 Ex r Hr) as F. rewrite Forall_forall in F. apply in_seq in Hj. rewrite (wf_ncols n p X0) in Hj by auto. apply F, nth_In. rewrite (wf_row n p X0 r WX0 Hr) by auto. lia.
      - apply Forall_forall. intros v Hv. unfold tmatvec in Hv. apply in_map_iff in Hv. destruct Hv as (cc & <- & Hcc). rewrite dot_comm. apply dot_zero_l. apply ssq_y. exact Ey. }
    destruct HD as [[Hx Hyy]|HZ].
    - apply (cp_loop n p k o Ho Hk Hn0 ltac:(lia)); auto.
    - rewrite !loop_none; [reflexivity|exact HZ|]. rewrite (cp_tmatvec n k o Ho Hk Hn0 p) by auto. apply Forall_forall. intros v Hv. apply in_map_iff in Hv. destruct Hv as (u & <- & Hu). rewrite Forall_forall in HZ. rewrite (HZ u Hu). ring. }
  rewrite EL. clear EL. set (comps := snipls_loop _ _ _ _ _ _ _ _).
  assert (FT : Forall (fun t => length t = n) (map c_t comps)) by (apply (loop_t_length false eta _ _ n p); auto).
  rewrite !map_map. cbn [reorder_comp c_w c_t c_q c_p c_c c_xev c_yev c_good].
  replace (map (fun x => reorder o (c_t x)) comps) with (map (reorder o) (map c_t comps)) by (rewrite map_map; reflexivity). rewrite (cp_of_cols n k o Ho Hk Hn0) by auto.
  assert (EM : forall {T} (a b : T), match map (reorder_comp o) comps with [] => a | _ => b end = match comps with [] => a | _ => b end) by (intros; destruct comps; reflexivity).
  rewrite !EM.
  assert (EZ : of_cols (k * n) (repeat (vzeros (k * n)) h) = reorder o (of_cols n (repeat (vzeros n) h)) :> list (list R)).
  { rewrite <- (cp_of_cols n k o Ho Hk Hn0) by (apply Forall_forall; intros z Hz; apply repeat_spec in Hz; subst z; apply repeat_length). f_equal.
    clear -Ho. induction h as [|h1 IH]; [reflexivity|]. cbn [repeat map]. f_equal; [|exact IH]. unfold vzeros. symmetry. apply (cp_repeat n k o Ho). }
  set (W := of_cols p (map c_w comps)). set (Pm := of_cols p (map c_p comps)). set (S := matmul (transpose X0) X0). set (s0 := tmatvec X0 y0). set (T0 := of_cols n (map c_t comps)).
  rewrite matmul_arg_scale, matmul_row_scale, matvec_arg_scale.
  assert (EB : bind (inv (matmul (transpose Pm) W)) (fun PWi => bind (inv (map (map (Rmult (INR k))) (matmul (matmul (transpose W) S) W))) (fun Gi => Ok (matvec W (matvec Gi (map (Rmult (INR k)) (matvec (transpose W) s0))), matmul W PWi, reorder o T0))) =
    match bind (inv (matmul (transpose Pm) W)) (fun PWi => bind (inv (matmul (matmul (transpose W) S) W)) (fun Gi => Ok (matvec W (matvec Gi (matvec (transpose W) s0)), matmul W PWi, T0))) with Ok (a, b, t) => Ok (a, b, reorder o t) | Err e => Err e end).
  { destruct (inv (matmul (transpose Pm) W)); [|reflexivity]. cbn [bind]. rewrite Hinv by lra. destruct (inv (matmul (matmul (transpose W) S) W)) as [G|]; [|reflexivity]. cbn [bind].
    rewrite matvec_row_scale, !matvec_arg_scale, map_map.
    assert (Ei : forall l : list R, map (fun x => / INR k * (INR k * x)) l = l) by (intros l; rewrite <- (map_id l) at 2; apply map_ext; intros v; field; lra). rewrite Ei. reflexivity. }
  rewrite EB.
  match goal with |- bind ?a _ = match bind ?b _ with _ => _ end => 
    assert (EAB : a = match b with Ok (x1, x2, t) => Ok (x1, x2, reorder o t) | Err e => Err e end) by (destruct comps; [rewrite EZ; reflexivity|reflexivity]);
    rewrite EAB; destruct b as [[[B Rm] T]|e]; [|reflexivity] end.
  cbn [bind]. destruct (negb (length sX =? p)%nat); [reflexivity|].
  rewrite !xw_R, !reorder_matvec. set (Bres := map2 _ sX B).
  assert (LB : length (matvec X Bres) = n) by (rewrite matvec_length; auto).
  unfold vsub. rewrite <- (cp_map2 n k o Ho) by auto.
  assert (Eb : snipls_intercept c (reorder o (map2 nsub y (matvec X Bres))) = snipls_intercept c (map2 nsub y (matvec X Bres))).
  { assert (L : length (map2 (@nsub R Num_R) y (matvec X Bres)) = n) by (rewrite map2_length_eq; congruence).
    unfold snipls_intercept, nanmean, nanmedian. rewrite !nonnan_R. destruct c; auto; first [apply (cp_vmean n k o Ho Hk); auto|apply (cp_vmedian n k o Ho Hk); auto]. }
  rewrite Eb. set (b0 := snipls_intercept c _). rewrite <- reorder_map. rewrite <- (cp_map2 n k o Ho) by (auto; rewrite map_length; auto).
  unfold reorder_model. cbn [sn_eta sn_ncomp sn_p sn_W sn_P sn_C sn_T sn_coef sn_coef_scaled sn_intercept sn_xev sn_yev sn_fitted sn_resid sn_R sn_retained sn_colret sn_xloc sn_yloc sn_xsca sn_ysca].
  destruct comps; reflexivity.
Qed.
