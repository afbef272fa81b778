(** The optimised methods attain the optimum of their criterion *)

From Coq Require Import String Reals List Arith ZArith Bool Lra Lia.
Import List. Import ListNotations.
From Verif Require Import Num Err Vec VecR S_Stats S_Regress L_Mat L_Lin L_Matmul L_Stats M_Utils M_Preproc M_Robcent L_Scaling M_Dicomo S_Dicomo M_Ipopt M_SdrUtils M_Sudire S_Sudire S_SdrOpt
  L_Dicomo5 L_Dicomo6 L_SdrMat L_SdrKer L_SdrEig L_SdrPow L_SdrMeth L_SdrFit L_SdrFit2 L_SdrFit3 L_SdrCov L_SdrFin L_SdrMore L_Preproc L_Energy.
Open Scope R_scope.

Lemma optimal_feasible : forall {D} (ip : D -> _ -> _ -> _ -> _), optimal ip -> feasible ip.
Proof. intros D ip H d f cons x0 x E. destruct (H d f cons x0 x E) as [_ [Ha _]]. exact Ha. Qed.

(** matrices as functions *)
Lemma fassoc : forall p q (f g h : nat -> nat -> R) i j,
  sumn p (fun a => sumn q (fun b => f i b * g b a) * h a j) = sumn q (fun b => f i b * sumn p (fun a => g b a * h a j)).
Proof.
  intros. rewrite (sumn_ext p _ (fun a => sumn q (fun b => f i b * g b a * h a j))) by (intros; rewrite <- sumn_scal_r; reflexivity).
  rewrite sumn_exchange. apply sumn_ext. intros b Hb. rewrite <- sumn_scal. apply sumn_ext. intros. ring.
Qed.
Section Inverse.
  Variables (p : nat) (N s : nat -> nat -> R).
  Hypothesis SN : forall i j, (i < p)%nat -> (j < p)%nat -> N i j = N j i.
  Hypothesis Ss : forall i j, (i < p)%nat -> (j < p)%nat -> s i j = s j i.
  Hypothesis HN : forall i j, (i < p)%nat -> (j < p)%nat -> sumn p (fun a => sumn p (fun b => N i a * s a b * N b j)) = delta i j.
  Let L i j := sumn p (fun a => N i a * s a j).
  Let Q i j := sumn p (fun a => s i a * N a j).
  Lemma N_Q : forall i j, (i < p)%nat -> (j < p)%nat -> sumn p (fun a => N i a * Q a j) = delta i j.
  Proof. intros i j Hi Hj. rewrite <- (HN i j Hi Hj). apply sumn_ext. intros a Ha. unfold Q. rewrite <- sumn_scal. apply sumn_ext. intros. ring. Qed.
  Lemma L_N : forall i j, (i < p)%nat -> (j < p)%nat -> sumn p (fun a => L i a * N a j) = delta i j.
  Proof. intros i j Hi Hj. unfold L. rewrite fassoc. apply N_Q; auto. Qed.
  Lemma L_Q : forall i j, (i < p)%nat -> (j < p)%nat -> L i j = Q i j.
  Proof.
    intros i j Hi Hj. transitivity (sumn p (fun a => sumn p (fun b => L i b * N b a) * Q a j)).
    - rewrite fassoc. rewrite (sumn_ext p _ (fun b => L i b * delta b j)) by (intros; rewrite N_Q by auto; reflexivity).
      symmetry. apply (sumn_delta_r p j (fun b => L i b)). auto.
    - rewrite (sumn_ext p _ (fun a => delta i a * Q a j)) by (intros; rewrite L_N by auto; reflexivity). apply (sumn_delta_l p i (fun a => Q a j)). auto.
  Qed.
  Variables (h : nat) (C : nat -> nat -> R).
  Hypothesis HC : forall i j, (i < h)%nat -> (j < h)%nat -> sumn p (fun a => sumn p (fun b => C a i * s a b * C b j)) = delta i j.
  Definition pullback (i j : nat) : R := sumn p (fun a => L i a * C a j).
  Lemma pull_back : forall i j, (i < p)%nat -> (j < h)%nat -> sumn p (fun a => N i a * pullback a j) = C i j.
  Proof.
    intros i j Hi Hj. unfold pullback. rewrite <- fassoc.
    rewrite (sumn_ext p _ (fun a => delta i a * C a j)); [apply (sumn_delta_l p i (fun a => C a j)); auto|].
    intros a Ha. f_equal. rewrite <- (N_Q i a Hi Ha). apply sumn_ext. intros b Hb. rewrite L_Q by auto. reflexivity.
  Qed.
  Lemma pull_orth : forall i j, (i < h)%nat -> (j < h)%nat -> sumn p (fun a => pullback a i * pullback a j) = delta i j.
  Proof.
    intros i j Hi Hj. rewrite <- (HC i j Hi Hj).
    transitivity (sumn p (fun c => C c i * sumn p (fun a => L a c * pullback a j))).
    - rewrite <- (fassoc p p (fun i c => C c i) (fun c a => L a c) pullback i j). apply sumn_ext. intros a Ha. f_equal. unfold pullback. apply sumn_ext. intros. ring.
    - apply sumn_ext. intros c Hc. rewrite (sumn_ext p (fun b => C c i * s c b * C b j) (fun b => C c i * (s c b * C b j))) by (intros; ring). rewrite sumn_scal. f_equal.
      rewrite (sumn_ext p _ (fun a => sumn p (fun b => s c b * N b a) * pullback a j)).
      + rewrite fassoc. apply sumn_ext. intros b Hb. rewrite pull_back by auto. reflexivity.
      + intros a Ha. f_equal. unfold L. apply sumn_ext. intros b Hb. rewrite (SN a b), (Ss b c) by auto. ring.
  Qed.
End Inverse.

Lemma rowdist_same : forall n h (T T' : list (list R)), wf n h T -> wf n h T' ->
  (forall i j k, (i < n)%nat -> (j < n)%nat -> (k < h)%nat -> mget T i k - mget T j k = mget T' i k - mget T' j k) ->
  forall i j, (i < n)%nat -> (j < n)%nat -> rowdist T i j = rowdist T' i j.
Proof.
  intros n h T T' W W' HD i j Hi Hj. unfold rowdist, edist. f_equal. rewrite !(fun r m => sqdist_sumn r m h) by (apply (wf_nth_row n h); auto).
  apply sumn_ext. intros k Hk. pose proof (HD i j k Hi Hj Hk) as E. unfold mget in E. change (@n0 R Num_R) with 0 in E. rewrite E. reflexivity.
Qed.
Lemma mdd_sq_ext : forall n X X' y, (forall i j, (i < n)%nat -> (j < n)%nat -> rowdist X i j = rowdist X' i j) -> mdd_sq n X y = mdd_sq n X' y.
Proof.
  intros n X X' y H. unfold mdd_sq. f_equal. f_equal.
  assert (G : forall k (f g : nat -> R), (forall i, (i < k)%nat -> f i = g i) -> sum_below k f = sum_below k g).
  { induction k as [|k IH]; intros f g Hf; cbn; [reflexivity|]. rewrite (IH f g), Hf by (auto; intros; apply Hf; lia). reflexivity. }
  apply G. intros i Hi. apply G. intros j Hj. rewrite H by auto. reflexivity.
Qed.

Lemma optimise_objective : forall (env : sd_env R) st Xs ys N2 metric bias st' P, sd_optimise env st Xs ys N2 metric bias = (st', Ok P) -> ss_args st = None -> ss_cons st = None ->
  forall (obj : vec R -> sargs R -> res R), (sp_meth (ss_prm st) = MDcov /\ obj = dcov_trim \/ sp_meth (ss_prm st) = MMdd /\ obj = mdd_trim) ->
  exists d x0 x B, se_ipopt env d (fun b => obj b (mk_sargs Xs ys (sp_ncomp (ss_prm st)) (sp_trim (ss_prm st)) (center_name (sp_center (ss_prm st))) metric bias))
      (constraints (sp_scale_data (ss_prm st)) Xs (sp_ncomp (ss_prm st))) x0 = Ok x /\
    unvec (sp_ncomp (ss_prm st)) x = Ok B /\ n2_times (sp_scale_data (ss_prm st)) N2 B = Ok P.
Proof.
  intros env st Xs ys N2 metric bias st' P E HA HC obj HM. unfold sd_optimise in E. cbv zeta in E. rewrite HA, HC in E.
  destruct (match ss_start st with Some b => Ok b | None => start_value env (ss_prm st) Xs ys N2 end) as [start|] eqn:ES; [|discriminate].
  set (args := mk_sargs _ _ _ _ _ _ _) in *. set (cons := constraints _ _ _) in *.
  destruct (se_ipopt env (ss_dict st) (fun b => dcov_trim b args) cons start) as [x1|] eqn:E1; [|discriminate]. cbn [bind] in E.
  destruct (unvec (sp_ncomp (ss_prm st)) x1) as [B1|] eqn:E2; [|discriminate]. cbn [bind] in E.
  destruct (n2_times (sp_scale_data (ss_prm st)) N2 B1) as [B1'|] eqn:E3; [|discriminate].
  destruct HM as [[HM ->]|[HM ->]]; rewrite HM in E.
  - injection E as _ E. subst B1'. exists (ss_dict st), start, x1, B1. auto.
  - injection E as _ E. match type of E with bind (se_ipopt env ?d ?f ?c ?z) _ = _ => destruct (se_ipopt env d f c z) as [x|] eqn:Ex; [|discriminate]; exists d, z, x end.
    cbn [bind] in E. destruct (unvec (sp_ncomp (ss_prm st)) x) as [B|] eqn:EB; [|discriminate]. exists B. auto.
Qed.

Section Opt.
  Variables (env : sd_env R) (st st' : sstate R) (X : list (list R)) (y : arr R) (metric : list R -> list R -> R) (bias : bool) (m : smodel R) (n p : nat).
  Hypothesis HS : svd_shapes (se_svd env).
  Hypothesis HI : isqrt_ok (se_isqrt env).
  Hypothesis He : eigh_ok (se_eigh env).
  Hypothesis HO : optimal (se_ipopt env).
  Hypothesis W : wf n p X.
  Hypothesis Hn : (2 <= n)%nat.
  Hypothesis Hp : (0 < p)%nat.
  Hypothesis Hc : sp_copy (ss_prm st) = true.
  Hypothesis HW : sp_whiten (ss_prm st) = false.
  Hypothesis HM : sp_center (ss_prm st) = CMean.
  Hypothesis HA : ss_args st = None.
  Hypothesis HCo : ss_cons st = None.
  Hypothesis E : sd_fit env st X y metric bias = (st', Ok m).
  Let prm := ss_prm st.
  Let h := sp_ncomp prm.

  (** [crit]: minus the objective, as a function of the projected data *)
  Lemma optimum : forall (obj : vec R -> sargs R -> res R) (crit : list R -> list (list R) -> R),
    (sp_meth prm = MDcov /\ obj = dcov_trim \/ sp_meth prm = MMdd /\ obj = mdd_trim) ->
    (forall ys T T', (forall i j, (i < n)%nat -> (j < n)%nat -> rowdist T i j = rowdist T' i j) -> crit ys T = crit ys T') ->
    (forall Xs ys B, (0 < h)%nat -> wf n p Xs -> length ys = n -> wf p h B -> obj (flatF B) (mk_sargs Xs ys h (sp_trim prm) "mean" metric bias) = Ok (- crit ys (matmul Xs B))) ->
    exists ys, sd_response n y = Ok ys /\ forall C, wf p h C -> sigma_orthonormal p h X C -> crit ys (matmul X C) <= crit ys (sm_T m).
  Proof.
    intros obj crit Hm Hext Hobj.
    destruct (fit_all env st st' X y metric bias m n p HS HI He W Hn Hp Hc HW E) as [pd [ys [P [EPr [EY [EV [WX [WN [SN [HN [WP [EP [ET HP]]]]]]]]]]]]].
    fold prm in EPr, HP. fold h in WP. exists ys. split; [exact EY|]. intros C WC HCs.
    destruct HP as [[P0 [ED _]]|[_ EO]]; [exfalso; unfold sd_direct in ED; cbv zeta in ED; destruct Hm as [[Hm _]|[Hm _]]; rewrite Hm in ED; discriminate|].
    destruct (optimise_objective _ _ _ _ _ _ _ _ _ EO HA HCo obj Hm) as (d & x0 & x & B & EI & EB & EN). cbn [ss_prm] in EI, EB, EN. fold prm in EI, EB, EN. fold h in EI, EB.
    change (sp_center prm) with (sp_center (ss_prm st)) in EI. rewrite HM in EI. cbn [center_name] in EI.
    destruct (HO _ _ _ _ _ EI) as [Lx [Adm Best]]. unfold admissible in Adm.
    destruct (unvec_wf _ _ _ EB) as [Hh [Lx' WB]].
    assert (LB : length B = p).
    { destruct (n2_times_wf _ _ _ _ p h Hp WN WB EN) as [_ LP]. rewrite <- LP. apply (npmatmul_dim n p X P _ ltac:(lia) W ET). }
    rewrite LB in WB. assert (Ex : flatF B = x) by (apply (flatF_unvec h); auto; intros ->; cbn in Lx'; lia).
    destruct (response_inv _ _ _ EY) as [Ly _].
    destruct (prepare_entries env prm X n p pd W Hn Hp EPr HW EV (or_introl HM)) as [_ [Hp2 [mu [HU [HSc _]]]]].
    (* the projections of the prepared data and of the data *)
    assert (Same : forall D F, wf p h D -> wf p h F -> (forall a k, (a < p)%nat -> (k < h)%nat -> mget F a k = if sp_scale_data prm then sumn p (fun b => mget (pd_N2 pd) a b * mget D b k) else mget D a k) ->
      crit ys (matmul (pd_Xs pd) D) = crit ys (matmul X F)).
    { intros D F WD WF HF. pose proof (rep_matmul n p h _ _ _ _ Hp (rep_self _ _ _ WX) (rep_self _ _ _ WD)) as [W1 E1]. pose proof (rep_matmul n p h _ _ _ _ Hp (rep_self _ _ _ W) (rep_self _ _ _ WF)) as [W2 E2].
      apply Hext. apply (rowdist_same n h); auto. intros i j k Hi Hj Hk. rewrite !E1, !E2 by auto. rewrite <- !sumn_minus.
      destruct (sp_scale_data prm) eqn:Esd.
      - specialize (HSc eq_refl HM WN).
        rewrite (sumn_ext p (fun a => mget X i a * mget F a k - mget X j a * mget F a k) (fun a => sumn p (fun b => (mget X i a - mget X j a) * mget (pd_N2 pd) a b * mget D b k))).
        2: { intros a Ha. rewrite HF by auto. rewrite (sumn_ext p (fun b => (mget X i a - mget X j a) * mget (pd_N2 pd) a b * mget D b k) (fun b => (mget X i a - mget X j a) * (mget (pd_N2 pd) a b * mget D b k))) by (intros; ring). rewrite sumn_scal. ring. }
        rewrite sumn_exchange. apply sumn_ext. intros b Hb. rewrite !HSc by auto. rewrite sumn_scal_r.
        rewrite (sumn_ext p (fun a => (mget X i a - mget X j a) * mget (pd_N2 pd) a b) (fun a => (mget X i a - mu a) * mget (pd_N2 pd) a b - (mget X j a - mu a) * mget (pd_N2 pd) a b)) by (intros; ring).
        rewrite sumn_minus. ring.
      - specialize (HU eq_refl). apply sumn_ext. intros a Ha. rewrite !HU, HF by auto. ring. }
    assert (EPT : crit ys (matmul (pd_Xs pd) B) = crit ys (sm_T m)).
    { rewrite (npmatmul_total n p h X P) in ET by (auto; lia). apply Ok_inj in ET. rewrite <- ET. apply Same; auto. intros a k Ha Hk. unfold n2_times in EN. destruct (sp_scale_data prm).
      - destruct (npmatmul_ok p p h _ _ _ _ P Hp Hp (rep_self _ _ _ WN) (rep_self _ _ _ WB) EN) as [_ HP]. apply HP; auto.
      - apply Ok_inj in EN. subst. reflexivity. }
    rewrite <- EPT.
    (* the competitor *)
    assert (Comp : exists D, wf p h D /\ (forall a k, (a < p)%nat -> (k < h)%nat -> mget C a k = if sp_scale_data prm then sumn p (fun b => mget (pd_N2 pd) a b * mget D b k) else mget D a k) /\
      admissible (constraints (sp_scale_data prm) (pd_Xs pd) h) (flatF D)).
    { assert (Cons : forall D, wf p h D -> (forall i j, (i < h)%nat -> (j < h)%nat -> (if sp_scale_data prm then const_zscale (flatF D) (pd_Xs pd) h i j else const_xscale (flatF D) (pd_Xs pd) h i j) = Ok 0) ->
        admissible (constraints (sp_scale_data prm) (pd_Xs pd) h) (flatF D)).
      { intros D WD HD c Hin. unfold constraints in Hin. apply in_concat in Hin as [l [Hl Hin]]. apply in_map_iff in Hl as [i [<- Hi]]. apply in_map_iff in Hin as [j [<- Hj]].
        apply in_seq in Hi. apply in_seq in Hj. apply HD; lia. }
      change sum_to with sumn in *. destruct (sp_scale_data prm) eqn:Esd.
      - pose proof (rep_table p h (pullback p (mget (pd_N2 pd)) (fun a b => cov_of (column a X) (column b X)) (mget C))) as [WD HD].
        eexists. split; [exact WD|]. assert (SN' : forall i j, (i < p)%nat -> (j < p)%nat -> mget (A := R) (pd_N2 pd) i j = mget (pd_N2 pd) j i) by exact SN. split.
        + intros a k Ha Hk. symmetry. rewrite <- (pull_back p (mget (pd_N2 pd)) (fun a b => cov_of (column a X) (column b X)) HN h (mget C)) with (i := a) (j := k) by auto.
          apply sumn_ext. intros b Hb. rewrite HD by auto. reflexivity.
        + apply Cons; [exact WD|]. intros i j Hi Hj. rewrite (const_zscale_ok n p h) by (auto; lia). f_equal.
          rewrite (sumn_ext p _ (fun a => pullback p (mget (pd_N2 pd)) (fun a b => cov_of (column a X) (column b X)) (mget C) a i * pullback p (mget (pd_N2 pd)) (fun a b => cov_of (column a X) (column b X)) (mget C) a j)) by (intros; rewrite !HD by auto; reflexivity).
          rewrite (pull_orth p (mget (pd_N2 pd)) (fun a b => cov_of (column a X) (column b X)) SN' ltac:(intros; apply cov_sym) HN h (mget C)); auto. ring.
      - exists C. split; [auto|]. split; [auto|]. apply Cons; [auto|]. intros i j Hi Hj. rewrite (const_xscale_ok n p h) by (auto; lia). f_equal. rewrite <- (HCs i j Hi Hj).
        specialize (HU eq_refl). match goal with |- ?u - ?v = 0 => enough (u = v) by lra end. apply sumn_ext. intros a Ha. apply sumn_ext. intros b Hb. change cell with (mget (A := R)). f_equal. f_equal.
        rewrite (cov_columns n p (pd_Xs pd)), (cov_columns n p X) by auto.
        rewrite (covf_ext n _ (fun r => mget X r a - mu a) _ (fun r => mget X r b - mu b)) by (intros; apply HU; auto). apply covf_shift. lia. }
    destruct Comp as [D [WD [HD AD]]]. rewrite <- (Same D C WD WC HD).
    destruct (Best (flatF D) (- crit ys (matmul (pd_Xs pd) D))) as [v [Ev Hv]].
    - rewrite <- Ex. rewrite (proj1 (flatF_spec p h D Hp WD)), (proj1 (flatF_spec p h B Hp WB)). reflexivity.
    - exact AD.
    - apply Hobj; auto.
    - rewrite <- Ex in Ev. rewrite Hobj in Ev by auto. apply Ok_inj in Ev. lra.
  Qed.
End Opt.

Lemma response_flat : forall n (y : arr R) ys, sd_response n y = Ok ys -> M_Dicomo.flat y = ys.
Proof.
  intros n y ys E. unfold sd_response in E. destruct y as [v|Y]; cbn zeta in E.
  - destruct (negb _); [discriminate|]. destruct (negb _); [discriminate|]. apply Ok_inj in E. subst ys. cbn. unfold col. rewrite map_map. symmetry. apply map_id.
  - destruct (negb _); [discriminate|]. destruct (forallb _ Y) eqn:F; cbn [negb] in E; [|discriminate]. apply Ok_inj in E. subst ys. cbn. clear - F.
    induction Y as [|r Y IH]; [reflexivity|]. cbn [forallb] in F. apply andb_prop in F as [F1 F2]. cbn. destruct r as [|a [|b r]]; try discriminate. cbn. f_equal. apply IH. exact F2.
Qed.

Lemma maximal_dcov : forall (env : sd_env R) st st' X y bias m n p, svd_shapes (se_svd env) -> isqrt_ok (se_isqrt env) -> eigh_ok (se_eigh env) -> optimal (se_ipopt env) ->
  is_matrix n p X -> (2 <= n)%nat -> (0 < p)%nat -> sp_copy (ss_prm st) = true -> sp_whiten (ss_prm st) = false -> sp_center (ss_prm st) = CMean -> sp_trim (ss_prm st) = 0 ->
  ss_cons st = None -> ss_args st = None -> sp_meth (ss_prm st) = MDcov -> sd_fit env st X y euclid bias = (st', Ok m) ->
  let h := sp_ncomp (ss_prm st) in let Y := map (fun v => [v]) (M_Dicomo.flat y) in
  sigma_orthonormal p h X (sm_P m) /\ forall C, is_matrix p h C -> sigma_orthonormal p h X C -> dcov_sq n (matmul X C) Y <= dcov_sq n (sm_T m) Y.
Proof.
  intros env st st' X y bias m n p HS HI He HO W Hn Hp Hc HW HM Ht HCo HA Hm E h Y. split.
  - apply (fit_optimised_orthonormal env st st' X y euclid bias m n p); auto; [apply optimal_feasible; auto|rewrite Hm; exact I].
  - intros C WC HC.
    destruct (optimum env st st' X y euclid bias m n p HS HI He HO W Hn Hp Hc HW HM HA HCo E dcov_trim (fun ys T => 10 * sqrt (dcov_sq n T (map (fun v => [v]) ys)))) as [ys [EY HB]].
    + left. auto.
    + intros ys T T' HT. rewrite (dcov_sq_ext n T T') by auto. reflexivity.
    + intros Xs ys B Hh WX Ly WB. destruct (objective_values n p (sp_ncomp (ss_prm st)) Xs B ys (mk_sargs Xs ys (sp_ncomp (ss_prm st)) (sp_trim (ss_prm st)) "mean" euclid bias)) as [V _]; auto; try lia.
      rewrite V by reflexivity. f_equal. lra.
    + specialize (HB C WC HC). unfold Y. rewrite (response_flat _ _ _ EY).
      destruct (response_inv _ _ _ EY) as [Ly _].
      destruct (fit_all env st st' X y euclid bias m n p HS HI He W Hn Hp Hc HW E) as [pd [ys' [P [_ [_ [_ [_ [_ [_ [_ [WP [_ [ET _]]]]]]]]]]]]].
      rewrite (npmatmul_total n p (sp_ncomp (ss_prm st)) X P) in ET by (auto; lia). apply Ok_inj in ET.
      assert (WY : wf n 1 (map (fun v => [v]) ys)) by (split; [rewrite map_length; auto|apply Forall_forall; intros r Hr; apply in_map_iff in Hr as [v [<- _]]; reflexivity]).
      apply sqrt_le_0; try lra.
      * apply (dcov_sq_nonneg n (sp_ncomp (ss_prm st)) 1); auto; try lia. apply (rep_matmul n p _ X C _ _ Hp (rep_self _ _ _ W) (rep_self _ _ _ WC)).
      * apply (dcov_sq_nonneg n (sp_ncomp (ss_prm st)) 1); auto; try lia. rewrite <- ET. apply (rep_matmul n p _ X P _ _ Hp (rep_self _ _ _ W) (rep_self _ _ _ WP)).
Qed.

Lemma maximal_mdd : forall (env : sd_env R) st st' X y metric m n p, svd_shapes (se_svd env) -> isqrt_ok (se_isqrt env) -> eigh_ok (se_eigh env) -> optimal (se_ipopt env) ->
  is_matrix n p X -> (2 <= n)%nat -> (0 < p)%nat -> sp_copy (ss_prm st) = true -> sp_whiten (ss_prm st) = false -> sp_center (ss_prm st) = CMean -> sp_trim (ss_prm st) = 0 ->
  ss_cons st = None -> ss_args st = None -> sp_meth (ss_prm st) = MMdd -> sd_fit env st X y metric false = (st', Ok m) ->
  let h := sp_ncomp (ss_prm st) in
  sigma_orthonormal p h X (sm_P m) /\ forall C, is_matrix p h C -> sigma_orthonormal p h X C -> mdd_sq n (matmul X C) (M_Dicomo.flat y) <= mdd_sq n (sm_T m) (M_Dicomo.flat y).
Proof.
  intros env st st' X y metric m n p HS HI He HO W Hn Hp Hc HW HM Ht HCo HA Hm E h. split.
  - apply (fit_optimised_orthonormal env st st' X y metric false m n p); auto; [apply optimal_feasible; auto|rewrite Hm; exact I].
  - intros C WC HC.
    destruct (optimum env st st' X y metric false m n p HS HI He HO W Hn Hp Hc HW HM HA HCo E mdd_trim (fun ys T => 10 * sqrt (mdd_sq n T ys))) as [ys [EY HB]].
    + right. auto.
    + intros ys T T' HT. rewrite (mdd_sq_ext n T T') by auto. reflexivity.
    + intros Xs ys B Hh WX Ly WB. destruct (objective_values n p (sp_ncomp (ss_prm st)) Xs B ys (mk_sargs Xs ys (sp_ncomp (ss_prm st)) (sp_trim (ss_prm st)) "mean" metric false)) as [_ V]; auto; try lia.
      rewrite V by reflexivity. f_equal. lra.
    + specialize (HB C WC HC). rewrite (response_flat _ _ _ EY). destruct (response_inv _ _ _ EY) as [Ly _].
      destruct (fit_all env st st' X y metric false m n p HS HI He W Hn Hp Hc HW E) as [pd [ys' [P [_ [_ [_ [_ [_ [_ [_ [WP [_ [ET _]]]]]]]]]]]]].
      rewrite (npmatmul_total n p (sp_ncomp (ss_prm st)) X P) in ET by (auto; lia). apply Ok_inj in ET.
      apply sqrt_le_0; try lra.
      * apply (mdd_sq_nonneg n (sp_ncomp (ss_prm st))); auto; try lia. apply (rep_matmul n p _ X C _ _ Hp (rep_self _ _ _ W) (rep_self _ _ _ WC)).
      * apply (mdd_sq_nonneg n (sp_ncomp (ss_prm st))); auto; try lia. rewrite <- ET. apply (rep_matmul n p _ X P _ _ Hp (rep_self _ _ _ W) (rep_self _ _ _ WP)).
Qed.
