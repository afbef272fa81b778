(** Two fits of sudire, on data and on a linear change of the data *)

From Coq Require Import String Reals List Arith ZArith Bool Lra Lia.
Import List. Import ListNotations.
From Verif Require Import Num Err Vec VecR S_Stats S_Regress L_Mat L_Lin L_Matmul L_Stats M_Utils M_Preproc M_Robcent L_Scaling M_Dicomo M_Ipopt M_SdrUtils M_Sudire S_Sudire S_SdrDim
  L_SdrMat L_SdrKer L_SdrEig L_SdrPow L_SdrMeth L_SdrFit L_SdrFit2 L_SdrFit3 L_SdrCov L_SdrMore L_SdrFin L_EqMat L_EqKer L_EqFit S_UnitsSd.
Open Scope R_scope.

Lemma method_not_optimised : forall mt k ct p y f, method_matrix mt k ct p y f -> ~ optimised mt.
Proof. intros mt k ct p y f H HO. unfold method_matrix, optimised in *. destruct mt; contradiction. Qed.

Section Two.
  Variables (env : sd_env R) (st : sstate R) (X X' A : list (list R)) (c : nat -> R) (y : list R) (metric : list R -> list R -> R) (bias : bool) (st1 st2 : sstate R) (m m' : smodel R) (n p : nat)
    (kernel : list (list R) -> nat -> nat -> R).
  Hypothesis HS : svd_shapes (se_svd env).
  Hypothesis HI : isqrt_ok (se_isqrt env).
  Hypothesis He : eigh_ok (se_eigh env).
  Hypothesis W : is_matrix n p X.
  Hypothesis HL : linear_change n p X A c X'.
  Hypothesis Hn : (2 <= n)%nat.
  Hypothesis Hp : (0 < p)%nat.
  Hypothesis Hc : sp_copy (ss_prm st) = true.
  Hypothesis HW : sp_whiten (ss_prm st) = false.
  Hypothesis HC : sp_center (ss_prm st) = CMean.
  Hypothesis Hd : sp_center_data (ss_prm st) = true.
  Hypothesis Hs : sp_scale_data (ss_prm st) = true.
  Hypothesis HK : method_matrix (sp_meth (ss_prm st)) (sp_slices (ss_prm st)) (sp_cont (ss_prm st)) p y kernel.
  Hypothesis HG : separated n p (sp_ncomp (ss_prm st)) X kernel.
  Hypothesis E : sd_fit env st X (A1 y) metric bias = (st1, Ok m).
  Hypothesis E' : sd_fit env st X' (A1 y) metric bias = (st2, Ok m').
  Let h := sp_ncomp (ss_prm st).

  Lemma W' : wf n p X'. Proof. exact (proj1 HL). Qed.

  Lemma fit_directions : exists o : fmat, orthonormal h h o /\ feq p h (fmm p (mget A) (mget (sm_P m'))) (fmm h (mget (sm_P m)) o) /\
    wf p h (sm_P m) /\ wf p h (sm_P m') /\ npmatmul X (sm_P m) = Ok (sm_T m) /\ npmatmul X' (sm_P m') = Ok (sm_T m') /\ length y = n.
  Proof.
    destruct (fit_std env st st1 X y metric bias m n p HS HI He W Hn Hp Hc HW HC Hd Hs E kernel HK) as (N & Z & V & mu & Ly & HN & WZ & HZ & HV & HP & WP & ET).
    destruct (fit_std env st st2 X' y metric bias m' n p HS HI He W' Hn Hp Hc HW HC Hd Hs E' kernel HK) as (N' & Z' & V' & mu' & _ & HN' & WZ' & HZ' & HV' & HP' & WP' & ET').
    fold h in HV, HV', HP, HP', WP, WP'.
    destruct HG as (S0 & Z0 & [WS [SS HSI]] & [WZ0 HZ0] & V0 & HV0 & HG0). fold h in HV0, HG0.
    set (sg := fun a b => cov_of (column a X) (column b X)).
    assert (HS2 : feq p p (fmm p (mget S0) (fmm p sg (mget S0))) delta).
    { intros i j Hi Hj. rewrite <- (HSI i j Hi Hj). change sum_to with sumn. unfold fmm at 1. apply sumn_ext. intros a Ha. unfold fmm. rewrite <- sumn_scal. apply sumn_ext. intros b Hb.
      change cell with (mget (A := R)). unfold covariance_matrix. rewrite mget_matrix_of by auto. unfold sg. ring. }
    assert (HZ0' : forall i j, (i < n)%nat -> (j < p)%nat -> mget Z0 i j = sumn p (fun a => (mget X i a - mean_of (column a X)) * mget S0 a j)) by (intros i j Hi Hj; apply (HZ0 i j Hi Hj)).
    assert (HSs : feq p p (mget S0) (ft (mget S0))) by (intros i j Hi Hj; apply SS; auto).
    pose proof (leadf_ext p _ _ h _ _ (mget_matrix_of p (kernel Z0)) (leading_leadf p _ h V0 HV0)) as HV0f.
    pose proof (gapf_ext p _ _ h _ _ (mget_matrix_of p (kernel Z0)) (gap_gapf p _ h V0 (proj1 HV0) HG0)) as HG0f.
    assert (HX0 : forall i j, (i < n)%nat -> (j < p)%nat -> mget X i j = sumn p (fun a => mget X i a * mget (identity p) a j) + 0).
    { intros i j Hi Hj. rewrite (sumn_ext p _ (fun a => mget X i a * delta a j)) by (intros a Ha; rewrite (proj2 (rep_identity p)) by auto; reflexivity). rewrite (sumn_delta_r p j (mget X i)) by auto. ring. }
    destruct (core _ _ _ n p h X (identity p) X (fun _ => 0) y kernel HK ltac:(lia) Ly W W HX0 S0 Z0 V0 HSs HS2 WZ0 HZ0' _ HV0f HG0f N Z V (mget (sm_P m)) mu HN WZ HZ HV HP) as [o1 [O1 H1]].
    destruct (core _ _ _ n p h X A X' c y kernel HK ltac:(lia) Ly W W' (proj2 HL) S0 Z0 V0 HSs HS2 WZ0 HZ0' _ HV0f HG0f N' Z' V' (mget (sm_P m')) mu' HN' WZ' HZ' HV' HP') as [o2 [O2 H2]].
    exists (fmm h (ft o1) o2). split; [|split; [|auto 10]].
    - pose proof (square_orthonormal h o1 O1) as R1. intros i j Hi Hj.
      transitivity (fmm h (fmm h (ft o2) o1) (fmm h (ft o1) o2) i j).
      + apply (fmm_l h h h); auto. intros a b Ha Hb. rewrite ft_mm. reflexivity.
      + rewrite fmm_assoc. rewrite (fmm_r h h h (ft o2) _ o2) by first [assumption|intros a b Ha Hb; rewrite <- fmm_assoc; rewrite (fmm_l h h h _ delta o2 R1 a b Ha Hb); apply (fid_l h h); auto].
        apply O2; auto.
    - pose proof (square_orthonormal h o1 O1) as R1. set (b0 := fmm p (mget S0) (mget V0)) in *. intros i j Hi Hj. rewrite (H2 i j Hi Hj).
      assert (HPb : feq p h (mget (sm_P m)) (fmm h b0 o1)).
      { intros a b Ha Hb. rewrite <- (H1 a b Ha Hb). rewrite (fmm_l p p h _ delta (mget (sm_P m))) by first [assumption|intros x z Hx Hz; apply (proj2 (rep_identity p)); auto].
        symmetry. apply (fid_l p h); auto. }
      rewrite (fmm_l p h h _ _ (fmm h (ft o1) o2) HPb i j Hi Hj). rewrite fmm_assoc. apply (fmm_r p h h); auto. intros a b Ha Hb.
      rewrite <- fmm_assoc. rewrite (fmm_l h h h _ delta o2 R1 a b Ha Hb). symmetry. apply (fid_l h h); auto.
  Qed.

  (** the scores of data [k x p] and of their linear change *)
  Lemma scores_change : forall o k Y Y', feq p h (fmm p (mget A) (mget (sm_P m'))) (fmm h (mget (sm_P m)) o) -> linear_change k p Y A c Y' -> forall i j, (i < k)%nat -> (j < h)%nat ->
    sumn p (fun a => mget Y' i a * mget (sm_P m') a j) = sumn h (fun a => sumn p (fun b => mget Y i b * mget (sm_P m) b a) * o a j) + sumn p (fun a => c a * mget (sm_P m') a j).
  Proof.
    intros o k Y Y' HO [_ HY] i j Hi Hj. change cell with (mget (A := R)) in HY. change sum_to with sumn in HY.
    rewrite (sumn_ext p _ (fun a => fmm p (mget Y) (mget A) i a * mget (sm_P m') a j + c a * mget (sm_P m') a j)) by (intros a Ha; rewrite HY by auto; unfold fmm; ring).
    rewrite sumn_plus. f_equal. change (fmm p (fmm p (mget Y) (mget A)) (mget (sm_P m')) i j = fmm h (fmm p (mget Y) (mget (sm_P m))) o i j).
    rewrite !fmm_assoc. apply (fmm_r k p h); auto.
  Qed.

  Lemma fit_linear : exists C, orthogonal_matrix h C /\
    (forall i j, (i < p)%nat -> (j < h)%nat -> sum_to p (fun a => cell A i a * cell (sm_P m') a j) = sum_to h (fun a => cell (sm_P m) i a * cell C a j)) /\
    (forall i j, (i < n)%nat -> (j < h)%nat -> cell (sm_T m') i j = sum_to h (fun a => cell (sm_T m) i a * cell C a j) + sum_to p (fun a => c a * cell (sm_P m') a j)).
  Proof.
    destruct fit_directions as [o [Ho [HO [WP [WP' [ET [ET' Ly]]]]]]]. pose proof (square_orthonormal h o Ho) as Hr.
    exists (matrix_of h o). pose proof (mget_matrix_of h o) as MO.
    split; [|split].
    - split; [apply (proj1 (rep_table h h o))|]. intros i j Hi Hj. change cell with (mget (A := R)). change sum_to with sumn. split.
      + rewrite <- (Ho i j Hi Hj). apply sumn_ext. intros a Ha. rewrite !MO by auto. reflexivity.
      + rewrite <- (Hr i j Hi Hj). apply sumn_ext. intros a Ha. rewrite !MO by auto. reflexivity.
    - intros i j Hi Hj. change cell with (mget (A := R)). change sum_to with sumn. rewrite (sumn_ext h _ (fun a => mget (sm_P m) i a * o a j)) by (intros a Ha; rewrite MO by auto; reflexivity). apply (HO i j Hi Hj).
    - intros i j Hi Hj. change cell with (mget (A := R)). change sum_to with sumn.
      destruct (npmatmul_ok n p h X (sm_P m) _ _ _ ltac:(lia) Hp (rep_self _ _ _ W) (rep_self _ _ _ WP) ET) as [_ HT].
      destruct (npmatmul_ok n p h X' (sm_P m') _ _ _ ltac:(lia) Hp (rep_self _ _ _ W') (rep_self _ _ _ WP') ET') as [_ HT'].
      rewrite HT' by auto. rewrite (sumn_ext h _ (fun a => sumn p (fun b => mget X i b * mget (sm_P m) b a) * o a j)) by (intros a Ha; rewrite HT, MO by auto; reflexivity).
      apply (scores_change o n); auto.
  Qed.

  (** ** the regression on the scores *)
  Hypothesis HQ : least_squares (se_ols env).

  Lemma scores_nonconstant : forall T, wf n h T -> uncorrelated_unit h T -> ~ constant_column n h T.
  Proof.
    intros T WT HU [j [v [Hj [Hv HT]]]]. pose proof (HU j j Hj Hj) as H. rewrite delta_same in H. rewrite (cov_columns n h) in H by auto.
    rewrite (covf_ext n _ (fun _ => v) _ (fun _ => v)) in H by (intros; apply HT; auto). unfold covf in H. rewrite sumn_zero in H; [unfold Rdiv in H; lra|].
    intros r Hr. unfold mf. rewrite sumn_const. assert (INR n <> 0) by (apply not_0_INR; lia). replace (INR n * v / INR n) with v by (field; auto). ring.
  Qed.
  Lemma design_cell : forall k (T : list (list R)) b i, wf k h T -> length b = Datatypes.S h -> (i < k)%nat ->
    sumn (Datatypes.S h) (fun a => mget (map (cons 1) T) i a * nth a b 0) = nth 0 b 0 + sumn h (fun a => mget T i a * nth (Datatypes.S a) b 0).
  Proof.
    intros k T b i WT Lb Hi. unfold mget at 1. rewrite (nth_map_lt _ _ _ []) by (rewrite (wf_length _ _ _ WT); auto).
    change (fun a => nth a (1 :: nth i T []) n0 * nth a b 0) with (fun a => nth a (1 :: nth i T []) 0 * nth a b 0).
    destruct b as [|b0 bs]; [discriminate|]. injection Lb as Lb. pose proof (wf_nth_row k h T i WT Hi) as Lr.
    rewrite <- (dot_sumn (1 :: nth i T []) (b0 :: bs)) by (cbn; congruence). rewrite dot_cons. cbn [nth]. rewrite (dot_sumn _ _ h) by auto. rnum. rewrite Rmult_1_l. reflexivity.
  Qed.
  Lemma design_wf : forall k (T : list (list R)), wf k h T -> wf k (Datatypes.S h) (map (cons 1) T).
  Proof.
    intros k T WT. split; [rewrite map_length; apply (wf_length _ _ _ WT)|]. apply Forall_forall. intros r Hr. apply in_map_iff in Hr as [r' [<- Hr']]. cbn. rewrite (wf_row _ _ _ _ WT Hr'). reflexivity.
  Qed.
  (** one fit: least squares on the scores *)
  Lemma one_regression : forall Y (st'' : sstate R) mm, wf n p Y -> sd_fit env st Y (A1 y) metric bias = (st'', Ok mm) -> wf p h (sm_P mm) -> npmatmul Y (sm_P mm) = Ok (sm_T mm) ->
    wf n h (sm_T mm) /\ uncorrelated_unit h (sm_T mm) /\ length (sm_ols mm) = Datatypes.S h /\ sm_fitted mm = matvec (map (cons 1) (sm_T mm)) (sm_ols mm) /\
    forall b0 (b : nat -> R), sumn n (fun i => (nth i y 0 - (nth 0 (sm_ols mm) 0 + sumn h (fun a => mget (sm_T mm) i a * nth (Datatypes.S a) (sm_ols mm) 0))) ^ 2)
      <= sumn n (fun i => (nth i y 0 - (b0 + sumn h (fun a => mget (sm_T mm) i a * b a))) ^ 2).
  Proof.
    intros Y st'' mm WY EY WP ET.
    assert (WT : wf n h (sm_T mm)) by (apply (npmatmul_ok n p h Y (sm_P mm) _ _ _ ltac:(lia) Hp (rep_self _ _ _ WY) (rep_self _ _ _ WP) ET)).
    destruct (fit_orthonormal env st st'' Y (A1 y) metric bias mm n p HS HI He WY Hn Hp Hc HW HC EY (method_not_optimised _ _ _ _ _ _ HK)) as [HO _].
    destruct (HO Hs) as [_ HU]. fold h in HU.
    pose proof (scores_nonconstant _ WT HU) as HN.
    destruct (fit_inv env st Y (A1 y) metric bias st'' mm Hc EY) as (pd & ys & P & _ & _ & EYr & _ & EF).
    destruct (response_inv _ _ _ EYr) as [Lys [Ey|Ey]]; [|discriminate]. injection Ey as <-. rewrite (wf_length _ _ _ WY) in Lys.
    destruct (L_SdrFit.finish_inv _ _ _ _ _ _ _ EF) as (X1 & _ & _ & _ & EO & EFt & _).
    destruct (add_constant_spec n h (sm_T mm) ltac:(lia) WT) as [_ HA]. rewrite (HA HN) in EO, EFt.
    destruct (HQ n (Datatypes.S h) _ y _ (design_wf n _ WT) Lys EO) as [Lb HR].
    split; [auto|]. split; [auto|]. split; [auto|]. split; [auto|]. intros b0 b.
    specialize (HR (b0 :: map b (seq 0 h)) ltac:(cbn; rewrite map_length, seq_length; auto)). unfold rss in HR. change sum_to with sumn in HR. change cell with (mget (A := R)) in HR.
    rewrite (sumn_ext n _ (fun i => (nth i y 0 - (nth 0 (sm_ols mm) 0 + sumn h (fun a => mget (sm_T mm) i a * nth (Datatypes.S a) (sm_ols mm) 0))) ^ 2)) in HR
      by (intros i Hi; rewrite (design_cell n) by auto; reflexivity).
    eapply Rle_trans; [exact HR|]. right. apply sumn_ext. intros i Hi. rewrite (design_cell n) by (auto; cbn; rewrite map_length, seq_length; auto). f_equal. f_equal. cbn [nth]. f_equal.
    apply sumn_ext. intros a Ha. rewrite (nth_map_lt _ _ _ 0%nat), seq_nth by (try rewrite seq_length; auto). reflexivity.
  Qed.

  (** two functions with the same minimal sum of squares over a convex set *)
  Lemma same_fit : forall (f g : nat -> R), sumn n (fun i => (nth i y 0 - f i) ^ 2) <= sumn n (fun i => (nth i y 0 - (f i + g i) / 2) ^ 2) ->
    sumn n (fun i => (nth i y 0 - g i) ^ 2) <= sumn n (fun i => (nth i y 0 - (f i + g i) / 2) ^ 2) -> forall i, (i < n)%nat -> f i = g i.
  Proof.
    intros f g H1 H2 i Hi.
    assert (H : sumn n (fun i => (nth i y 0 - (f i + g i) / 2) ^ 2) = / 2 * sumn n (fun i => (nth i y 0 - f i) ^ 2) + / 2 * sumn n (fun i => (nth i y 0 - g i) ^ 2) - / 4 * sumn n (fun i => (f i - g i) ^ 2)).
    { rewrite <- !sumn_scal, <- sumn_plus, <- sumn_minus. apply sumn_ext. intros; field. }
    assert (HZ : sumn n (fun i => (f i - g i) ^ 2) = 0).
    { pose proof (sumn_nonneg n (fun i => (f i - g i) ^ 2) ltac:(intros; apply pow2_ge_0)). lra. }
    pose proof (sumn_zero_inv n _ ltac:(intros; apply pow2_ge_0) HZ i Hi) as H0. cbv beta in H0.
    destruct (Req_dec (f i - g i) 0) as [|HN]; [lra|]. apply (pow_nonzero _ 2) in HN. lra.
  Qed.
  (** uncorrelated scores: the coefficients are determined by the fitted values *)
  Lemma same_coefficients : forall T (a b : R) (u v : nat -> R), wf n h T -> uncorrelated_unit h T ->
    (forall i, (i < n)%nat -> a + sumn h (fun k => mget T i k * u k) = b + sumn h (fun k => mget T i k * v k)) -> a = b /\ forall k, (k < h)%nat -> u k = v k.
  Proof.
    intros T a b u v WT HU HE.
    assert (HD : forall i, (i < n)%nat -> sumn h (fun k => mget T i k * (u k - v k)) = b - a).
    { intros i Hi. rewrite (sumn_ext h _ (fun k => mget T i k * u k - mget T i k * v k)) by (intros; ring). rewrite sumn_minus. specialize (HE i Hi). lra. }
    assert (HZ : sumn h (fun k => (u k - v k) ^ 2) = 0).
    { transitivity (covf n (fun r => sumn h (fun k => mget T r k * (u k - v k))) (fun r => sumn h (fun k => mget T r k * (u k - v k)))).
      - symmetry. rewrite covf_comb. rewrite (sumn_ext h _ (fun k => sumn h (fun l => (u k - v k) * (u l - v l) * delta l k))).
        + apply sumn_ext. intros k Hk. rewrite (sumn_delta_r h k (fun l => (u k - v k) * (u l - v l))) by auto. ring.
        + intros k Hk. apply sumn_ext. intros l Hl. rewrite <- (cov_columns n h) by auto. rewrite (HU k l Hk Hl), delta_sym. ring.
      - rewrite (covf_ext n _ (fun _ => b - a) _ (fun _ => b - a)) by auto. unfold covf. rewrite sumn_zero; [unfold Rdiv; ring|].
        intros r Hr. unfold mf. rewrite sumn_const. assert (INR n <> 0) by (apply not_0_INR; lia). replace (INR n * (b - a) / INR n) with (b - a) by (field; auto). ring. }
    assert (HK' : forall k, (k < h)%nat -> u k = v k).
    { intros k Hk. pose proof (sumn_zero_inv h _ ltac:(intros; apply pow2_ge_0) HZ k Hk) as H0. cbv beta in H0. destruct (Req_dec (u k - v k) 0) as [|HN]; [lra|]. apply (pow_nonzero _ 2) in HN. lra. }
    split; [|auto]. specialize (HE 0%nat ltac:(lia)). rewrite (sumn_ext h _ (fun k => mget T 0 k * v k)) in HE by (intros k Hk; rewrite HK' by auto; reflexivity). lra.
  Qed.

  Lemma fit_predictions : sm_fitted m' = sm_fitted m /\
    forall k Y Y' z z', (0 < k)%nat -> is_matrix k p Y -> linear_change k p Y A c Y' -> sd_predict m Y = Ok z -> sd_predict m' Y' = Ok z' -> z' = z.
  Proof.
    destruct fit_directions as [o [Ho [HO [WP [WP' [ET [ET' Ly]]]]]]].
    destruct (one_regression X st1 m W E WP ET) as (WT & HU & Lb & EF & HM).
    destruct (one_regression X' st2 m' W' E' WP' ET') as (WT' & HU' & Lb' & EF' & HM').
    destruct (npmatmul_ok n p h X (sm_P m) _ _ _ ltac:(lia) Hp (rep_self _ _ _ W) (rep_self _ _ _ WP) ET) as [_ HT].
    destruct (npmatmul_ok n p h X' (sm_P m') _ _ _ ltac:(lia) Hp (rep_self _ _ _ W') (rep_self _ _ _ WP') ET') as [_ HT'].
    set (B0 := nth 0 (sm_ols m) 0) in *. set (B := fun a => nth (Datatypes.S a) (sm_ols m) 0). set (B0' := nth 0 (sm_ols m') 0) in *. set (B' := fun a => nth (Datatypes.S a) (sm_ols m') 0).
    set (dd := fun j => sumn p (fun a => c a * mget (sm_P m') a j)).
    (* the second regression in terms of the first scores *)
    assert (HC2 : forall (tt : nat -> R) b0 (b : nat -> R), b0 + sumn h (fun a => (sumn h (fun e => tt e * o e a) + dd a) * b a) =
      (b0 + sumn h (fun a => dd a * b a)) + sumn h (fun e => tt e * sumn h (fun a => o e a * b a))).
    { intros tt b0 b. rewrite (sumn_ext h _ (fun a => sumn h (fun e => tt e * o e a * b a) + dd a * b a)) by (intros a Ha; rewrite Rmult_plus_distr_r, <- sumn_scal_r; reflexivity).
      rewrite sumn_plus, sumn_exchange. rewrite (sumn_ext h (fun e => sumn h (fun a => tt e * o e a * b a)) (fun e => tt e * sumn h (fun a => o e a * b a))).
      - ring.
      - intros e He'. rewrite <- sumn_scal. apply sumn_ext. intros; ring. }
    assert (HTT : forall i a, (i < n)%nat -> (a < h)%nat -> mget (sm_T m') i a = sumn h (fun e => mget (sm_T m) i e * o e a) + dd a).
    { intros i a Hi Ha. rewrite HT' by auto. rewrite (scores_change o n X X' HO HL i a Hi Ha). f_equal. apply sumn_ext. intros e He'. rewrite HT by auto. reflexivity. }
    set (G0 := B0' + sumn h (fun a => dd a * B' a)). set (G := fun e => sumn h (fun a => o e a * B' a)).
    assert (HF' : forall i, (i < n)%nat -> B0' + sumn h (fun a => mget (sm_T m') i a * B' a) = G0 + sumn h (fun e => mget (sm_T m) i e * G e)).
    { intros i Hi. rewrite (sumn_ext h _ (fun a => (sumn h (fun e => mget (sm_T m) i e * o e a) + dd a) * B' a)) by (intros a Ha; rewrite HTT by auto; reflexivity). apply HC2. }
    (* the first scores in terms of the second *)
    pose proof (square_orthonormal h o Ho) as Hr.
    assert (HF : forall i, (i < n)%nat -> B0' + sumn h (fun a => mget (sm_T m') i a * B' a) = B0 + sumn h (fun a => mget (sm_T m) i a * B a)).
    { apply (same_fit (fun i => B0' + sumn h (fun a => mget (sm_T m') i a * B' a)) (fun i => B0 + sumn h (fun a => mget (sm_T m) i a * B a))).
      - (* a candidate of the second regression *)
        set (D := fun a => sumn h (fun e => o e a * B e)).
        eapply Rle_trans; [apply (HM' ((B0' + (B0 - sumn h (fun a => dd a * D a))) / 2) (fun a => (B' a + D a) / 2))|]. right. apply sumn_ext. intros i Hi. f_equal. f_equal.
        assert (HD : sumn h (fun a => mget (sm_T m') i a * D a) = sumn h (fun a => mget (sm_T m) i a * B a) + sumn h (fun a => dd a * D a)).
        { rewrite (sumn_ext h _ (fun a => (sumn h (fun e => mget (sm_T m) i e * o e a) + dd a) * D a)) by (intros a Ha; rewrite HTT by auto; reflexivity).
          pose proof (HC2 (fun e => mget (sm_T m) i e) 0 D) as H2. cbv beta in H2. rewrite !Rplus_0_l in H2. rewrite H2, Rplus_comm. f_equal. apply sumn_ext. intros e He'. f_equal.
          unfold D. change (fmm h o (fmm h (ft o) (fun e _ => B e)) e 0%nat = B e). rewrite <- fmm_assoc. unfold fmm at 1.
          rewrite (sumn_ext h _ (fun a => delta e a * B a)) by (intros a Ha; rewrite (Hr e a He' Ha); reflexivity). apply sumn_delta_l. auto. }
        rewrite (sumn_ext h (fun a => mget (sm_T m') i a * ((B' a + D a) / 2)) (fun a => / 2 * (mget (sm_T m') i a * B' a + mget (sm_T m') i a * D a))) by (intros; field).
        rewrite sumn_scal, sumn_plus, HD. field.
      - eapply Rle_trans; [apply (HM ((G0 + B0) / 2) (fun a => (G a + B a) / 2))|]. right. apply sumn_ext. intros i Hi. rewrite HF' by auto. f_equal. f_equal.
        rewrite (sumn_ext h (fun a => mget (sm_T m) i a * ((G a + B a) / 2)) (fun a => / 2 * (mget (sm_T m) i a * G a + mget (sm_T m) i a * B a))) by (intros; field). rewrite sumn_scal, sumn_plus. field. }
    assert (HGB : G0 = B0 /\ forall k, (k < h)%nat -> G k = B k).
    { apply (same_coefficients (sm_T m)); auto. intros i Hi. rewrite <- HF' by auto. apply HF; auto. }
    split.
    - rewrite EF, EF'. apply nth_ext with 0 0.
      + unfold matvec. rewrite !map_length, (wf_length _ _ _ WT), (wf_length _ _ _ WT'). reflexivity.
      + intros i Hi. unfold matvec in Hi. rewrite !map_length, (wf_length _ _ _ WT') in Hi.
        rewrite !nth_matvec by (rewrite map_length; first [rewrite (wf_length _ _ _ WT)|rewrite (wf_length _ _ _ WT')]; auto).
        assert (G1 : forall T b, wf n h T -> length b = Datatypes.S h -> dot (nth i (map (cons 1) T) []) b = nth 0 b 0 + sumn h (fun a => mget T i a * nth (Datatypes.S a) b 0)).
        { intros T b WT0 Lb0. rewrite <- (design_cell n T b i WT0 Lb0 Hi). apply dot_sumn; auto. apply (wf_nth_row n); auto. apply design_wf; auto. }
        rewrite !G1 by auto. apply HF; auto.
    - intros k Y Y' z z' Hk WY HY EZ EZ'. pose proof (proj1 HY) as WY'.
      destruct (predict_cases m k p h Y Hk Hp WP Lb WY) as [PC PN]. destruct (predict_cases m' k p h Y' Hk Hp WP' Lb' WY') as [PC' PN'].
      assert (C1 : exists z0, sd_predict m Y = Ok z0 /\ length z0 = k /\ forall i, (i < k)%nat -> nth i z0 0 = B0 + sumn h (fun j => mget (matmul Y (sm_P m)) i j * B j)).
      { apply PN. intros HCn. rewrite (PC HCn) in EZ. discriminate. }
      assert (C2 : exists z0, sd_predict m' Y' = Ok z0 /\ length z0 = k /\ forall i, (i < k)%nat -> nth i z0 0 = B0' + sumn h (fun j => mget (matmul Y' (sm_P m')) i j * B' j)).
      { apply PN'. intros HCn. rewrite (PC' HCn) in EZ'. discriminate. }
      destruct C1 as [z0 [E0 [L0 H0]]]. rewrite EZ in E0. apply Ok_inj in E0. subst z0.
      destruct C2 as [z0 [E0 [L0' H0']]]. rewrite EZ' in E0. apply Ok_inj in E0. subst z0.
      apply nth_ext with 0 0; [congruence|]. intros i Hi. rewrite L0' in Hi. rewrite H0, H0' by auto.
      pose proof (rep_matmul k p h Y (sm_P m) _ _ Hp (rep_self _ _ _ WY) (rep_self _ _ _ WP)) as [_ R1]. pose proof (rep_matmul k p h Y' (sm_P m') _ _ Hp (rep_self _ _ _ WY') (rep_self _ _ _ WP')) as [_ R2].
      rewrite (sumn_ext h _ (fun j => (sumn h (fun e => mget (matmul Y (sm_P m)) i e * o e j) + dd j) * B' j)).
      2:{ intros j Hj. rewrite R2 by auto. f_equal. rewrite (scores_change o k Y Y' HO HY i j Hi Hj). f_equal. apply sumn_ext. intros e He'. rewrite R1 by auto. reflexivity. }
      rewrite (HC2 (fun e => mget (matmul Y (sm_P m)) i e)). destruct HGB as [HG0 HGk]. fold G0. rewrite HG0. f_equal. apply sumn_ext. intros e He'. f_equal. apply HGk; auto.
  Qed.
End Two.
