(** ppdire with the variance as index is the best approximation of its rank *)
From Coq Require Import String Reals List Arith ZArith Bool Lia Lra.
Import List. Import ListNotations.
From Verif Require Import Num Err Vec VecR OrdR L_Mat L_Lin L_Matmul L_Deflate L_Stats M_Utils M_Preproc M_Robcent L_Scaling L_Scaling2 M_Dicomo M_Ipopt M_Ppdire M_PpWorld
  S_Stats S_Regress S_Dicomo S_Sudire S_Ppdire S_Ppdire2 S_Decomp S_Pca L_Dicomo L_Snipls2 L_SdrMat L_Pp L_Pp2 L_Pp3 L_Pp4 L_Pp6 L_Pp8 L_Pca L_Pca2 L_Decomp L_Decomp2 L_Decomp3 L_LowRank.
Open Scope R_scope.

Lemma quadratic_N : forall n p b Z u, (2 <= n)%nat -> is_matrix n p Z -> (forall j, (j < p)%nat -> sumn n (fun r => cell Z r j) = 0) ->
  quadratic p (sample_cov b n Z) u = bessel b n / INR n * ip n (ap p (cell Z) (fun j => nth j u 0)) (ap p (cell Z) (fun j => nth j u 0)).
Proof.
  intros n p b Z u Hn HZ H0. unfold quadratic. repeat change (sum_to ?a ?b) with (sumn a b).
  transitivity (sumn p (fun j => sumn p (fun k => bessel b n / INR n * sumn n (fun i => (cell Z i j * nth j u 0) * (cell Z i k * nth k u 0))))).
  - apply sumn_ext. intros j Hj. change (sum_to ?a ?b) with (sumn a b). apply sumn_ext. intros k Hk. rewrite (cov_cells n p) by auto.
    transitivity (bessel b n / INR n * (nth j u 0 * nth k u 0 * sumn n (fun i => cell Z i j * cell Z i k))); [ring|]. f_equal. rewrite <- sumn_scal. apply sumn_ext. intros; ring.
  - rewrite (sumn_ext p _ (fun j => bessel b n / INR n * sumn p (fun k => sumn n (fun i => (cell Z i j * nth j u 0) * (cell Z i k * nth k u 0))))) by (intros; apply sumn_scal).
    rewrite sumn_scal. f_equal. rewrite (sumn_ext p _ (fun j => sumn n (fun i => cell Z i j * nth j u 0 * ap p (cell Z) (fun j => nth j u 0) i))).
    + rewrite sumn_exchange. apply sumn_ext. intros i Hi. rewrite sumn_scal_r. reflexivity.
    + intros j Hj. rewrite sumn_exchange. apply sumn_ext. intros i Hi. rewrite sumn_scal. reflexivity.
Qed.

Lemma young_setup : forall (env : pp_env R) prm d X f prm' d' m n p dc s, is_matrix n p X -> (2 <= n)%nat -> direct_fit prm n p -> pp_init prm = Ok prm ->
  pp_optim prm <> OGrid -> exact_optimiser env (pp_optim prm) -> pp_center prm = CMean -> pp_center_data prm = true -> pp_trim prm = 0 ->
  ix_new (pp_idx prm) = Ok (fit_result dc s) -> configured s "arithmetic" "var" "mean" ->
  pp_fit env prm d X f = (prm', d', Ok m) -> (0 < pp_ncomp prm')%nat ->
  (forall i, (i < pp_ncomp prm')%nat -> 0 < nth i (pm_max m) 0) ->
  exists Z, scaled_by n p X (pm_loc m) (pm_sca m) Z /\ is_matrix n p Z /\ pm_P m = pm_W m /\ (forall j, (j < p)%nat -> sumn n (fun r => cell Z r j) = 0) /\
    let w := fun a j => cell (pm_W m) j a in let mu := fun a => ip n (ap p (cell Z) (w a)) (ap p (cell Z) (w a)) in
    (forall a, (a < pp_ncomp prm')%nat -> nth a (pm_max m) 0 = bessel (f_bias f) n / INR n * mu a) /\
    (forall i a, (i < n)%nat -> (a < pp_ncomp prm')%nat -> cell (pm_T m) i a = ap p (cell Z) (w a) i) /\
    orthonormal_fun p (pp_ncomp prm') w /\
    (forall a j, (a < pp_ncomp prm')%nat -> (j < p)%nat -> tap n (cell Z) (ap p (cell Z) (w a)) j = mu a * w a j) /\
    (forall k u, (k < pp_ncomp prm')%nat -> ip p u u = 1 -> (forall a, (a < k)%nat -> ip p u (w a) = 0) -> ip n (ap p (cell Z) u) (ap p (cell Z) u) <= mu k).
Proof.
  intros env prm d X f prm' d' m n p dc s HX Hn Hd Hinit Ho Hopt Hcm Hcd Htr Hix Hcf E Hh Hpos.
  destruct (C175_l _ _ _ _ _ _ _ _ _ _ _ _ HX Hn Hd Hinit Ho Hopt Hcm Hcd Htr Hix Hcf E Hh Hpos) as (Z & HS & HP).
  destruct (C178_variance_l _ _ _ _ _ _ _ _ _ _ _ _ HX Hn Hd Hinit Ho Hopt Hcm Hcd Htr Hix Hcf E Hh Hpos) as (Z' & HS' & _ & HPW & _).
  clear Z' HS'. destruct (C148_l _ _ _ _ _ _ _ _ _ _ HX Hn Hd Hinit Htr E Hh) as (_ & _ & Hsc & _).
  pose proof (scaled_centred prm n p X _ _ Z HX ltac:(lia) HS Hcm Hcd Hsc) as HC.
  assert (HZ : is_matrix n p Z) by apply HS. assert (Hn' : 0 < INR n) by (apply lt_0_INR; lia). pose proof (bessel_pos (f_bias f) n Hn) as Hb.
  assert (Hk : 0 < bessel (f_bias f) n / INR n) by (apply Rdiv_lt_0_compat; auto). set (kap := bessel (f_bias f) n / INR n) in *.
  exists Z. split; [exact HS|]. split; [exact HZ|]. split; [exact HPW|]. split; [exact HC|]. intros w mu.
  assert (Hcw : forall a j, nth j (column a (pm_W m)) 0 = w a j) by (intros; apply column_nth).
  assert (Hip : forall a b, (a < pp_ncomp prm')%nat -> (b < pp_ncomp prm')%nat -> inner (column a (pm_W m)) (column b (pm_W m)) = ip p (w a) (w b)).
  { intros a b Ha Hb'. destruct (HP a Ha) as (La & _). destruct (HP b Hb') as (Lb & _). rewrite (inner_sum p) by auto. apply ip_ext; intros; apply Hcw. }
  assert (Hap : forall a i, ap p (cell Z) (fun j => nth j (column a (pm_W m)) 0) i = ap p (cell Z) (w a) i).
  { intros a i. apply sumn_ext. intros j Hj. rewrite Hcw. reflexivity. }
  assert (Hmax : forall a, (a < pp_ncomp prm')%nat -> nth a (pm_max m) 0 = kap * mu a).
  { intros a Ha. destruct (HP a Ha) as (La & Ua & Ea & _). rewrite <- (quadratic_eigen p _ _ _ La Ua Ea), (quadratic_N n p) by auto. fold kap. f_equal. apply ip_ext; intros; apply Hap. }
  split; [exact Hmax|]. split; [|split; [|split]].
  - intros i a Hi Ha. destruct (HP a Ha) as (La & _ & _ & Et & _). rewrite <- column_nth, Et, (scores_nth n p) by auto. apply Hap.
  - intros a b Ha Hb'. rewrite <- Hip by auto. destruct (HP a Ha) as (_ & Ua & _ & _ & Oa & _). destruct (HP b Hb') as (_ & _ & _ & _ & Ob & _).
    destruct (Nat.eqb_spec a b) as [->|Hne]; [exact Ua|]. destruct (Nat.lt_ge_cases b a) as [Hlt|Hge]; [apply Oa; exact Hlt|].
    rewrite Hip by auto. rewrite ip_sym, <- Hip by auto. apply Ob. lia.
  - intros a j Ha Hj. destruct (HP a Ha) as (La & Ua & Ea & Et & _). pose proof (t_col n p (f_bias f) Z Hn HZ HC _ _ La Ea j Hj) as Ht. fold kap in Ht. rewrite Hcw, Hmax in Ht by auto.
    apply (Rmult_eq_reg_l kap); [|lra]. rewrite <- Rmult_assoc. rewrite <- Ht. f_equal. apply sumn_ext. intros i Hi. rewrite (t_cell n p) by auto.
    rewrite Rmult_comm. f_equal. symmetry. apply sumn_ext. intros; rewrite Hcw; reflexivity.
  - intros k u Hk' Hu Horth. destruct (HP k Hk') as (_ & _ & _ & _ & _ & Mx). set (ul := map u (seq 0 p)).
    assert (Hul : forall j, (j < p)%nat -> nth j ul 0 = u j). { intros j Hj. unfold ul. rewrite (nth_indep _ 0 (u 0%nat)) by (rewrite map_length, seq_length; lia). rewrite map_nth, seq_nth by lia. f_equal. }
    assert (Ll : length ul = p) by (unfold ul; rewrite map_length, seq_length; reflexivity).
    assert (HM : quadratic p (sample_cov (f_bias f) n Z) ul <= nth k (pm_max m) 0).
    { apply Mx; auto.
      - unfold sqlen. rewrite (inner_sum p) by auto. refine (eq_trans _ Hu). apply ip_ext; auto.
      - intros a Ha. unfold orthogonal. rewrite (inner_sum p) by (auto; apply (HP a); lia). refine (eq_trans _ (Horth a Ha)). apply ip_ext; [auto|intros; apply Hcw]. }
    rewrite (quadratic_N n p), Hmax in HM by auto. fold kap in HM. apply Rmult_le_reg_l in HM; auto. refine (Rle_trans _ _ _ _ HM). apply Req_le.
    apply ip_ext; intros i Hi; apply sumn_ext; intros j Hj; rewrite Hul by auto; reflexivity.
Qed.

Lemma C183_explained_l : forall (env : pp_env R) prm d X f prm' d' m n p dc s, is_matrix n p X -> (2 <= n)%nat -> direct_fit prm n p -> pp_init prm = Ok prm ->
  pp_optim prm <> OGrid -> exact_optimiser env (pp_optim prm) -> pp_center prm = CMean -> pp_center_data prm = true -> pp_trim prm = 0 ->
  ix_new (pp_idx prm) = Ok (fit_result dc s) -> configured s "arithmetic" "var" "mean" ->
  pp_fit env prm d X f = (prm', d', Ok m) -> (0 < pp_ncomp prm')%nat ->
  (forall i, (i < pp_ncomp prm')%nat -> 0 < nth i (pm_max m) 0) ->
  exists Z, scaled_by n p X (pm_loc m) (pm_sca m) Z /\
    forall k us, (k <= pp_ncomp prm')%nat -> (length us <= k)%nat ->
      (forall u, In u us -> length u = p /\ sqlen u = 1) ->
      (forall a b, (a < b)%nat -> (b < length us)%nat -> orthogonal (nth a us []) (nth b us [])) ->
      sum_to (length us) (fun a => quadratic p (sample_cov (f_bias f) n Z) (nth a us [])) <= sum_to k (fun a => nth a (pm_max m) 0).
Proof.
  intros env prm d X f prm' d' m n p dc s HX Hn Hd Hinit Ho Hopt Hcm Hcd Htr Hix Hcf E Hh Hpos.
  destruct (young_setup _ _ _ _ _ _ _ _ _ _ _ _ HX Hn Hd Hinit Ho Hopt Hcm Hcd Htr Hix Hcf E Hh Hpos) as (Z & HS & HZ & _ & HC & HR).
  cbv zeta in HR. set (w := fun a j => cell (pm_W m) j a) in *. set (mu := fun a => ip n (ap p (cell Z) (w a)) (ap p (cell Z) (w a))) in *. destruct HR as (Hmax & HT & Hw & He & Hm).
  exists Z. split; [exact HS|]. intros k us Hk Hl Hu Hor. repeat change (sum_to ?a ?b) with (sumn a b).
  assert (Hb : 0 < bessel (f_bias f) n / INR n) by (apply Rdiv_lt_0_compat; [apply bessel_pos; exact Hn|apply lt_0_INR; lia]).
  destruct k as [|k]; [replace (length us) with 0%nat by lia; rewrite !sumn_0; lra|].
  rewrite (sumn_ext (S k) _ (fun a => bessel (f_bias f) n / INR n * mu a)) by (intros a Ha; apply Hmax; lia).
  rewrite (sumn_ext (length us) _ (fun a => bessel (f_bias f) n / INR n * ip n (ap p (cell Z) (fun j => nth j (nth a us []) 0)) (ap p (cell Z) (fun j => nth j (nth a us []) 0)))) by (intros; apply quadratic_N; auto).
  rewrite !sumn_scal. apply Rmult_le_compat_l; [lra|].
  apply (ky_fan n p (pp_ncomp prm') (cell Z) w mu Hw He Hm (S k) (length us) (fun a j => nth j (nth a us []) 0)); try lia.
  assert (Hlen : forall a, (a < length us)%nat -> length (nth a us []) = p /\ sqlen (nth a us []) = 1) by (intros; apply Hu, nth_In; auto).
  intros a b Ha Hb'. destruct (Hlen a Ha) as [La Ua]. destruct (Hlen b Hb') as [Lb _].
  destruct (Nat.eqb_spec a b) as [->|Hne]; [rewrite <- (inner_sum p) by auto; exact Ua|].
  destruct (Nat.lt_ge_cases a b); [|rewrite ip_sym]; rewrite <- (inner_sum p) by auto; apply Hor; lia.
Qed.

Lemma C183_low_rank_l : forall (env : pp_env R) prm d X f prm' d' m n p dc s, is_matrix n p X -> (2 <= n)%nat -> direct_fit prm n p -> pp_init prm = Ok prm ->
  pp_optim prm <> OGrid -> exact_optimiser env (pp_optim prm) -> pp_center prm = CMean -> pp_center_data prm = true -> pp_trim prm = 0 ->
  ix_new (pp_idx prm) = Ok (fit_result dc s) -> configured s "arithmetic" "var" "mean" ->
  pp_fit env prm d X f = (prm', d', Ok m) -> (0 < pp_ncomp prm')%nat ->
  (forall i, (i < pp_ncomp prm')%nat -> 0 < nth i (pm_max m) 0) ->
  exists Z, scaled_by n p X (pm_loc m) (pm_sca m) Z /\
    forall k S Q, (k <= pp_ncomp prm')%nat -> misfit n p k Z (pm_T m) (pm_P m) <= misfit n p k Z S Q.
Proof.
  intros env prm d X f prm' d' m n p dc s HX Hn Hd Hinit Ho Hopt Hcm Hcd Htr Hix Hcf E Hh Hpos.
  destruct (young_setup _ _ _ _ _ _ _ _ _ _ _ _ HX Hn Hd Hinit Ho Hopt Hcm Hcd Htr Hix Hcf E Hh Hpos) as (Z & HS & HZ & HP & HC & HR).
  cbv zeta in HR. set (w := fun a j => cell (pm_W m) j a) in *. set (mu := fun a => ip n (ap p (cell Z) (w a)) (ap p (cell Z) (w a))) in *. destruct HR as (Hmax & HT & Hw & He & Hm).
  exists Z. split; [exact HS|]. intros k S Q Hk. rewrite HP. unfold misfit.
  destruct k as [|k]; [right; reflexivity|].
  pose proof (low_rank n p (pp_ncomp prm') (cell Z) w mu Hw He Hm (Datatypes.S k) (cell S) (fun a j => cell Q j a) ltac:(lia) Hk) as HL.
  refine (Rle_trans _ _ _ _ HL). apply Req_le. change (sum_to ?a ?b) with (sumn a b). apply sumn_ext. intros i Hi. change (sum_to ?a ?b) with (sumn a b). apply sumn_ext. intros j Hj.
  assert (Ep : product (Datatypes.S k) (pm_T m) (pm_W m) i j = sumn (Datatypes.S k) (fun a => ap p (cell Z) (w a) i * w a j)).
  { unfold product. change (sum_to ?a ?b) with (sumn a b). apply sumn_ext. intros a Ha. rewrite HT by lia. reflexivity. }
  rewrite Ep. reflexivity.
Qed.
