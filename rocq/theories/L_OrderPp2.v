(** ppdire.fit with the cases in another order. *)

From Coq Require Import String Reals List Arith ZArith Bool Lia Lra Permutation FunctionalExtensionality.
Import List. Import ListNotations.
From Verif Require Import Num Err Vec VecR OrdR L_Mat L_Matmul S_Stats L_Stats L_Scaling2 S_Order L_Order M_Utils M_Preproc M_Robcent L_OrderSc M_Dicomo L_OrderDi M_Ipopt M_Ppdire M_Capi M_SdrUtils S_Sudire
  L_SdrMat S_OrderSd L_OrderSd L_OrderSf L_Pp S_OrderPp L_OrderPp.
Import List. Open Scope R_scope.

Lemma response_order : forall (env : pp_env R) prm s n o kwy y, pp_center prm = CMean \/ pp_center prm = CMedian -> documented_scale s -> case_order n o -> cases n y -> (2 <= n)%nat ->
  response env prm s n kwy (areorder o y) = rres (fun '(yi, m) => (yre o yi, m)) (response env prm s n kwy y) /\
  forall yi m, response env prm s n kwy y = Ok (yi, m) -> length (yi_s yi) = n /\ length (yi_0 yi) = n.
Proof.
  intros env prm s n o kwy y Hc Hs Ho Hy Hn. unfold response.
  assert (HR : exists rows, match areorder o y with A1 v => map (fun a => [a]) v | A2 Y => Y end = reorder o rows /\ match y with A1 v => map (fun a => [a]) v | A2 Y => Y end = rows /\ length rows = n).
  { destruct y as [v|Y]; cbn in Hy |- *; eexists; (split; [|split; [reflexivity|]]).
    - rewrite reorder_map. reflexivity.
    - rewrite map_length. auto.
    - reflexivity.
    - destruct Hy as [p W]. apply (wf_length _ _ _ W). }
  destruct HR as [rows [-> [-> LR]]]. cbv zeta. rewrite (reorder_length n), LR, Nat.eqb_refl by auto. cbn [negb].
  rewrite <- (forallb_perm _ rows (reorder o rows)) by (apply (reorder_perm n); auto). destruct (forallb _ rows) eqn:EF; cbn [negb rres]; [|split; [reflexivity|discriminate]].
  assert (WR : wf n 1 rows). { split; auto. apply Forall_forall. intros r Hr. rewrite forallb_forall in EF. apply Nat.eqb_eq. auto. }
  destruct (pp_center_data prm).
  - destruct (pp_scaled_order env (pp_center prm) s (pp_trim prm) n 1 o rows Hc Hs Ho WR Hn) as [-> HZ]. destruct (pp_scaled env (pp_center prm) s (pp_trim prm) rows) as [[[m v] Z]|e]; cbn [rres bind]; [|split; [reflexivity|discriminate]].
    specialize (HZ m v Z eq_refl). split; [unfold yre; cbn; rewrite !reorder_col; reflexivity|]. intros yi mm H. injection H as <- <-. cbn. rewrite !col_length. split; [apply (wf_length _ _ _ HZ)|auto].
  - cbn [rres]. split; [unfold yre; cbn; rewrite !reorder_col; reflexivity|]. intros yi mm H. injection H as <- <-. cbn. rewrite !col_length. auto.
Qed.

(** ** intercept, fitted values, residuals *)
Lemma cmr_reorder : forall o (y f : list R), col_minus_row (reorder o y) (reorder o f) = reorder o (map (reorder o) (col_minus_row y f)).
Proof.
  intros o y f. unfold col_minus_row. rewrite map_map, <- reorder_map. f_equal. apply map_ext. intros a. rewrite reorder_map. reflexivity.
Qed.
Lemma cmr_wf : forall (y f : list R), wf (length y) (length f) (col_minus_row y f).
Proof. intros y f. split; [unfold col_minus_row; apply map_length|]. apply Forall_forall. intros r Hr. apply in_map_iff in Hr as [a [<- _]]. apply map_length. Qed.
Lemma cmr_concat : forall n o (y f : list R), case_order n o -> length y = n -> length f = n -> Permutation (concat (col_minus_row y f)) (concat (col_minus_row (reorder o y) (reorder o f))).
Proof.
  intros n o y f Ho Hy Hf. rewrite cmr_reorder. eapply perm_trans; [apply (concat_map_perm (reorder o))|apply concat_perm, (reorder_perm n); auto].
  - intros r Hr. apply (reorder_perm n); auto. rewrite <- Hf. apply (wf_row _ _ _ _ (cmr_wf y f) Hr).
  - rewrite map_length. rewrite <- Hy. apply (wf_length _ _ _ (cmr_wf y f)).
Qed.
Lemma cmr_cols : forall n (y f : list R), length y = n -> length f = n -> (0 < n)%nat -> cols (col_minus_row y f) = map (fun b => map (fun a => a - b) y) f.
Proof.
  intros n y f Hy Hf Hn. unfold cols. pose proof (cmr_wf y f) as W. rewrite (wf_ncols _ _ _ W) by lia.
  apply (list_ext _ _ []); [rewrite !map_length, seq_length; auto|]. intros j Hj. rewrite map_length, seq_length in Hj.
  rewrite (nth_map_lt _ _ _ 0%nat) by (rewrite seq_length; auto). rewrite seq_nth by auto. rewrite (nth_map_lt _ _ _ 0) by auto.
  unfold col, col_minus_row. rewrite map_map. apply map_ext. intros a. rewrite (nth_map_lt _ _ _ 0) by auto. reflexivity.
Qed.
Lemma trim1_err : forall t (v v' : list R) e, length v = length v' -> trim_mean1 t v = Err e -> trim_mean1 t v' = Err e.
Proof. intros t v v' e HL E. unfold trim_mean1 in *. cbv zeta in *. rewrite <- HL. destruct (_ <? _)%Z; [|discriminate]. exact E. Qed.
Lemma mapM_trim1_order : forall n o t (y f : list R), case_order n o -> length y = n -> length f = n ->
  mapM (trim_mean1 t) (map (fun b => map (fun a => a - b) (reorder o y)) (reorder o f)) = rres (reorder o) (mapM (trim_mean1 t) (map (fun b => map (fun a => a - b) y) f)).
Proof.
  intros n o t y f Ho Hy Hf.
  assert (E1 : mapM (trim_mean1 t) (map (fun b => map (fun a => a - b) (reorder o y)) (reorder o f)) = mapM (trim_mean1 t) (reorder o (map (fun b => map (fun a => a - b) y) f))).
  { rewrite reorder_map, !mapM_map. apply mapM_ext_in. intros b _. rewrite <- reorder_map. symmetry. apply trim_slice_perm, (reorder_perm n); auto. rewrite map_length. auto. }
  rewrite E1. set (l := map (fun b => map (fun a => a - b) y) f). assert (Ll : length l = n) by (unfold l; rewrite map_length; auto).
  assert (Fl : Forall (fun r => length r = n) l) by (apply Forall_forall; intros r Hr; apply in_map_iff in Hr as [b [<- _]]; rewrite map_length; auto).
  pose proof (mapM_reorder n o (trim_mean1 t) l Ho Ll) as H. destruct (mapM (trim_mean1 t) l) as [v|e] eqn:E; [exact H|]. clear H. cbn [rres].
  assert (HE : forall v, length v = n -> trim_mean1 t v = Err e).
  { clear - E Fl. induction l as [|x l IH]; [discriminate|]. cbn [mapM] in E. inversion Fl as [|? ? Hx HF']; subst.
    destruct (trim_mean1 t x) as [a|ex] eqn:Ea.
    - cbn [bind] in E. destruct (mapM (trim_mean1 t) l) as [w|e2]; [discriminate|]. cbn [bind] in E. injection E as ->. apply IH; auto.
    - cbn [bind] in E. injection E as ->. intros v Hv. apply (trim1_err t x v); auto. }
  pose proof (reorder_perm n o l Ho Ll) as HP. destruct l as [|x l]; [discriminate|]. destruct (reorder o (x :: l)) as [|x' l'] eqn:EO; [apply Permutation_length in HP; discriminate|].
  cbn [mapM]. rewrite HE; [reflexivity|]. rewrite Forall_forall in Fl. apply Fl. apply (Permutation_in _ (Permutation_sym HP)). left; reflexivity.
Qed.
Lemma finish_y_order : forall prm s dims n o X Xs yi bi, case_order n o -> (0 < n)%nat -> length X = n -> length Xs = n -> length (yi_s yi) = n -> length (yi_0 yi) = n ->
  finish_y prm s dims (reorder o X) (reorder o Xs) (yre o yi) bi =
  rres (fun '(ic, b0, yf, r) => (reorder_inter o ic, reorder_inter o b0, reorder o yf, reorder_resid o r)) (finish_y (A := R) prm s dims X Xs yi bi).
Proof.
  intros prm s dims n o X Xs yi bi Ho Hn LX LXs Ls L0. unfold finish_y. cbv zeta. cbn [yre yi_0 yi_s]. rewrite !reorder_matvec.
  assert (Lf : length (matvec X bi) = n) by (unfold matvec; rewrite map_length; auto). assert (Lfs : length (matvec Xs bi) = n) by (unfold matvec; rewrite map_length; auto).
  set (f := matvec X bi) in *. set (fs := matvec Xs bi) in *.
  assert (HS : Permutation (vsub (yi_s yi) fs) (vsub (reorder o (yi_s yi)) (reorder o fs))).
  { rewrite (reorder_vsub n) by auto. apply (reorder_perm n); auto. unfold vsub. rewrite map2_length. lia. }
  assert (HV : Permutation (vsub (yi_0 yi) f) (vsub (reorder o (yi_0 yi)) (reorder o f))).
  { rewrite (reorder_vsub n) by auto. apply (reorder_perm n); auto. unfold vsub. rewrite map2_length. lia. }
  assert (HCC := cmr_concat n o (yi_0 yi) f Ho L0 Lf). assert (HCS := cmr_concat n o (yi_s yi) fs Ho Ls Lfs).
  set (ic' := if dims then _ else _). set (ic := if dims then if is_mean (pp_center prm) then bind (mapM (trim_mean1 (pp_trim prm)) (cols (col_minus_row (yi_0 yi) f))) _ else _ else _).
  assert (EI : ic' = rres (reorder_inter o) ic /\ forall v, ic = Ok (IMany v) -> length v = n).
  { subst ic' ic. destruct dims, (is_mean (pp_center prm)).
    - rewrite (cmr_cols n (reorder o (yi_0 yi))) by (auto; apply (reorder_length n); auto). rewrite (cmr_cols n (yi_0 yi)) by auto. rewrite (mapM_trim1_order n) by auto.
      destruct (mapM (trim_mean1 (pp_trim prm)) (map (fun b : R => map (fun a : R => a - b) (yi_0 yi)) f)) as [v|e] eqn:EM; cbn [rres bind reorder_inter]; (split; [reflexivity|]); [|discriminate]. intros w H. injection H as <-. rewrite (L_OrderDi.mapM_length _ _ _ EM), map_length. auto.
    - cbn [rres reorder_inter]. rewrite (vmedian_perm _ _ HCC). split; [reflexivity|discriminate].
    - rewrite <- (trim_slice_perm _ _ _ HV). destruct (trim_mean1 _ _); cbn [rres bind reorder_inter]; (split; [reflexivity|discriminate]).
    - cbn [rres reorder_inter]. rewrite (vmedian_perm _ _ HV). split; [reflexivity|discriminate]. }
  clearbody ic ic'. destruct EI as [-> LI]. destruct ic as [i|e]; cbn [rres bind]; [|reflexivity].
  set (yf := match i with IOne a => map (fun v => v +! a)%num f | IMany v => vadd f v end).
  assert (EY : match reorder_inter o i with IOne a => map (fun v => v +! a)%num (reorder o f) | IMany v => vadd (reorder o f) v end = reorder o yf /\ length yf = n).
  { unfold yf. destruct i as [a|v]; cbn [reorder_inter].
    - rewrite reorder_map, map_length. split; auto.
    - specialize (LI v eq_refl). unfold vadd. rewrite (reorder_map2 _ n), map2_length by auto. split; [reflexivity|lia]. }
  destruct EY as [-> LY]. repeat f_equal.
  - destruct (is_none_scale s); [reflexivity|]. cbn [reorder_inter]. f_equal. destruct dims; (destruct (is_mean (pp_center prm)); [symmetry; apply vmean_perm|symmetry; apply vmedian_perm]); auto.
  - destruct dims; cbn [reorder_resid]; [rewrite cmr_reorder; reflexivity|]. rewrite (reorder_vsub n) by auto. reflexivity.
Qed.

(** ** fit *)
Definition pp_compressed (env : pp_env R) (prm : pparams R) (X0 : list (list R)) : res (list (list R) * nat * option (list (list R))) :=
  if (length X0 <? ncols X0)%nat && pp_compress prm then
    bind (pe_svd env (transpose X0)) (fun '(V, sv, U) =>
    let Xc := map (fun r => map2 nmul r sv) (transpose U) in
    if existsb (fun v => v =?! n0)%num (mad Xc) then Ok (X0, ncols Xc, None) else Ok (Xc, ncols Xc, Some V))
  else Ok (X0, ncols X0, None).
Definition pp_whitened (env : pp_env R) (prm : pparams R) (p : nat) (Xs0 : list (list R)) : res (list (list R) * option (list (list R))) :=
  if pp_whiten prm then
    bind (pe_svd env (transpose Xs0)) (fun '(V, sv, _) =>
    let K := map (fun r => firstn p (map2 ndiv r sv)) V in
    Ok (map (map (fun v => v *! nsqrt (nnat p))%num) (matmul Xs0 K), Some K))
  else Ok (Xs0, None).
Definition pp_centred (env : pp_env R) (prm : pparams R) (s : scale_opt R) (p : nat) (X : list (list R)) : res (list R * list R * list (list R)) :=
  if pp_center_data prm then pp_scaled env (pp_center prm) s (pp_trim prm) X else Ok (vzeros p, repeat n1 p, X).

Section Fit.
  Variables (env : pp_env R) (n p : nat) (o : list nat) (X : list (list R)).
  Hypothesis HS : svd_shapes (pe_svd env).
  Hypothesis Ho : case_order n o.
  Hypothesis W : wf n p X.
  Hypothesis Hn : (2 <= n)%nat.
  Let Hn0 : (0 < n)%nat. Proof. lia. Qed.
  Let WO : wf n p (reorder o X). Proof. apply reorder_wf; auto. Qed.

  Lemma compressed_order : forall prm, (pp_compress prm = true -> economy_svd_order_free (pe_svd env)) ->
    pp_compressed env prm (reorder o X) = rres (fun '(Z, k, V) => (reorder o Z, k, V)) (pp_compressed env prm X) /\
    forall Z k V, pp_compressed env prm X = Ok (Z, k, V) -> exists q, wf n q Z.
  Proof.
    intros prm HV. unfold pp_compressed. rewrite (wf_length _ _ _ W), (wf_length _ _ _ WO), (wf_ncols n p _ W), (wf_ncols n p _ WO) by auto.
    destruct (n <? p)%nat eqn:EL; cbn [andb]; [|split; [reflexivity|intros Z k V E; injection E as <- <- <-; exists p; auto]].
    destruct (pp_compress prm) eqn:EC; [|split; [reflexivity|intros Z k V E; injection E as <- <- <-; exists p; auto]].
    specialize (HV eq_refl n p o X Ho W).
    destruct (pe_svd env (transpose X)) as [[[V sv] U]|e] eqn:ES; [|rewrite HV; split; [reflexivity|discriminate]]. destruct HV as [U' [-> EU]]. cbn [bind]. cbv zeta.
    apply Nat.ltb_lt in EL. assert (Hp : (0 < p)%nat) by lia.
    assert (WT : is_matrix p n (transpose X)) by (apply (proj1 (rep_transpose n p X _ Hn0 (rep_self n p X W)))).
    destruct (HS p n _ V sv U WT ES) as [_ [Ls WU]]. rewrite Nat.min_r in * by lia.
    assert (WUt : wf n n (transpose U)) by (apply (proj1 (rep_transpose n n U _ Hn0 (rep_self n n U WU)))).
    rewrite EU, <- reorder_map. set (Xc := map (fun r => map2 nmul r sv) (transpose U)).
    assert (WC : wf n n Xc).
    { split; [unfold Xc; rewrite map_length; apply (wf_length _ _ _ WUt)|]. apply Forall_forall. intros r Hr. apply in_map_iff in Hr as [r' [<- Hr]]. rewrite map2_length, (wf_row _ _ _ _ WUt Hr). lia. }
    assert (WCO : wf n n (reorder o Xc)) by (apply reorder_wf; auto).
    rewrite <- (mad_perm n n Xc (reorder o Xc)) by (auto; apply (reorder_perm n); auto; apply (wf_length _ _ _ WC)).
    rewrite (wf_ncols n n _ WC), (wf_ncols n n _ WCO) by auto. destruct (existsb _ (mad Xc)); cbn [rres]; split; try reflexivity; intros Z k V' E; injection E as <- <- <-; eauto.
  Qed.
  Lemma whitened_order : forall prm k q Z, (pp_whiten prm = true -> economy_svd_order_free (pe_svd env)) -> wf n q Z ->
    pp_whitened env prm k (reorder o Z) = rres (fun '(Z, K) => (reorder o Z, K)) (pp_whitened env prm k Z) /\
    forall Z' K, pp_whitened env prm k Z = Ok (Z', K) -> exists q, wf n q Z'.
  Proof.
    intros prm k q Z HV WZ. unfold pp_whitened. destruct (pp_whiten prm); [|split; [reflexivity|intros Z3 K E; injection E as <- <-; eauto]].
    specialize (HV eq_refl n q o Z Ho WZ). destruct (pe_svd env (transpose Z)) as [[[V sv] U]|e]; [|rewrite HV; split; [reflexivity|discriminate]].
    destruct HV as [U' [-> _]]. cbn [bind rres]. cbv zeta. set (K := map _ V). rewrite reorder_matmul, <- reorder_map. split; [reflexivity|]. intros Z' K' E. injection E as <- <-. exists (ncols K).
    pose proof (matmul_wf_any n q Z K WZ) as WM. split; [rewrite map_length; apply (wf_length _ _ _ WM)|]. apply Forall_forall. intros r Hr. apply in_map_iff in Hr as [r' [<- Hr]]. rewrite map_length. apply (wf_row _ _ _ _ WM Hr).
  Qed.
  Lemma centred_order : forall prm s k q Z, pp_center prm = CMean \/ pp_center prm = CMedian -> documented_scale s -> wf n q Z ->
    pp_centred env prm s k (reorder o Z) = rres (fun '(m, v, Z) => (m, v, reorder o Z)) (pp_centred env prm s k Z) /\
    forall m v Z', pp_centred env prm s k Z = Ok (m, v, Z') -> wf n q Z'.
  Proof.
    intros prm s k q Z Hc Hs WZ. unfold pp_centred. destruct (pp_center_data prm); [|split; [reflexivity|intros m v Z' E; injection E as <- <- <-; auto]].
    apply (pp_scaled_order env _ s (pp_trim prm) n q); auto.
  Qed.
End Fit.

Lemma whitening_keeps_pp : forall prm : pparams R, pp_center (with_whitening prm) = pp_center prm /\ pp_optim (with_whitening prm) = pp_optim prm /\ pp_whiten (with_whitening prm) = pp_whiten prm /\
  (pp_compress (with_whitening prm) = true -> pp_compress prm = true).
Proof. intros prm. unfold with_whitening. destruct (pp_whiten prm) eqn:E; cbn; repeat split; auto. discriminate. Qed.
Lemma with_h_keeps : forall (prm : pparams R) h, pp_center (with_h prm h) = pp_center prm /\ pp_optim (with_h prm h) = pp_optim prm /\ pp_whiten (with_h prm h) = pp_whiten prm /\
  pp_compress (with_h prm h) = pp_compress prm /\ pp_idx (with_h prm h) = pp_idx prm.
Proof. intros prm [k|]; cbn; auto. Qed.
Lemma euclid_kw : forall (prm : pparams R) bias ys d, k_metric (index_kw prm bias ys) = Some d -> symmetric_metric d.
Proof. intros prm bias ys d H. cbn in H. injection H as <-. apply euclid_sym. Qed.

Lemma ppdire_order_l : forall env prm d n p o X f,
  (forall most, ix_new (pp_idx prm) = Ok most -> index_order_free most) -> (pp_optim prm <> OGrid -> start_free env (pp_optim prm)) ->
  regression_order_free (pe_rm env) -> regression_order_free (pe_qr env) -> svd_shapes (pe_svd env) ->
  (pp_compress prm = true \/ pp_whiten prm = true -> economy_svd_order_free (pe_svd env)) -> pp_center prm = CMean \/ pp_center prm = CMedian ->
  case_order n o -> is_matrix n p X -> (2 <= n)%nat -> fkw_cases n f ->
  pp_fit env prm d (reorder o X) (reorder_fkw o f) = (let '(prm', d', r) := pp_fit env prm d X f in (prm', d', rres (reorder_pp o) r)).
Proof.
  intros env prm0 d n p o X f HI HO HR HQ HS HV HC Ho W Hn HF. assert (Hn0 : (0 < n)%nat) by lia.
  assert (WO : wf n p (reorder o X)) by (apply reorder_wf; auto).
  unfold pp_fit. cbv zeta. cbn [reorder_fkw f_h f_y f_bias].
  destruct (with_h_keeps prm0 (f_h f)) as (H1 & H2 & H3 & H4 & H5). set (prm1 := with_h prm0 (f_h f)) in *.
  destruct (ix_dicomo (pp_idx prm1) && _)%bool; [reflexivity|]. rewrite <- H5 in HI. destruct (ix_new (pp_idx prm1)) as [most|e]; [|reflexivity]. specialize (HI most eq_refl).
  change (Datatypes.length (reorder o X)) with (length (reorder o X)). rewrite (wf_length _ _ _ WO), (wf_length _ _ _ W). rewrite (wf_ncols n p _ W), (wf_ncols n p _ WO) by auto.
  destruct (Nat.min n p <? pp_ncomp prm1)%nat; [reflexivity|]. destruct (whitening_keeps_pp prm1) as (K1 & K2 & K3 & K4). set (prm2 := with_whitening prm1) in *.
  assert (HC2 : pp_center prm2 = CMean \/ pp_center prm2 = CMedian) by (rewrite K1, H1; auto).
  assert (HV1 : pp_compress prm2 = true -> economy_svd_order_free (pe_svd env)) by (intros E; apply HV; left; rewrite <- H4; auto).
  assert (HV2 : pp_whiten prm2 = true -> economy_svd_order_free (pe_svd env)) by (intros E; apply HV; right; rewrite <- H3, <- K3; auto).
  assert (HO2 : pp_optim prm2 <> OGrid -> start_free env (pp_optim prm2)) by (rewrite K2, H2; auto).
  destruct (scale_name prm2) as [s|e] eqn:ES; [|reflexivity].
  assert (Hs : documented_scale s). { unfold scale_name in ES. unfold documented_scale. destruct (pp_scale_data prm2); [|injection ES as <-; auto]. destruct HC2 as [E|E]; rewrite E in ES; injection ES as <-; auto. }
  destruct (compressed_order env n p o X HS Ho W Hn prm2 HV1) as [EC WC]. unfold pp_compressed in EC, WC.
  rewrite (wf_length _ _ _ WO), (wf_length _ _ _ W), (wf_ncols n p _ W), (wf_ncols n p _ WO) in EC by auto. rewrite (wf_length _ _ _ W), (wf_ncols n p _ W) in WC by auto. cbv zeta in EC, WC.
  rewrite EC. clear EC. match type of WC with forall Z k V, ?r = Ok (Z, k, V) -> _ => destruct r as [[[Z k] dims]|e] end; cbn [rres]; [|reflexivity]. destruct (WC Z k dims eq_refl) as [q WZ]. clear WC.
  destruct (centred_order env n o Ho Hn prm2 s k q Z HC2 Hs WZ) as [EZ WZ']. unfold pp_centred in EZ, WZ'. rewrite EZ. clear EZ.
  match type of WZ' with forall m v Z', ?r = Ok (m, v, Z') -> _ => destruct r as [[[mX sX] Xs0]|e] end; cbn [rres]; [|reflexivity]. specialize (WZ' mX sX Xs0 eq_refl).
  destruct (whitened_order env n o Ho prm2 k q Xs0 HV2 WZ') as [EW WW]. unfold pp_whitened in EW, WW. cbv zeta in EW, WW. rewrite EW. clear EW.
  match type of WW with forall Z' K, ?r = Ok (Z', K) -> _ => destruct r as [[Xs K]|e] end; cbn [rres]; [|reflexivity]. destruct (WW Xs K eq_refl) as [q' WXs]. clear WW.
  (* the response *)
  set (yi' := match match (match f_y f with YNone => YNone | YPos y => YPos (areorder o y) | YKw y => YKw (areorder o y) end) with YNone => None | YPos y => Some (false, y) | YKw y => Some (true, y) end with None => Ok None | Some (kwy, y) => bind (response env prm2 s n kwy y) (fun yi => Ok (Some yi)) end).
  set (yi := match match f_y f with YNone => None | YPos y => Some (false, y) | YKw y => Some (true, y) end with None => Ok None | Some (kwy, y) => bind (response env prm2 s n kwy y) (fun yi => Ok (Some yi)) end).
  assert (EYi : yi' = rres (option_map (fun '(y, m) => (yre o y, m))) yi /\ forall y m, yi = Ok (Some (y, m)) -> length (yi_s y) = n /\ length (yi_0 y) = n).
  { subst yi' yi. unfold fkw_cases in HF. destruct (f_y f) as [|y|y]; [split; [reflexivity|discriminate]| |];
      [destruct (response_order env prm2 s n o false y HC2 Hs Ho HF Hn) as [-> L]; destruct (response env prm2 s n false y) as [[y0 m]|e]
      |destruct (response_order env prm2 s n o true y HC2 Hs Ho HF Hn) as [-> L]; destruct (response env prm2 s n true y) as [[y0 m]|e]]; cbn [rres bind option_map]; (split; [reflexivity|]); try discriminate;
      intros y1 m1 H; injection H as <- <-; apply (L _ _ eq_refl). }
  clearbody yi yi'. destruct EYi as [-> LY]. destruct yi as [yi|e]; cbn [rres]; [|reflexivity].
  set (ym := match yi with Some (y, _) => Some y | None => None end).
  assert (E1 : match option_map (fun '(y, m) => (yre o y, m)) yi with Some (y, _) => Some (yi_s y) | None => None end = option_map (reorder o) (match yi with Some (y, _) => Some (yi_s y) | None => None end)) by (destruct yi as [[y m]|]; reflexivity).
  rewrite E1, index_kw_order. set (kw := index_kw prm2 (f_bias f) _).
  assert (E2 : match option_map (fun '(y, m) => (yre o y, m)) yi with Some (y, _) => Some y | None => None end = option_map (yre o) ym) by (unfold ym; destruct yi as [[y m]|]; reflexivity).
  rewrite E2. match goal with |- match ?m with Ok _ => _ | Err _ => _ end = _ => destruct m as [u|e]; [|reflexivity] end.
  assert (LYm : forall y, ym = Some y -> length (yi_s y) = n /\ length (yi_0 y) = n). { unfold ym. intros y H. destruct yi as [[y0 m0]|]; [|discriminate]. injection H as <-. apply (LY y0 m0); reflexivity. }
  assert (Hkw : forall y, k_y kw = Some y -> cases n y).
  { unfold kw. cbn. intros y H. destruct yi as [[y0 m0]|]; [|discriminate]. injection H as <-. apply as_col_cases. apply (LY y0 m0); reflexivity. }
  destruct (pp_loop_order env prm2 n o Ho Hn0 most HI kw Hkw (euclid_kw _ _ _) HO2 HR HQ (pp_ncomp prm1) ym K k q' sX (match pp_optim prm2 with OGrid => grid_options d | _ => d end) Xs [] [] (of_cols k []) WXs LYm (Forall_nil _)) as [EL LT].
  cbn [map] in EL. rewrite EL. clear EL. destruct (pp_loop env _ prm2 most kw ym K n k sX _ Xs [] [] _) as [d2 r]. f_equal. destruct r as [[[cs yc] R0]|e]; cbn [rres bind]; [|reflexivity].
  specialize (LT d2 cs yc R0 eq_refl). rewrite !map_map. cbn [cre g_w g_p g_crit g_max g_t].
  rewrite <- (map_map g_t (reorder o)), (reorder_of_cols n) by (auto; apply Forall_map; auto).
  destruct (match dims with Some _ => (pp_ncomp prm1 =? 0)%nat | None => false end); [reflexivity|].
  (* the scaling of the original data *)
  set (sc' := match dims with Some _ => _ | None => Ok (mX, sX, reorder o Xs) end).
  set (sc := match dims with Some _ => _ | None => Ok (mX, sX, Xs) end).
  assert (ESc : sc' = rres (fun '(m, v, Z) => (m, v, reorder o Z)) sc /\ forall m v Z, sc = Ok (m, v, Z) -> length Z = n).
  { subst sc sc'. destruct dims; [|split; [reflexivity|intros m v Z' H; injection H as <- <- <-; apply (wf_length _ _ _ WXs)]].
    destruct (centred_order env n o Ho Hn prm2 s k p X HC2 Hs W) as [EZ2 WZ2]. unfold pp_centred in EZ2, WZ2. split; [exact EZ2|]. intros m v Z' H. apply (wf_length _ _ _ (WZ2 m v Z' H)). }
  clearbody sc sc'. destruct ESc as [-> LSc]. destruct sc as [[[mX' sX'] Xs']|e]; cbn [rres bind]; [|reflexivity]. specialize (LSc mX' sX' Xs' eq_refl).
  destruct yi as [[y my]|]; cbn [option_map]; [|reflexivity]. destruct (LY y my eq_refl) as [Ls L0].
  replace (match dims with Some _ => reorder o X | None => reorder o Z end) with (reorder o (match dims with Some _ => X | None => Z end)) by (destruct dims; reflexivity).
  rewrite (finish_y_order prm2 s _ n) by first [assumption|destruct dims; [apply (wf_length _ _ _ W)|apply (wf_length _ _ _ WZ)]].
  destruct (finish_y prm2 s _ _ Xs' y _) as [[[[ic b0] yf] rr]|e]; reflexivity.
Qed.
