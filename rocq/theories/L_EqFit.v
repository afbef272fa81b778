(** The direct methods of sudire under linear changes of the data *)

From Coq Require Import String Reals List Arith ZArith Bool Lra Lia Permutation Sorted.
Import List. Import ListNotations.
From Verif Require Import Num Err Vec VecR S_Stats S_Regress L_Mat L_Lin L_Matmul L_Stats M_Utils M_Preproc M_Robcent L_Scaling M_Dicomo M_Ipopt M_SdrUtils M_Sudire S_Sudire
  L_SdrMat L_SdrKer L_SdrEig L_SdrPow L_SdrMeth L_SdrFit L_SdrFit2 L_SdrFit3 L_SdrCov L_EqMat L_EqKer S_UnitsSd.
Open Scope R_scope.

(** ** the specification in terms of functions *)
Lemma leading_leadf : forall p M d B, leading_eigenvectors p M d B -> leadf p (mget M) d (mget B) (fun c => quad_form p M (column c B)).
Proof.
  intros p M d B [W [Ho [He Hx]]]. split; [|split].
  - intros i j Hi Hj. apply Ho; auto.
  - intros i c Hi Hc. apply He; auto.
  - intros c v Hc Hv. set (l := map v (seq 0 p)). assert (Ll : length l = p) by (unfold l; rewrite map_length, seq_length; auto).
    assert (Hl : forall a, (a < p)%nat -> nth a l 0 = v a) by (intros a Ha; unfold l; rewrite (nth_map_lt _ _ _ 0%nat), seq_nth by (try rewrite seq_length; auto); reflexivity).
    pose proof (Hx c l Hc Ll) as H. rewrite (sqlen_sumn p l Ll) in H. rewrite (sumn_ext p _ (fun a => v a ^ 2)) in H by (intros a Ha; rewrite Hl by auto; reflexivity).
    replace (quad_form p M l) with (quadf p (mget M) v) in H.
    + apply H. intros i Hi. rewrite (inner_sumn p l B d i W Ll) by lia. eapply eq_trans; [|exact (Hv i Hi)]. apply sumn_ext. intros a Ha. rewrite Hl by auto. reflexivity.
    + unfold quadf, quad_form. apply sumn_ext. intros i Hi. apply sumn_ext. intros j Hj. rewrite !Hl by auto. reflexivity.
Qed.
Lemma gap_gapf : forall p M d B, wf p d B ->
  (forall v, length v = p -> sqlen v <> 0 -> (forall i, (i < d)%nat -> inner v (column i B) = 0) -> forall c, (c < d)%nat -> quad_form p M v < quad_form p M (column c B) * sqlen v) ->
  gapf p (mget M) d (mget B) (fun c => quad_form p M (column c B)).
Proof.
  intros p M d B W Hx v c Hp Hv Hc. set (l := map v (seq 0 p)). assert (Ll : length l = p) by (unfold l; rewrite map_length, seq_length; auto).
  assert (Hl : forall a, (a < p)%nat -> nth a l 0 = v a) by (intros a Ha; unfold l; rewrite (nth_map_lt _ _ _ 0%nat), seq_nth by (try rewrite seq_length; auto); reflexivity).
  pose proof (Hx l Ll) as H. rewrite (sqlen_sumn p l Ll) in H. rewrite (sumn_ext p _ (fun a => v a ^ 2)) in H by (intros a Ha; rewrite Hl by auto; reflexivity).
  replace (quad_form p M l) with (quadf p (mget M) v) in H.
  - apply H; auto; [lra|]. intros i Hi. rewrite (inner_sumn p l B d i W Ll) by lia. eapply eq_trans; [|exact (Hv i Hi)]. apply sumn_ext. intros a Ha. rewrite Hl by auto. reflexivity.
  - unfold quadf, quad_form. apply sumn_ext. intros i Hi. apply sumn_ext. intros j Hj. rewrite !Hl by auto. reflexivity.
Qed.
Lemma mget_matrix_of : forall p f, feq p p (mget (matrix_of p f)) f.
Proof. intros p f i j Hi Hj. apply (proj2 (rep_table p p f)); auto. Qed.
Lemma leadf_ext : forall p m m' d b mu, feq p p m m' -> leadf p m d b mu -> leadf p m' d b mu.
Proof.
  intros p m m' d b mu Hm [Ho [He Hx]]. split; [auto|]. split.
  - intros i c Hi Hc. rewrite <- (fmm_l p p d _ _ b Hm i c Hi Hc). auto.
  - intros c v Hc Hv. replace (quadf p m' v) with (quadf p m v); [auto|]. apply sumn_ext. intros i Hi. apply sumn_ext. intros j Hj. rewrite Hm by auto. reflexivity.
Qed.
Lemma gapf_ext : forall p m m' d b mu, feq p p m m' -> gapf p m d b mu -> gapf p m' d b mu.
Proof.
  intros p m m' d b mu Hm Hg v c Hp Hv Hc. replace (quadf p m' v) with (quadf p m v); [auto|]. apply sumn_ext. intros i Hi. apply sumn_ext. intros j Hj. rewrite Hm by auto. reflexivity.
Qed.

(** ** the matrix of a method *)
Lemma sorted_version_unique : forall y s s', sorted_version y s -> sorted_version y s' -> s = s'.
Proof.
  intros y s s' [P1 S1] [P2 S2]. assert (P : Permutation s s') by (eapply perm_trans; [apply Permutation_sym; exact P1|exact P2]). clear P1 P2 y.
  revert s' S2 P. induction S1 as [|a s S1 IH Ha]; intros s' S2 P; [symmetry; apply Permutation_nil; auto|].
  destruct s' as [|b s']; [apply Permutation_sym, Permutation_nil in P; discriminate|]. inversion S2 as [|? ? S2' Hb]; subst.
  assert (a = b).
  { assert (I1 : In a (b :: s')) by (eapply Permutation_in; [exact P|left; auto]). assert (I2 : In b (a :: s)) by (eapply Permutation_in; [apply Permutation_sym; exact P|left; auto]).
    destruct I1 as [->|I1]; [auto|]. destruct I2 as [->|I2]; [auto|]. rewrite Forall_forall in Ha, Hb. apply Rle_antisym; auto. }
  subst b. f_equal. apply IH; [auto|]. apply Permutation_cons_inv in P. auto.
Qed.
Lemma case_labels_unique : forall y k b l l', case_labels y k b l -> case_labels y k b l' -> l = l'.
Proof.
  intros y k b l l' H H'. unfold case_labels in *. destruct b; [|congruence]. destruct H as [_ [s [Hs ->]]], H' as [_ [s' [Hs' ->]]].
  rewrite (sorted_version_unique y s s' Hs Hs'). reflexivity.
Qed.
Lemma method_matrix_unique : forall mt k b p y f g, method_matrix mt k b p y f -> method_matrix mt k b p y g -> f = g.
Proof.
  intros mt k b p y f g Hf Hg. unfold method_matrix in *. destruct mt; try contradiction; try congruence;
    destruct Hf as [l [Hl ->]], Hg as [l' [Hl' ->]]; rewrite (case_labels_unique y k b l l' Hl Hl'); reflexivity.
Qed.
Lemma method_matrix_direct : forall prm p y f, direct_kernel prm p y f -> method_matrix (sp_meth prm) (sp_slices prm) (sp_cont prm) p y f.
Proof.
  intros prm p y f H. unfold direct_kernel in H. unfold method_matrix. destruct (sp_meth prm); try contradiction; auto; destruct H as [l [Hl [_ ->]]]; exists l; auto.
Qed.
Lemma method_matrix_sym : forall mt k b p y f Z, method_matrix mt k b p y f -> feq p p (f Z) (ft (f Z)).
Proof.
  intros mt k b p y f Z H i j Hi Hj. unfold ft. unfold method_matrix in H. destruct mt; try contradiction.
  - destruct H as [l [_ ->]]. apply between_sym.
  - destruct H as [l [_ ->]]. apply average_variance_sym.
  - destruct H as [l [_ ->]]. apply directional_sym.
  - rewrite H. apply response_weighted_sym.
  - rewrite H. unfold iterated, krylov. change sum_to with sumn. apply sumn_ext. intros; ring.
Qed.
Lemma method_matrix_rotate : forall mt k b p y f n q X, method_matrix mt k b p y f -> orthonormal p p q -> wf n p X -> (0 < n)%nat -> length y = n ->
  feq p p (f (map (rotate p q) X)) (conj p q (f X)).
Proof.
  intros mt k b p y f n q X H Hq W Hn Ly i j Hi Hj. unfold method_matrix in H. destruct mt; try contradiction.
  - destruct H as [l [_ ->]]. apply (between_rotate n); auto.
  - destruct H as [l [_ ->]]. apply (save_rotate n); auto.
  - destruct H as [l [_ ->]]. apply (dr_rotate n); auto.
  - rewrite H. apply (phd_rotate n); auto.
  - rewrite H. apply (iht_rotate n); auto.
Qed.

(** ** the comparison with one standardisation *)
Section Core.
  Variables (mt : meth R) (k : nat) (ct : bool) (n p h : nat) (X A X' : list (list R)) (c : nat -> R) (y : list R) (kernel : list (list R) -> fmat).
  Hypothesis HK : method_matrix mt k ct p y kernel.
  Hypothesis Hn : (0 < n)%nat.
  Hypothesis Ly : length y = n.
  Hypothesis W : wf n p X.
  Hypothesis W' : wf n p X'.
  Hypothesis HX : forall i j, (i < n)%nat -> (j < p)%nat -> mget X' i j = sumn p (fun a => mget X i a * mget A a j) + c j.
  Variables (S Z V : list (list R)).
  Let sig : fmat := fun a b => cov_of (column a X) (column b X).
  Let s : fmat := mget S.
  Hypothesis HS1 : feq p p s (ft s).
  Hypothesis HS2 : feq p p (fmm p s (fmm p sig s)) delta.
  Hypothesis WZ : wf n p Z.
  Hypothesis HZ : forall i j, (i < n)%nat -> (j < p)%nat -> mget Z i j = sumn p (fun a => (mget X i a - mean_of (column a X)) * s a j).
  Variable la : nat -> R.
  Hypothesis HV : leadf p (kernel Z) h (mget V) la.
  Hypothesis HG : gapf p (kernel Z) h (mget V) la.
  Variables (N : fmat) (Z' : list (list R)) (V' P' : fmat) (mu : nat -> R).
  Hypothesis HN : feq p p (conj p N (fun a b => cov_of (column a X') (column b X'))) delta.
  Hypothesis WZ' : wf n p Z'.
  Hypothesis HZ' : forall i j, (i < n)%nat -> (j < p)%nat -> mget Z' i j = sumn p (fun a => (mget X' i a - mean_of (column a X')) * N a j).
  Hypothesis HV' : leadf p (kernel Z') h V' mu.
  Hypothesis HP' : feq p h P' (fmm p N V').

  Lemma core_sig : feq p p sig (ft sig).
  Proof. intros i j _ _. apply cov_sym. Qed.
  Lemma core_ssig : feq p p (fmm p s sig) (fmm p sig s).
  Proof.
    (* s sig = s sig (s sig s)' ... both are inverses of s *)
    apply feq_trans with (fmm p (fmm p s sig) (fmm p s (fmm p sig s))).
    - apply feq_sym. intros i j Hi Hj. rewrite (fmm_r p p p (fmm p s sig) _ delta HS2 i j Hi Hj). apply (fid_r p p); auto.
    - intros i j Hi Hj. rewrite <- fmm_assoc. rewrite (fmm_l p p p (fmm p (fmm p s sig) s) delta (fmm p sig s)) by first [assumption|intros a b Ha Hb; rewrite fmm_assoc; apply HS2; auto].
      apply (fid_l p p); auto.
  Qed.
  Lemma core_inv : feq p p (fmm p s (fmm p s sig)) delta.
  Proof. intros i j Hi Hj. rewrite (fmm_r p p p s _ _ core_ssig i j Hi Hj). apply HS2; auto. Qed.
  Let an : fmat := fmm p (mget A) N.
  Let q : fmat := fmm p s (fmm p sig an).
  Lemma core_sq : feq p p (fmm p s q) an.
  Proof.
    intros i j Hi Hj. unfold q. rewrite <- (fmm_r p p p s (fmm p (fmm p s sig) an) _ (fassoc p p p p s sig an) i j Hi Hj).
    rewrite <- fmm_assoc. rewrite (fmm_l p p p _ delta an core_inv i j Hi Hj). apply (fid_l p p); auto.
  Qed.
  Lemma mean_change : forall j, (j < p)%nat -> mean_of (column j X') = sumn p (fun a => mean_of (column a X) * mget A a j) + c j.
  Proof.
    intros j Hj. rewrite (mean_column n p) by auto. rewrite (mf_ext n _ (fun r => sumn p (fun a => mget X r a * mget A a j) - - c j)) by (intros r Hr; rewrite HX by auto; ring).
    rewrite mf_shift, mf_comb by auto. rewrite (sumn_ext p (fun a => mean_of (column a X) * mget A a j) (fun a => mf n (fun r => mget X r a) * mget A a j)) by (intros a Ha; rewrite (mean_column n p) by auto; reflexivity).
    ring.
  Qed.
  Lemma cov_change : feq p p (fun a b => cov_of (column a X') (column b X')) (conj p (mget A) sig).
  Proof.
    intros i j Hi Hj. rewrite (cov_columns n p) by auto.
    rewrite (covf_ext n _ (fun r => sumn p (fun a => mget X r a * mget A a i) - - c i) _ (fun r => sumn p (fun a => mget X r a * mget A a j) - - c j)) by (intros r Hr; rewrite HX by auto; ring).
    rewrite covf_shift, covf_comb by auto. apply sumn_ext. intros a Ha. apply sumn_ext. intros b Hb. unfold sig. rewrite (cov_columns n p) by auto. reflexivity.
  Qed.
  Lemma core_anorm : feq p p (conj p an sig) delta.
  Proof.
    intros i j Hi Hj. rewrite <- (HN i j Hi Hj). rewrite (conj_ext p N _ _ cov_change). rewrite !conj_mm.
    unfold an. rewrite (fmm_l p p p _ (fmm p (ft N) (ft (mget A)))) by first [assumption|intros a b _ _; apply ft_mm].
    rewrite fmm_assoc. apply (fmm_r p p p); auto. intros a b Ha Hb.
    rewrite (fmm_l p p p _ _ N (fun x y _ _ => conj_mm p (mget A) sig x y) a b Ha Hb). rewrite fmm_assoc. apply (fmm_r p p p); auto. intros x z Hx Hz. symmetry. apply fmm_assoc.
  Qed.
  Lemma core_orth : orthonormal p p q.
  Proof.
    intros i j Hi Hj. rewrite <- (core_anorm i j Hi Hj). rewrite conj_mm.
    (* q'q = an' sig s s sig an = an' sig an *)
    transitivity (fmm p (fmm p (fmm p (ft an) sig) s) (fmm p s (fmm p sig an)) i j).
    - apply (fmm_l p p p); auto. intros a b Ha Hb. unfold q. rewrite ft_mm. transitivity (fmm p (fmm p (ft an) sig) (ft s) a b).
      + apply (fmm_l p p p); auto. intros x z Hx Hz. rewrite ft_mm. apply (fmm_r p p p); auto. apply feq_sym, core_sig.
      + apply (fmm_r p p p); auto. apply feq_sym, HS1.
    - rewrite fmm_assoc. rewrite fmm_assoc. apply (fmm_r p p p); auto. intros a b Ha Hb.
      transitivity (fmm p (fmm p sig (fmm p s (fmm p s sig))) an a b).
      + rewrite fmm_assoc. apply (fmm_r p p p); auto. intros x z Hx Hz. rewrite fmm_assoc. apply (fmm_r p p p); auto. intros u v Hu Hv. symmetry. apply fmm_assoc.
      + rewrite (fmm_l p p p _ sig an) by first [assumption|intros x z Hx Hz; rewrite (fmm_r p p p sig _ delta core_inv x z Hx Hz); apply (fid_r p p); auto]. reflexivity.
  Qed.
  Lemma core_data : Z' = map (rotate p q) Z.
  Proof.
    apply (rotated n); auto. intros r j Hr Hj. rewrite HZ' by auto.
    rewrite (sumn_ext p _ (fun a => sumn p (fun b => (mget X r b - mean_of (column b X)) * mget A b a) * N a j)).
    2:{ intros a Ha. rewrite HX, mean_change by auto. f_equal. rewrite (sumn_ext p (fun b => (mget X r b - mean_of (column b X)) * mget A b a) (fun b => mget X r b * mget A b a - mean_of (column b X) * mget A b a)) by (intros; ring).
        rewrite sumn_minus. ring. }
    change (fmm p (fmm p (fun r b => mget X r b - mean_of (column b X)) (mget A)) N r j = sumn p (fun a => mget Z r a * q a j)).
    rewrite fmm_assoc. fold an. rewrite (sumn_ext p _ (fun a => fmm p (fun r b => mget X r b - mean_of (column b X)) s r a * q a j)) by (intros a Ha; rewrite HZ by auto; reflexivity).
    change (fmm p (fun r b => mget X r b - mean_of (column b X)) an r j = fmm p (fmm p (fun r b => mget X r b - mean_of (column b X)) s) q r j). rewrite fmm_assoc.
    apply (fmm_r n p p); auto. apply feq_sym, core_sq.
  Qed.
  Lemma core : exists o, orthonormal h h o /\ feq p h (fmm p (mget A) P') (fmm h (fmm p s (mget V)) o).
  Proof.
    assert (HL : leadf p (kernel Z) h (fmm p q V') mu).
    { apply leading_transfer; [apply core_orth|]. apply (leadf_ext p (kernel Z')); [|auto]. rewrite core_data. apply (method_matrix_rotate mt k ct p y kernel n); auto. apply core_orth. }
    destruct (leading_unique p h (kernel Z) (mget V) (fmm p q V') la mu (method_matrix_sym mt k ct p y kernel Z HK) HV HL HG) as [o [Ho HO]].
    exists o. split; [auto|]. intros i j Hi Hj.
    rewrite (fmm_r p p h (mget A) _ _ HP' i j Hi Hj). rewrite <- fmm_assoc. fold an. rewrite <- (fmm_l p p h _ _ V' core_sq i j Hi Hj). rewrite fmm_assoc.
    rewrite (fmm_r p p h s _ _ HO i j Hi Hj). symmetry. apply fmm_assoc.
  Qed.
End Core.

(** ** what a fit with standardised data does *)
Section Std.
  Variables (env : sd_env R) (st st' : sstate R) (X : list (list R)) (y : list R) (metric : list R -> list R -> R) (bias : bool) (m : smodel R) (n p : nat).
  Hypothesis HS : svd_shapes (se_svd env).
  Hypothesis HI : isqrt_ok (se_isqrt env).
  Hypothesis He : eigh_ok (se_eigh env).
  Hypothesis W : wf n p X.
  Hypothesis Hn : (2 <= n)%nat.
  Hypothesis Hp : (0 < p)%nat.
  Hypothesis Hc : sp_copy (ss_prm st) = true.
  Hypothesis HW : sp_whiten (ss_prm st) = false.
  Hypothesis HC : sp_center (ss_prm st) = CMean.
  Hypothesis Hd : sp_center_data (ss_prm st) = true.
  Hypothesis Hs : sp_scale_data (ss_prm st) = true.
  Hypothesis E : sd_fit env st X (A1 y) metric bias = (st', Ok m).
  Let prm := ss_prm st.
  Let h := sp_ncomp prm.
  Variable kernel : list (list R) -> fmat.
  Hypothesis HK : method_matrix (sp_meth prm) (sp_slices prm) (sp_cont prm) p y kernel.

  Lemma fit_std : exists (N : fmat) Z V mu, length y = n /\ feq p p (conj p N (fun a b => cov_of (column a X) (column b X))) delta /\ wf n p Z /\
    (forall i j, (i < n)%nat -> (j < p)%nat -> mget Z i j = sumn p (fun a => (mget X i a - mean_of (column a X)) * N a j)) /\
    leadf p (kernel Z) h V mu /\ feq p h (mget (sm_P m)) (fmm p N V) /\ wf p h (sm_P m) /\ npmatmul X (sm_P m) = Ok (sm_T m).
  Proof.
    destruct (fit_all env st st' X (A1 y) metric bias m n p HS HI He W Hn Hp Hc HW E)
      as (pd & ys & P & EP & EY & EV & WX & WN & SN & HN & WP & EPm & ET & HP).
    fold prm in EP, HP, Hs, Hd, HC. fold h in WP.
    destruct (response_inv _ _ _ EY) as [Ly [Ey|Ey]]; [|discriminate]. injection Ey as Ey. subst ys.
    assert (Hh : (h <= p)%nat).
    { destruct (fit_inv env st X (A1 y) metric bias st' m Hc E) as (pd1 & ys1 & P1 & Hh & _). rewrite (wf_length _ _ _ W), (wf_ncols n p X W) in Hh by lia.
      unfold sd_whitening in Hh. rewrite HW in Hh. fold prm h in Hh. lia. }
    destruct HP as [[P0 [ED EN]]|[ED _]].
    2:{ exfalso. unfold sd_direct in ED. unfold method_matrix in HK. destruct (sp_meth prm); try discriminate ED; contradiction. }
    destruct (direct_ok env prm n p (pd_Xs pd) y P0 He ltac:(lia) Hp WX Ly ED) as [K [HK' HB]].
    apply method_matrix_direct in HK'. rewrite (method_matrix_unique _ _ _ _ _ _ _ HK' HK) in HB. clear K HK'.
    rewrite Nat.min_l in HB by (fold h; lia). fold h in HB. rewrite Hd, Hs in HB. destruct HB as (S & Z & V & WS & SS & HSt & [WZ HZ] & HL & [WB HB]).
    destruct (prepare_entries env prm X n p pd W Hn Hp EP HW EV (or_introl HC)) as [_ [_ [mu [_ [HE _]]]]]. specialize (HE Hs HC WN).
    assert (CXs : feq p p (fun a b => cov_of (column a (pd_Xs pd)) (column b (pd_Xs pd))) delta).
    { intros i j Hi Hj. rewrite (cov_mix n p p X (pd_Xs pd) mu (mget (pd_N2 pd)) W WX ltac:(lia) HE i j Hi Hj). rewrite <- (HN i j Hi Hj).
      apply sumn_ext. intros a Ha. apply sumn_ext. intros b Hb. f_equal. f_equal. apply SN; auto. }
    assert (CM : forall i j, (i < p)%nat -> (j < p)%nat -> cell (covariance_matrix p (pd_Xs pd)) i j = delta i j).
    { intros i j Hi Hj. unfold covariance_matrix. change cell with (mget (A := R)). rewrite mget_matrix_of by auto. apply CXs; auto. }
    assert (PD : positive_definite p (covariance_matrix p (pd_Xs pd))).
    { intros v Lv Hv. replace (quad_form p (covariance_matrix p (pd_Xs pd)) v) with (sqlen v).
      - rewrite (sqlen_sumn p v Lv) in *. pose proof (sumn_nonneg p (fun a => nth a v 0 ^ 2) ltac:(intros; apply pow2_ge_0)). lra.
      - rewrite (sqlen_sumn p v Lv). unfold quad_form. change sum_to with sumn. apply sumn_ext. intros i Hi.
        rewrite (sumn_ext p _ (fun j => (nth i v 0 * nth j v 0) * delta j i)) by (intros j Hj; rewrite CM, delta_sym by auto; ring).
        rewrite (sumn_delta_r p i (fun j => nth i v 0 * nth j v 0)) by auto. ring. }
    destruct (HSt PD) as [_ [_ HSI]].
    assert (SO : feq p p (fmm p (mget S) (mget S)) delta).
    { intros i j Hi Hj. rewrite <- (HSI i j Hi Hj). change sum_to with sumn. apply sumn_ext. intros a Ha.
      rewrite (sumn_ext p _ (fun b => (mget S i a * mget S b j) * delta b a)) by (intros b Hb; rewrite CM, (delta_sym a b) by auto; change cell with (mget (A := R)); ring).
      rewrite (sumn_delta_r p a (fun b => mget S i a * mget S b j)) by auto. reflexivity. }
    assert (SSf : feq p p (ft (mget S)) (mget S)) by (intros i j Hi Hj; unfold ft; apply SS; auto).
    exists (fmm p (mget (pd_N2 pd)) (mget S)), Z, (mget V), (fun c => quad_form p (matrix_of p (kernel Z)) (column c V)).
    split; [auto|]. split.
    { intros i j Hi Hj. rewrite conj_mm.
      set (n2 := mget (pd_N2 pd)) in *. set (sg := fun a b => cov_of (column a X) (column b X)).
      assert (H0 : feq p p (fmm p (ft n2) (fmm p sg n2)) delta).
      { intros a b Ha Hb. rewrite <- (HN a b Ha Hb). rewrite <- conj_mm. unfold conj. apply sumn_ext. intros x Hx. apply sumn_ext. intros z Hz. f_equal. f_equal. apply SN; auto. }
      transitivity (fmm p (fmm p (ft (mget S)) (ft n2)) (fmm p sg (fmm p n2 (mget S))) i j); [apply (fmm_l p p p); auto; intros a b _ _; apply ft_mm|].
      rewrite fmm_assoc. transitivity (fmm p (ft (mget S)) (mget S) i j).
      - apply (fmm_r p p p); auto. intros a b Ha Hb. transitivity (fmm p (fmm p (ft n2) (fmm p sg n2)) (mget S) a b).
        + rewrite fmm_assoc. apply (fmm_r p p p); auto. intros x z Hx Hz. symmetry. apply fmm_assoc.
        + rewrite (fmm_l p p p _ delta (mget S) H0 a b Ha Hb). apply (fid_l p p); auto.
      - rewrite (fmm_l p p p _ _ (mget S) SSf i j Hi Hj). apply SO; auto. }
    split; [exact WZ|]. split.
    { intros i j Hi Hj. pose proof (HZ i j Hi Hj) as H. cbv beta zeta in H. change cell with (mget (A := R)) in H. change sum_to with sumn in H. rewrite H.
      transitivity (fmm p (fmm p (fun r b => mget X r b - mean_of (column b X)) (mget (pd_N2 pd))) (mget S) i j); [|apply fmm_assoc].
      apply sumn_ext. intros a Ha. f_equal. rewrite HE by auto. rewrite (mean_column n p) by auto.
      rewrite (mf_ext n _ (fun r => sumn p (fun b => (mget X r b - mu b) * mget (pd_N2 pd) b a))) by (intros r Hr; apply HE; auto). rewrite mf_comb.
      unfold fmm. rewrite <- sumn_minus. apply sumn_ext. intros b Hb. rewrite mf_shift, (mean_column n p) by (auto; lia). ring. }
    split.
    { apply (leadf_ext p (mget (matrix_of p (kernel Z)))); [apply mget_matrix_of|]. apply leading_leadf; auto. }
    unfold n2_times in EN. rewrite Hs in EN. subst P.
    split.
    { intros i j Hi Hj. pose proof (npmatmul_ok p p h _ _ _ _ _ Hp Hp (rep_self _ _ _ WN) (rep_self _ _ _ WB) EN) as [_ HPc]. rewrite HPc by auto.
      rewrite fmm_assoc. apply sumn_ext. intros a Ha. f_equal. apply (HB a j Ha Hj). }
    auto.
  Qed.
End Std.
