(** Missing values in the data given to rm, sprm and snipls *)
From Coq Require Import Reals List Arith ZArith Bool Lia Lra.
Import ListNotations.
From Verif Require Import Num Err Vec VecR OrdR L_Mat S_Utils S_Stats S_Weights M_Utils M_Preproc M_Robcent M_Msupport M_Rm M_Snipls M_Sprm S_Rm S_Sprm L_Scaling L_Scaling2 L_Snipls L_Missing L_Rm L_Rm2 L_Sprm L_Sprm4 L_Msupport L_Utils S_MissReg.
Open Scope R_scope.

Lemma add_NaN : forall x, XRadd x NaN = NaN. Proof. intros [| | |]; reflexivity. Qed.
Lemma vsum_NaN : forall v : list XR, In NaN v -> vsum v = NaN.
Proof. induction v as [|a v IH]; intros H; [destruct H|]. cbn [vsum fold_right]. xnum. destruct H as [->|H]; [reflexivity|]. change (fold_right XRadd (Fin 0) v) with (vsum v). rewrite (IH H). apply add_NaN. Qed.
Lemma in_map2_l : forall (f : XR -> XR -> XR) (u v : list XR), (forall b, f NaN b = NaN) -> (length u <= length v)%nat -> In NaN u -> In NaN (map2 f u v).
Proof.
  intros f u. induction u as [|a u IH]; intros v Hf Hl H; [destruct H|]. destruct v as [|b v]; [cbn in Hl; lia|]. cbn [map2]. destruct H as [->|H]; [left; apply Hf|right; apply IH; auto; cbn in Hl; lia].
Qed.
Lemma in_map2_r : forall (f : XR -> XR -> XR) (u v : list XR), (forall b, f b NaN = NaN) -> (length v <= length u)%nat -> In NaN v -> In NaN (map2 f u v).
Proof.
  intros f u. induction u as [|a u IH]; intros v Hf Hl H; destruct v as [|b v]; try (cbn in Hl; lia); [destruct H|destruct H|]. cbn [map2]. destruct H as [->|H]; [left; apply Hf|right; apply IH; auto; cbn in Hl; lia].
Qed.
Lemma dot_NaN : forall r b : list XR, (length r <= length b)%nat -> In NaN r -> dot r b = NaN.
Proof. intros r b Hl H. unfold dot. apply vsum_NaN, in_map2_l; auto. Qed.
Lemma vsub_NaN : forall y z : list XR, length y = length z -> In NaN y \/ In NaN z -> In NaN (vsub y z).
Proof. intros y z Hl [H|H]; [apply in_map2_l|apply in_map2_r]; auto; try lia; intros b; destruct b; reflexivity. Qed.
Lemma vmean_NaN : forall v : list XR, In NaN v -> vmean v = NaN.
Proof. intros v H. unfold vmean. rewrite (vsum_NaN v H). reflexivity. Qed.
Lemma nan0 : XRdiv (Fin 0) (Fin 0) = NaN.
Proof. cbn. destruct (Req_EM_T 0 0); [|congruence]. unfold XRsgninf. destruct (Rlt_dec 0 0); [lra|]. reflexivity. Qed.
Lemma np_median_NaN : forall v : list XR, In NaN v -> np_median v = NaN.
Proof.
  intros v H. unfold np_median, vanynan. replace (existsb nisnan v) with true; [exact nan0|]. symmetry. apply existsb_exists. exists NaN. split; [exact H|apply isnan_NaN].
Qed.
Lemma all_NaN : forall (v : list XR) c, c = NaN -> Forall (eq NaN) (map (fun a => nadd a c) v).
Proof. intros v c ->. apply Forall_map, Forall_forall. intros a _. symmetry. apply add_NaN. Qed.
Lemma sub_all_NaN : forall y z : list XR, Forall (eq NaN) z -> Forall (eq NaN) (vsub y z).
Proof.
  intros y z H. revert y. induction H as [|b z Hb Hz IH]; intros [|a y]; cbn; constructor; auto. subst b. destruct a; reflexivity.
Qed.
Lemma matvec_NaN : forall (X : list (list XR)) b r, In r X -> In NaN r -> (length r <= length b)%nat -> In NaN (matvec X b).
Proof. intros X b r H1 H2 H3. unfold matvec. apply in_map_iff. exists r. split; [apply dot_NaN; auto|exact H1]. Qed.

(** a missing value somewhere in a column that has a coefficient *)

Lemma rm_missing : forall (env : rm_env XR) (P : rm_par XR) X y m, rm_fit env P X y = Ok m -> length (rm_coef m) = ncols X ->
  missing_in (ncols X) X \/ In NaN y ->
  rm_intercept m = NaN /\ Forall (eq NaN) (rm_fitted m) /\ Forall (eq NaN) (rm_resid m) /\
  (forall x z, rm_predict m x = Ok z -> Forall (eq NaN) z).
Proof.
  intros env P X y m E Hc HN.
  apply rm_fit_inv in E as (f & st1 & Xs & st2 & Ys & mX & sX & my & sy & st & calls & Hchk & Hly & H1 & Ex & Ey & _ & _ & _ & _ & El & Ef).
  apply rm_finish_inv in Ef as (b & Eb & Hs & Ef). cbv zeta in Ef. destruct Ef as (_ & Ec & _ & Efit & Er & _ & _ & _ & _ & _ & _ & _ & Ei).
  rewrite Ec in *. assert (Hb : (ncols X <= length b)%nat) by (rewrite map2_length, Hs in Hc; lia).
  assert (HD : forall w, (ncols X <= length w)%nat -> In NaN (vsub y (matvec X w))).
  { intros w Hw. apply vsub_NaN; [unfold matvec; rewrite map_length; exact Hly|]. destruct HN as [(r & A & B & C)|HN]; [right; apply (matvec_NaN _ _ r A B); lia|left; exact HN]. }
  set (bres := map2 _ sX b) in *.
  assert (Hcen : (match r_centre P with CMean => vmean (vsub y (matvec X bres)) | _ => np_median (vsub y (matvec X bres)) end) = NaN).
  { destruct (r_centre P); first [apply vmean_NaN|apply np_median_NaN]; apply HD; rewrite Hc; lia. }
  assert (Hi : rm_intercept m = NaN).
  { destruct (r_scale P); try (rewrite (proj1 Ei); exact Hcen). destruct Ei as (_ & Ei & _). rewrite Ei. apply vmean_NaN, HD, Hb. }
  assert (HF : Forall (eq NaN) (rm_fitted m)) by (rewrite Efit; apply all_NaN, Hcen).
  split; [exact Hi|]. split; [exact HF|]. split; [rewrite Er, <- Efit; apply sub_all_NaN, HF|].
  intros x z Ez. unfold rm_predict in Ez. destruct (predict_check_input x) as [[n p] Xn]. destruct (rm_p m); [|discriminate]. destruct (negb _); [discriminate|]. apply Ok_inj in Ez as <-. apply all_NaN, Hi.
Qed.

(** ** sprm *)
Lemma keep_all : forall p (sX : list XR), zero_scale sX = [] -> vars_to_keep p sX = seq 0 p.
Proof. intros p sX E. unfold vars_to_keep. rewrite E. induction (seq 0 p) as [|a l IH]; [reflexivity|]. cbn in *. f_equal. exact IH. Qed.

Lemma sprm_missing : forall (env : sp_env XR) (P : sp_par XR) df n p X y m, is_xmatrix n p X -> (1 <= n)%nat -> sprm_fit env P df X y = Ok m -> length (sp_coef m) = length (sp_keep m) ->
  s_centre P <> CNone -> missing_kept (sp_keep m) X \/ In NaN y ->
  sp_intercept m = NaN /\ Forall (eq NaN) (sp_fitted m) /\ Forall (eq NaN) (sp_resid m) /\
  (forall x z, sprm_predict m x = Ok z -> Forall (eq NaN) z).
Proof.
  intros env P df n p X y m WX Hn1 E Hc Hcen HN. assert (Hp : ncols X = p) by (apply (ncols_x n p X WX Hn1)). unfold sprm_fit in E. destruct (sprm_run env P df X y) as [P' [calls r0]] eqn:ER. cbn in E. subst r0.
  apply run_inv in ER as (f & k & c1 & c2 & mX & sX & Xs & my & sy & ys & X' & Xs' & sX' & ER). cbv zeta in ER.
  destruct ER as (_ & _ & Hly & _ & _ & _ & EP & _ & HX' & Eest).
  apply estimate_inv in Eest as (Us & rc & c & b & q & st & _ & _ & _ & EF).
  apply finish_inv in EF as (fit & _ & Hs & EF). cbv zeta in EF.
  destruct EF as (_ & Ek & Eco & Ei & _ & Efit & Er & _).
  assert (EC : s_centre P' = s_centre P) by (rewrite EP; unfold tau_fix; cbn; destruct (s_scale P); try reflexivity; destruct (existsb _ _); reflexivity).
  rewrite EC in *. set (bres := map2 _ sX' (sn_coef fit)) in *. rewrite Eco in Hc. rewrite Ek in Hc, HN.
  assert (HlX : length X' = length X) by (destruct HX' as [(_ & -> & _)|(-> & _)]; rewrite ?map_length; reflexivity).
  assert (HD : In NaN (vsub y (matvec X' bres))).
  { apply vsub_NaN; [unfold matvec; rewrite map_length; lia|]. destruct HN as [(r & j & A & B & C)|HN]; [right|left; exact HN].
    destruct HX' as [(Hz & -> & _)|(-> & _)].
    - apply (matvec_NaN _ _ r A); [apply (nth_error_In _ _ C)|]. rewrite Hc, (keep_all _ _ Hz), seq_length, Hp.
      destruct WX as [_ W]. rewrite Forall_forall in W. rewrite (W r A). lia.
    - apply (matvec_NaN _ _ (M_Sprm.sel (vars_to_keep (ncols X) sX) r)); [apply in_map, A| |unfold M_Sprm.sel; rewrite map_length, Hc; lia].
      unfold M_Sprm.sel. apply in_map_iff. exists j. split; [|exact B]. apply nth_error_nth with (d := n0) in C. exact C. }
  assert (Hi : sp_intercept m = NaN) by (rewrite Ei; destruct (s_centre P); try congruence; first [apply vmean_NaN|apply np_median_NaN]; exact HD).
  rewrite <- Ei in Efit.
  assert (HF : Forall (eq NaN) (sp_fitted m)) by (rewrite Efit; apply all_NaN, Hi).
  split; [exact Hi|]. split; [exact HF|]. rewrite <- Ei in Er. split; [rewrite Er, <- Efit; apply sub_all_NaN, HF|].
  intros x z Ez. unfold sprm_predict in Ez. destruct (predict_check_input x) as [[n' p'] Xn]. destruct (sp_p m); [|discriminate]. destruct (negb _); [discriminate|]. apply Ok_inj in Ez as <-. apply all_NaN, Hi.
Qed.

(** ** snipls *)
Lemma scale_data_NaN : forall (X Z : list (list XR)) m s r, scale_data X m s = Ok Z -> In r X -> length r = ncols X -> In NaN r -> manynan Z = true.
Proof.
  assert (HA : forall r : list XR, In NaN r -> vanynan r = true) by (intros r H; apply existsb_exists; exists NaN; split; [exact H|apply isnan_NaN]).
  assert (HM : forall (Y : list (list XR)) r, In r Y -> In NaN r -> manynan Y = true) by (intros Y r A B; apply existsb_exists; exists r; auto).
  intros X Z m s r E Hr Hl Hn. unfold scale_data in E. cbv zeta in E. destruct (ncols X =? 1)%nat.
  - destruct m as [|m0 m]; [discriminate|]. destruct (handle_zeros s) as [|s0 s']; [discriminate|]. apply Ok_inj in E as <-.
    apply (HM _ (map (fun x => ndiv (nsub x m0) s0) r)); [apply in_map, Hr|]. apply in_map_iff. exists NaN. split; [reflexivity|exact Hn].
  - assert (HB : forall (g : XR -> XR -> XR) (Y Y' : list (list XR)) v, (forall b, g NaN b = NaN) ->
      (if (length v =? ncols X)%nat then Ok (rows_op g Y v) else match v with [v0] => Ok (map (map (fun x => g x v0)) Y) | _ => Err ValueError end) = Ok Y' ->
      forall u, In u Y -> length u = ncols X -> In NaN u -> exists u', In u' Y' /\ length u' = ncols X /\ In NaN u').
    { intros g Y Y' v Hg EB u Hu Lu Nu. destruct (Nat.eqb_spec (length v) (ncols X)) as [Hv|Hv].
      - apply Ok_inj in EB as <-. exists (map2 g u v). split; [unfold rows_op; apply in_map_iff; exists u; auto|]. split; [rewrite map2_length; lia|apply in_map2_l; auto; lia].
      - destruct v as [|v0 [|? ?]]; try discriminate. apply Ok_inj in EB as <-. exists (map (fun x => g x v0) u). split; [apply in_map_iff; exists u; auto|]. split; [rewrite map_length; exact Lu|].
        apply in_map_iff. exists NaN. split; [apply Hg|exact Nu]. }
    apply bind_Ok in E as (Xm & E1 & E2). destruct (HB _ _ _ _ (fun b => eq_refl) E1 r Hr Hl Hn) as (u & U1 & U2 & U3).
    destruct (HB ndiv Xm Z (handle_zeros s) (fun b => ltac:(destruct b; reflexivity)) E2 u U1 U2 U3) as (w & W1 & _ & W3). apply (HM _ w W1 W3).
Qed.

Lemma snipls_missing : forall (env : prep_env XR) inv eta k c s n p X y f i b, is_xmatrix n p X -> (1 <= n)%nat -> entries_ok X -> snipls_fit env inv eta k c s X y = Ok f ->
  sn_coef f = map Fin b -> length b = p -> (i < n)%nat -> In NaN (nth i X []) ->
  nth i (sn_fitted f) NaN = nadd (Fin (sum_of (observed_products (nth i X []) (map Fin b)))) (sn_intercept f) /\
  forall z, snipls_predict f (A2 X) = Ok z -> nth i z (Fin 0) = NaN.
Proof.
  intros env inv eta k c s n p X y f i b WX Hn1 Hok E Hb Lb Hi HN. pose proof (ncols_x n p X WX Hn1) as Hp. destruct WX as [Ln W].
  assert (Hr : In (nth i X []) X) by (apply nth_In; lia). pose proof W as W'. rewrite Forall_forall in W'. pose proof (W' _ Hr) as Lr.
  unfold snipls_fit in E. destruct ((length X =? 1)%nat && (2 <=? ncols X)%nat) eqn:E1; [discriminate|]. destruct (negb (length X =? length y)%nat) eqn:Hly; [discriminate|].
  apply bind_Ok in E as ([[mX sX] X0] & ES & E). apply bind_Ok in E as ([[my sy] Y0] & _ & E). cbv zeta in E.
  assert (HX0 : manynan X0 = true).
  { unfold scaled in ES. destruct (sc_fit_transform env (new_scaler c s n0) (A2 X)) as [st [Z|e]] eqn:EF; [|discriminate].
    destruct (a_col_loc st); [|discriminate]. destruct (a_col_sca st); [|discriminate]. apply Ok_inj in ES. injection ES as <- <- <-.
    apply ft_inv in EF as (m' & s' & _ & _ & _ & _ & ED & _). unfold check_input in ED. rewrite E1 in ED. apply (scale_data_NaN _ _ _ _ (nth i X []) ED Hr); [lia|exact HN]. }
  apply bind_Ok in E as ([[B RR] T] & EB & E). repeat (destruct (negb _) in E; [discriminate E|]). apply Ok_inj in E as <-. cbn [sn_coef sn_fitted sn_intercept] in *. rewrite HX0 in *. cbn [orb] in *.
  set (Bres := map2 _ sX B) in *. rewrite Hb. split.
  - set (ic := snipls_intercept _ _). rewrite (nth_indep _ NaN (nadd NaN ic)) by (unfold xw; rewrite !map_length; lia). rewrite (map_nth (fun t => nadd t ic)). f_equal.
    unfold xw. rewrite (nth_indep _ NaN (dotv true [] (map Fin b))) by (rewrite map_length; lia). rewrite (map_nth (fun r => dotv true r (map Fin b))). unfold dotv. apply nansum_vmul_XR.
    + unfold entries_ok in Hok. rewrite Forall_forall in Hok. apply Hok, Hr.
    + apply Forall_map, Forall_forall. intros; exact I.
  - intros z Ez. unfold snipls_predict in Ez. cbn [predict_check_input sn_p sn_coef sn_intercept] in Ez. rewrite Nat.eqb_refl in Ez. cbn [negb] in Ez. apply Ok_inj in Ez as <-.
    set (ic := snipls_intercept _ _). rewrite (nth_indep _ (Fin 0) (nadd NaN ic)) by (unfold matvec; rewrite !map_length; lia). rewrite (map_nth (fun t => nadd t ic)).
    unfold matvec. rewrite (nth_indep _ NaN (dot [] (map Fin b))) by (rewrite map_length; lia). rewrite (map_nth (fun r => dot r (map Fin b))). rewrite dot_NaN; [reflexivity|rewrite map_length; lia|exact HN].
Qed.

(** ** lengths, for the cases *)
Lemma rm_loop_len : forall (env : rm_env XR) P f Xs ys wx q, (forall M b c, re_lstsq env M b = Ok c -> length c = q) ->
  forall fuel st calls st', (forall b, l_b st = Some b -> length b = q) -> rm_loop env fuel P f Xs ys wx st = (calls, Some (Ok st')) -> forall b, l_b st' = Some b -> length b = q.
Proof.
  intros env P f Xs ys wx q HQ. induction fuel as [|k IH]; intros st calls st' H0 E; [discriminate|]. cbn [rm_loop] in E. destruct (_ && _); [|injection E as _ <-; exact H0].
  destruct (re_lstsq env _ _) as [c|] eqn:EL; [|discriminate]. apply HQ in EL. destruct (rm_body _ _ _ _ _ _ _ _ _) as [s1 brk] eqn:EB.
  assert (H1 : forall b, l_b s1 = Some b -> length b = q).
  { unfold rm_body in EB. cbv zeta in EB. destruct (_ <=? _)%nat; injection EB as <- _; cbn [l_b]; intros b Eb; injection Eb as <-; exact EL. }
  destruct brk; [injection E as _ <-; exact H1|]. destruct (rm_loop env k P f Xs ys wx s1) as [cs r] eqn:ER. injection E as _ ->. apply (IH s1 cs st' H1 ER).
Qed.
Lemma rm_coef_len : forall (env : rm_env XR) P X y m, (forall M b c, re_lstsq env M b = Ok c -> length c = ncols X) -> rm_fit env P X y = Ok m -> length (rm_coef m) = ncols X.
Proof.
  intros env P X y m HQ E. apply rm_fit_inv in E as (f & st1 & Xs & st2 & Ys & mX & sX & my & sy & st & calls & Hchk & Hly & H1 & Ex & Ey & _ & _ & _ & _ & El & Ef).
  apply rm_finish_inv in Ef as (b & Eb & Hs & Ef). cbv zeta in Ef. destruct Ef as (_ & Ec & _). rewrite Ec, map2_length, Hs.
  rewrite (rm_loop_len env P f Xs _ _ _ HQ _ _ _ _ (fun b (A : l_b (start_state env P f _ y _) = Some b) => ltac:(discriminate A)) El b Eb). apply Nat.min_id.
Qed.
Lemma snipls_coef_len : forall (env : prep_env XR) inv eta k c s X y f, snipls_fit env inv eta k c s X y = Ok f -> length (sn_coef f) = ncols X.
Proof.
  intros env inv eta k c s X y f E. unfold snipls_fit in E. destruct (_ && _); [discriminate|]. destruct (negb _); [discriminate|].
  apply bind_Ok in E as ([[mX sX] X0] & ES & E). apply bind_Ok in E as ([[my sy] Y0] & _ & E). cbv zeta in E. apply bind_Ok in E as ([[B RR] T] & EB & E).
  destruct (Nat.eqb_spec (length sX) (ncols X)) as [Hs|]; [|discriminate]. cbn [negb] in E. apply Ok_inj in E as <-. cbn [sn_coef]. rewrite map2_length, Hs.
  assert (HB : length B = ncols X); [|rewrite HB; apply Nat.min_id].
  destruct (snipls_loop _ _ _ _ _ _ _ _) as [|a l]; [apply Ok_inj in EB; injection EB as <- _ _; apply repeat_length|].
  apply bind_Ok in EB as (PWi & _ & EB). apply bind_Ok in EB as (Gi & _ & EB). apply Ok_inj in EB. injection EB as <- _ _. unfold matvec, of_cols. rewrite !map_length. apply seq_length.
Qed.
(** with singular vectors for every case, and when all columns are kept *)
Lemma sprm_coef_len : forall (env : sp_env XR) P df X y m, (2 <= length X)%nat -> svd_rows env -> sprm_fit env P df X y = Ok m ->
  forall st1 Xs sX, sc_fit_transform (re_prep (se_rm env)) (new_scaler (s_centre P) (s_scale P) n0) (A2 X) = (st1, Ok Xs) -> a_col_sca st1 = Some sX ->
  s_scale P <> STau2 -> zero_scale sX = [] -> ncols Xs = ncols X -> length (sp_coef m) = length (sp_keep m) /\ sp_keep m = seq 0 (ncols X).
Proof.
  intros env P df X y m Hn Hsvd E st1 Xs sX EX ES Htau Hz Hnc. unfold sprm_fit in E. destruct (sprm_run env P df X y) as [P' [calls r0]] eqn:ER. cbn in E. subst r0.
  apply run_inv in ER as (f & k & c1 & c2 & mX & sX0 & Xs0 & my & sy & ys & X' & Xs' & sX' & ER). cbv zeta in ER.
  destruct ER as (_ & _ & Hly & H1 & Esc & _ & _ & _ & HX' & Eest).
  assert (ET : tau_fix (set_columns P c1) X = set_columns P c1) by (unfold tau_fix; cbn; destruct (s_scale P); congruence). rewrite ET in Esc. unfold sp_scaled in Esc. cbn [s_centre s_scale set_columns] in Esc. rewrite EX in Esc.
  destruct (sc_fit_transform _ st1 (A1 y)) as [st2 [Ys|]] eqn:EY; [|discriminate]. rewrite ES in Esc.
  destruct (a_col_loc st1); [|discriminate]. destruct (a_col_loc st2); [|discriminate]. destruct (a_col_sca st2); [|discriminate]. apply Ok_inj in Esc. injection Esc as <- <- <- <- <- <-.
  assert (HlX : length Xs = length X) by (rewrite (fit_transform_rows _ _ _ _ _ EX); unfold check_input; rewrite H1; reflexivity).
  assert (HlY : length (col 0 Ys) = length X).
  { unfold col. rewrite map_length, (fit_transform_rows _ _ _ _ _ EY). rewrite <- Hly. unfold check_input. cbn [length ncols hd].
    unfold ncols. cbn [hd]. destruct (Nat.leb_spec 2 (length y)); cbn [Nat.eqb andb length hd]; [apply map_length|lia]. }
  assert (EXs' : length Xs' = length X /\ ncols Xs' = ncols X).
  { destruct HX' as [(_ & _ & -> & _)|(_ & -> & _)]; [auto|]. rewrite (keep_all _ _ Hz), map_length. split; [exact HlX|].
    destruct Xs as [|r Xs]; [cbn in HlX; lia|]. unfold ncols at 1. cbn. unfold M_Sprm.sel. rewrite map_length. apply seq_length. }
  destruct EXs' as [HL HC]. clear HX'. rewrite (keep_all _ _ Hz) in Eest.
  apply estimate_inv in Eest as (Us & rc & c & b & q & st & Est & _ & EL & EF).
  assert (HUs : length Us = length X) by (rewrite <- HL; eapply start_rows; [| |exact Est]; [lia|intros U S1; apply Hsvd]).
  apply finish_inv in EF as (fit & Efit & HsX' & EF). cbv zeta in EF. destruct EF as (_ & Ek & Eco & _).
  assert (Hl0 : length (q_sw (sp_start_state env P' f c b q Us y (col 0 Ys))) = length X).
  { unfold sp_start_state. cbn [q_sw]. rewrite map_length, floor_length, vmul_length, !mweights_length, start_dx_length, start_dy_length; lia. }
  destruct (loop_last env P' f k (sp_loop_cuts env P' f k (c, b, q)) (length X) Xs' (col 0 Ys) HL Hn HlY _ _ _ _ Hl0 EL) as [->|(st0 & brk & Hsw0 & Ep)].
  { discriminate. }
  unfold pass in Ep. apply bind_Ok in Ep as (m0 & Em & Ep). apply bind_Ok in Ep as (cr & _ & Ep). apply body_inv in Ep as (T & dt & Efit' & _).
  rewrite Efit in Efit'. injection Efit' as <-. apply snipls_coef_len in Em.
  assert (HR : ncols (row_scale (q_sw st0) Xs') = ncols X).
  { rewrite <- HC. destruct (q_sw st0) as [|a u]; [cbn in Hsw0; lia|]. destruct Xs' as [|r Xs']; [cbn in HL; lia|]. unfold ncols, row_scale, vscale. cbn. apply map_length. }
  split; [|exact Ek]. rewrite Eco, Ek, map2_length, HsX', Em, HR, HC, seq_length. apply Nat.min_id.
Qed.
