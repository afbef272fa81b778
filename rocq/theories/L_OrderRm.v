(** Order of the cases: rm. *)

From Coq Require Import Reals List Arith ZArith Bool Lia Lra Permutation.
Import ListNotations.
From Verif Require Import Num Err Vec VecR OrdR L_Mat L_Lin L_Matmul S_Stats S_Weights L_Stats S_Order L_Order M_Utils M_Preproc M_Robcent M_Msupport M_Rm
  L_Scaling L_Scaling2 L_Snipls L_Msupport L_Rm L_Rm2 L_OrderSc.
Open Scope R_scope.

Lemma np_median_perm : forall v v' : list R, Permutation v v' -> np_median v = np_median v'.
Proof. intros v v' HP. unfold np_median. rewrite !vanynan_R. apply vmedian_perm, HP. Qed.
Lemma perm_of : forall {T} n o (l : list T), case_order n o -> length l = n -> Permutation (reorder o l) l.
Proof. intros. symmetry. apply (reorder_perm n); auto. Qed.
Lemma reorder_start_dx : forall n o (X : list (list R)), case_order n o -> length X = n -> start_dx (reorder o X) = reorder o (start_dx X).
Proof.
  intros n o X Ho HX. unfold start_dx. cbv zeta. rewrite reorder_map, <- reorder_map. rewrite !reorder_map. apply map_ext_in. intros v _. f_equal.
  apply np_median_perm. rewrite <- reorder_map. apply (perm_of n); auto. rewrite map_length. auto.
Qed.
Lemma reorder_start_dy : forall P n o (y ys : list R), case_order n o -> length y = n -> start_dy P (reorder o y) (reorder o ys) = reorder o (start_dy P y ys).
Proof.
  intros P n o y ys Ho Hy. assert (E : np_median (reorder o y) = np_median y) by (apply np_median_perm, (perm_of n); auto).
  assert (E2 : forall m, np_median (map (fun v => nabs (nsub v m)) (reorder o y)) = np_median (map (fun v => nabs (nsub v m)) y)).
  { intros m. apply np_median_perm, Permutation_map, (perm_of n); auto. }
  unfold start_dy. cbv zeta. rewrite E, E2. destruct (r_centre P), (r_scale P); rewrite reorder_map; reflexivity.
Qed.
Lemma reorder_mweights : forall f c b r o (x : list R), mweights f c b r (reorder o x) = reorder o (mweights f c b r x).
Proof. intros. rewrite !mweights_map, reorder_map. reflexivity. Qed.
Lemma reorder_vmul : forall n o (u v : list R), case_order n o -> length u = n -> length v = n -> vmul (reorder o u) (reorder o v) = reorder o (vmul u v).
Proof. intros. unfold vmul. symmetry. apply (reorder_map2 _ n); auto. Qed.
Lemma reorder_row_scale : forall n o u (X : list (list R)), case_order n o -> length u = n -> length X = n -> row_scale (reorder o u) (reorder o X) = reorder o (row_scale u X).
Proof. intros. unfold row_scale. symmetry. apply (reorder_map2 _ n); auto. Qed.
Lemma set_low_map2 : forall (we l : list R) z, length l = length we -> set_idx (low we) z l = map2 (fun w v => if nltb w wmin then z else v) we l.
Proof.
  intros we l z HL. apply (list_ext _ _ 0); [rewrite set_idx_length, map2_length_eq; auto|].
  intros i Hi. rewrite set_idx_length in Hi. rewrite set_idx_nth by auto. rewrite (low_spec we i 0) by lia. rewrite (nth_map2 _ we l i 0 0 0) by lia. reflexivity.
Qed.
Lemma reorder_set_low : forall n o (we l : list R) z, case_order n o -> length we = n -> length l = n ->
  set_idx (low (reorder o we)) z (reorder o l) = reorder o (set_idx (low we) z l).
Proof.
  intros n o we l z Ho Hw Hl. rewrite !set_low_map2 by (rewrite ?(reorder_length n); auto; congruence). symmetry. apply (reorder_map2 _ n); auto.
Qed.
Lemma reorder_floor : forall n o (w : list R), case_order n o -> length w = n -> floor_w (reorder o w) = reorder o (floor_w w).
Proof. intros. unfold floor_w. apply (reorder_set_low n); auto. Qed.
Lemma where_from_length : forall {T} (f : T -> bool) l k, length (where_from f k l) = length (filter f l).
Proof. intros T f l; induction l as [|x l IH]; intros k; cbn; auto. destruct (f x); cbn; rewrite IH; reflexivity. Qed.
Lemma low_length_reorder : forall n o (w : list R), case_order n o -> length w = n -> length (low (reorder o w)) = length (low w).
Proof.
  intros n o w Ho Hw. unfold low, where_. rewrite !where_from_length. apply Permutation_length, filter_permutation, (perm_of n); auto.
Qed.
Lemma reorder_std_resid : forall n o (r : list R), case_order n o -> length r = n -> std_resid (reorder o r) = reorder o (std_resid r).
Proof.
  intros n o r Ho Hr. assert (HP : Permutation (reorder o r) r) by (apply (perm_of n); auto). unfold std_resid. cbv zeta.
  rewrite (Permutation_length HP). rewrite (Permutation_length (filter_permutation (fun v => neqb v n0) _ _ HP)).
  rewrite (np_median_perm (map nabs (reorder o r)) (map nabs r)) by (apply Permutation_map, HP).
  rewrite (np_median_perm (map nabs (filter (fun v => negb (neqb v n0)) (reorder o r))) (map nabs (filter (fun v => negb (neqb v n0)) r))) by (apply Permutation_map, filter_permutation, HP).
  symmetry. apply reorder_map.
Qed.
Lemma floor_len : forall w : list R, length (floor_w w) = length w.
Proof. intros. unfold floor_w. apply set_idx_length. Qed.
Lemma vmul_len : forall u v : list R, length u = length v -> length (vmul u v) = length u.
Proof. intros. unfold vmul. rewrite map2_length_eq; auto. Qed.

(** the states of the loop on the data and on the reordered data *)
Definition rs_rel (n : nat) (o : list nat) (st st' : rm_state (A := R)) : Prop :=
  l_b st' = l_b st /\ l_rold st' = l_rold st /\ l_diff st' = l_diff st /\ l_loops st' = l_loops st /\
  l_wye st' = reorder o (l_wye st) /\ l_we st' = reorder o (l_we st) /\ l_sw st' = reorder o (l_sw st) /\
  length (l_wye st) = n /\ length (l_we st) = n /\ length (l_sw st) = n /\
  exists we0 : list R, length we0 = n /\ l_w0 st = low (A := R) we0 /\ l_w0 st' = low (A := R) (reorder o we0).
Lemma rm_body_order : forall f c b2 r3 n p o Xs ys wx st st' b, case_order n o -> wf n p Xs -> length ys = n -> length wx = n -> rs_rel n o st st' ->
  let '(s1, k1) := rm_body f c b2 r3 Xs ys wx st b in
  let '(s2, k2) := rm_body f c b2 r3 (reorder o Xs) (reorder o ys) (reorder o wx) st' b in
  k2 = k1 /\ rs_rel n o s1 s2.
Proof.
  intros f c b2 r3 n p o Xs ys wx st st' b Ho HX Hy Hw (R1 & R2 & R3 & R4 & R5 & R6 & R7 & R8 & R9 & R10 & _).
  assert (LX : length Xs = n) by (eapply wf_length; eauto).
  unfold rm_body. cbv zeta. rewrite reorder_matvec. assert (Lm : length (matvec Xs b) = n) by (rewrite matvec_length; auto).
  rewrite (reorder_vsub n) by auto. assert (Lr : length (vsub ys (matvec Xs b)) = n) by (rewrite vsub_length; congruence).
  rewrite (reorder_std_resid n) by auto. rewrite reorder_mweights.
  set (wye := mweights f c b2 r3 (std_resid (vsub ys (matvec Xs b)))). assert (Lwe : length wye = n) by (unfold wye; rewrite mweights_length, std_resid_length; auto).
  rewrite (reorder_vmul n) by auto. set (we0 := vmul wye wx). assert (L0 : length we0 = n) by (unfold we0; rewrite vmul_len; congruence).
  rewrite (reorder_floor n) by auto. rewrite (low_length_reorder n) by auto. rewrite (reorder_length n) by auto. rewrite LX, R2, R4, R7.
  destruct (n <=? 2 * length (low (A := R) we0))%nat; (split; [reflexivity|]); unfold rs_rel; cbn [l_b l_rold l_diff l_loops l_wye l_we l_sw l_w0];
    rewrite ?map_length, ?floor_len; repeat split; auto; try (symmetry; apply reorder_map); exists we0; auto.
Qed.
Definition loop_rel (n : nat) (o : list nat) (r r' : option (res (rm_state (A := R)))) : Prop :=
  match r, r' with
  | None, None => True
  | Some (Err e), Some (Err e') => e = e'
  | Some (Ok s), Some (Ok s') => rs_rel n o s s'
  | _, _ => False
  end.
Lemma rm_loop_order : forall env P f n p o Xs ys wx, lstsq_order_free env -> case_order n o -> wf n p Xs -> length ys = n -> length wx = n ->
  forall fuel st st', rs_rel n o st st' ->
  fst (rm_loop env fuel P f (reorder o Xs) (reorder o ys) (reorder o wx) st') = reorder_calls o (fst (rm_loop env fuel P f Xs ys wx st)) /\
  loop_rel n o (snd (rm_loop env fuel P f Xs ys wx st)) (snd (rm_loop env fuel P f (reorder o Xs) (reorder o ys) (reorder o wx) st')).
Proof.
  intros env P f n p o Xs ys wx Hl Ho HX Hy Hw fuel. assert (LX : length Xs = n) by (eapply wf_length; eauto).
  induction fuel as [|fuel IH]; intros st st' HR; [split; reflexivity|]. pose proof HR as (R1 & R2 & R3 & R4 & R5 & R6 & R7 & R8 & R9 & R10 & R11).
  cbn [rm_loop]. rewrite R3, R4, R7. destruct (nltb (r_tol P) (l_diff st) && (l_loops st <? r_maxit P)%nat); [|split; [reflexivity|exact HR]].
  rewrite (reorder_row_scale n), (reorder_vmul n) by auto.
  rewrite (Hl n p o _ _ Ho) by (first [apply (row_scale_wf n p); auto | rewrite vmul_len; congruence]).
  destruct (re_lstsq env (row_scale (l_sw st) Xs) (vmul ys (l_sw st))) as [b|e]; [|split; reflexivity].
  pose proof (rm_body_order f (cty env P) (cby env P) (cry env P) n p o Xs ys wx st st' b Ho HX Hy Hw HR) as HB.
  destruct (rm_body f (cty env P) (cby env P) (cry env P) Xs ys wx st b) as [s1 k1].
  destruct (rm_body f (cty env P) (cby env P) (cry env P) (reorder o Xs) (reorder o ys) (reorder o wx) st' b) as [s2 k2]. destruct HB as [-> HB].
  destruct k1; [split; [reflexivity|exact HB]|]. specialize (IH s1 s2 HB).
  destruct (rm_loop env fuel P f Xs ys wx s1) as [c1 r1]. destruct (rm_loop env fuel P f (reorder o Xs) (reorder o ys) (reorder o wx) s2) as [c2 r2].
  cbn [fst snd] in *. destruct IH as [-> IH]. split; [reflexivity|exact IH].
Qed.

Lemma flat_diffs_perm : forall (q q' ys ys' : list R), Permutation q q' -> Permutation ys ys' ->
  Permutation (flat_map (fun b => map (fun v => nsub v b) ys) q) (flat_map (fun b => map (fun v => nsub v b) ys') q').
Proof.
  intros q q' ys ys' Hq Hy. transitivity (flat_map (fun b => map (fun v => nsub v b) ys) q').
  - apply Permutation_flat_map, Hq.
  - clear Hq. induction q' as [|b q' IH]; cbn; auto. apply Permutation_app; auto. apply Permutation_map, Hy.
Qed.
Lemma rm_finish_order : forall env P n p o X Xs y ys wx mX sX my sy st2 st2' st st',
  documented_centre (r_centre P) -> l1opt_order_free (re_prep env) -> case_order n o -> (2 <= n)%nat -> wf n p X -> wf n p Xs -> length y = n -> length ys = n -> length wx = n ->
  sc_trimming st2 = 0 -> sc_trimming st2' = 0 -> sc_center st2 = r_centre P -> sc_center st2' = r_centre P -> rs_rel n o st st' ->
  rm_finish env P (reorder o X) (reorder o Xs) (reorder o y) (reorder o ys) (reorder o wx) mX sX my sy st2' st' =
  match rm_finish env P X Xs y ys wx mX sX my sy st2 st with Ok m => Ok (reorder_rm o m) | Err e => Err e end.
Proof.
  intros env P n p o X Xs y ys wx mX sX my sy st2 st2' st st' Hc He Ho Hn HX HXs Hy Hys Hwx T1 T2 C1 C2 (R1 & R2 & R3 & R4 & R5 & R6 & R7 & R8 & R9 & R10 & we0 & W1 & W2 & W3).
  assert (LX : length X = n) by (eapply wf_length; eauto). assert (LXs : length Xs = n) by (eapply wf_length; eauto).
  assert (WO : wf n p (reorder o X)) by (apply reorder_wf; auto).
  unfold rm_finish. rewrite R1. destruct (l_b st) as [b|]; [|reflexivity]. cbv zeta.
  rewrite (wf_ncols n p X), (wf_ncols n p (reorder o X)) by (auto; lia).
  rewrite R5, R6, R7, W2, W3. rewrite <- !reorder_map. rewrite (reorder_row_scale n) by (rewrite ?map_length; auto).
  set (Xrw := row_scale (map nsqrt (l_sw st)) Xs). assert (WX : wf n p Xrw) by (apply (row_scale_wf n p); auto; rewrite map_length; auto).
  assert (WXo : wf n p (reorder o Xrw)) by (apply reorder_wf; auto).
  destruct (sc_fit_transform_ft (re_prep env) (sc_set_params st2 None (Some SNone) None) (A2 Xrw)) as [F1 _]; [exact T1|].
  destruct (sc_fit_transform_ft (re_prep env) (sc_set_params st2' None (Some SNone) None) (A2 (reorder o Xrw))) as [F2 _]; [exact T2|].
  rewrite (check_input_id n p) in F1, F2 by auto. cbn [sc_set_params sc_center sc_scale] in F1, F2. rewrite C1 in F1. rewrite C2 in F2.
  rewrite (ft_reorder (re_prep env) (r_centre P) SNone n p) in F2 by (auto; try lia; unfold documented_scale; tauto). rewrite F1, F2.
  destruct (ft (re_prep env) (r_centre P) SNone Xrw) as [[[fm fv] fZ]|e]; cbn [ft_data reorder_ft]; [|reflexivity].
  destruct (negb (length sX =? p)%nat); [reflexivity|].
  rewrite !reorder_matvec. set (bres := map2 _ sX b).
  assert (Ly : length (matvec X bres) = n) by (rewrite matvec_length; auto). rewrite (reorder_vsub n) by auto.
  assert (Lr : length (vsub y (matvec X bres)) = n) by (rewrite vsub_length; congruence).
  assert (ECP : forall v v' : list R, Permutation v v' -> (match r_centre P with CMean => vmean v | _ => np_median v end) = (match r_centre P with CMean => vmean v' | _ => np_median v' end)).
  { intros v v' HP. destruct (r_centre P); auto using vmean_perm, np_median_perm. }
  rewrite (ECP (reorder o (vsub y (matvec X bres))) (vsub y (matvec X bres))) by (apply (perm_of n); auto).
  set (icpt := match r_centre P with CMean => _ | _ => _ end).
  rewrite (ECP (flat_map (fun q => map (fun v => nsub v q) (reorder o ys)) (reorder o (matvec Xs b))) (flat_map (fun q => map (fun v => nsub v q) ys) (matvec Xs b)))
    by (apply flat_diffs_perm; apply (perm_of n); auto; rewrite matvec_length; auto).
  set (b0 := match r_centre P with CMean => vmean (flat_map _ _) | _ => _ end).
  assert (Lxb : length (matvec X b) = n) by (rewrite matvec_length; auto).
  rewrite (reorder_vsub n _ y (matvec X b)) by auto. rewrite (vmean_perm (reorder o (vsub y (matvec X b))) (vsub y (matvec X b))) by (apply (perm_of n); auto; rewrite vsub_length; congruence).
  match goal with |- bind ?a _ = match bind ?a _ with _ => _ end => destruct a as [[ic ib]|e]; [|reflexivity] end.
  cbn [bind]. unfold reorder_rm. cbn [rm_p rm_coef rm_intercept rm_coef_scaled rm_intercept_scaled rm_resid rm_fitted rm_xcw rm_ycw rm_cw rm_xloc rm_yloc rm_xsca rm_ysca].
  rewrite <- reorder_map. rewrite (reorder_vsub n) by (auto; rewrite map_length; auto). rewrite !(reorder_set_low n) by auto. reflexivity.
Qed.
Lemma rm_order_l : forall env P n p o X y, documented_centre (r_centre P) -> documented_scale (r_scale P) -> l1opt_order_free (re_prep env) -> lstsq_order_free env ->
  is_matrix n p X -> (2 <= n)%nat -> (1 <= p)%nat -> length y = n -> case_order n o ->
  fst (rm_run env P (reorder o X) (reorder o y)) = reorder_calls o (fst (rm_run env P X y)) /\
  rm_fit env P (reorder o X) (reorder o y) = match rm_fit env P X y with Ok m => Ok (reorder_rm o m) | Err e => Err e end.
Proof.
  intros env P n p o X y Hc Hs He Hl HX Hn Hp Hy Ho. assert (LX : length X = n) by (eapply wf_length; eauto). assert (Hn0 : (0 < n)%nat) by lia.
  assert (WO : wf n p (reorder o X)) by (apply reorder_wf; auto).
  assert (LoX : length (reorder o X) = n) by (apply (reorder_length n); auto). assert (Loy : length (reorder o y) = n) by (apply (reorder_length n); auto).
  assert (Wy : wf n 1 (map (fun v => [v]) y)) by (rewrite <- Hy; apply as_column_wf).
  unfold rm_fit, rm_run. destruct (rm_check P) as [f|e]; [|split; reflexivity]. rewrite LoX, Loy, LX, Hy, Nat.eqb_refl. cbn [negb].
  destruct (Nat.eqb_spec n 1) as [|_]; [lia|]. cbn [andb]. change (@n0 R Num_R) with 0.
  destruct (sc_fit_transform_ft (re_prep env) (new_scaler (r_centre P) (r_scale P) 0) (A2 X) eq_refl) as [F1 F2].
  destruct (sc_fit_transform_ft (re_prep env) (new_scaler (r_centre P) (r_scale P) 0) (A2 (reorder o X)) eq_refl) as [F3 F4].
  rewrite (check_input_id n p) in F1, F2, F3, F4 by auto. cbn [new_scaler sc_center sc_scale] in F1, F2, F3, F4. cbv zeta in F2, F4.
  rewrite (ft_reorder _ _ _ n p) in F3, F4 by auto.
  destruct (sc_fit_transform (re_prep env) (new_scaler (r_centre P) (r_scale P) 0) (A2 X)) as [st1 r1].
  destruct (sc_fit_transform (re_prep env) (new_scaler (r_centre P) (r_scale P) 0) (A2 (reorder o X))) as [st1' r1']. cbn [fst snd] in F1, F2, F3, F4. subst r1 r1'.
  destruct (ft (re_prep env) (r_centre P) (r_scale P) X) as [[[mX sX] Xs]|e] eqn:EX; cbn [ft_data reorder_ft] in *; [|split; reflexivity].
  destruct F2 as (A1 & A2 & A3 & A4 & A5). destruct F4 as (B1 & B2 & B3 & B4 & B5).
  destruct (sc_fit_transform_ft (re_prep env) st1 (M_Utils.A1 y) A5) as [G1 G2]. destruct (sc_fit_transform_ft (re_prep env) st1' (M_Utils.A1 (reorder o y)) B5) as [G3 G4].
  rewrite check_input_vec in G1, G2, G3, G4 by lia. rewrite <- reorder_map in G3, G4. rewrite A3, A4 in G1, G2. rewrite B3, B4 in G3, G4. cbv zeta in G2, G4.
  rewrite (ft_reorder _ _ _ n 1) in G3, G4 by auto.
  destruct (sc_fit_transform (re_prep env) st1 (M_Utils.A1 y)) as [st2 r2]. destruct (sc_fit_transform (re_prep env) st1' (M_Utils.A1 (reorder o y))) as [st2' r2']. cbn [fst snd] in G1, G2, G3, G4. subst r2 r2'.
  destruct (ft (re_prep env) (r_centre P) (r_scale P) (map (fun v => [v]) y)) as [[[my sy] Ys]|e] eqn:EY; cbn [ft_data reorder_ft] in *; [|split; reflexivity].
  destruct G2 as (D1 & D2 & D3 & D4 & D5). destruct G4 as (E1 & E2 & E3 & E4 & E5). rewrite A1, A2, B1, B2, D1, D2, E1, E2.
  assert (WXs : wf n p Xs) by (apply (ft_wf _ _ _ n p X mX sX Xs HX Hn0 EX)). assert (WYs : wf n 1 Ys) by (apply (ft_wf _ _ _ n 1 _ my sy Ys Wy Hn0 EY)).
  assert (LXs : length Xs = n) by (eapply wf_length; eauto).
  rewrite reorder_col. set (ys := col 0 Ys). assert (Lys : length ys = n) by (unfold ys; rewrite col_length; eapply wf_length; eauto).
  rewrite (wf_ncols n p X), (wf_ncols n p (reorder o X)) by auto.
  rewrite (reorder_start_dx n) by auto. rewrite (reorder_start_dy P n) by auto. rewrite !reorder_mweights.
  set (wx := mweights f (ctx env P p) (cbx env P p) (crx env P p) (start_dx Xs)). set (wy := mweights f (cty env P) (cby env P) (cry env P) (start_dy P y ys)).
  assert (Lwx : length wx = n) by (unfold wx, start_dx; rewrite mweights_length, !map_length; auto).
  assert (Lwy : length wy = n) by (unfold wy, start_dy; rewrite mweights_length; destruct (r_centre P), (r_scale P); rewrite map_length; auto).
  rewrite (reorder_vmul n) by auto. assert (Lw : length (vmul wx wy) = n) by (rewrite vmul_len; congruence). rewrite (reorder_floor n) by auto. rewrite <- reorder_map.
  cbv zeta.
  match goal with |- context [rm_loop env ?fu P f Xs ys wx ?s] => set (st0 := s) end.
  match goal with |- context [rm_loop env ?fu P f (reorder o Xs) (reorder o ys) (reorder o wx) ?s] => set (st0' := s) end.
  assert (HR : rs_rel n o st0 st0').
  { unfold rs_rel, st0, st0'. cbn [l_b l_rold l_diff l_loops l_wye l_we l_sw l_w0]. rewrite ?map_length, ?floor_len. repeat split; auto. exists (vmul wx wy). auto. }
  destruct (rm_loop_order env P f n p o Xs ys wx Hl Ho WXs Lys Lwx (S (r_maxit P)) st0 st0' HR) as [L1 L2].
  destruct (rm_loop env (S (r_maxit P)) P f Xs ys wx st0) as [c1 q1]. destruct (rm_loop env (S (r_maxit P)) P f (reorder o Xs) (reorder o ys) (reorder o wx) st0') as [c2 q2].
  cbn [fst snd] in *. split; [exact L1|]. destruct q1 as [[s1|e1]|], q2 as [[s2|e2]|]; cbn [loop_rel] in L2; try contradiction; [|congruence|reflexivity].
  apply (rm_finish_order env P n p); auto; congruence.
Qed.
