(** Order and direction of the variables: sprm. *)

From Coq Require Import Reals String List Arith ZArith Bool Lia Lra Permutation Sorted.
Import List ListNotations.
From Verif Require Import Num Err Vec VecR OrdR L_Mat L_Lin L_Matmul S_Stats L_Stats S_Vars S_Regress M_Utils M_Preproc M_Robcent M_Msupport M_Plot M_Rm M_Snipls M_Sprm
  L_Msupport L_Scaling L_Scaling2 L_Snipls L_Snipls2 L_Rm L_Rm2 L_Sprm L_OrderSc L_OrderSn L_OrderRm L_OrderSp L_UnitsRm L_UnitsSp L_Vars L_VarsSn L_VarsRm.
Open Scope R_scope.

(** positions among the variables kept *)
Definition rank (keep : list nat) (j : nat) : nat := length (filter (fun i => (i <? j)%nat) keep).
Lemma rank_cons : forall a l j, StronglySorted lt (a :: l) -> rank (a :: l) a = 0%nat /\ (In j l -> rank (a :: l) j = S (rank l j)).
Proof.
  intros a l j H. inversion H as [|? ? H1 H2]; subst. rewrite Forall_forall in H2. split.
  - unfold rank. cbn [filter]. rewrite Nat.ltb_irrefl. replace (filter (fun i => (i <? a)%nat) l) with (@nil nat); [reflexivity|]. symmetry. clear - H2. induction l as [|b l IH]; [reflexivity|]. cbn [filter].
    destruct (Nat.ltb_spec b a) as [Hb|Hb]; [specialize (H2 b (or_introl eq_refl)); lia|]. apply IH. intros x Hx. apply H2. right. exact Hx.
  - intros Hj. unfold rank. cbn [filter]. specialize (H2 j Hj). destruct (Nat.ltb_spec a j); [reflexivity|lia].
Qed.
Lemma rank_all : forall l, StronglySorted lt l -> map (rank l) l = seq 0 (length l).
Proof.
  induction l as [|a l IH]; intros H; [reflexivity|]. cbn [map length seq]. destruct (rank_cons a l a H) as [E _]. rewrite E. f_equal.
  rewrite <- seq_shift, <- IH by (inversion H; auto). rewrite map_map. apply map_ext_in. intros j Hj. apply (rank_cons a l j H). exact Hj.
Qed.
Lemma nth_rank : forall l j, StronglySorted lt l -> In j l -> (rank l j < length l)%nat /\ nth (rank l j) l 0%nat = j.
Proof.
  induction l as [|a l IH]; intros j H Hj; [contradiction|]. destruct Hj as [->|Hj].
  - destruct (rank_cons j l j H) as [-> _]. split; [cbn; lia|reflexivity].
  - destruct (rank_cons a l j H) as [_ E]. rewrite E by exact Hj. destruct (IH j) as [I1 I2]; [inversion H; auto|exact Hj|]. split; [cbn; lia|exact I2].
Qed.
Lemma filter_of_map : forall {T U} (g : T -> U) (f : U -> bool) l, filter f (map g l) = map g (filter (fun x => f (g x)) l).
Proof. intros T U g f l. induction l as [|a l IH]; [reflexivity|]. cbn [map filter]. destruct (f (g a)); cbn [map]; rewrite IH; reflexivity. Qed.
Lemma filter_index : forall {T U} (F : T -> U) (Pr : T -> bool) l d, map (fun k => F (nth k l d)) (filter (fun k => Pr (nth k l d)) (seq 0 (length l))) = map F (filter Pr l).
Proof.
  intros T U F Pr l d. induction l as [|a l IH]; [reflexivity|]. cbn [length seq filter]. change (nth 0 (a :: l) d) with a.
  assert (E : map (fun k => F (nth k (a :: l) d)) (filter (fun k => Pr (nth k (a :: l) d)) (seq 1 (length l))) = map F (filter Pr l)).
  { rewrite <- IH. rewrite <- seq_shift. rewrite filter_of_map, map_map. reflexivity. }
  destruct (Pr a); cbn [map]; rewrite E; reflexivity.
Qed.
Lemma filter_fst : forall (f : nat -> bool) (l : list (nat * R)), map fst (filter (fun je => f (fst je)) l) = filter f (map fst l).
Proof. intros f l. induction l as [|a l IH]; [reflexivity|]. cbn [map filter]. destruct (f (fst a)); cbn [map]; rewrite IH; reflexivity. Qed.
Lemma existsb_in_nat : forall j l, existsb (Nat.eqb j) l = true <-> In j l.
Proof. intros j l. rewrite existsb_exists. split; [intros (x & Hx & E); apply Nat.eqb_eq in E; subst; exact Hx|intros H; exists j; split; [exact H|apply Nat.eqb_refl]]. Qed.

Section Restrict.
  Variables (p : nat) (q : list (nat * R)).
  Hypothesis Hq : relabelling p q.
  Variable keep : list nat.
  Hypothesis HS : StronglySorted lt keep.
  Hypothesis HK : forall j, In j keep -> (j < p)%nat.
  Lemma keep_seq : filter (fun j => existsb (Nat.eqb j) keep) (seq 0 p) = keep.
  Proof.
    apply sorted_lt_ext; [apply filter_sorted, seq_sorted|exact HS|]. intros j. rewrite filter_In, in_seq, existsb_in_nat. split; [tauto|]. intros H. specialize (HK j H). split; [lia|exact H].
  Qed.
  Lemma restrict_relabelling : relabelling (length keep) (restrict q keep).
  Proof.
    destruct Hq as [HP HF]. split.
    - unfold restrict. rewrite map_map. cbn [fst]. change (fun x : nat * R => length (filter (fun i => (i <? fst x)%nat) keep)) with (fun x : nat * R => rank keep (fst x)). rewrite <- (map_map fst (rank keep)).
      rewrite (filter_fst (fun j => existsb (Nat.eqb j) keep)). rewrite <- rank_all by exact HS. apply Permutation_map. apply Permutation_trans with (filter (fun j => existsb (Nat.eqb j) keep) (seq 0 p)); [apply filter_permutation; exact HP|rewrite keep_seq; apply Permutation_refl].
    - unfold restrict. rewrite Forall_forall in *. intros je Hje. apply in_map_iff in Hje as (x & <- & Hx). apply filter_In in Hx as [Hx _]. cbn [snd]. auto.
  Qed.
  Lemma restrict_nth : forall je r, In je (filter (fun je => existsb (Nat.eqb (fst je)) keep) q) -> nth (rank keep (fst je)) (M_Sprm.sel keep r) 0 = nth (fst je) r 0.
  Proof.
    intros je r H. apply filter_In in H as [_ H]. apply existsb_in_nat in H. destruct (nth_rank keep (fst je) HS H) as [H1 H2]. unfold M_Sprm.sel. rewrite (nth_map_lt _ _ _ 0%nat) by exact H1. rewrite H2. reflexivity.
  Qed.
  Lemma sel_rr : forall r : list R, M_Sprm.sel (relabel_set q keep) (relabel_row q r) = relabel_row (restrict q keep) (M_Sprm.sel keep r).
  Proof.
    intros r. transitivity (map (fun je => snd je * nth (fst je) r 0) (filter (fun je => existsb (Nat.eqb (fst je)) keep) q)).
    - rewrite <- (filter_index (fun je => snd je * nth (fst je) r 0) (fun je => existsb (Nat.eqb (fst je)) keep) q (0%nat, 1)). unfold M_Sprm.sel, relabel_set. apply map_ext_in. intros k Hk.
      apply filter_In in Hk as [Hk _]. apply in_seq in Hk. rewrite (q_length p q Hq) in Hk. apply (rr_nth p q Hq). lia.
    - unfold relabel_row, restrict. rewrite map_map. apply map_ext_in. intros je Hje. cbn [fst snd]. f_equal. symmetry. apply restrict_nth. exact Hje.
  Qed.
  Lemma sel_rp : forall r : list R, M_Sprm.sel (relabel_set q keep) (relabel_pos q r) = relabel_pos (restrict q keep) (M_Sprm.sel keep r).
  Proof.
    intros r. transitivity (map (fun je => nth (fst je) r 0) (filter (fun je => existsb (Nat.eqb (fst je)) keep) q)).
    - rewrite <- (filter_index (fun je => nth (fst je) r 0) (fun je => existsb (Nat.eqb (fst je)) keep) q (0%nat, 1)). unfold M_Sprm.sel, relabel_set. apply map_ext_in. intros k Hk.
      apply filter_In in Hk as [Hk _]. apply in_seq in Hk. rewrite (q_length p q Hq) in Hk. apply (rp_nth p q Hq). lia.
    - unfold relabel_pos, restrict. rewrite map_map. apply map_ext_in. intros je Hje. cbn [fst snd]. symmetry. apply restrict_nth. exact Hje.
  Qed.
  Lemma sel_relabel : forall X : list (list R), map (M_Sprm.sel (relabel_set q keep)) (relabel q X) = relabel (restrict q keep) (map (M_Sprm.sel keep) X).
  Proof. intros X. unfold relabel. rewrite !map_map. apply map_ext. apply sel_rr. Qed.
  Lemma rs_length : length (relabel_set q keep) = length keep.
  Proof.
    rewrite <- (q_length (length keep) (restrict q keep) restrict_relabelling). unfold restrict. rewrite !map_length.
    pose proof (f_equal (@length _) (filter_index (fun je => je) (fun je => existsb (Nat.eqb (fst je)) keep) q (0%nat, 1))) as E. rewrite !map_length in E. exact E.
  Qed.
End Restrict.
Lemma filter_true : forall {T} (f : T -> bool) l, (forall x, In x l -> f x = true) -> filter f l = l.
Proof. intros T f l H. induction l as [|a l IH]; [reflexivity|]. cbn [filter]. rewrite (H a (or_introl eq_refl)). f_equal. apply IH. intros x Hx. apply H. right. exact Hx. Qed.
Lemma restrict_all : forall p q, relabelling p q -> restrict q (seq 0 p) = q.
Proof.
  intros p q Hq. unfold restrict. rewrite filter_true by (intros je Hje; apply existsb_in_nat, in_seq; pose proof (q_in p q Hq je Hje); lia).
  rewrite <- (map_id q) at 2. apply map_ext_in. intros [j e] Hje. pose proof (q_in p q Hq _ Hje) as Hj. cbn [fst snd] in *. f_equal.
  destruct (nth_rank (seq 0 p) j (seq_sorted p 0)) as [H1 H2]; [apply in_seq; lia|]. fold (rank (seq 0 p) j). rewrite seq_nth in H2; [exact H2|]. rewrite seq_length in H1. exact H1.
Qed.

Section Relabel.
  Variables (p : nat) (q : list (nat * R)).
  Hypothesis Hq : relabelling p q.
  Hypothesis Hp : (0 < p)%nat.

  (** the starting weights *)
  Lemma signs_relabelling : forall e : list R, Forall (fun x => x = 1 \/ x = -1) e -> relabelling (length e) (combine (seq 0 (length e)) e).
  Proof.
    intros e HF. assert (E : map fst (combine (seq 0 (length e)) e) = seq 0 (length e)).
    { generalize 0%nat. clear HF. induction e as [|a e IH]; intros s; [reflexivity|]. cbn [length seq combine map fst]. f_equal. apply IH. }
    split; [rewrite E; apply Permutation_refl|]. rewrite Forall_forall in *. intros [i x] H. apply in_combine_r in H. apply HF. exact H.
  Qed.
  Lemma signs_row : forall e r : list R, length r = length e -> relabel_row (combine (seq 0 (length e)) e) r = map2 Rmult e r.
  Proof.
    intros e r Hr. apply (nth_ext _ _ 0 0); [unfold relabel_row; rewrite map_length, combine_length, seq_length, map2_length; lia|]. unfold relabel_row at 1. rewrite map_length, combine_length, seq_length, Nat.min_id. intros k Hk.
    unfold relabel_row. rewrite (nth_map_lt _ _ _ (0%nat, 0)) by (rewrite combine_length, seq_length; lia). rewrite combine_nth by apply seq_length. rewrite seq_nth by exact Hk. cbn [fst snd Nat.add].
    rewrite (nth_map2 _ _ _ _ 0 0 0) by lia. reflexivity.
  Qed.
  Lemma firstn_map2 : forall k (u v : list R), firstn k (map2 Rmult u v) = map2 Rmult (firstn k u) (firstn k v).
  Proof. induction k as [|k IH]; intros [|a u] [|b v]; try reflexivity. cbn [map2 firstn]. f_equal. apply IH. Qed.
  Lemma sp_start_rr : forall env P n Xs, column_centre (s_centre P) -> column_scale (s_scale P) -> (s_pcapp P = true -> svd_relabel_free env) -> wf n p Xs -> (2 <= n)%nat ->
    match sp_start env P Xs with
    | Ok (Us, rc) => exists Us', sp_start env P (relabel q Xs) = Ok (Us', rc) /\ start_dx Us' = start_dx Us /\ length Us = n
    | Err e => sp_start env P (relabel q Xs) = Err e
    end.
  Proof.
    intros env P n Xs Hc Hs HV W Hn. unfold sp_start. destruct (s_pcapp P).
    - specialize (HV eq_refl n p q Xs Hq W ltac:(lia)). destruct (se_svd env Xs) as [[U sv]|e]; [|rewrite HV; reflexivity]. destruct HV as (WU & Lsv & e & Le & HF & ->). cbn [bind].
      destruct (relcomp _) as [rc|er] eqn:Erc; [|reflexivity]. cbn [bind]. assert (Hr1 : (1 <= rc)%nat) by (unfold relcomp in Erc; destruct (where_ _ _); [discriminate|]; apply Ok_inj in Erc; lia).
      apply relcomp_bound in Erc. rewrite !map_length in Erc.
      set (e1 := firstn rc e). assert (Le1 : length e1 = rc) by (unfold e1; rewrite firstn_length; lia).
      assert (HF1 : Forall (fun x => x = 1 \/ x = -1) e1) by (unfold e1; rewrite <- (firstn_skipn rc e) in HF; apply Forall_app in HF; apply HF).
      pose proof (signs_relabelling e1 HF1) as HQ. rewrite Le1 in HQ.
      assert (WF : wf n rc (map (firstn rc) U)).
      { split; [rewrite map_length; apply WU|]. apply Forall_forall. intros r Hr. apply in_map_iff in Hr as (r0 & <- & Hr0). rewrite firstn_length. destruct WU as [_ WU]. rewrite Forall_forall in WU. rewrite (WU r0 Hr0). lia. }
      assert (EU : map (firstn rc) (map (map2 Rmult e) U) = relabel (combine (seq 0 rc) e1) (map (firstn rc) U)).
      { unfold relabel. rewrite !map_map. apply map_ext_in. intros r Hr. rewrite firstn_map2. fold e1. rewrite <- Le1 at 2. symmetry. apply signs_row. rewrite firstn_length. destruct WU as [_ WU]. rewrite Forall_forall in WU. rewrite (WU r Hr). lia. }
      rewrite EU. destruct (ft_relabel rc _ HQ ltac:(lia) (re_prep (se_rm env)) (s_centre P) (s_scale P) n _ WF Hn Hc Hs) as (m & v & Z & EZ & EZ' & _ & _ & WZ).
      assert (WR : wf n rc (relabel (combine (seq 0 rc) e1) (map (firstn rc) U))) by (apply (relabel_wf rc _ HQ); exact WF).
      change (@n0 R Num_R) with 0.
      destruct (sc_fit_transform_ft (re_prep (se_rm env)) (new_scaler (s_centre P) (s_scale P) 0) (A2 (map (firstn rc) U)) eq_refl) as [F1 _]. rewrite (check_input_id n rc) in F1 by auto.
      destruct (sc_fit_transform_ft (re_prep (se_rm env)) (new_scaler (s_centre P) (s_scale P) 0) (A2 (relabel (combine (seq 0 rc) e1) (map (firstn rc) U))) eq_refl) as [F2 _]. rewrite (check_input_id n rc) in F2 by auto.
      cbn [new_scaler sc_center sc_scale] in F1, F2. rewrite EZ in F1. rewrite EZ' in F2. cbn [ft_data] in F1, F2. rewrite F1, F2. eexists. split; [reflexivity|]. split; [apply (start_dx_rr rc _ HQ n); exact WZ|apply (wf_length n rc); exact WZ].
    - eexists. split; [reflexivity|]. split; [apply (start_dx_rr p q Hq n); exact W|apply (wf_length n p); exact W].
  Qed.

  (** the loop *)
  Definition fit_ok (m : snipls_model R) : Prop := length (sn_coef m) = p /\ exists h, wf p h (sn_R m).
  Definition relabel_ss (st : sp_state (A := R)) : sp_state (A := R) :=
    mk_ss (option_map (relabel_model q) (q_fit st)) (q_wye st) (q_wte st) (q_we st) (q_w0 st) (q_sw st) (q_rold st) (q_diff st) (q_loops st).
  Lemma sp_body_rr : forall env P f cuts n ys st m, length (sn_coef m) = p ->
    sp_body env P f cuts n ys (relabel_ss st) (relabel_model q m) = match sp_body env P f cuts n ys st m with Ok (s, b) => Ok (relabel_ss s, b) | Err e => Err e end.
  Proof.
    intros env P f cuts n ys st m Lc. unfold sp_body. cbv zeta. cbn [relabel_model relabel_ss sn_T sn_fitted sn_coef q_sw q_rold q_loops]. rewrite (sumsq_rr p q Hq) by exact Lc.
    destruct (snd (sc_fit_transform _ _ _)); [|reflexivity]. destruct cuts as [[c b] r]. destruct (_ <=? _)%nat; reflexivity.
  Qed.
  Lemma sp_body_keeps : forall env P f cuts n (ys : list R) st m s b, sp_body env P f cuts n ys st m = Ok (s, b) -> q_fit s = Some m.
  Proof.
    intros env P f cuts n ys st m s b E. unfold sp_body in E. cbv zeta in E. destruct (snd (sc_fit_transform _ _ _)); [|discriminate]. destruct cuts as [[c b'] r]. destruct (_ <=? _)%nat; apply Ok_inj in E; injection E as <- _; reflexivity.
  Qed.
  Lemma sp_body_sw : forall env P f cuts n h (ys : list R) st m s b, length ys = n -> (2 <= n)%nat -> wf n h (sn_T m) -> length (sn_fitted m) = n -> length (q_sw st) = n ->
    sp_body env P f cuts n ys st m = Ok (s, b) -> length (q_sw s) = n.
  Proof.
    intros env P f cuts n h ys st m s b Ly Hn WT Lf Ls E. unfold sp_body in E. cbv zeta in E. set (T := map2 _ (q_sw st) (sn_T m)) in E. assert (WT' : wf n h T) by (apply (map2_rows_wf n h (fun v a => ndiv v a)); auto).
    change (@n0 R Num_R) with 0 in E. destruct (sc_fit_transform_ft (re_prep (se_rm env)) (new_scaler (s_centre P) (sp_tsc P) 0) (A2 T) eq_refl) as [F1 _].
    rewrite (check_input_id n h) in F1 by auto. cbn [new_scaler sc_center sc_scale] in F1. rewrite F1 in E.
    destruct (ft (re_prep (se_rm env)) (s_centre P) (sp_tsc P) T) as [[[fm fv] dt]|e] eqn:Ef; cbn [ft_data] in E; [|discriminate].
    assert (Wdt : wf n h dt) by (apply (ft_wf _ _ _ n h T fm fv dt WT' ltac:(lia) Ef)). assert (Ldt : length dt = n) by (eapply wf_length; eauto).
    destruct cuts as [[c b'] q3]. destruct (_ <=? _)%nat; apply Ok_inj in E; injection E as <- _; cbn [q_sw]; [exact Ls|].
    rewrite map_length, floor_len. rewrite vmul_len; rewrite !mweights_map, !map_length; unfold std_resid, start_dx; cbv zeta; rewrite !map_length; rewrite vsub_length by congruence; congruence.
  Qed.
  Lemma colret_rr : forall b m, sp_colret_of (ColBool b) (relabel_model q m) = Ok (relabel_colret q (match sn_colret m with None => CrNone | Some l => CrPos l end)) /\
    sp_colret_of (ColBool b) m = Ok (match sn_colret m with None => CrNone | Some l => CrPos l end).
  Proof. intros b m. unfold sp_colret_of. cbn [relabel_model sn_colret]. destruct (sn_colret m); split; reflexivity. Qed.
  Lemma sp_loop_rr : forall env P f k cuts n Xs ys bc, s_columns P = ColBool bc -> wf n p Xs -> (2 <= n)%nat -> length ys = n ->
    forall fuel st, length (q_sw st) = n -> (forall m, q_fit st = Some m -> fit_ok m) ->
    sp_loop env fuel P f k cuts (relabel q Xs) ys (relabel_ss st) =
      (relabel_calls q (fst (sp_loop env fuel P f k cuts Xs ys st)), option_map (fun r => match r with Ok s => Ok (relabel_ss s) | Err e => Err e end) (snd (sp_loop env fuel P f k cuts Xs ys st))) /\
    forall s, snd (sp_loop env fuel P f k cuts Xs ys st) = Some (Ok s) -> length (q_sw s) = n /\ forall m, q_fit s = Some m -> fit_ok m.
  Proof.
    intros env P f k cuts n Xs ys bc HB W Hn Ly. induction fuel as [|fuel IH]; intros st Ls Hm; cbn [sp_loop]; [split; [reflexivity|discriminate]|].
    cbn [relabel_ss q_diff q_loops q_sw]. destruct (_ && _)%bool.
    - rewrite (row_scale_rr p q Hq n) by auto. assert (WR : wf n p (row_scale (q_sw st) Xs)) by (apply (L_VarsRm.row_scale_wf p Hp n); auto). assert (Lv : length (vmul ys (q_sw st)) = n) by (unfold vmul; rewrite map2_length; lia).
      rewrite (snipls_vars_l p q Hq Hp (re_prep (se_rm env)) (se_inv env) (s_eta P) k CMean SNone n (row_scale (q_sw st) Xs) (vmul ys (q_sw st))) by (auto; first [left; reflexivity|right; right; reflexivity]).
      destruct (snipls_fit (re_prep (se_rm env)) (se_inv env) (s_eta P) k CMean SNone (row_scale (q_sw st) Xs) (vmul ys (q_sw st))) as [m|e] eqn:EM; [|split; [reflexivity|discriminate]]. cbn [bind].
      destruct (snipls_shapes p Hp _ _ _ _ _ _ n _ _ m (or_introl eq_refl) (or_intror (or_intror eq_refl)) WR Hn Lv EM) as (_ & Lc & _ & _ & HR).
      destruct (L_OrderSp.snipls_T_wf _ _ _ _ _ _ n p _ _ m WR Hn Hp Lv EM) as [[h WT] Lf].
      rewrite HB. destruct (colret_rr bc m) as [-> ->]. cbn [bind]. unfold relabel at 1. rewrite map_length. rewrite (wf_length n p Xs W).
      change (mk_ss (option_map (relabel_model q) (q_fit st)) (q_wye st) (q_wte st) (q_we st) (q_w0 st) (q_sw st) (q_rold st) (q_diff st) (q_loops st)) with (relabel_ss st). rewrite sp_body_rr by exact Lc.
      destruct (sp_body env P f cuts n ys st m) as [[st' brk]|e] eqn:EB; [|split; [reflexivity|discriminate]].
      pose proof (sp_body_keeps env P f cuts n ys st m st' brk EB) as EK. pose proof (sp_body_sw env P f cuts n h ys st m st' brk Ly Hn WT Lf Ls EB) as LS.
      assert (HM : forall m0, q_fit st' = Some m0 -> fit_ok m0) by (intros m0 E0; rewrite EK in E0; injection E0 as <-; split; auto). destruct brk.
      + split; [reflexivity|]. cbn [snd]. intros s E. injection E as <-. auto.
      + destruct (IH st' LS HM) as [I1 I2]. rewrite I1. destruct (sp_loop env fuel P f k cuts Xs ys st') as [calls r]. cbn [fst snd] in *. split; [reflexivity|exact I2].
    - split; [reflexivity|]. cbn [snd]. intros s E. injection E as <-. auto.
  Qed.
  Definition relabel_at (keep' : list nat) (mX' sXf' : list R) (m : sp_model R) : sp_model R :=
    mk_sp (sp_p m) keep' (relabel_row q (sp_coef m)) (sp_intercept m) (relabel_row q (sp_coef_scaled m)) (sp_intercept_scaled m)
      (sp_resid m) (sp_fitted m) (relabel_rows q (sp_W m)) (relabel_rows q (sp_P m)) (relabel_rows q (sp_R m)) (sp_T m)
      (sp_xcw m) (sp_ycw m) (sp_cw m) mX' (sp_yloc m) sXf' (sp_ysca m)
      (relabel_colret q (sp_colret m)) (sp_fun m) (sp_ctx m) (sp_cbx m) (sp_crx m) (sp_tcentre m) (sp_tscale m).
  Lemma sp_finish_rr : forall env P f k cuts keep keep' p0 n X Xs y ys mX mX' sXf sXf' sX my sy st bc, s_columns P = ColBool bc ->
    column_centre (s_centre P) -> (2 <= n)%nat -> wf n p X -> wf n p Xs -> length sX = p -> length (q_sw st) = n -> (forall m, q_fit st = Some m -> fit_ok m) ->
    sp_finish env P f k cuts keep' p0 (relabel q X) (relabel q Xs) y ys mX' sXf' (relabel_pos q sX) my sy (relabel_ss st) =
    match sp_finish env P f k cuts keep p0 X Xs y ys mX sXf sX my sy st with Ok m => Ok (relabel_at keep' mX' sXf' m) | Err e => Err e end.
  Proof.
    intros env P f k cuts keep keep' p0 n X Xs y ys mX mX' sXf sXf' sX my sy st bc HB Hc Hn HX HXs LsX Lsw Hm.
    assert (WU : wf n p (relabel q X)) by (apply (relabel_wf p q Hq); auto). assert (WUs : wf n p (relabel q Xs)) by (apply (relabel_wf p q Hq); auto).
    unfold sp_finish. cbn [relabel_ss q_fit q_w0 q_we q_wte q_wye q_sw]. destruct (q_fit st) as [m|]; [|reflexivity]. cbn [option_map]. destruct (Hm m eq_refl) as (Lc & h & WR). cbv zeta.
    cbn [relabel_model sn_coef sn_R sn_W sn_P]. rewrite (wf_ncols n p Xs), (wf_ncols n p (relabel q Xs)) by (auto; lia).
    assert (Ls2 : length (map nsqrt (q_sw st)) = n) by (rewrite map_length; exact Lsw). change (@n0 R Num_R) with 0.
    assert (OKF : forall Z0 : list (list R), wf n p Z0 -> exists Z, snd (sc_fit_transform (re_prep (se_rm env)) (new_scaler (s_centre P) SNone 0) (A2 Z0)) = Ok Z).
    { intros Z0 W0. destruct (sc_fit_transform_ft (re_prep (se_rm env)) (new_scaler (s_centre P) SNone 0) (A2 Z0) eq_refl) as [-> _]. rewrite (check_input_id n p) by auto.
      destruct (ft_plain (re_prep (se_rm env)) (s_centre P) SNone n p Z0 W0 Hn Hp Hc) as (u & v & Z & E & _); [right; right; reflexivity|]. cbn [new_scaler sc_center sc_scale]. rewrite E. eexists. reflexivity. }
    destruct (OKF _ (L_VarsRm.row_scale_wf p Hp n _ _ HXs Ls2)) as [Z1 ->]. destruct (OKF _ (L_VarsRm.row_scale_wf p Hp n _ _ WUs Ls2)) as [Z2 ->]. clear OKF.
    rewrite (rp_length p q Hq), LsX, Nat.eqb_refl. cbn [negb].
    change (fun sx bj : R => nmul (ndiv (nth 0 sy 0) sx) bj) with (fun sx b : R => nmul (ndiv (nth 0 sy 0) sx) b).
    rewrite (bres_rr p q Hq) by auto. set (Bres := map2 _ sX (sn_coef m)). assert (LB : length Bres = p) by (unfold Bres; rewrite map2_length; lia).
    rewrite !(matvec_rr p q Hq n) by auto. rewrite (matmul_rr p q Hq Hp n h) by auto.
    rewrite HB. destruct (colret_rr bc m) as [-> ->]. cbn [bind]. destruct cuts as [[cx bx] rx]. reflexivity.
  Qed.
  Lemma sp_estimate_rr : forall env P f k keep keep' p0 n X Xs y ys mX mX' sXf sXf' sX my sy bc, s_columns P = ColBool bc ->
    column_centre (s_centre P) -> column_scale (s_scale P) -> (s_pcapp P = true -> svd_relabel_free env) -> (2 <= n)%nat -> wf n p X -> wf n p Xs -> length y = n -> length ys = n -> length sX = p ->
    sp_estimate env P f k keep' p0 (relabel q X) (relabel q Xs) y ys mX' sXf' (relabel_pos q sX) my sy =
    (relabel_calls q (fst (sp_estimate env P f k keep p0 X Xs y ys mX sXf sX my sy)),
     match snd (sp_estimate env P f k keep p0 X Xs y ys mX sXf sX my sy) with Ok m => Ok (relabel_at keep' mX' sXf' m) | Err e => Err e end).
  Proof.
    intros env P f k keep keep' p0 n X Xs y ys mX mX' sXf sXf' sX my sy bc HB Hc Hs HV Hn HX HXs Hy Hys LsX. unfold sp_estimate.
    pose proof (sp_start_rr env P n Xs Hc Hs HV HXs Hn) as HST. destruct (sp_start env P Xs) as [[Us rc]|e]; [|rewrite HST; reflexivity]. destruct HST as (Us' & -> & ED & LU).
    destruct (sp_start_cuts env P rc) as [[[cc cb] cr]|e]; [|reflexivity]. cbv zeta. rewrite ED.
    set (wx := mweights f cc cb cr (start_dx Us)). set (wy := mweights f _ _ _ (start_dy (sp_rm P) y ys)).
    assert (Lwx : length wx = n) by (unfold wx; rewrite mweights_map, map_length; unfold start_dx; cbv zeta; rewrite !map_length; exact LU).
    assert (Lwy : length wy = n). { unfold wy. rewrite mweights_map, map_length. unfold start_dy. cbv zeta. destruct (r_centre (sp_rm P)), (r_scale (sp_rm P)); rewrite ?map_length; auto. }
    set (st0 := mk_ss None wy wx _ _ _ _ _ _).
    assert (Ls0 : length (q_sw st0) = n) by (unfold st0; cbn [q_sw]; rewrite map_length, floor_len, vmul_len; lia).
    destruct (sp_loop_rr env P f k (sp_loop_cuts env P f k (cc, cb, cr)) n Xs ys bc HB HXs Hn Hys (S (s_maxit P)) st0 Ls0 ltac:(discriminate)) as [ER EB].
    change (relabel_ss st0) with st0 in ER. rewrite ER. clear ER. destruct (sp_loop env (S (s_maxit P)) P f k _ Xs ys st0) as [calls r]. cbn [fst snd] in *. f_equal.
    destruct r as [[st|e]|]; [|reflexivity|reflexivity]. cbn [option_map]. destruct (EB st eq_refl) as [E1 E2]. apply (sp_finish_rr env P f k _ keep keep' p0 n X Xs y ys mX mX' sXf sXf' sX my sy st bc); auto.
  Qed.
End Relabel.
