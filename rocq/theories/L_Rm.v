(** Lemmas about rm (C39-C44, C90). *)

From Coq Require Import Reals List Arith ZArith Bool Lia Lra Permutation.
Import ListNotations.
From Verif Require Import Num Err Vec VecR OrdR L_Mat S_Stats S_Weights L_Stats M_Utils M_Preproc M_Robcent M_Msupport M_Rm S_Rm
  L_Lin L_Scaling L_Scaling2 L_Preproc L_Missing L_Msupport S_Regress L_Snipls.
Open Scope R_scope.

(* ------------------------------------------------------------------ *)
(** * Indexed assignment *)
Section Idx.
  Context {A : Type} `{Num A}.
  Lemma set_idx_length : forall idx (v : A) x, length (set_idx idx v x) = length x.
  Proof. intros. unfold set_idx. rewrite map_length, combine_length, seq_length. lia. Qed.
  Lemma set_idx_nth : forall idx (v : A) x i d, (i < length x)%nat ->
    nth i (set_idx idx v x) d = if existsb (Nat.eqb i) idx then v else nth i x d.
  Proof.
    intros idx v x i d Hi. unfold set_idx.
    rewrite (nth_map_lt _ _ _ (0%nat, d) _) by (rewrite combine_length, seq_length; lia).
    rewrite combine_nth by apply seq_length. rewrite seq_nth by auto. reflexivity.
  Qed.
  Lemma existsb_eqb_In : forall i idx, existsb (Nat.eqb i) idx = true <-> In i idx.
  Proof.
    intros. rewrite existsb_exists. split.
    - intros (x & Hx & E). apply Nat.eqb_eq in E. subst; auto.
    - intros Hi. exists i. split; auto. apply Nat.eqb_refl.
  Qed.
  Lemma low_spec : forall (w : list A) i d, (i < length w)%nat -> existsb (Nat.eqb i) (low w) = nltb (nth i w d) wmin.
  Proof.
    intros w i d Hi. destruct (nltb (nth i w d) wmin) eqn:E.
    - apply existsb_eqb_In. apply (where_in _ _ _ d). auto.
    - destruct (existsb _ _) eqn:E2; auto. apply existsb_eqb_In in E2. apply (where_in _ _ _ d) in E2 as [_ E2]. congruence.
  Qed.
  Lemma upd_length : forall m f (x : list A), length (upd m f x) = length x.
  Proof. intros. apply map_length. Qed.
  Lemma mweights_length : forall f c b r (x : list A), length (mweights f c b r x) = length x.
  Proof.
    intros [] c b r x; cbn [mweights]; unfold Fair, Huber, Hampel; cbv zeta; rewrite ?upd_length, ?map_length; auto.
  Qed.
  Lemma std_resid_length : forall r : list A, length (std_resid r) = length r.
  Proof. intros. apply map_length. Qed.
  Lemma scale_data_rows : forall (X : list (list A)) m s Y, scale_data X m s = Ok Y -> length Y = length X.
  Proof.
    intros X m s Y E. unfold scale_data in E. destruct (ncols X =? 1)%nat.
    - destruct m; [discriminate|]. destruct (handle_zeros s); [discriminate|]. apply Ok_inj in E as <-. apply map_length.
    - match type of E with bind ?e _ = _ => destruct e as [Xm|] eqn:E1; [|discriminate] end. cbn [bind] in E.
      assert (Hbc : forall (f : A -> A -> A) (Z : list (list A)) v W,
        (if (length v =? ncols X)%nat then Ok (rows_op f Z v) else match v with [v0] => Ok (map (map (fun x => f x v0)) Z) | _ => Err ValueError end) = Ok W ->
        length W = length Z).
      { intros f Z v W EW. destruct (length v =? ncols X)%nat; [apply Ok_inj in EW as <-; unfold rows_op; apply map_length|].
        destruct v as [|v0 [|]]; try discriminate. apply Ok_inj in EW as <-. apply map_length. }
      apply Hbc in E. apply Hbc in E1. congruence.
  Qed.
  Lemma fit_transform_rows : forall env (st st' : scaler A) x Y, sc_fit_transform env st x = (st', Ok Y) -> length Y = length (check_input x).
  Proof.
    intros env st st' x Y E. apply C01_fit_transform_l in E as (st1 & _ & E). unfold sc_transform in E.
    destruct (a_center st1), (a_scale st1); try discriminate. destruct (scale_data _ _ _) as [Z|] eqn:Es; [|discriminate].
    injection E as _ <-. eapply scale_data_rows; eauto.
  Qed.
End Idx.

(* ------------------------------------------------------------------ *)
(** * The loop *)
Section Loop.
  Context {A : Type} `{Num A}.
  Variable env : rm_env A.
  Variable P : rm_par A.
  Variable f : mfun.
  Variable Xs : list (list A).
  Variables ys wx : list A.

  (** what every pass of the loop leaves behind *)
  Definition passed (st : rm_state) : Prop :=
    exists b, l_b st = Some b /\
      l_wye st = mweights f (cty env P) (cby env P) (cry env P) (std_resid (vsub ys (matvec Xs b))) /\
      l_w0 st = low (vmul (l_wye st) wx) /\ l_we st = floor_w (vmul (l_wye st) wx).
  Lemma body_passed : forall st b, passed (fst (rm_body f (cty env P) (cby env P) (cry env P) Xs ys wx st b)).
  Proof. intros st b. unfold rm_body. destruct (_ <=? _)%nat; exists b; cbn; auto. Qed.
  Lemma body_loops : forall st b st', rm_body f (cty env P) (cby env P) (cry env P) Xs ys wx st b = (st', false) -> l_loops st' = S (l_loops st).
  Proof. intros st b st' E. unfold rm_body in E. destruct (_ <=? _)%nat; [discriminate|]. injection E as <-. reflexivity. Qed.

  Lemma loop_terminates : forall fuel st, (r_maxit P + 1 - l_loops st <= fuel)%nat -> (1 <= fuel)%nat ->
    snd (rm_loop env fuel P f Xs ys wx st) <> None /\
    (length (fst (rm_loop env fuel P f Xs ys wx st)) <= r_maxit P - l_loops st)%nat.
  Proof.
    induction fuel as [|k IH]; intros st Hf H1; [lia|]. cbn [rm_loop].
    destruct (nltb (r_tol P) (l_diff st)); cbn [andb]; [|cbn; split; [discriminate|lia]].
    destruct (Nat.ltb_spec (l_loops st) (r_maxit P)) as [Hl|Hl]; cbn [andb]; [|cbn; split; [discriminate|lia]].
    destruct (re_lstsq env _ _) as [b|e]; [|cbn; split; [discriminate|lia]].
    destruct (rm_body _ _ _ _ _ _ _ st b) as [st' brk] eqn:Eb. destruct brk; [cbn; split; [discriminate|lia]|].
    apply body_loops in Eb. destruct (IH st') as [Hs Hc]; [lia|lia|].
    destruct (rm_loop env k P f Xs ys wx st') as [calls r]. cbn in *. split; [exact Hs|lia].
  Qed.
  Lemma loop_fuel : forall fuel fuel' st r calls, rm_loop env fuel P f Xs ys wx st = (calls, Some r) -> (fuel <= fuel')%nat ->
    rm_loop env fuel' P f Xs ys wx st = (calls, Some r).
  Proof.
    induction fuel as [|k IH]; intros fuel' st r calls E Hle; [discriminate|]. destruct fuel' as [|k']; [lia|]. cbn [rm_loop] in *.
    destruct (_ && _); [|exact E]. destruct (re_lstsq env _ _) as [b|e]; [|exact E].
    destruct (rm_body _ _ _ _ _ _ _ st b) as [st' []]; [exact E|].
    destruct (rm_loop env k P f Xs ys wx st') as [cs r'] eqn:E'. injection E as <- ->. rewrite (IH k' st' r cs E') by lia. reflexivity.
  Qed.
  Lemma loop_passed : forall fuel st st' calls, rm_loop env fuel P f Xs ys wx st = (calls, Some (Ok st')) ->
    (st' = st /\ calls = []) \/ passed st'.
  Proof.
    induction fuel as [|k IH]; intros st st' calls E; [discriminate|]. cbn [rm_loop] in E.
    destruct (_ && _); [|injection E as <- <-; left; auto]. destruct (re_lstsq env _ _) as [b|e]; [|discriminate].
    pose proof (body_passed st b) as Hb. destruct (rm_body _ _ _ _ _ _ _ st b) as [st1 []]; cbn [fst] in Hb.
    - injection E as <- <-. right; auto.
    - destruct (rm_loop env k P f Xs ys wx st1) as [cs r'] eqn:E'. injection E as <- ->. apply IH in E' as [[-> _]|]; right; auto.
  Qed.
  (** the loop stops immediately *)
  Lemma loop_none : forall fuel st, nltb (r_tol P) (l_diff st) && (l_loops st <? r_maxit P)%nat = false ->
    rm_loop env (S fuel) P f Xs ys wx st = ([], Some (Ok st)).
  Proof. intros fuel st E. cbn [rm_loop]. rewrite E. reflexivity. Qed.
  Lemma loop_err : forall fuel st e calls, rm_loop env fuel P f Xs ys wx st = (calls, Some (Err e)) ->
    exists Xw yw, re_lstsq env Xw yw = Err e.
  Proof.
    induction fuel as [|k IH]; intros st e calls E; [discriminate|]. cbn [rm_loop] in E.
    destruct (_ && _); [|discriminate]. destruct (re_lstsq env _ _) as [b|e'] eqn:El.
    - destruct (rm_body _ _ _ _ _ _ _ st b) as [st1 []]; [discriminate|].
      destruct (rm_loop env k P f Xs ys wx st1) as [cs r'] eqn:E'. injection E as <- ->. eapply IH; eauto.
    - injection E as _ <-. eauto.
  Qed.
  (** at least one solve when the loop is entered *)
  Lemma loop_entered : forall fuel st st' calls, nltb (r_tol P) (l_diff st) && (l_loops st <? r_maxit P)%nat = true ->
    rm_loop env (S fuel) P f Xs ys wx st = (calls, Some (Ok st')) -> passed st'.
  Proof.
    intros fuel st st' calls Hc E. apply loop_passed in E as E2. destruct E2 as [[-> ->]|]; auto.
    cbn [rm_loop] in E. rewrite Hc in E. destruct (re_lstsq env _ _) as [b|e']; [|discriminate].
    destruct (rm_body _ _ _ _ _ _ _ st b) as [st1 []]; [discriminate|].
    destruct (rm_loop env fuel P f Xs ys wx st1) as [cs r']. discriminate.
  Qed.
End Loop.

(* ------------------------------------------------------------------ *)
(** * Inversion of a completed fit *)
Section Inv.
  Context {A : Type} `{Num A}.
  Variable env : rm_env A.

  Definition start_state (P : rm_par A) (f : mfun) (wx : list A) (y ys : list A) : @rm_state A :=
    let wy := mweights f (cty env P) (cby env P) (cry env P) (start_dy P y ys) in
    mk_rs None wy (floor_w (vmul wx wy)) (low (vmul wx wy)) (map nsqrt (floor_w (vmul wx wy))) (nlit 1 100000) n1 1.
  Definition start_wx (P : rm_par A) (f : mfun) (p : nat) (Xs : list (list A)) : list A :=
    mweights f (ctx env P p) (cbx env P p) (crx env P p) (start_dx Xs).

  Lemma rm_fit_inv : forall P X y m, rm_fit env P X y = Ok m ->
    exists f st1 Xs st2 Ys mX sX my sy st calls,
      rm_check P = Ok f /\ length y = length X /\ ((length X =? 1)%nat && (2 <=? ncols X)%nat = false) /\
      sc_fit_transform (re_prep env) (new_scaler (r_centre P) (r_scale P) n0) (A2 X) = (st1, Ok Xs) /\
      sc_fit_transform (re_prep env) st1 (A1 y) = (st2, Ok Ys) /\
      a_col_loc st1 = Some mX /\ a_col_sca st1 = Some sX /\ a_col_loc st2 = Some my /\ a_col_sca st2 = Some sy /\
      rm_loop env (S (r_maxit P)) P f Xs (col 0 Ys) (start_wx P f (ncols X) Xs)
        (start_state P f (start_wx P f (ncols X) Xs) y (col 0 Ys)) = (calls, Some (Ok st)) /\
      rm_finish env P X Xs y (col 0 Ys) (start_wx P f (ncols X) Xs) mX sX my sy st2 st = Ok m.
  Proof.
    intros P X y m E. unfold rm_fit, rm_run in E.
    destruct (rm_check P) as [f|] eqn:Ec; [|discriminate].
    destruct (Nat.eqb_spec (length y) (length X)) as [Hl|]; [|discriminate]. cbn [negb] in E.
    destruct ((length X =? 1)%nat && (2 <=? ncols X)%nat) eqn:E1; [discriminate|].
    destruct (sc_fit_transform (re_prep env) (new_scaler _ _ _) (A2 X)) as [st1 [Xs|]] eqn:Ex; [|discriminate].
    destruct (sc_fit_transform (re_prep env) st1 (A1 y)) as [st2 [Ys|]] eqn:Ey; [|discriminate].
    destruct (a_col_loc st1) as [mX|] eqn:E3; [|discriminate]. destruct (a_col_sca st1) as [sX|] eqn:E4; [|discriminate].
    destruct (a_col_loc st2) as [my|] eqn:E5; [|discriminate]. destruct (a_col_sca st2) as [sy|] eqn:E6; [|discriminate].
    cbv zeta in E.
    match type of E with snd (let '(_, _) := ?L in _) = _ => destruct L as [calls r] eqn:EL end. cbn [snd] in E.
    destruct r as [[st|e]|]; try discriminate.
    exists f, st1, Xs, st2, Ys, mX, sX, my, sy, st, calls. repeat split; auto.
  Qed.

  Lemma rm_finish_inv : forall P X Xs y ys wx mX sX my sy st2 st m,
    rm_finish env P X Xs y ys wx mX sX my sy st2 st = Ok m ->
    exists b, l_b st = Some b /\ length sX = ncols X /\
      let bres := map2 (fun sx bj => nmul (ndiv (nth 0 sy n0) sx) bj) sX b in
      let cen v := match r_centre P with CMean => vmean v | _ => np_median v end in
      let ic := cen (vsub y (matvec X bres)) in
      let yfit := map (fun v => nadd v ic) (matvec X bres) in
      rm_p m = (if r_copy P then Some (ncols X) else None) /\ rm_coef m = bres /\ rm_coef_scaled m = b /\
      rm_fitted m = yfit /\ rm_resid m = vsub y yfit /\
      rm_xcw m = set_idx (l_w0 st) n0 wx /\ rm_ycw m = set_idx (l_w0 st) n0 (l_wye st) /\ rm_cw m = set_idx (l_w0 st) n0 (l_we st) /\
      rm_xsca m = sX /\ rm_ysca m = sy /\ rm_xloc m = mX /\ rm_yloc m = my /\
      match r_scale P with
      | SNone => r_centre P = CMean /\ rm_intercept m = vmean (vsub y (matvec X b)) /\ rm_intercept_scaled m = rm_intercept m
      | _ => rm_intercept m = ic /\ rm_intercept_scaled m = cen (flat_map (fun q => map (fun v => nsub v q) ys) (matvec Xs b))
      end.
  Proof.
    intros P X Xs y ys wx mX sX my sy st2 st m E. unfold rm_finish in E. destruct (l_b st) as [b|]; [|discriminate].
    exists b. split; auto.
    destruct (snd (sc_fit_transform _ _ _)) as [Z|]; [|discriminate]. cbv zeta in E |- *.
    destruct (Nat.eqb_spec (length sX) (ncols X)) as [Hs|]; [|discriminate]. cbn [negb] in E. split; auto.
    destruct (r_scale P); try (destruct (r_centre P); cbn [bind] in E; try discriminate; apply Ok_inj in E as <-; cbn;
      repeat split; reflexivity).
  Qed.
End Inv.

(* ------------------------------------------------------------------ *)
(** * C39: range of the case weights, over the extended reals *)
Definition mw1X (f : mfun) (c b r v : XR) : XR :=
  match f with
  | MFair => ndiv n1 (nsqr (nadd n1 (nabs (ndiv v (nmul c (nnat 2))))))
  | MHuber => let v1 := if nleb v c then n1 else v in if nltb c v1 then ndiv c (nabs v1) else v1
  | MHampel =>
      let v1 := if nleb v c then n1 else v in
      let v2 := if nltb c v1 && nleb v1 b then ndiv c (nabs v1) else v1 in
      let v3 := if nltb b v2 && nleb v2 r then ndiv (nmul c (nsub r v2)) (nmul (nsub r b) (nabs v2)) else v2 in
      if nltb r v3 then n0 else v3
  end.
Lemma mweights_map_XR : forall f c b r (x : list XR), mweights f c b r x = map (mw1X f c b r) x.
Proof.
  intros [] c b r x; cbn [mweights mw1X]; unfold Fair, Huber, Hampel, upd; rewrite ?map_map; reflexivity.
Qed.
Lemma unit_Fin : forall r, 0 <= r <= 1 -> unit_or_nan (Fin r).
Proof. intros r Hr. right. eauto. Qed.
Lemma mw1X_range : forall f c b r v, cutoffs_ok f c b r -> unit_or_nan (mw1X f (Fin c) (Fin b) (Fin r) v).
Proof.
  intros f c b r v Hc. destruct f; cbn [mw1X cutoffs_ok] in *.
  - rewrite nnat_XR. xnum. destruct v as [v| | |]; cbn [XRmul XRdiv].
    + destruct (Req_EM_T (c * INR 2) 0) as [E|_]; [cbn in E; lra|]. cbn [XRabs XRadd]. unfold nsqr. xnum. cbn [XRmul XRdiv].
      pose proof (Rabs_pos (v / (c * INR 2))). set (q := Rabs _) in *.
      destruct (Req_EM_T ((1 + q) * (1 + q)) 0) as [E|_]; [nra|]. apply unit_Fin.
      assert (1 <= (1 + q) * (1 + q)) by nra. split.
      * apply div_pos_nonneg; lra.
      * apply (Rmult_le_reg_r ((1 + q) * (1 + q))); [lra|]. unfold Rdiv. rewrite Rmult_assoc, Rinv_l by lra. lra.
    + destruct (Rlt_dec (c * INR 2) 0); cbn; apply unit_Fin; lra.
    + destruct (Rlt_dec (c * INR 2) 0); cbn; apply unit_Fin; lra.
    + left; reflexivity.
  - xnum. destruct v as [v| | |].
    + rewrite XRleb_Fin. destruct (Rleb v c) eqn:E; rcmp_all.
      * cbn [XRltb]. replace (Rltb c 1) with false by (symmetry; apply Rltb_false; lra). apply unit_Fin; lra.
      * cbn [XRltb]. replace (Rltb c v) with true by (symmetry; apply Rltb_true; lra). cbn [XRabs XRdiv].
        rewrite Rabs_right by lra. destruct (Req_EM_T v 0); [lra|]. apply unit_Fin. split; [apply div_pos_nonneg; lra|left; apply div_lt_1; lra].
    + cbn. apply unit_Fin; lra.
    + cbn. replace (Rltb c 1) with false by (symmetry; apply Rltb_false; lra). apply unit_Fin; lra.
    + left. reflexivity.
  - destruct Hc as (Hc & Hcb & Hbr). xnum.
    assert (H1 : unit_or_nan (let v1 := Fin 1 in
      let v2 := if XRltb (Fin c) v1 && XRleb v1 (Fin b) then XRdiv (Fin c) (XRabs v1) else v1 in
      let v3 := if XRltb (Fin b) v2 && XRleb v2 (Fin r) then XRdiv (XRmul (Fin c) (XRsub (Fin r) v2)) (XRmul (XRsub (Fin r) (Fin b)) (XRabs v2)) else v2 in
      if XRltb (Fin r) v3 then Fin 0 else v3)).
    { cbn [XRltb]. cbv zeta. cbn [XRltb]. replace (Rltb c 1) with false by (symmetry; apply Rltb_false; lra). cbn [andb XRltb].
      replace (Rltb b 1) with false by (symmetry; apply Rltb_false; lra). cbn [andb XRltb].
      replace (Rltb r 1) with false by (symmetry; apply Rltb_false; lra). apply unit_Fin; lra. }
    destruct v as [v| | |].
    + rewrite XRleb_Fin. destruct (Rleb v c) eqn:E; [exact H1|]. rcmp_all. cbv zeta. rewrite XRleb_Fin. cbn [XRltb].
      replace (Rltb c v) with true by (symmetry; apply Rltb_true; lra). cbn [andb].
      destruct (Rleb v b) eqn:Eb; rcmp_all.
      * cbn [XRabs XRdiv]. rewrite Rabs_right by lra. destruct (Req_EM_T v 0); [lra|]. cbn [XRltb].
        assert (c / v < 1) by (apply div_lt_1; lra). assert (0 <= c / v) by (apply div_pos_nonneg; lra).
        replace (Rltb b (c / v)) with false by (symmetry; apply Rltb_false; lra). cbn [andb XRltb].
        replace (Rltb r (c / v)) with false by (symmetry; apply Rltb_false; lra). apply unit_Fin; lra.
      * cbn [XRltb]. replace (Rltb b v) with true by (symmetry; apply Rltb_true; lra). cbn [andb]. rewrite XRleb_Fin.
        destruct (Rleb v r) eqn:Er; rcmp_all.
        -- cbn [XRabs XRmul XRsub XRadd XRopp]. rewrite Rabs_right by lra. cbn [XRdiv].
           pose proof (hampel_part c b r v ltac:(lra) Hcb Hbr ltac:(lra)) as Hh. change (r + - v) with (r - v). change (r + - b) with (r - b).
           destruct (Req_EM_T ((r - b) * v) 0) as [E0|_]; [exfalso; assert (0 < (r - b) * v) by (apply Rmult_lt_0_compat; lra); lra|].
           cbn [XRltb]. replace (Rltb r _) with false by (symmetry; apply Rltb_false; lra). apply unit_Fin; lra.
        -- cbn [XRltb]. replace (Rltb r v) with true by (symmetry; apply Rltb_true; lra). apply unit_Fin; lra.
    + cbn. apply unit_Fin; lra.
    + exact H1.
    + left. reflexivity.
Qed.
Lemma mweights_range : forall f c b r (x : list XR), finite_cutoffs f c b r -> Forall unit_or_nan (mweights f c b r x).
Proof.
  intros f c b r x (c' & b' & r' & -> & -> & -> & Hc). rewrite mweights_map_XR. apply Forall_map, Forall_forall. intros v _. apply mw1X_range; auto.
Qed.
Lemma unit_mul : forall a b, unit_or_nan a -> unit_or_nan b -> unit_or_nan (XRmul a b).
Proof.
  intros a b [->|(x & -> & Hx)] [->|(y & -> & Hy)]; cbn; try (left; reflexivity). apply unit_Fin. nra.
Qed.
Lemma wmin_XR : wmin = Fin (1 / 1000000). Proof. reflexivity. Qed.

Lemma C39_l : forall (env : rm_env XR) (P : rm_par XR) X y m,
  rm_fit env P X y = Ok m -> X <> [] ->
  (forall f, r_fun P = Some f -> finite_cutoffs f (cty env P) (cby env P) (cry env P) /\
                                 finite_cutoffs f (ctx env P (ncols X)) (cbx env P (ncols X)) (crx env P (ncols X))) ->
  length (rm_cw m) = length X /\ length (rm_xcw m) = length X /\ length (rm_ycw m) = length X /\
  forall i, (i < length X)%nat ->
    unit_or_nan (nth i (rm_xcw m) NaN) /\ unit_or_nan (nth i (rm_ycw m) NaN) /\ caseweight_ok (nth i (rm_cw m) NaN) /\
    nth i (rm_cw m) NaN = XRmul (nth i (rm_xcw m) NaN) (nth i (rm_ycw m) NaN).
Proof.
  intros env P X y m E Hne Hcut.
  assert (Hn : (1 <= length X)%nat) by (destruct X; [congruence|cbn; lia]).
  apply rm_fit_inv in E as (f & st1 & Xs & st2 & Ys & mX & sX & my & sy & st & calls & Hchk & Hly & H1 & Ex & Ey & _ & _ & _ & _ & El & Ef).
  assert (Hf : r_fun P = Some f).
  { unfold rm_check in Hchk. destruct (r_fun P) as [g|]; [|discriminate]. destruct (_ || _); [discriminate|].
    destruct g; try (apply Ok_inj in Hchk as <-; reflexivity). destruct (negb _); [discriminate|]. apply Ok_inj in Hchk as <-; reflexivity. }
  destruct (Hcut f Hf) as [Hcy Hcx].
  apply rm_finish_inv in Ef as (b & Eb & Hs & Ef). cbv zeta in Ef. destruct Ef as (_ & _ & _ & _ & _ & Exw & Eyw & Ecw & _).
  assert (HlX : length Xs = length X).
  { rewrite (fit_transform_rows _ _ _ _ _ Ex). unfold check_input. rewrite H1. reflexivity. }
  assert (HlY : length (col 0 Ys) = length X).
  { unfold col. rewrite map_length, (fit_transform_rows _ _ _ _ _ Ey). rewrite <- Hly. unfold check_input. cbn [length ncols hd].
    unfold ncols. cbn [hd]. destruct (Nat.leb_spec 2 (length y)); cbn [Nat.eqb andb length hd]; [apply map_length|].
    destruct y as [|v [|? ?]]; cbn in *; lia. }
  assert (Hwx : length (start_wx env P f (ncols X) Xs) = length X).
  { unfold start_wx. rewrite mweights_length. unfold start_dx. rewrite !map_length. auto. }
  apply loop_passed in El as [[-> _]|Hp]; [discriminate|]. destruct Hp as (b' & Eb' & Ewye & Ew0 & Ewe).
  set (wx := start_wx env P f (ncols X) Xs) in *.
  assert (Hye : length (l_wye st) = length X).
  { rewrite Ewye, mweights_length, std_resid_length. unfold vsub. rewrite map2_length_eq; [auto|]. unfold matvec. rewrite map_length. lia. }
  assert (Hw : length (vmul (l_wye st) wx) = length X) by (unfold vmul; rewrite map2_length_eq; lia).
  assert (Hwe : length (l_we st) = length X) by (rewrite Ewe; unfold floor_w; rewrite set_idx_length; auto).
  rewrite Exw, Eyw, Ecw, !set_idx_length. do 3 (split; [auto|]). intros i Hi.
  rewrite !set_idx_nth by lia. rewrite Ewe. unfold floor_w. rewrite set_idx_nth by lia. rewrite Ew0. rewrite (low_spec _ i NaN) by lia.
  assert (Hv : nth i (vmul (l_wye st) wx) NaN = XRmul (nth i (l_wye st) NaN) (nth i wx NaN)).
  { unfold vmul. rewrite (nth_map2 _ _ _ i NaN NaN NaN) by lia. reflexivity. }
  assert (Ux : unit_or_nan (nth i wx NaN)).
  { pose proof (mweights_range f _ _ _ (start_dx Xs) Hcx) as HF. rewrite Forall_forall in HF. apply HF. apply nth_In. exact (eq_ind_r (fun k => (i < k)%nat) Hi Hwx). }
  assert (Uy : unit_or_nan (nth i (l_wye st) NaN)).
  { rewrite Ewye. pose proof (mweights_range f _ _ _ (std_resid (vsub (col 0 Ys) (matvec Xs b'))) Hcy) as HF. rewrite Forall_forall in HF.
    apply HF. apply nth_In. rewrite <- Ewye. lia. }
  rewrite Hv. pose proof (unit_mul _ _ Uy Ux) as Up. rewrite wmin_XR.
  destruct (nltb (XRmul (nth i (l_wye st) NaN) (nth i wx NaN)) (Fin (1 / 1000000))) eqn:Elt.
  - xnum. repeat split; try (apply unit_Fin; lra). { right; left; reflexivity. } cbn. f_equal. ring.
  - repeat split; auto.
    + destruct Up as [->|(r & Er & Hr)]; [left; reflexivity|]. rewrite Er in *. cbn in Elt. rcmp_all. right; right. exists r. split; auto; lra.
    + destruct Ux as [->|(x & -> & _)], Uy as [->|(z & -> & _)]; cbn; auto. f_equal. ring.
Qed.

(** the weighted least-squares problems that are solved *)
Section Calls.
  Context {A : Type} `{Num A}.
  Variable env : rm_env A.
  Variable P : rm_par A.
  Variable f : mfun.
  Variable Xs : list (list A).
  Variables ys wx : list A.
  Variable good : list A -> Prop.
  Hypothesis Hgood : forall b, good (map nsqrt (floor_w (vmul (mweights f (cty env P) (cby env P) (cry env P) (std_resid (vsub ys (matvec Xs b)))) wx))).
  Lemma loop_calls : forall fuel st, good (l_sw st) -> forall Xw yw, In (Xw, yw) (fst (rm_loop env fuel P f Xs ys wx st)) ->
    exists u, good u /\ Xw = row_scale u Xs /\ yw = vmul ys u.
  Proof.
    induction fuel as [|k IH]; intros st Hst Xw yw Hin; [destruct Hin|]. cbn [rm_loop] in Hin.
    destruct (_ && _); [|destruct Hin]. destruct (re_lstsq env _ _) as [b|e] eqn:El.
    - destruct (rm_body _ _ _ _ _ _ _ st b) as [st' brk] eqn:Eb. destruct brk.
      + cbn in Hin. destruct Hin as [E|[]]. injection E as <- <-. eauto.
      + assert (Hst' : good (l_sw st')). { unfold rm_body in Eb. destruct (_ <=? _)%nat; [discriminate|]. injection Eb as <-. cbn [l_sw]. apply Hgood. }
        destruct (rm_loop env k P f Xs ys wx st') as [cs r] eqn:E'. cbn [fst In] in Hin. destruct Hin as [E|Hin].
        * injection E as <- <-. eauto.
        * apply (IH st' Hst'). rewrite E'. exact Hin.
    - cbn in Hin. destruct Hin as [E|[]]. injection E as <- <-. eauto.
  Qed.
End Calls.
Lemma sqrt_wmin : forall r, 1 / 1000000 <= r <= 1 -> 1 / 1000 <= sqrt r <= 1.
Proof.
  intros r Hr. split.
  - replace (1 / 1000) with (sqrt (1 / 1000000)); [apply sqrt_le_1; lra|]. replace (1 / 1000000) with (1 / 1000 * (1 / 1000)) by lra. apply sqrt_square. lra.
  - rewrite <- sqrt_1. apply sqrt_le_1; lra.
Qed.
Lemma floor_inner : forall u v : list XR, Forall unit_or_nan u -> Forall unit_or_nan v -> Forall inner_weight (map nsqrt (floor_w (vmul u v))).
Proof.
  intros u v Hu Hv. apply Forall_map, Forall_forall. intros x Hx. apply (In_nth _ _ NaN) in Hx as (i & Hi & <-). unfold floor_w in *.
  rewrite set_idx_length in Hi. rewrite set_idx_nth by auto. rewrite (low_spec _ i NaN) by auto. rewrite wmin_XR.
  assert (Hl : (i < length u)%nat /\ (i < length v)%nat) by (unfold vmul in Hi; rewrite map2_length in Hi; lia).
  assert (U : unit_or_nan (nth i (vmul u v) NaN)).
  { unfold vmul. rewrite (nth_map2 _ _ _ i NaN NaN NaN) by lia. rewrite Forall_forall in Hu, Hv. apply unit_mul; [apply Hu|apply Hv]; apply nth_In; lia. }
  destruct U as [E|(r & E & Hr)]; rewrite E.
  - left. reflexivity.
  - xnum. cbn [XRltb]. destruct (Rltb r (1 / 1000000)) eqn:El; rcmp_all; right.
    + cbn [XRsqrt]. destruct (Rlt_dec (1 / 1000000) 0); [lra|]. eexists. split; [reflexivity|]. apply sqrt_wmin. lra.
    + cbn [XRsqrt]. destruct (Rlt_dec r 0); [lra|]. eexists. split; [reflexivity|]. apply sqrt_wmin. lra.
Qed.
Lemma C39_inner_l : forall (env : rm_env XR) (P : rm_par XR) X y, X <> [] ->
  (forall f, r_fun P = Some f -> finite_cutoffs f (cty env P) (cby env P) (cry env P) /\
                                 finite_cutoffs f (ctx env P (ncols X)) (cbx env P (ncols X)) (crx env P (ncols X))) ->
  forall Xw yw, In (Xw, yw) (fst (rm_run env P X y)) -> exists Xs ys u,
    snd (sc_fit_transform (re_prep env) (new_scaler (r_centre P) (r_scale P) (Fin 0)) (A2 X)) = Ok Xs /\ length Xs = length X /\ length ys = length X /\
    length u = length X /\ Forall inner_weight u /\
    Xw = map2 (fun w r => map (XRmul w) r) u Xs /\ yw = map2 XRmul ys u.
Proof.
  intros env P X y Hne Hcut Xw yw Hin. unfold rm_run in Hin.
  assert (Hn : (1 <= length X)%nat) by (destruct X; [congruence|cbn; lia]).
  destruct (rm_check P) as [f|] eqn:Hchk; [|destruct Hin].
  assert (Hf : r_fun P = Some f).
  { unfold rm_check in Hchk. destruct (r_fun P) as [g|]; [|discriminate]. destruct (_ || _); [discriminate|].
    destruct g; try (apply Ok_inj in Hchk as <-; reflexivity). destruct (negb _); [discriminate|]. apply Ok_inj in Hchk as <-; reflexivity. }
  destruct (Hcut f Hf) as [Hcy Hcx].
  destruct (Nat.eqb_spec (length y) (length X)) as [Hly|]; [|destruct Hin]. cbn [negb] in Hin.
  destruct ((length X =? 1)%nat && (2 <=? ncols X)%nat) eqn:H1; [destruct Hin|].
  destruct (sc_fit_transform (re_prep env) (new_scaler _ _ _) (A2 X)) as [st1 [Xs|]] eqn:Ex; [|destruct Hin].
  destruct (sc_fit_transform (re_prep env) st1 (A1 y)) as [st2 [Ys|]] eqn:Ey; [|destruct Hin].
  destruct (a_col_loc st1); [|destruct Hin]. destruct (a_col_sca st1); [|destruct Hin].
  destruct (a_col_loc st2); [|destruct Hin]. destruct (a_col_sca st2); [|destruct Hin]. cbv zeta in Hin.
  assert (HlX : length Xs = length X).
  { rewrite (fit_transform_rows _ _ _ _ _ Ex). unfold check_input. rewrite H1. reflexivity. }
  assert (HlY : length (col 0 Ys) = length X).
  { unfold col. rewrite map_length, (fit_transform_rows _ _ _ _ _ Ey). rewrite <- Hly. unfold check_input. cbn [length ncols hd].
    unfold ncols. cbn [hd]. destruct (Nat.leb_spec 2 (length y)); cbn [Nat.eqb andb length hd]; [apply map_length|].
    destruct y as [|v [|? ?]]; cbn in *; lia. }
  match type of Hin with In _ (fst (let '(_, _) := ?L in _)) => destruct L as [calls r] eqn:EL end. cbn [fst] in Hin.
  set (wx := mweights f (ctx env P (ncols X)) (cbx env P (ncols X)) (crx env P (ncols X)) (start_dx Xs)) in *.
  assert (Hwx : length wx = length X) by (unfold wx; rewrite mweights_length; unfold start_dx; rewrite !map_length; auto).
  assert (Rx : Forall unit_or_nan wx) by (apply mweights_range; auto).
  assert (fl : forall w : list XR, length (map nsqrt (floor_w w)) = length w) by (intros; unfold floor_w; rewrite map_length, set_idx_length; auto).
  assert (Hdy : length (start_dy P y (col 0 Ys)) = length X).
  { unfold start_dy. destruct (r_centre P); try destruct (r_scale P); rewrite ?map_length; auto. }
  destruct (loop_calls env P f Xs (col 0 Ys) wx (fun u => length u = length X /\ Forall inner_weight u)) with (fuel := S (r_maxit P))
    (st := mk_rs None (mweights f (cty env P) (cby env P) (cry env P) (start_dy P y (col 0 Ys)))
             (floor_w (vmul wx (mweights f (cty env P) (cby env P) (cry env P) (start_dy P y (col 0 Ys)))))
             (low (vmul wx (mweights f (cty env P) (cby env P) (cry env P) (start_dy P y (col 0 Ys)))))
             (map nsqrt (floor_w (vmul wx (mweights f (cty env P) (cby env P) (cry env P) (start_dy P y (col 0 Ys)))))) (nlit 1 100000) n1 1)
    (Xw := Xw) (yw := yw) as (u & [U1 U2] & E1 & E2).
  - intros b. split; [|apply floor_inner; auto; apply mweights_range; auto].
    rewrite fl. unfold vmul. rewrite map2_length_eq; rewrite mweights_length, std_resid_length; unfold vsub; rewrite map2_length_eq; unfold matvec; rewrite ?map_length; lia.
  - cbn [l_sw]. split; [|apply floor_inner; auto; apply mweights_range; auto].
    rewrite fl. unfold vmul. rewrite map2_length_eq; rewrite ?mweights_length; lia.
  - rewrite EL. exact Hin.
  - exists Xs, (col 0 Ys), u. repeat split; auto.
Qed.
