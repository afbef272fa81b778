(** Lemmas for T_Dtype: arrays of integers. *)

From Coq Require Import String List Arith ZArith Bool Reals Lra Lia.
Import List. Import ListNotations.
From Verif Require Import Num Err Vec M_Utils M_Preproc M_Robcent M_Dicomo M_Ipopt M_Msupport M_Ppdire M_Dtype.
Import List.

Section Generic.
  Context {A : Type} `{Num A}.

  Lemma map2_const_r : forall (f : A -> A -> A) m (r : vec A), map2 f r (map (fun _ => m) r) = map (fun v => f v m) r.
  Proof. intros f m r. induction r as [|x r IH]; cbn; [reflexivity|]. unfold map2 in IH |- *. cbn. f_equal. exact IH. Qed.

  Lemma msub_const : forall m (X : mat A), msub X (map (map (fun _ => m)) X) = map (map (fun v => nsub v m)) X.
  Proof.
    intros m X. unfold msub. induction X as [|r X IH]; [reflexivity|]. unfold map2 in IH |- *. cbn. f_equal; [|exact IH].
    apply map2_const_r.
  Qed.
  Lemma msub_rows : forall (v : vec A) (X : mat A), msub X (map (fun _ => v) X) = rows_op nsub X v.
  Proof.
    intros v X. unfold msub, rows_op. induction X as [|r X IH]; [reflexivity|]. unfold map2 in IH |- *. cbn. f_equal. exact IH.
  Qed.

  Lemma tau_float : forall es2 c1 c2 cons fin (X : mat A), scaleTau2D es2 c1 c2 cons fin (floats X) = Ok (scaleTau2 es2 c1 c2 cons fin X).
  Proof.
    intros. unfold scaleTau2D, scaleTau2, isub, idiv_rows, floats. cbn [na_int na_val bind].
    destruct (nltb n0 c1); rewrite ?msub_const, ?msub_rows; reflexivity.
  Qed.
  Lemma tau_int : forall es2 c1 c2 cons fin (X : mat A), scaleTau2D es2 c1 c2 cons fin (ints X) = Err TypeError.
  Proof. reflexivity. Qed.

  Variable env : prep_env A.
  Lemma est_float : forall s t b (X : mat A), b = false \/ s <> STau2 -> scale_estD env s t (mk_narr b X) = scale_est env s t X.
  Proof. intros s t b X Hs. destruct s; try reflexivity. destruct Hs as [->|Hs]; [apply tau_float|congruence]. Qed.
  Lemma fitD_float : forall st b (X : mat A), b = false \/ sc_scale st <> STau2 -> sc_fitD env st (mk_narr b X) = sc_fit env st (A2 X).
  Proof. intros st b X Hs. unfold sc_fitD, sc_fit. cbn [na_val na_int]. rewrite est_float by exact Hs. reflexivity. Qed.
  Lemma ftD_float : forall st b (X : mat A), b = false \/ sc_scale st <> STau2 -> sc_fit_transformD env st (mk_narr b X) = sc_fit_transform env st (A2 X).
  Proof. intros st b X Hs. unfold sc_fit_transformD, sc_fit_transform. rewrite fitD_float by exact Hs. reflexivity. Qed.
  Lemma ftD_tau : forall st (X : mat A), sc_scale st = STau2 -> forall Z, snd (sc_fit_transformD env st (floats X)) = Ok Z -> snd (sc_fit_transformD env st (ints X)) = Err TypeError.
  Proof.
    intros st X Hs Z. unfold sc_fit_transformD, sc_fitD, floats, ints. cbn [na_val na_int]. rewrite Hs.
    destruct (check_trimming (sc_trimming st)); [|discriminate]. destruct (is_bad (sc_center st) STau2); [discriminate|].
    destruct (location env (sc_center st) (sc_trimming st) (check_input (A2 X))); [|discriminate]. intros _. reflexivity.
  Qed.
End Generic.

Section GenericPp.
  Context {A : Type} `{Num A}.
  Variable env : pp_env A.

  Lemma scaledD_float : forall c s t b (X : mat A), b = false \/ s <> STau2 -> pp_scaledD env c s t (mk_narr b X) = pp_scaled env c s t X.
  Proof. intros. unfold pp_scaledD, pp_scaled. rewrite ftD_float by assumption. reflexivity. Qed.

  Lemma loopD_float : forall k prm most kw yi K n p sX d (E : mat A) cs yc R,
    pp_loopD env k prm most kw yi K n p sX d (floats E) cs yc R = pp_loop env k prm most kw yi K n p sX d E cs yc R.
  Proof.
    induction k as [|k IH]; intros; [reflexivity|]. cbn [pp_loopD pp_loop]. cbn [na_val floats].
    destruct (direction env prm most kw d p E) as [d' [wo|e]]; [|reflexivity]. cbn [bind].
    destruct (component prm most kw (match yi with Some _ => true | None => false end) K n p E wo) as [c|e] eqn:EC; [|reflexivity].
    assert (HE : g_E c = msub E (outer (g_t c) (g_p c))).
    { unfold component in EC. destruct wo as [wi om]. destruct (npdot E wi) as [t|]; [|discriminate]. cbn [bind] in EC.
      destruct (match om with Some o => Ok o | None => most (as_col t) kw end); [|discriminate]. cbn [bind] in EC.
      match goal with E1 : (if ?g then _ else _) = _ |- _ => destruct g; [discriminate|] end.
      match goal with E1 : bind ?g _ = _ |- _ => destruct g; [|discriminate] end. cbn [bind] in EC. apply Ok_inj in EC. subst c. reflexivity. }
    cbn [bind]. unfold isub. cbn [na_int na_val floats bind].
    destruct (rotations env p (cs ++ [c])) as [R'|e]; [|reflexivity]. cbn [bind].
    match goal with |- context [bind ?g (fun yc' => Ok (floats _, _, yc', R'))] => destruct g as [yc'|e]; [|reflexivity] end.
    cbn [bind]. rewrite IH, HE. reflexivity.
  Qed.

  Lemma scale_name_tau : forall (prm : pparams A) s, scale_name prm = Ok s -> s <> STau2.
  Proof. intros prm s. unfold scale_name. destruct (pp_scale_data prm); [destruct (pp_center prm)|]; intros E; try discriminate E; injection E as <-; discriminate. Qed.
  Lemma center_white : forall prm : pparams A, pp_center_data prm = true \/ pp_whiten prm = true -> pp_center_data (with_whitening prm) = true.
  Proof. intros prm [E|E]; unfold with_whitening; destruct (pp_whiten prm) eqn:W; cbn; auto; congruence. Qed.
  Lemma with_h_center : forall (prm : pparams A) h, pp_center_data (with_h prm h) = pp_center_data prm /\ pp_whiten (with_h prm h) = pp_whiten prm /\ pp_compress (with_h prm h) = pp_compress prm.
  Proof. intros prm [h|]; cbn; auto. Qed.

  Ltac ppd_tail :=
    repeat match goal with |- (match ?g with _ => _ end) = _ => (lazymatch g with pp_loopD _ _ _ _ _ _ _ _ _ _ _ _ _ _ _ => fail | _ => destruct g; [|reflexivity] end) end;
    rewrite ?loopD_float; reflexivity.
  Ltac ppd_white prm2 Z :=
    destruct (pp_whiten prm2);
    [destruct (pe_svd env (transpose Z)) as [[[? ?] ?]|]; cbn [bind]; [|reflexivity]; cbv zeta; cbn [na_val floats]; ppd_tail
    |cbv zeta; cbn [na_val]; ppd_tail].

  Lemma ppD_float : forall prm d b (X : mat A) f, b = false \/ pp_center_data prm = true \/ pp_whiten prm = true -> pp_fitD env prm d (mk_narr b X) f = pp_fit env prm d X f.
  Proof.
    intros prm d b X0 f Hb. unfold pp_fitD, pp_fit. cbn [na_val].
    destruct (ix_dicomo (pp_idx (with_h prm (f_h f))) && match ix_mode (pp_idx (with_h prm (f_h f))) with Some _ => false | None => true end); [reflexivity|].
    destruct (ix_new (pp_idx (with_h prm (f_h f)))) as [most|]; [|reflexivity].
    destruct (Nat.min (length X0) (ncols X0) <? pp_ncomp (with_h prm (f_h f)))%nat; [reflexivity|].
    assert (HC : b = false \/ pp_center_data (with_whitening (with_h prm (f_h f))) = true).
    { destruct Hb as [Hb|Hb]; [left; exact Hb|right; apply center_white]. destruct (with_h_center prm (f_h f)) as (-> & -> & _). exact Hb. }
    set (prm2 := with_whitening (with_h prm (f_h f))) in *.
    destruct (scale_name prm2) as [s|] eqn:ES; [|reflexivity].
    pose proof (scale_name_tau _ _ ES) as Hs.
    destruct ((length X0 <? ncols X0)%nat && pp_compress prm2) eqn:Ecp.
    - destruct (pe_svd env (transpose X0)) as [[[V sv] U]|]; cbn [bind]; [|reflexivity].
      set (Xc := map (fun r => map2 nmul r sv) (transpose U)). cbv zeta.
      destruct (existsb (fun v => neqb v n0) (mad Xc)).
      + destruct (pp_center_data prm2) eqn:Ecd.
        * rewrite scaledD_float by (right; exact Hs). cbn [na_val]. destruct (pp_scaled env (pp_center prm2) s (pp_trim prm2) X0) as [[[m v] Z]|]; cbn [bind]; [|reflexivity].
          cbn [na_val floats]. ppd_white prm2 Z.
        * destruct HC as [->|HC]; [|discriminate HC]. cbn [na_val]. fold (floats X0). ppd_white prm2 X0.
      + destruct (pp_center_data prm2) eqn:Ecd.
        * change (pp_scaledD env (pp_center prm2) s (pp_trim prm2) (floats Xc)) with (pp_scaledD env (pp_center prm2) s (pp_trim prm2) (mk_narr false Xc)). rewrite scaledD_float by (right; exact Hs). cbn [na_val floats]. destruct (pp_scaled env (pp_center prm2) s (pp_trim prm2) Xc) as [[[m v] Z]|]; cbn [bind]; [|reflexivity].
          cbn [na_val floats]. ppd_white prm2 Z.
        * cbn [na_val floats]. ppd_white prm2 Xc.
    - cbv zeta. destruct (pp_center_data prm2) eqn:Ecd.
      + rewrite scaledD_float by (right; exact Hs). cbn [na_val]. destruct (pp_scaled env (pp_center prm2) s (pp_trim prm2) X0) as [[[m v] Z]|]; cbn [bind]; [|reflexivity].
        cbn [na_val floats]. ppd_white prm2 Z.
      + destruct HC as [->|HC]; [|discriminate HC]. cbn [na_val]. fold (floats X0). ppd_white prm2 X0.
  Qed.

  Lemma loopD_int : forall k prm most kw yi K n p sX d (E : mat A) cs yc R r, (1 <= k)%nat -> snd (pp_loop env k prm most kw yi K n p sX d E cs yc R) = Ok r ->
    snd (pp_loopD env k prm most kw yi K n p sX d (ints E) cs yc R) = Err TypeError.
  Proof.
    intros k prm most kw yi K n p sX d E cs yc R r Hk. destruct k as [|k]; [lia|]. cbn [pp_loopD pp_loop]. cbn [na_val ints].
    destruct (direction env prm most kw d p E) as [d' [wo|e]]; [|discriminate]. cbn [bind].
    destruct (component prm most kw (match yi with Some _ => true | None => false end) K n p E wo) as [c|e] eqn:EC; [|discriminate].
    intros _. reflexivity.
  Qed.

  Lemma ppD_int : forall prm d (X : mat A) f q d2 m, pp_center_data prm = false -> pp_whiten prm = false -> pp_compress prm = false \/ (ncols X <= length X)%nat ->
    (1 <= pp_ncomp (with_h prm (f_h f)))%nat -> pp_fit env prm d X f = (q, d2, Ok m) -> snd (pp_fitD env prm d (ints X) f) = Err TypeError.
  Proof.
    intros prm d X0 f q d2 m Hc Hw Hcp Hh. unfold pp_fitD, pp_fit. cbn [na_val ints].
    destruct (ix_dicomo (pp_idx (with_h prm (f_h f))) && match ix_mode (pp_idx (with_h prm (f_h f))) with Some _ => false | None => true end); [discriminate|].
    destruct (ix_new (pp_idx (with_h prm (f_h f)))) as [most|]; [|discriminate].
    destruct (Nat.min (length X0) (ncols X0) <? pp_ncomp (with_h prm (f_h f)))%nat; [discriminate|].
    destruct (with_h_center prm (f_h f)) as (E1 & E2 & E3).
    assert (EW : with_whitening (with_h prm (f_h f)) = with_h prm (f_h f)) by (unfold with_whitening; rewrite E2, Hw; reflexivity).
    rewrite EW. set (prm2 := with_h prm (f_h f)) in *. rewrite Hc in E1. rewrite Hw in E2.
    destruct (scale_name prm2) as [s|]; [|discriminate].
    assert (Ecp : (length X0 <? ncols X0)%nat && pp_compress prm2 = false).
    { rewrite E3. destruct Hcp as [->|Hcp]; [apply andb_false_r|]. apply Nat.ltb_ge in Hcp. rewrite Hcp. reflexivity. }
    rewrite Ecp, E1, E2. cbv zeta. cbn [na_val ints].
    match goal with |- (match ?g with Ok _ => _ | Err _ => _ end) = _ -> _ => destruct g as [yi|]; [|discriminate] end.
    match goal with |- (match ?g with Ok _ => _ | Err _ => _ end) = _ -> _ => destruct g as [u|]; [|discriminate] end.
    match goal with |- (let '(_, _) := pp_loop env ?h ?a1 ?a2 ?a3 ?a4 ?a5 ?a6 ?a7 ?a8 ?a9 ?a10 ?a11 ?a12 ?a13 in _) = _ -> _ =>
      pose proof (loopD_int h a1 a2 a3 a4 a5 a6 a7 a8 a9 a10 a11 a12 a13) as HL;
      destruct (pp_loop env h a1 a2 a3 a4 a5 a6 a7 a8 a9 a10 a11 a12 a13) as [d3 [r|e]]; [|discriminate];
      change (mk_narr true a10) with (ints a10);
      destruct (pp_loopD env h a1 a2 a3 a4 a5 a6 a7 a8 a9 (ints a10) a11 a12 a13) as [d4 r4] end.
    intros _. specialize (HL r Hh eq_refl). cbn [snd] in HL |- *. rewrite HL. reflexivity.
  Qed.
End GenericPp.

(** ** Integer weights *)
Open Scope R_scope.
Lemma int_part_unique : forall x k, IZR k <= x < IZR k + 1 -> Int_part x = k.
Proof.
  intros x k Hx. destruct (base_Int_part x) as [H1 H2]. assert (H3 : IZR (Int_part x) < IZR (k + 1)) by (rewrite plus_IZR; lra). assert (H4 : IZR k < IZR (Int_part x + 1)) by (rewrite plus_IZR; lra).
  apply lt_IZR in H3. apply lt_IZR in H4. lia.
Qed.
Lemma Int_part_small : forall x, 0 <= x < 1 -> Int_part x = 0%Z.
Proof. intros x Hx. apply int_part_unique. cbn. lra. Qed.
Lemma ntrunc_small : forall x : R, 0 <= x < 1 -> ntrunc x = 0.
Proof.
  intros x Hx. unfold ntrunc. cbn [nleb Num_R n0 nfloor nopp]. unfold Rleb. destruct (Rle_dec 0 x); [|lra]. rewrite Int_part_small by exact Hx.
  unfold nZ. cbn [nlit Num_R]. lra.
Qed.
Lemma ntrunc_one : ntrunc (1 : R) = 1.
Proof.
  unfold ntrunc. cbn [nleb Num_R n0 nfloor nopp]. unfold Rleb. destruct (Rle_dec 0 1); [|lra]. replace (Int_part 1) with 1%Z by (symmetry; apply int_part_unique; cbn; lra).
  unfold nZ. cbn [nlit Num_R]. lra.
Qed.

Lemma huber_int : forall c (x : list R), 1 <= c -> HuberD true x c = map (fun v => if Rle_dec v c then 1 else 0) x.
Proof.
  intros c x Hc. unfold HuberD, updD. rewrite map_map. apply map_ext_in. intros v Hv. cbn [nleb nltb Num_R n1 ndiv nabs]. unfold Rleb, Rltb, stored.
  destruct (Rle_dec v c) as [Hvc|Hvc].
  - cbn [n1 Num_R]. rewrite ntrunc_one. destruct (Rlt_dec c 1); [lra|reflexivity].
  - destruct (Rlt_dec c v); [|lra]. rewrite Rabs_right by lra. apply ntrunc_small.
    assert (0 < v) by lra. split; [apply Rmult_le_pos; [lra|left; apply Rinv_0_lt_compat; lra]|]. apply Rmult_lt_reg_r with v; [lra|]. unfold Rdiv. rewrite Rmult_assoc, Rinv_l by lra. lra.
Qed.
Lemma hampel_int : forall c b r (x : list R), 1 <= c -> c <= b -> b < r -> HampelD true x c b r = map (fun v => if Rle_dec v c then 1 else 0) x.
Proof.
  intros c b r x Hc Hb Hr. unfold HampelD, updD. rewrite !map_map. apply map_ext_in. intros v Hv. cbn [nleb nltb Num_R n1 n0 ndiv nabs nmul nsub]. unfold Rleb, Rltb, stored.
  destruct (Rle_dec v c) as [Hvc|Hvc].
  - cbn [n1 Num_R]. rewrite ntrunc_one. destruct (Rlt_dec c 1); [lra|]. cbn [andb]. destruct (Rlt_dec b 1); [lra|]. cbn [andb]. destruct (Rlt_dec r 1); [lra|reflexivity].
  - assert (Hcv : 0 <= c / v < 1).
    { split; [apply Rmult_le_pos; [lra|left; apply Rinv_0_lt_compat; lra]|]. apply Rmult_lt_reg_r with v; [lra|]. unfold Rdiv. rewrite Rmult_assoc, Rinv_l by lra. lra. }
    destruct (Rlt_dec c v); [|lra]. cbn [andb]. destruct (Rle_dec v b) as [Hvb|Hvb].
    + rewrite (Rabs_right v) by lra. rewrite ntrunc_small by exact Hcv. destruct (Rlt_dec b 0); [lra|]. cbn [andb]. destruct (Rlt_dec r 0); [lra|reflexivity].
    + destruct (Rlt_dec b v); [|lra]. cbn [andb]. destruct (Rle_dec v r) as [Hvr|Hvr].
      * rewrite (Rabs_right v) by lra. rewrite ntrunc_small; [destruct (Rlt_dec r 0); [lra|reflexivity]|].
        replace (c * (r - v) / ((r - b) * v)) with ((c / v) * ((r - v) / (r - b))) by (field; lra).
        assert (H1 : 0 <= (r - v) / (r - b) < 1).
        { split; [apply Rmult_le_pos; [lra|left; apply Rinv_0_lt_compat; lra]|]. apply Rmult_lt_reg_r with (r - b); [lra|]. unfold Rdiv. rewrite Rmult_assoc, Rinv_l by lra. lra. }
        split; [apply Rmult_le_pos; lra|]. destruct Hcv. destruct H1. apply Rle_lt_trans with (c / v * 1); [apply Rmult_le_compat_l; lra|lra].
      * destruct (Rlt_dec r v); [|lra]. rewrite ntrunc_small by lra. reflexivity.
Qed.
Lemma weightsD_float : forall {A} `{Num A} (x : list A) c b r, HuberD false x c = Huber x c /\ HampelD false x c b r = Hampel x c b r.
Proof. intros. split; reflexivity. Qed.
