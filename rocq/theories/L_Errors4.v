(** Lemmas on regression options of ppdire and on refused arguments *)
From Coq Require Import String Reals List Arith ZArith Bool Lia.
Import List. Import ListNotations.
From Verif Require Import Num Err Vec S_Stats M_Utils M_Preproc M_Robcent M_Dicomo M_Gsspp M_Ppdire S_Errors4.
Import List.

Section Regopt.
  Context {A : Type} `{Num A}.
  Variable env : pp_env A.
  Definition fails (r : string) (kw : bool) : Prop := r <> "OLS"%string /\ (r = "robust"%string \/ r = "quantile"%string -> kw = false).
  Lemma inner_fails : forall prm r kw ys y t, fails r kw -> inner_coef env (with_regopt r prm) kw ys y t = Err UnboundLocalError.
  Proof.
    intros prm r kw ys y t [H1 H2]. unfold inner_coef. cbn [with_regopt pp_regopt]. destruct (String.eqb_spec r "OLS"); [contradiction|].
    destruct (String.eqb_spec r "robust"); [rewrite H2 by auto; reflexivity|]. destruct (String.eqb_spec r "quantile"); [rewrite H2 by auto; reflexivity|]. reflexivity.
  Qed.
  Lemma loop_fails : forall k prm r most kw y K n p sX d E cs yc R d' out, fails r (yi_kw y) ->
    pp_loop env (S k) prm most kw (Some y) K n p sX d E cs yc R = (d', Ok out) ->
    snd (pp_loop env (S k) (with_regopt r prm) most kw (Some y) K n p sX d E cs yc R) = Err UnboundLocalError.
  Proof.
    intros k prm r most kw y K n p sX d E cs yc R d' out Hf Hl. cbn [pp_loop] in *.
    change (direction env (with_regopt r prm) most kw d p E) with (direction env prm most kw d p E). destruct (direction env prm most kw d p E) as [d2 [wo|e]]; cbn [bind] in *; [|discriminate].
    change (component (with_regopt r prm) most kw true K n p E wo) with (component prm most kw true K n p E wo). destruct (component prm most kw true K n p E wo) as [c|e]; cbn [bind] in *; [|discriminate].
    destruct (rotations env p (cs ++ [c])) as [R'|e]; cbn [bind] in *; [|discriminate]. rewrite (inner_fails prm r _ _ _ _ Hf). reflexivity.
  Qed.
  Lemma response_kw : forall prm s n kwy y yi m, response env prm s n kwy y = Ok (yi, m) -> yi_kw yi = kwy.
  Proof.
    intros prm s n kwy y yi m E. unfold response in E. destruct (negb _); [discriminate|]. destruct (negb _); [discriminate|]. destruct (pp_center_data prm).
    - destruct (pp_scaled _ _ _ _ _) as [[[m0 v] Z]|e]; cbn [bind] in E; [|discriminate]. injection E as <- _. reflexivity.
    - injection E as <- _. reflexivity.
  Qed.
  Lemma regopt_fails : forall prm d X f r m, pp_regopt prm = "OLS"%string -> (0 < match f_h f with Some h => h | None => pp_ncomp prm end)%nat ->
    snd (pp_fit env prm d X f) = Ok m ->
    r <> "OLS"%string ->
    match f_y f with YNone => False | YPos _ => True | YKw _ => r <> "robust"%string /\ r <> "quantile"%string end ->
    snd (pp_fit env (with_regopt r prm) d X f) = Err UnboundLocalError.
  Proof.
    intros [idx nc tr al op ro ce cd sd wh sq cp] d X [yy hh bb oo dm] r m HO Hh E Hr Hy. cbn [pp_regopt] in HO. subst ro. cbn [f_h f_y pp_ncomp] in *.
    unfold with_regopt. cbn [pp_idx pp_ncomp pp_trim pp_alpha pp_optim pp_center pp_center_data pp_scale_data pp_whiten pp_square pp_compress].
    unfold pp_fit in *. cbn [f_h f_y f_bias] in *.
    assert (W : forall q, with_h (mk_pp idx nc tr al op q ce cd sd wh sq cp) hh = with_regopt q (mk_pp idx (match hh with Some h => h | None => nc end) tr al op "OLS" ce cd sd wh sq cp)) by (intros q; destruct hh; reflexivity).
    rewrite W in *. set (h := match hh with Some h => h | None => nc end) in *. clear W. unfold with_regopt in *.
    cbn [pp_idx pp_ncomp pp_trim pp_alpha pp_optim pp_center pp_center_data pp_scale_data pp_whiten pp_square pp_compress] in *.
    destruct (ix_dicomo idx && _)%bool; [discriminate|]. destruct (ix_new idx) as [most|e]; [|discriminate].
    destruct (Nat.min (length X) (ncols X) <? h)%nat; [discriminate|].
    assert (W : exists P : pparams A, forall q, with_whitening (mk_pp idx h tr al op q ce cd sd wh sq cp) = with_regopt q P).
    { destruct wh; [exists (mk_pp idx h tr al op "OLS" ce true false true sq false)|exists (mk_pp idx h tr al op "OLS" ce cd sd false sq cp)]; intros q; reflexivity. }
    destruct W as [P W]. rewrite (W "OLS"%string) in E. rewrite (W r). clear W.
    change (scale_name (with_regopt r P)) with (scale_name (with_regopt "OLS" P)). destruct (scale_name (with_regopt "OLS" P)) as [s|e]; [|discriminate].
    change (pp_compress (with_regopt r P)) with (pp_compress (with_regopt "OLS" P)).
    match type of E with snd (match ?M with Ok _ => _ | Err _ => _ end) = _ => destruct M as [[[X1 p] dims]|e]; [|discriminate] end.
    change (pp_center_data (with_regopt r P)) with (pp_center_data (with_regopt "OLS" P)). change (pp_center (with_regopt r P)) with (pp_center (with_regopt "OLS" P)). change (pp_trim (with_regopt r P)) with (pp_trim (with_regopt "OLS" P)).
    match type of E with snd (match ?M with Ok _ => _ | Err _ => _ end) = _ => destruct M as [[[mX sX] Xs0]|e]; [|discriminate] end.
    change (pp_whiten (with_regopt r P)) with (pp_whiten (with_regopt "OLS" P)).
    match type of E with snd (match ?M with Ok _ => _ | Err _ => _ end) = _ => destruct M as [[Xs K]|e]; [|discriminate] end.
    destruct yy as [|y|y]; [contradiction| |].
    - match goal with |- context [response env (with_regopt r P) ?s ?n ?k ?y] => change (response env (with_regopt r P) s n k y) with (response env (with_regopt "OLS" P) s n k y); destruct (response env (with_regopt "OLS" P) s n k y) as [[yi my]|e] eqn:ER; cbn [bind] in *; [|discriminate] end.
      apply response_kw in ER.
      change (pp_optim (with_regopt r P)) with (pp_optim (with_regopt "OLS" P)).
      match type of E with snd (match ?M with Ok _ => _ | Err _ => _ end) = _ => destruct M as [u|e]; [|discriminate] end.
      match goal with |- context [index_kw (with_regopt r P) ?b ?y] => change (index_kw (with_regopt r P) b y) with (index_kw (with_regopt "OLS" P) b y) end.
      match type of E with snd (let (_, _) := ?M in _) = _ => destruct M as [d2 [out|e]] eqn:EL; [|discriminate] end.
      destruct h as [|k]; [lia|].
      pose proof (loop_fails k (with_regopt "OLS" P) r _ _ yi _ _ _ _ _ _ _ _ _ d2 out ltac:(split; [exact Hr|intros HH; first [exact ER|exfalso; destruct Hy, HH; contradiction]]) EL) as HL.
      change (with_regopt r (with_regopt "OLS" P)) with (with_regopt r P) in HL.
      match goal with |- snd (let (_, _) := ?M in _) = _ => destruct M as [d3 rr] end; cbn [snd] in HL |- *; rewrite HL; reflexivity.
    - match goal with |- context [response env (with_regopt r P) ?s ?n ?k ?y] => change (response env (with_regopt r P) s n k y) with (response env (with_regopt "OLS" P) s n k y); destruct (response env (with_regopt "OLS" P) s n k y) as [[yi my]|e] eqn:ER; cbn [bind] in *; [|discriminate] end.
      apply response_kw in ER.
      change (pp_optim (with_regopt r P)) with (pp_optim (with_regopt "OLS" P)).
      match type of E with snd (match ?M with Ok _ => _ | Err _ => _ end) = _ => destruct M as [u|e]; [|discriminate] end.
      match goal with |- context [index_kw (with_regopt r P) ?b ?y] => change (index_kw (with_regopt r P) b y) with (index_kw (with_regopt "OLS" P) b y) end.
      match type of E with snd (let (_, _) := ?M in _) = _ => destruct M as [d2 [out|e]] eqn:EL; [|discriminate] end.
      destruct h as [|k]; [lia|].
      pose proof (loop_fails k (with_regopt "OLS" P) r _ _ yi _ _ _ _ _ _ _ _ _ d2 out ltac:(split; [exact Hr|intros HH; first [exact ER|exfalso; destruct Hy, HH; contradiction]]) EL) as HL.
      change (with_regopt r (with_regopt "OLS" P)) with (with_regopt r P) in HL.
      match goal with |- snd (let (_, _) := ?M in _) = _ => destruct M as [d3 rr] end; cbn [snd] in HL |- *; rewrite HL; reflexivity.
  Qed.
End Regopt.

Lemma MDDM_lengths : forall {A} `{Num A} (X Y : list (list A)), length X <> length Y -> MDDM X Y = Err ValueError.
Proof. intros A H X Y HL. unfold MDDM. destruct (Nat.eqb_spec (length Y) (length X)); [congruence|reflexivity]. Qed.
Lemma unfitted : forall {A} `{Num A} (env : prep_env A) c f X x,
  gss_transform (new_gss c f) x = Err NotFittedError /\
  (forall e, snd (gss_fit env (new_gss c f) X) = Err e -> gss_transform (fst (gss_fit env (new_gss c f) X)) x = Err NotFittedError).
Proof.
  intros A H env c f X x. split; [reflexivity|]. intros e E. unfold gss_fit in *.
  repeat match type of E with snd (match ?M with _ => _ end) = _ => destruct M; try discriminate E; try reflexivity end.
Qed.
Section Ignored.
  Context {A : Type} `{Num A}.
  Variable env : pp_env A.
  Lemma loop_ignored : forall k prm r most kw K n p sX d E cs yc R,
    pp_loop env k (with_regopt r prm) most kw None K n p sX d E cs yc R = pp_loop env k prm most kw None K n p sX d E cs yc R.
  Proof.
    induction k as [|k IH]; intros; [reflexivity|]. cbn [pp_loop].
    change (direction env (with_regopt r prm) most kw d p E) with (direction env prm most kw d p E). destruct (direction env prm most kw d p E) as [d2 rw].
    change (component (with_regopt r prm) most kw false K n p E) with (component prm most kw false K n p E).
    match goal with |- match ?M with _ => _ end = _ => destruct M as [[[[c cs'] yc'] R']|e] end; [apply IH|reflexivity].
  Qed.
  Lemma regopt_ignored : forall prm d X f r, f_y f = YNone -> snd (pp_fit env (with_regopt r prm) d X f) = snd (pp_fit env prm d X f).
  Proof.
    intros prm d X f r Hy. unfold pp_fit. rewrite Hy.
    assert (W : with_h (with_regopt r prm) (f_h f) = with_regopt r (with_h prm (f_h f))) by (destruct (f_h f); reflexivity). rewrite W. clear W. set (P := with_h prm (f_h f)). clearbody P.
    assert (W : with_whitening (with_regopt r P) = with_regopt r (with_whitening P)) by (unfold with_whitening; cbn [with_regopt pp_whiten]; destruct (pp_whiten P); reflexivity). rewrite W. clear W.
    set (P2 := with_whitening P). clearbody P2.
    change (pp_idx (with_regopt r P)) with (pp_idx P). change (pp_ncomp (with_regopt r P)) with (pp_ncomp P).
    destruct (ix_dicomo (pp_idx P) && _)%bool; [reflexivity|]. destruct (ix_new (pp_idx P)) as [most|e]; [|reflexivity].
    destruct (Nat.min (length X) (ncols X) <? pp_ncomp P)%nat; [reflexivity|].
    change (scale_name (with_regopt r P2)) with (scale_name P2). destruct (scale_name P2) as [s|e]; [|reflexivity].
    change (pp_compress (with_regopt r P2)) with (pp_compress P2). change (pp_center_data (with_regopt r P2)) with (pp_center_data P2). change (pp_center (with_regopt r P2)) with (pp_center P2).
    change (pp_trim (with_regopt r P2)) with (pp_trim P2). change (pp_whiten (with_regopt r P2)) with (pp_whiten P2). change (pp_optim (with_regopt r P2)) with (pp_optim P2).
    match goal with |- snd (match ?M with Ok _ => _ | Err _ => _ end) = _ => destruct M as [[[X1 p] dims]|e]; [|reflexivity] end.
    match goal with |- snd (match ?M with Ok _ => _ | Err _ => _ end) = _ => destruct M as [[[mX sX] Xs0]|e]; [|reflexivity] end.
    match goal with |- snd (match ?M with Ok _ => _ | Err _ => _ end) = _ => destruct M as [[Xs K]|e]; [|reflexivity] end.
    match goal with |- snd (match ?M with Ok _ => _ | Err _ => _ end) = _ => destruct M as [u|e]; [|reflexivity] end.
    rewrite loop_ignored. change (index_kw (with_regopt r P2)) with (index_kw P2). destruct (pp_loop env _ _ _ _ _ _ _ _ _ _ _ _ _ _) as [d2 [[[cs yc] R]|e]]; reflexivity.
  Qed.
End Ignored.
