(** ppdire: where a fit succeeds, the fit with fewer components succeeds *)
From Coq Require Import String List Reals Lra Lia Arith ZArith Bool.
Import ListNotations. Import List.
From Verif Require Import Num Err Vec M_Utils M_Preproc M_Robcent M_Plot M_Dicomo M_Ppdire L_Stats VecR L_Mat L_Lin L_Pp L_Pp2 S_Nested L_Nested.
Open Scope R_scope.

Lemma trim_ok_length : forall (t : R) u v a, length u = length v -> trim_mean1 t u = Ok a -> exists b, trim_mean1 t v = Ok b.
Proof.
  intros t u v a Hl E. unfold trim_mean1 in *. rewrite <- Hl. 
  destruct (_ : bool); [discriminate|]. eauto.
Qed.
Lemma mapM_ok_all : forall {T U} (g : T -> res U) l, (forall x, In x l -> exists b, g x = Ok b) -> exists r, mapM g l = Ok r.
Proof.
  intros T U g l. induction l as [|x l IH]; intros Hl; [exists []; reflexivity|]. destruct (Hl x (or_introl eq_refl)) as (b & Eb).
  destruct IH as (r & Er); [intros z Hz; apply Hl; right; exact Hz|]. exists (b :: r). cbn [mapM]. rewrite Eb. cbn [bind]. rewrite Er. reflexivity.
Qed.
Lemma mapM_ok_each : forall {T U} (g : T -> res U) l r, mapM g l = Ok r -> forall x, In x l -> exists b, g x = Ok b.
Proof.
  intros T U g l. induction l as [|z l IH]; intros r E x Hx; [destruct Hx|]. cbn [mapM] in E. destruct (g z) as [b|] eqn:Eb; [|discriminate]. cbn [bind] in E.
  destruct (mapM g l) as [r'|] eqn:El; [|discriminate]. destruct Hx as [<-|Hx]; [eauto|]. eapply IH; eauto.
Qed.
Lemma cols_cmr : forall (y f : list R), cols (col_minus_row y f) = match y with [] => [] | _ => map (fun b => map (fun a => a - b) y) f end.
Proof.
  intros y f. unfold cols, col_minus_row. destruct y as [|a0 y]; [reflexivity|]. set (yy := a0 :: y).
  replace (ncols (map (fun a => map (fun b => nsub a b) f) yy)) with (length f) by (unfold ncols, yy; cbn [map hd]; rewrite map_length; reflexivity).
  apply (nth_ext _ _ [] []); [rewrite !map_length, seq_length; reflexivity|]. intros j Hj. rewrite map_length, seq_length in Hj.
  rewrite (nth_map_lt _ _ _ 0%nat) by (rewrite seq_length; exact Hj). rewrite seq_nth by exact Hj. cbn [plus].
  rewrite (nth_map_lt _ _ _ 0) by exact Hj. unfold col. rewrite map_map. apply map_ext. intros a. rewrite (nth_map_lt _ _ _ 0) by exact Hj. reflexivity.
Qed.

Lemma finish_any : forall (prm : pparams R) h s dims X Xs yi b b' r, finish_y prm s dims X Xs yi b = Ok r -> exists r', finish_y (with_h prm (Some h)) s dims X Xs yi b' = Ok r'.
Proof.
  intros prm h s dims X Xs yi b b' r E. unfold finish_y in *. cbv zeta in *.
  change (pp_center (with_h prm (Some h))) with (pp_center prm). change (pp_trim (with_h prm (Some h))) with (pp_trim prm).
  assert (Hl : length (vsub (yi_0 yi) (matvec X b)) = length (vsub (yi_0 yi) (matvec X b'))) by (unfold vsub, matvec; rewrite !map2_length, !map_length; reflexivity).
  destruct dims, (is_mean (pp_center prm)).
  - destruct (mapM (trim_mean1 (pp_trim prm)) (cols (col_minus_row (yi_0 yi) (matvec X b)))) as [v|] eqn:Ev; [|discriminate].
    assert (Hv : exists v', mapM (trim_mean1 (pp_trim prm)) (cols (col_minus_row (yi_0 yi) (matvec X b'))) = Ok v').
    { apply mapM_ok_all. intros x Hx. rewrite cols_cmr in Hx, Ev. destruct (yi_0 yi) as [|a0 y] eqn:Ey; [destruct Hx|]. apply in_map_iff in Hx as (z & <- & Hz).
      assert (Hne : exists z0, In z0 (matvec X b)).
      { unfold matvec in *. apply in_map_iff in Hz as (r0 & _ & Hr0). exists (dot r0 b). apply in_map_iff. eauto. }
      destruct Hne as (z0 & Hz0). destruct (mapM_ok_each _ _ _ Ev (map (fun a => a - z0) (a0 :: y))) as (c & Hc); [apply in_map_iff; eauto|].
      eapply trim_ok_length; [|exact Hc]. rewrite !map_length. reflexivity. }
    destruct Hv as (v' & ->). cbn [bind]. eexists. reflexivity.
  - cbn [bind]. eexists. reflexivity.
  - destruct (trim_mean1 (pp_trim prm) (vsub (yi_0 yi) (matvec X b))) as [a|] eqn:Ea; [|discriminate].
    destruct (trim_ok_length _ _ _ _ Hl Ea) as (a' & ->). cbn [bind]. eexists. reflexivity.
  - cbn [bind]. eexists. reflexivity.
Qed.

Lemma fewer_core : forall (env : pp_env R) (q : pparams R) d X f h q1 d1 m, (0 < h)%nat -> (h <= pp_ncomp q)%nat -> f_h f = None ->
  pp_fit env q d X f = (q1, d1, Ok m) -> exists q2 d2 m', pp_fit env (with_h q (Some h)) d X f = (q2, d2, Ok m').
Proof.
  intros env q d X f h q1 d1 m H0 Hh Hf E. unfold pp_fit in *. rewrite Hf in *. cbn zeta in *.
  change (with_h (with_h q (Some h)) None) with (with_h q (Some h)). change (with_h q None) with q in E.
  change (pp_idx (with_h q (Some h))) with (pp_idx q). change (pp_ncomp (with_h q (Some h))) with h.
  destruct (ix_dicomo _ && _); [inversion E|]. destruct (ix_new (pp_idx q)) as [most|]; [|inversion E].
  destruct (Nat.min (length X) (ncols X) <? pp_ncomp q)%nat eqn:Eh; [inversion E|]. apply Nat.ltb_ge in Eh.
  destruct (Nat.min (length X) (ncols X) <? h)%nat eqn:Eh2; [apply Nat.ltb_lt in Eh2; lia|].
  rewrite whitening_h. remember (with_whitening q) as w eqn:Ew.
  change (scale_name (with_h w (Some h))) with (scale_name w). destruct (scale_name w) as [s|]; [|inversion E].
  change (pp_compress (with_h w (Some h))) with (pp_compress w).
  match type of E with match ?g with Ok _ => _ | Err _ => _ end = _ => destruct g as [[[Xc p] dims]|]; [|inversion E] end.
  change (pp_center_data (with_h w (Some h))) with (pp_center_data w). change (pp_center (with_h w (Some h))) with (pp_center w). change (pp_trim (with_h w (Some h))) with (pp_trim w).
  match type of E with match ?g with Ok _ => _ | Err _ => _ end = _ => destruct g as [[[mX sX] Xs0]|]; [|inversion E] end.
  change (pp_whiten (with_h w (Some h))) with (pp_whiten w).
  match type of E with match ?g with Ok _ => _ | Err _ => _ end = _ => destruct g as [[Xs K]|]; [|inversion E] end.
  match type of E with match ?g with Ok _ => _ | Err _ => _ end = _ =>
    match goal with |- exists q2 d2 m', match ?g' with Ok _ => _ | Err _ => _ end = _ => change g' with g end; destruct g as [yi|]; [|inversion E] end.
  change (pp_optim (with_h w (Some h))) with (pp_optim w).
  match type of E with match ?g with Ok _ => _ | Err _ => _ end = _ => destruct g as [[]|]; [|inversion E] end.
  rewrite loop_h.
  change (index_kw (with_h w (Some h)) (f_bias f)) with (index_kw w (f_bias f)).
  match type of E with (let '(_, _) := ?l in _) = _ => destruct l as [d2 r] eqn:El end.
  destruct r as [[[cs yc] Rt]|]; cbn [bind] in E; [|inversion E].
  destruct (loop_prefix _ _ _ _ _ _ _ _ _ h _ _ _ _ _ _ _ _ _ _ Hh El) as (d3 & R3 & E3). rewrite E3. cbn [length Nat.add bind].
  match type of E with (_, _, ?b) = _ => destruct b as [m0|] eqn:Em; [|inversion E] end. clear E.
  eexists _, _. assert (G : forall (x : res (pp_model R)), (exists m', x = Ok m') -> exists m', (with_h w (Some h), d3, x) = (with_h w (Some h), d3, Ok m')) by (intros x (m' & ->); eauto).
  apply G. clear G.
  destruct (match dims with Some _ => (pp_ncomp q =? 0)%nat | None => false end); [discriminate|].
  assert (Z : match dims with Some _ => (h =? 0)%nat | None => false end = false) by (destruct dims; [apply Nat.eqb_neq; lia|reflexivity]). rewrite Z. clear Z.
  match type of Em with bind ?g _ = _ => destruct g as [[[mX' sX'] Xs']|]; [|discriminate] end. cbn [bind] in *.
  destruct yi as [[y my]|]; [|cbn [bind]; eexists; reflexivity].
  match type of Em with bind (bind ?g _) _ = _ => destruct g as [[[[ic b0] yf] rr]|] eqn:Ef; [|discriminate] end.
  match goal with |- exists m', bind (bind (finish_y _ _ _ _ _ _ ?bb) _) _ = _ => destruct (finish_any _ h _ _ _ _ _ _ bb _ Ef) as ([[[ic' b0'] yf'] rr'] & EF) end.
  rewrite EF. cbn [bind]. eexists. reflexivity.
Qed.

Lemma fit_h_moved : forall (env : pp_env R) prm d X f, pp_fit env prm d X f = pp_fit env (with_h prm (f_h f)) d X (mk_fkw (f_y f) None (f_bias f) (f_option f) (f_dmetric f)).
Proof. intros. reflexivity. Qed.
Lemma fit_kw : forall (env : pp_env R) prm d X f f', f_y f' = f_y f -> f_bias f' = f_bias f -> f_h f' = f_h f -> pp_fit env prm d X f' = pp_fit env prm d X f.
Proof. intros env prm d X [y h b o dm] [y' h' b' o' dm']. cbn. intros -> -> ->. reflexivity. Qed.

Lemma C177_fewer_l : forall (env : pp_env R) prm prm' d X f f' q1 d1 m, same_call prm prm' f f' -> (0 < asked prm' f' <= asked prm f)%nat ->
  pp_fit env prm d X f = (q1, d1, Ok m) -> exists q2 d2 m', pp_fit env prm' d X f' = (q2, d2, Ok m').
Proof.
  intros env prm prm' d X f f' q1 d1 m HS [H0 Hk] E. rewrite fit_h_moved in E.
  apply (fewer_core _ _ _ _ _ (asked prm' f')) in E as (q2 & d2 & m' & E); [|exact H0| |reflexivity].
  - exists q2, d2, m'. rewrite fit_h_moved, (same_params _ _ _ _ HS). rewrite <- E. apply fit_kw; cbn; [apply HS|apply HS|reflexivity].
  - unfold asked in *. destruct (f_h f); exact Hk.
Qed.
