(** Compression that is abandoned because of zero scales. *)

From Coq Require Import String Reals List Arith ZArith Bool Lia Lra.
Import List. Import ListNotations.
From Verif Require Import Num Err Vec VecR L_Mat L_Lin L_Matmul L_Deflate M_Utils M_Preproc M_Robcent L_Stats L_Scaling M_Dicomo M_Ipopt M_Ppdire M_SdrUtils M_Sudire
  S_Stats S_Regress L_Snipls L_Snipls2 S_Ppdire L_Pp L_Pp2 L_Grid L_Grid2 S_Sudire S_Compress.
Open Scope R_scope.

(** the loop cannot make a component of [k] weights for data of another number of columns *)
Section Wrong.
  Variables (env : pp_env R) (prm : pparams R) (most : arr R -> dkw R -> res R) (kw : dkw R) (q : nat) (E : list (list R)).
  Hypothesis HE : ncols E <> q.
  Hypothesis Hq : pp_optim prm = OGrid -> (2 <= q)%nat.
  Lemma npdot_wrong : forall a, length a = q -> npdot E a = Err ValueError.
  Proof. intros a Ha. unfold npdot. destruct (Nat.eqb_spec (ncols E) (length a)); [congruence|reflexivity]. Qed.
  Lemma sweep1_keeps : forall tr g js z a z' a', sweep1 tr most g E js z a = Ok (z', a') -> length a' = length a.
  Proof.
    induction js as [|j js IH]; intros z a z' a' H; cbn [sweep1] in H; [injection H as _ <-; reflexivity|].
    destruct (getcol E j) as [zj|]; [|discriminate]. cbn [bind] in H. destruct (gridplane _ _ _ _) as [[[w0 w1] m]|]; [|discriminate]. cbn [bind] in H.
    rewrite (IH _ _ _ _ H), upd_length, mapi_length. reflexivity.
  Qed.
  Lemma direction_length : forall d d' w o, direction env prm most kw d q E = (d', Ok (w, o)) -> length w = q.
  Proof.
    intros d d' w o H. unfold direction in H. destruct (pp_optim prm) eqn:EO.
    { destruct (opt_int "ndir" d) as [nd|]; [|discriminate]. cbn [bind] in H. destruct (opt_int "maxiter" d) as [mi|]; [|discriminate]. cbn [bind] in H.
      unfold grid_search in H. destruct (mapM _ _) as [l|]; [|discriminate]. cbn [bind] in H. unfold first_sweep in H. destruct (gridplane _ _ _ _) as [[[w0 w1] m]|]; [|discriminate]. cbn [bind] in H.
      destruct (sweep1 _ _ _ _ _ _ _) as [[z a]|] eqn:ES; [|discriminate]. cbn [bind] in H. apply sweep1_keeps in ES. cbn [length] in ES. unfold vzeros in ES. rewrite repeat_length in ES.
      unfold objective in H. rewrite (npdot_wrong a) in H by (specialize (Hq eq_refl); lia). discriminate. }
    all: destruct E as [|x0 E'] eqn:EE; [discriminate|]; injection H as _ H.
    all: repeat match type of H with (if ?b then _ else _) = _ => destruct b; [discriminate|] end.
    all: match type of H with bind ?b _ = _ => destruct b as [x|]; [|discriminate] end; cbn [bind] in H; destruct (Nat.eqb_spec (length x) q); [|discriminate]; injection H as <- _; rewrite map_length; auto.
  Qed.
  Lemma loop_wrong : forall k yi n sX d cs yc Rt, (0 < k)%nat -> forall d' r, pp_loop env k prm most kw yi None n q sX d E cs yc Rt <> (d', Ok r).
  Proof.
    intros [|k] yi n sX d cs yc Rt Hk d' r H; [lia|]. cbn [pp_loop] in H. destruct (direction env prm most kw d q E) as [d1 [[w o]|]] eqn:ED; cbn [bind] in H; [|discriminate].
    apply direction_length in ED. unfold component in H. rewrite (npdot_wrong w ED) in H. discriminate.
  Qed.
End Wrong.

Lemma abandoned_pp : forall (env : pp_env R) prm d X f prm' d' m n p V s U, is_matrix n p X -> (2 <= n < p)%nat -> pp_whiten prm = false -> pp_compress prm = true -> economy_shapes (pe_svd env) ->
  pe_svd env (transpose X) = Ok (V, s, U) -> Exists (fun v => v = 0) (mad (map (fun r => map2 Rmult r s) (transpose U))) ->
  (0 < match f_h f with Some h => h | None => pp_ncomp prm end)%nat -> pp_fit env prm d X f <> (prm', d', Ok m).
Proof.
  intros env prm d X f prm' d' m n p V s U W Hn Hw Hc HS ES HM Hh E.
  apply L_Pp2.fit_inv in E as (most & sc & X1 & q & dims & mX & sX & Xs0 & Xs & K & yi & cs & yc & Rt & E1 & _ & _ & _ & E2 & E3 & E4 & _ & E5 & EL & _).
  assert (Q : pp_compress prm' = true /\ pp_whiten prm' = false /\ pp_ncomp prm' = match f_h f with Some h => h | None => pp_ncomp prm end).
  { subst prm'. unfold with_whitening, with_h. destruct (f_h f); cbn [pp_whiten]; rewrite Hw; cbn; auto. }
  destruct Q as (Q1 & Q2 & Q3).
  unfold st_compress in E2. rewrite (wf_length n p X W), (wf_ncols n p X W) in E2 by lia. rewrite Q1, ES in E2. destruct (Nat.ltb_spec n p); [|lia]. cbn [andb bind] in E2.
  change (existsb (fun v => v =?! n0)%num (mad (map (fun r => map2 nmul r s) (transpose U)))) with (existsb (fun v => Reqb v 0) (mad (map (fun r => map2 Rmult r s) (transpose U)))) in E2.
  assert (EX : existsb (fun v => Reqb v 0) (mad (map (fun r => map2 Rmult r s) (transpose U))) = true).
  { apply Exists_exists in HM as (v & Hv & ->). apply existsb_exists. exists 0. split; [exact Hv|]. apply Reqb_true. reflexivity. }
  rewrite EX in E2. injection E2 as <- Eq' <-.
  destruct (HS p n (transpose X) V s U) as (_ & Ls & WU); [apply wf_cols; [exact W|lia]|exact ES|]. rewrite Nat.min_r in Ls, WU by lia.
  assert (Eq : ncols (map (fun r => map2 nmul r s) (transpose U)) = n).
  { assert (WT : wf n n (transpose U)) by (apply wf_cols; [exact WU|lia]). unfold ncols. destruct (transpose U) as [|r T] eqn:ET; [destruct WT as [L _]; cbn in L; lia|].
    cbn. rewrite map2_length. pose proof (wf_row n n (r :: T) r WT (or_introl eq_refl)) as Hr. rewrite Hr, Ls. lia. }
  assert (q = n) by (rewrite <- Eq'; exact Eq). clear Eq Eq'. subst q. unfold st_whiten in E4. rewrite Q2 in E4. injection E4 as E4a E4b. subst Xs K.
  assert (HX : ncols Xs0 = p).
  { unfold st_scale in E3. destruct (pp_center_data prm').
    - apply pp_scaled_inv in E3 as [E3 _]. rewrite (check_input_id n p) in E3 by (auto; lia). apply (scale_data_wf n p X Xs0 mX sX W) in E3; [|lia]. apply (wf_ncols n p Xs0 E3). lia.
    - injection E3 as _ _ <-. apply (wf_ncols n p X W). lia. }
  apply (loop_wrong env prm' most (st_kw prm' f yi) n Xs0) in EL; auto; lia.
Qed.

(** ** sudire: everything but the stored location and scale is as without compression *)
Definition alike (c : bool) (m m' : smodel R) : Prop :=
  sm_P m = sm_P m' /\ sm_T m = sm_T m' /\ sm_proj m = sm_proj m' /\ sm_ols m = sm_ols m' /\ sm_fitted m = sm_fitted m' /\ (c = true -> m = m').
Definition alike_res (c : bool) (r r' : res (smodel R)) : Prop :=
  match r, r' with Ok m, Ok m' => alike c m m' | Err e, Err e' => e = e' | _, _ => False end.
Lemma finish_alike : forall (env : sd_env R) c prm prm' X0 pd pd' ys P, sp_return prm = sp_return prm' -> sp_center prm = sp_center prm' ->
  pd_V pd = None -> pd_V pd' = None -> pd_obj pd = pd_obj pd' -> pd_K pd = pd_K pd' -> (c = true -> pd_loc pd = pd_loc pd' /\ pd_sca pd = pd_sca pd') ->
  alike_res c (sd_finish env prm X0 pd ys P) (sd_finish env prm' X0 pd' ys P).
Proof.
  intros env c prm prm' X0 pd pd' ys P H1 H2 H3 H4 H5 H6 H7. unfold sd_finish. destruct (projector env P) as [pm|]; [|reflexivity]. cbn [bind]. destruct X0 as [X|]; [|reflexivity].
  destruct (npmatmul X P) as [T|]; [|reflexivity]. cbn [bind]. cbv zeta. destruct (se_ols env (add_constant T) ys) as [b|]; [|reflexivity]. cbn [bind]. rewrite H3, H4. cbn [bind]. rewrite H1, H2, H5.
  destruct (_ && _); [reflexivity|]. unfold alike_res, alike. cbn. repeat (split; [reflexivity|]). intros Hc. destruct (H7 Hc) as [-> ->]. rewrite H6. reflexivity.
Qed.
Lemma bind_alike : forall c (r : res (list (list R))) f g, (forall P, alike_res c (f P) (g P)) -> alike_res c (bind r f) (bind r g).
Proof. intros c [P|e] f g H; cbn [bind]; [apply H|reflexivity]. Qed.
Lemma optimise_alike : forall (env : sd_env R) st b b' Xs ys N2 metric bias,
  snd (sd_optimise env (with_compression st b) Xs ys N2 metric bias) = snd (sd_optimise env (with_compression st b') Xs ys N2 metric bias).
Proof.
  intros env st b b' Xs ys N2 metric bias. unfold sd_optimise, start_value, with_compression. cbn [ss_prm ss_X0 ss_start ss_cons ss_args ss_dict sp_ncomp sp_scale_data sp_meth sp_trim sp_center].
  match goal with |- snd (match ?r with Ok _ => _ | Err _ => _ end) = _ => destruct r as [start|]; [|reflexivity] end.
  match goal with |- snd (match ?r with Ok _ => _ | Err _ => _ end) = _ => destruct r as [B|]; [|reflexivity] end.
  destruct (sp_meth (ss_prm st)); reflexivity.
Qed.

Lemma abandoned_sd : forall (env : sd_env R) st X y metric bias n p V s U, is_matrix n p X -> (2 <= n < p)%nat -> sp_whiten (ss_prm st) = false ->
  se_svd env (transpose X) = Ok (V, s, U) -> Exists (fun v => v = 0) (mad (map (fun r => map2 Rmult r s) (transpose U))) ->
  alike_res (sp_center_data (ss_prm st)) (snd (sd_fit env (with_compression st true) X y metric bias)) (snd (sd_fit env (with_compression st false) X y metric bias)).
Proof.
  intros env st X y metric bias n p V s U W Hn HW ES HM.
  unfold sd_fit. cbv zeta. change (sp_ncomp (ss_prm (with_compression st true))) with (sp_ncomp (ss_prm st)). change (sp_ncomp (ss_prm (with_compression st false))) with (sp_ncomp (ss_prm st)).
  destruct (_ <? _)%nat; [reflexivity|].
  assert (EW : forall b, sd_whitening (ss_prm (with_compression st b)) = ss_prm (with_compression st b)) by (intros b; unfold sd_whitening, with_compression; cbn; rewrite HW; reflexivity).
  rewrite !EW. set (X0 := if sp_copy (ss_prm (with_compression st true)) then Some X else ss_X0 (with_compression st true)).
  change (if sp_copy (ss_prm (with_compression st false)) then Some X else ss_X0 (with_compression st false)) with X0.
  assert (HP : match sd_prepare env (ss_prm (with_compression st true)) X, sd_prepare env (ss_prm (with_compression st false)) X with
     | Ok pd, Ok pd' => pd_Xs pd = pd_Xs pd' /\ pd_N2 pd = pd_N2 pd' /\ pd_V pd = None /\ pd_V pd' = None /\ pd_obj pd = pd_obj pd' /\ pd_K pd = pd_K pd' /\
         (sp_center_data (ss_prm st) = true -> pd_loc pd = pd_loc pd' /\ pd_sca pd = pd_sca pd')
     | Err e, Err e' => e = e' | _, _ => False end).
  { unfold sd_prepare, with_compression. cbv zeta. cbn [ss_prm sp_meth sp_compress sp_center_data sp_center sp_scale_data sp_trim sp_whiten].
    rewrite (wf_length n p X W), (wf_ncols n p X W) by lia. destruct (p =? 1)%nat; [reflexivity|]. destruct (se_isqrt env (npcov X)) as [N2|]; [|reflexivity]. cbn [bind].
    destruct (Nat.ltb_spec n p); [|lia]. cbn [andb]. rewrite ES. cbn [bind].
    change (existsb (fun v => v =?! n0)%num (mad (map (fun r => map2 nmul r s) (transpose U)))) with (existsb (fun v => Reqb v 0) (mad (map (fun r => map2 Rmult r s) (transpose U)))).
    assert (EX : existsb (fun v => Reqb v 0) (mad (map (fun r => map2 Rmult r s) (transpose U))) = true).
    { apply Exists_exists in HM as (v & Hv & ->). apply existsb_exists. exists 0. split; [exact Hv|]. apply Reqb_true. reflexivity. }
    rewrite EX. cbn [bind]. rewrite HW. destruct (sp_center_data (ss_prm st)).
    - match goal with |- context [bind (if sd_is_mean ?c then ?a else ?b) _] => destruct (if sd_is_mean c then a else b) as [[[[Xs1 m1] s1] o1]|]; [|reflexivity] end. cbn [bind].
      match goal with |- context [if sp_scale_data ?c then ?a else ?b] => destruct (if sp_scale_data c then a else b) as [[[[Xs2 m2] s2] o2]|]; [|reflexivity] end. cbn [bind].
      cbn. auto 10.
    - cbn [bind]. destruct (sp_scale_data (ss_prm st)).
      + destruct (sp_center (ss_prm st)); try reflexivity;
          match goal with |- context [bind (bind ?b _) _] => destruct b as [Q|]; [|reflexivity] end; cbn [bind]; try (destruct Q as [[? ?] ?]); cbn; repeat split; discriminate.
      + cbn. repeat split; discriminate. }
  destruct (sd_prepare env (ss_prm (with_compression st true)) X) as [pd|e], (sd_prepare env (ss_prm (with_compression st false)) X) as [pd'|e']; cbn [bind]; try contradiction; [|exact HP].
  destruct HP as (P1 & P2 & P3 & P4 & P5 & P6 & P7). destruct (sd_response (length X) y) as [ys|]; [|reflexivity]. cbn [bind]. rewrite <- P1, <- P2.
  assert (HF : forall P, alike_res (sp_center_data (ss_prm st)) (sd_finish env (ss_prm (with_compression st true)) X0 pd ys P) (sd_finish env (ss_prm (with_compression st false)) X0 pd' ys P)).
  { intros P. apply finish_alike; auto. }
  change (sd_direct env (ss_prm (with_compression st false)) (pd_Xs pd) ys) with (sd_direct env (ss_prm (with_compression st true)) (pd_Xs pd) ys).
  destruct (sd_direct env (ss_prm (with_compression st true)) (pd_Xs pd) ys) as [r|].
  - cbn [snd]. apply bind_alike with (f := fun P0 => bind _ _). intros P0. apply bind_alike. exact HF.
  - pose proof (optimise_alike env (mk_ss (ss_prm st) X0 (ss_start st) (ss_cons st) (ss_args st) (ss_dict st)) true false (pd_Xs pd) ys (pd_N2 pd) metric bias) as EO.
    unfold with_compression at 1 2 in EO. cbn [ss_prm ss_X0 ss_start ss_cons ss_args ss_dict] in EO.
    unfold with_compression at 1 2 3 4 5. cbn [ss_prm ss_start ss_cons ss_args ss_dict].
    destruct (sd_optimise env (mk_ss (mk_sp (sp_meth (ss_prm st)) (sp_ncomp (ss_prm st)) (sp_trim (ss_prm st)) (sp_center (ss_prm st)) (sp_center_data (ss_prm st)) (sp_scale_data (ss_prm st)) (sp_whiten (ss_prm st)) true _ _ _ _) X0 _ _ _ _) _ _ _ _ _) as [s1 r1].
    match goal with |- context [let '(_, _) := ?o in _] => destruct o as [s2 r2] eqn:E2 end. cbn [snd].
    change (snd (s1, r1) = snd (sd_optimise env (mk_ss (ss_prm (with_compression st false)) X0 (ss_start (with_compression st false)) (ss_cons (with_compression st false)) (ss_args (with_compression st false)) (ss_dict (with_compression st false))) (pd_Xs pd) ys (pd_N2 pd) metric bias)) in EO.
    rewrite E2 in EO. cbn [snd] in EO. rewrite EO. apply bind_alike. exact HF.
Qed.
