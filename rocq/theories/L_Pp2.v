(** ppdire.fit: what a successful fit returns. *)

From Coq Require Import String Reals List Arith ZArith Bool Lia Lra.
Import List. Import ListNotations.
From Verif Require Import Num Err Vec VecR L_Mat L_Lin L_Matmul L_Deflate M_Utils M_Preproc M_Robcent L_Stats L_Scaling M_Dicomo M_Ipopt M_Ppdire
  S_Stats S_Regress L_Snipls L_Snipls2 S_Ppdire L_Pp.
Open Scope R_scope.

(** the stages of fit *)
Definition st_compress (env : pp_env R) (prm : pparams R) (X0 : list (list R)) : res (list (list R) * nat * option (list (list R))) :=
  if (length X0 <? ncols X0)%nat && pp_compress prm then
             bind (pe_svd env (transpose X0)) (fun '(V, sv, U) =>
             let Xc := map (fun r => map2 nmul r sv) (transpose U) in
             if existsb (fun v => (v =?! n0)%num) (mad Xc) then Ok (X0, ncols Xc, None) else Ok (Xc, ncols Xc, Some V))
           else Ok (X0, ncols X0, None).
Definition st_scale (env : pp_env R) (prm : pparams R) s (p : nat) (X : list (list R)) : res (list R * list R * list (list R)) :=
  if pp_center_data prm then pp_scaled env (pp_center prm) s (pp_trim prm) X else Ok (vzeros p, repeat n1 p, X).
Definition st_whiten (env : pp_env R) (prm : pparams R) (p : nat) (Xs0 : list (list R)) : res (list (list R) * option (list (list R))) :=
  if pp_whiten prm then
             bind (pe_svd env (transpose Xs0)) (fun '(V, sv, _) =>
             let K := map (fun r => firstn p (map2 ndiv r sv)) V in
             Ok (map (map (fun v => (v *! nsqrt (nnat p))%num)) (matmul Xs0 K), Some K))
           else Ok (Xs0, None).
Definition st_y (env : pp_env R) (prm : pparams R) s (n : nat) (y : yarg R) : res (option (yinfo R * R)) :=
  match (match y with YNone => None | YPos y => Some (false, y) | YKw y => Some (true, y) end) with
           | None => Ok None
           | Some (kwy, y) => bind (response env prm s n kwy y) (fun yi => Ok (Some yi))
           end.
Definition st_kw (prm : pparams R) (f : fkw R) (yi : option (yinfo R * R)) : dkw R :=
  index_kw prm (f_bias f) (match yi with Some (y, _) => Some (yi_s y) | None => None end).
Definition st_opts (prm : pparams R) (d : dict) : dict := match pp_optim prm with OGrid => grid_options d | _ => d end.
Definition st_check (prm : pparams R) (d1 : dict) (p : nat) : res unit :=
  match pp_optim prm with
           | OGrid => bind (opt_int "ndir" d1) (fun z => if (z <? 0)%Z then Err ValueError else
                      bind (opt_int "maxiter" d1) (fun _ => if (p <=? 2)%nat then Err UnboundLocalError else Ok tt))
           | _ => Ok tt
           end.
Definition back (p : nat) (dims : option (list (list R))) (M : list (list R)) : list (list R) :=
  match dims with Some V => matmul (map (firstn p) V) M | None => M end.
Definition is_some {T} (o : option T) : bool := match o with Some _ => true | None => false end.
Definition oy (yi : option (yinfo R * R)) : option (yinfo R) := match yi with Some (y, _) => Some y | None => None end.

Definition st_end (env : pp_env R) (prm : pparams R) s (X0 X : list (list R)) (p : nat) dims (mX sX : list R) (Xs : list (list R)) (yi : option (yinfo R * R))
    (cs : list (pcomp R)) (yc : list (R * list R * list R)) (Rt : list (list R)) (m : pp_model R) : Prop :=
  (is_some dims = true -> pp_ncomp prm <> 0%nat) /\
  exists mX' sX' Xs',
    (match dims with Some _ => st_scale env prm s p X0 | None => Ok (mX, sX, Xs) end) = Ok (mX', sX', Xs') /\
    exists ym,
      m = mk_pm (match dims with Some _ => ncols X0 | None => p end) (back p dims (of_cols p (map g_w cs))) (back p dims (of_cols p (map g_p cs)))
            (back p dims Rt) (of_cols (length X0) (map g_t cs)) (map g_crit cs) (map g_max cs) mX' sX' (negb (pp_center_data prm)) ym /\
      match yi with
      | None => ym = None
      | Some (y, my) => exists ic b0 yfit r,
          let B := back p dims (of_cols p (map (fun q => snd (fst q)) yc)) in
          finish_y prm s (is_some dims) (match dims with Some _ => X0 | None => X end) Xs' y (match yc with [] => vzeros p | _ => col (pp_ncomp prm - 1) B end)
            = Ok (ic, b0, yfit, r) /\
          ym = Some (mk_ym B (back p dims (of_cols p (map snd yc))) ic b0 yfit r (map (fun q => fst (fst q)) yc) my (yi_sca y))
      end.

Lemma ww_idx : forall prm : pparams R, pp_idx (with_whitening prm) = pp_idx prm.
Proof. intros prm. unfold with_whitening. destruct (pp_whiten prm); reflexivity. Qed.
Lemma ww_ncomp : forall prm : pparams R, pp_ncomp (with_whitening prm) = pp_ncomp prm.
Proof. intros prm. unfold with_whitening. destruct (pp_whiten prm); reflexivity. Qed.

Lemma fit_inv : forall (env : pp_env R) prm d X0 f prm' d' m, pp_fit env prm d X0 f = (prm', d', Ok m) ->
  exists most s X p dims mX sX Xs0 Xs K yi cs yc Rt,
    prm' = with_whitening (with_h prm (f_h f)) /\ ix_new (pp_idx prm') = Ok most /\ (pp_ncomp prm' <= Nat.min (length X0) (ncols X0))%nat /\
    scale_name prm' = Ok s /\ st_compress env prm' X0 = Ok (X, p, dims) /\ st_scale env prm' s p X = Ok (mX, sX, Xs0) /\
    st_whiten env prm' p Xs0 = Ok (Xs, K) /\ st_y env prm' s (length X0) (f_y f) = Ok yi /\
    st_check prm' (st_opts prm' d) p = Ok tt /\
    pp_loop env (pp_ncomp prm') prm' most (st_kw prm' f yi) (oy yi) K (length X0) p sX (st_opts prm' d) Xs [] [] (of_cols p []) = (d', Ok (cs, yc, Rt)) /\
    st_end env prm' s X0 X p dims mX sX Xs yi cs yc Rt m.
Proof.
  intros env prm d X0 f prm' d' m E. unfold pp_fit in E. cbn zeta in E.
  destruct (ix_dicomo _ && _); [inversion E|]. destruct (ix_new (pp_idx (with_h prm (f_h f)))) as [most|] eqn:Em; [|inversion E].
  destruct (Nat.min (length X0) (ncols X0) <? pp_ncomp (with_h prm (f_h f)))%nat eqn:Eh; [inversion E|]. apply Nat.ltb_ge in Eh.
  remember (with_whitening (with_h prm (f_h f))) as prm1 eqn:Ep1 in *.
  assert (I1 : pp_idx prm1 = pp_idx (with_h prm (f_h f))) by (subst prm1; apply ww_idx).
  assert (I2 : pp_ncomp prm1 = pp_ncomp (with_h prm (f_h f))) by (subst prm1; apply ww_ncomp).
  rewrite <- I1 in Em. rewrite <- I2 in Eh, E. clear I1 I2.
  destruct (scale_name prm1) as [s|] eqn:Es; [|inversion E].
  change (if (length X0 <? ncols X0)%nat && pp_compress prm1 then _ else _) with (st_compress env prm1 X0) in E.
  destruct (st_compress env prm1 X0) as [[[X p] dims]|] eqn:Ec; [|inversion E].
  change (if pp_center_data prm1 then pp_scaled env (pp_center prm1) s (pp_trim prm1) X else _) with (st_scale env prm1 s p X) in E.
  destruct (st_scale env prm1 s p X) as [[[mX sX] Xs0]|] eqn:Esc; [|inversion E].
  change (if pp_whiten prm1 then _ else Ok (Xs0, None)) with (st_whiten env prm1 p Xs0) in E.
  destruct (st_whiten env prm1 p Xs0) as [[Xs K]|] eqn:Ew; [|inversion E].
  match type of E with match ?g with Ok _ => _ | Err _ => _ end = _ => change g with (st_y env prm1 s (length X0) (f_y f)) in E end.
  destruct (st_y env prm1 s (length X0) (f_y f)) as [yi|] eqn:Ey; [|inversion E].
  change (match pp_optim prm1 with OGrid => grid_options d | _ => d end) with (st_opts prm1 d) in E.
  match type of E with match ?g with Ok _ => _ | Err _ => _ end = _ => change g with (st_check prm1 (st_opts prm1 d) p) in E end.
  destruct (st_check prm1 (st_opts prm1 d) p) as [[]|] eqn:Ek; [|inversion E].
  change (index_kw prm1 (f_bias f) (match yi with Some (y, _) => Some (yi_s y) | None => None end)) with (st_kw prm1 f yi) in E.
  change (match yi with Some (y, _) => Some y | None => None end) with (oy yi) in E.
  destruct (pp_loop (A := R) _ _ _ _ _ _ _ _ _ _ _ _ _ _ _) as [d2 r] eqn:El. apply pair_equal_spec in E as [E1 E2]. apply pair_equal_spec in E1 as [E1 E3]. subst prm' d'.
  destruct r as [[[cs yc] Rt]|]; cbn [bind] in E2; [|discriminate].
  exists most, s, X, p, dims, mX, sX, Xs0, Xs, K, yi, cs, yc, Rt. repeat (split; [assumption || reflexivity|]).
  unfold st_end.
  destruct (match dims with Some _ => (pp_ncomp prm1 =? 0)%nat | None => false end) eqn:Ed; [discriminate|]. split.
  { destruct dims; [|discriminate]. intros _. apply Nat.eqb_neq. exact Ed. }
  change (if pp_center_data prm1 then pp_scaled env (pp_center prm1) s (pp_trim prm1) X0 else _) with (st_scale env prm1 s p X0) in E2.
  destruct (match dims with Some _ => st_scale env prm1 s p X0 | None => Ok (mX, sX, Xs) end) as [[[mX' sX'] Xs']|] eqn:Es2; cbn [bind] in E2; [|discriminate].
  exists mX', sX', Xs'. split; [reflexivity|]. destruct yi as [[y my]|].
  - destruct (finish_y (A := R) _ _ _ _ _ _ _) as [[[[ic b0] yfit] r]|] eqn:Ef; cbn [bind] in E2; [|discriminate]. apply Ok_inj in E2.
    eexists. split; [symmetry; exact E2|]. exists ic, b0, yfit, r. split; [first [exact Ef|reflexivity]|reflexivity].
  - cbn [bind] in E2. apply Ok_inj in E2. eexists. split; [symmetry; exact E2|reflexivity].
Qed.

(** ** the data the loop starts from is rectangular *)
Lemma compress_rect : forall env prm X0 X p dims, rect X0 -> st_compress env prm X0 = Ok (X, p, dims) -> rect X.
Proof.
  intros env prm X0 X p dims HX E. unfold st_compress in E. destruct (_ && _); [|inversion E; subst; auto].
  destruct (pe_svd env (transpose X0)) as [[[V sv] U]|]; cbn [bind] in E; [|discriminate].
  destruct (existsb _ _); inversion E; subst; auto.
  apply (wf_rect (length (transpose U)) (Nat.min (length U) (length sv))). split; [apply map_length|].
  apply Forall_forall. intros r Hr. apply in_map_iff in Hr as (c & <- & Hc). rewrite map2_length. f_equal.
  unfold transpose, cols in Hc. apply in_map_iff in Hc as (j & <- & _). apply map_length.
Qed.
Lemma stage_rect : forall env prm s X0 X p dims mX sX Xs0 Xs K, rect X0 -> st_compress env prm X0 = Ok (X, p, dims) -> st_scale env prm s p X = Ok (mX, sX, Xs0) ->
  st_whiten env prm p Xs0 = Ok (Xs, K) -> rect Xs.
Proof.
  intros env prm s X0 X p dims mX sX Xs0 Xs K HX Ec Es Ew. apply compress_rect in Ec; auto.
  assert (rect Xs0). { unfold st_scale in Es. destruct (pp_center_data prm); [eapply pp_scaled_rect; eauto|inversion Es; subst; auto]. }
  unfold st_whiten in Ew. destruct (pp_whiten prm); [|inversion Ew; subst; auto].
  destruct (pe_svd env (transpose Xs0)) as [[[V sv] U]|]; cbn [bind] in Ew; [|discriminate]. inversion Ew; subst. apply rect_map, matmul_rect.
Qed.

(** ** the whole run as one chain *)
Lemma run : forall (env : pp_env R) prm d X0 f prm' d' m, rect X0 -> pp_fit env prm d X0 f = (prm', d', Ok m) ->
  exists most s X p dims mX sX Xs0 Xs K yi cs yc Rt,
    prm' = with_whitening (with_h prm (f_h f)) /\ ix_new (pp_idx prm') = Ok most /\ (pp_ncomp prm' <= Nat.min (length X0) (ncols X0))%nat /\
    scale_name prm' = Ok s /\ st_compress env prm' X0 = Ok (X, p, dims) /\ st_scale env prm' s p X = Ok (mX, sX, Xs0) /\
    st_whiten env prm' p Xs0 = Ok (Xs, K) /\ st_y env prm' s (length X0) (f_y f) = Ok yi /\ st_check prm' (st_opts prm' d) p = Ok tt /\
    length cs = pp_ncomp prm' /\
    gchain prm' most (st_kw prm' f yi) (is_some (oy yi)) K (length X0) p Xs cs /\ mchain env prm' most (st_kw prm' f yi) (st_opts prm' d) p Xs cs /\
    ((0 < pp_ncomp prm')%nat -> rotations env p cs = Ok Rt) /\ (pp_ncomp prm' = 0%nat -> Rt = of_cols p []) /\
    match oy yi with
    | None => yc = []
    | Some y => length yc = pp_ncomp prm' /\ forall i, (i < pp_ncomp prm')%nat -> yfact env prm' p sX y cs yc i (nth i cs pc0) (nth i yc q0)
    end /\
    st_end env prm' s X0 X p dims mX sX Xs yi cs yc Rt m.
Proof.
  intros env prm d X0 f prm' d' m HX E. apply fit_inv in E as (most & s & X & p & dims & mX & sX & Xs0 & Xs & K & yi & cs & yc & Rt & E1 & E2 & E3 & E4 & E5 & E6 & E7 & E8 & E9 & El & Ee).
  exists most, s, X, p, dims, mX, sX, Xs0, Xs, K, yi, cs, yc, Rt. do 9 (split; [assumption|]).
  destruct (Nat.eq_dec (pp_ncomp prm') 0) as [Z0|N0].
  - rewrite Z0 in El. cbn [pp_loop] in El. inversion El; subst cs yc Rt. rewrite Z0. split; [reflexivity|]. split; [exact I|]. split; [exact I|]. split; [lia|]. split; [auto|].
    split; [destruct (oy yi); auto; split; auto; intros; lia|exact Ee].
  - apply loop_inv in El; [|eapply stage_rect; eauto|lia|intros; reflexivity]. destruct El as (l & ly & -> & Hl & -> & Hg & Hm & HR & HR0 & Hy). cbn [app] in *.
    split; [auto|]. split; [exact Hg|]. split; [exact Hm|]. split; [exact HR|]. split; [exact HR0|]. split; [exact Hy|exact Ee].
Qed.
