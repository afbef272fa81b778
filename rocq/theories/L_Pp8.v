(** ppdire.fit: what the optimiser is asked to minimise. *)

From Coq Require Import String Reals List Arith ZArith Bool Lia Lra.
Import List. Import ListNotations.
From Verif Require Import Num Err Vec VecR L_Mat L_Lin L_Matmul L_Deflate M_Utils M_Preproc M_Robcent L_Stats L_Scaling L_Scaling2 M_Dicomo M_Ipopt M_Ppdire M_PpWorld
  S_Stats S_Regress L_Snipls L_Snipls2 L_Rm2 S_Ppdire S_Ppdire2 L_Ipopt L_Pp L_Pp2 L_Pp3 L_Pp4 L_Pp6.
Open Scope R_scope.

(** ** the call of the optimiser *)
Definition asked (env : pp_env R) (prm : pparams R) most kw (p : nat) (E : list (list R)) (w : list R) : Prop :=
  exists dd x, pe_opt env (pp_optim prm) dd (pp_objective most kw E) (nth 0 E []) = Ok x /\ length x = p /\ w = map (fun v => v / sqrt (vsum (map nsqr x))) x.

Lemma direction_asked : forall (env : pp_env R) prm most kw d p E d' w o, pp_optim prm <> OGrid ->
  direction env prm most kw d p E = (d', Ok (w, o)) -> asked env prm most kw p E w.
Proof.
  intros env prm most kw d p E d' w o Ho Ed. unfold asked, direction in *. destruct (pp_optim prm) as [| | |meth]; [congruence| | |];
    (destruct E as [|x0 E]; [discriminate|]); apply pair_equal_spec in Ed as [_ E2]; cbn [nth]; try (destruct (negb (str_keys d)); [discriminate|]);
    (destruct (pe_opt (A := R) _ _ _ _ _) as [x|] eqn:Eo; cbn [bind] in E2; [|discriminate]);
    (destruct (Nat.eqb_spec (length x) p); [|discriminate]); inversion E2; subst; exists d, x; auto.
Qed.

Fixpoint ochain (env : pp_env R) prm most kw p (E : list (list R)) (l : list (pcomp R)) : Prop :=
  match l with [] => True | c :: l' => asked env prm most kw p E (g_dir c) /\ ochain env prm most kw p (g_E c) l' end.

Lemma loop_asked : forall (env : pp_env R) k prm most kw yi K n p sX d E cs yc R0 d' cs' yc' R', rect E -> (0 < n)%nat -> pp_optim prm <> OGrid ->
  pp_loop env k prm most kw yi K n p sX d E cs yc R0 = (d', Ok (cs', yc', R')) -> exists l, cs' = cs ++ l /\ ochain env prm most kw p E l.
Proof.
  intros env k. induction k as [|k IH]; intros prm most kw yi K n p sX d E cs yc R0 d' cs' yc' R' HE Hn Ho El.
  - cbn [pp_loop] in El. inversion El; subst. exists []. rewrite app_nil_r. split; [reflexivity|exact I].
  - cbn [pp_loop] in El. destruct (direction env prm most kw d p E) as [d1 rw] eqn:Ed. destruct rw as [[w o]|e]; cbn [bind] in El; [|discriminate].
    destruct (component (A := R) _ _ _ _ _ _ _ _ _) as [c|e] eqn:Ec; cbn [bind] in El; [|discriminate].
    destruct (rotations env p (cs ++ [c])) as [R1|e] eqn:Er; cbn [bind] in El; [|discriminate].
    apply (component_inv prm most kw _ K n p E w o c HE Hn) in Ec as (Hg & Hd & Hm).
    apply direction_asked in Ed; [|exact Ho]. rewrite <- Hd in Ed.
    destruct (match yi with None => Ok yc | Some y => _ end) as [yc1|e] eqn:Ey; cbn [bind] in El; [|discriminate].
    apply IH in El; [|eapply g_E_rect; eauto|auto|auto]. destruct El as (l & -> & Hc). exists (c :: l). rewrite <- app_assoc. split; [reflexivity|]. split; auto.
Qed.

Lemma fit_asked : forall (env : pp_env R) prm d X f prm' d' m n p, is_matrix n p X -> direct_fit prm n p -> pp_optim prm <> OGrid ->
  pp_fit env prm d X f = (prm', d', Ok m) -> (0 < pp_ncomp prm')%nat ->
  (0 < n)%nat /\ (0 < p)%nat /\ prm' = with_h prm (f_h f) /\
  exists most s mX sX Xs yi cs Rt ym,
    ix_new (pp_idx prm) = Ok most /\ scale_name prm' = Ok s /\ st_scale env prm' s p X = Ok (mX, sX, Xs) /\ wf n p Xs /\
    st_y env prm' s n (f_y f) = Ok yi /\ length cs = pp_ncomp prm' /\
    gchain prm' most (st_kw prm' f yi) (is_some (oy yi)) None n p Xs cs /\ mchain env prm' most (st_kw prm' f yi) (st_opts prm' d) p Xs cs /\
    ochain env prm' most (st_kw prm' f yi) p Xs cs /\
    m = mk_pm p (of_cols p (map g_dir cs)) (of_cols p (map g_p cs)) Rt (of_cols n (map g_t cs)) (map g_crit cs) (map g_max cs) mX sX (negb (pp_center_data prm)) ym /\
    match yi with
    | None => ym = None
    | Some (y, my) => exists ic b0 yfit r B Bs C, ym = Some (mk_ym B Bs ic b0 yfit r C my (yi_sca y))
    end.
Proof.
  intros env prm d X f prm' d' m n p HX Hdf Ho E Hh. pose proof Hdf as [Hw Hc].
  pose proof (L_Pp2.fit_inv _ _ _ _ _ _ _ _ E) as (most & s & X1 & q & dims & mX & sX & Xs0 & Xs & K & yi & cs & yc & Rt & Ep & Ei & Hm & Es & Ec & Esc & Ew & Ey & Ek & El & He).
  pose proof (wf_length n p X HX) as Hn. rewrite Hn in *.
  assert (Hn0 : (0 < n)%nat) by lia. rewrite (wf_ncols n p X HX Hn0) in Hm. destruct (with_h_fields prm (f_h f)) as (W1 & W2 & W3 & W4 & W5 & W6 & W7 & W8 & W9 & W10 & W11).
  assert (Ep' : prm' = with_h prm (f_h f)) by (rewrite Ep; unfold with_whitening; rewrite W1, Hw; reflexivity).
  split; [exact Hn0|]. split; [lia|]. split; [exact Ep'|]. clear Ep.
  assert (Hs : st_compress env prm' X = Ok (X, p, None)).
  { unfold st_compress. rewrite Hn, (wf_ncols n p X HX Hn0), Ep', W2. destruct Hc as [->|Hc]; [rewrite andb_false_r; reflexivity|].
    destruct (Nat.ltb_spec n p); [lia|reflexivity]. }
  rewrite Hs in Ec. inversion Ec; subst X1 q dims; clear Ec.
  unfold st_whiten in Ew. rewrite Ep', W1, Hw in Ew. inversion Ew; subst Xs0 K; clear Ew.
  assert (HXs : rect Xs).
  { unfold st_scale in Esc. destruct (pp_center_data prm'); [eapply pp_scaled_rect; eauto; exact (wf_rect n p X HX)|injection Esc as _ _ <-; exact (wf_rect n p X HX)]. }
  assert (Ho' : pp_optim prm' <> OGrid) by (rewrite Ep', W7; exact Ho).
  pose proof (loop_asked _ _ _ _ _ _ _ _ _ _ _ _ _ _ _ _ _ _ _ HXs Hn0 Ho' El) as (l & El2 & Hoc). cbn [app] in El2. subst l.
  apply loop_inv in El; [|exact HXs|lia|intros; reflexivity]. destruct El as (l & ly & -> & Hl & -> & Hg & Hmc & HR & HR0 & Hy). cbn [app] in *.
  destruct He as (_ & mX' & sX' & Xs' & E1 & ym & E2 & Hym). inversion E1; subst mX' sX' Xs'; clear E1. cbn [back is_some] in E2, Hym.
  assert (Hgw : map g_w l = map g_dir l).
  { clear -Hg. revert Xs Hg. induction l as [|c l IH]; intros E Hg; auto. destruct Hg as ((_ & _ & _ & _ & _ & _ & H & _) & Hg). cbn. f_equal; eauto. }
  rewrite Hgw, Hn in E2. replace (pp_center_data prm') with (pp_center_data prm) in E2 by (rewrite Ep', W3; reflexivity).
  exists most, s, mX, sX, Xs, yi, l, Rt, ym. rewrite <- W9, <- Ep'.
  repeat (split; [first [assumption | apply (gchain_wf _ _ _ _ _ _ _ _ _ Hg); lia]|]).
  destruct yi as [[y my]|]; [|exact Hym]. destruct Hym as (ic & b0 & yfit & r & H1 & H2). exists ic, b0, yfit, r. do 3 eexists. exact H2.
Qed.

(** ** deflation in plain terms *)
Lemma vsub_seq : forall (g : nat -> R) a r, vsub r (vscale a (map g (seq 0 (length r)))) = map (fun j => nth j r 0 - a * g j) (seq 0 (length r)).
Proof.
  intros g a r. revert g. induction r as [|x r IH]; intros g; [reflexivity|]. cbn [length seq map]. rewrite <- seq_shift, !map_map.
  unfold vsub, vscale in *. cbn [map map2]. f_equal. rewrite map_map. specialize (IH (fun j => g (S j))). rewrite map_map in IH. exact IH.
Qed.
Lemma msub_seq : forall (g : nat -> R) p E t, Forall (fun r => length r = p) E -> length t = length E ->
  map2 vsub E (map (fun a => vscale a (map g (seq 0 p))) t) = map (fun rt => map (fun j => nth j (fst rt) 0 - snd rt * g j) (seq 0 p)) (combine E t).
Proof.
  intros g p E. induction E as [|r E IH]; intros [|a t] HF Hlt; cbn in Hlt; try lia; [reflexivity|].
  inversion HF as [|? ? Hr HF']; subst. cbn [map map2 combine fst snd]. f_equal; [apply vsub_seq|apply IH; auto].
Qed.
Lemma g_E_deflate : forall prm most kw two K n p E c, (0 < n)%nat -> gfact prm most kw two K n p E c -> g_E c = deflate p E (g_t c).
Proof.
  intros prm most kw two K n p E c Hn (HE & Hd & Ht & Hp & He & _). rewrite He, Hp.
  assert (Hlt : length (g_t c) = n) by (rewrite Ht, matvec_length; apply (wf_length _ _ _ HE)).
  set (t := g_t c) in *. clearbody t. clear Ht He Hp.
  set (l := vscale (/ dot t t) (tmatvec E t)).
  assert (Hl : l = map (fun j => inner (column j E) t / sqlen t) (seq 0 p)).
  { unfold l, tmatvec, cols. rewrite (wf_ncols n p E HE Hn). unfold vscale. rewrite !map_map. apply map_ext. intros j. rnum.
    rewrite inner_dot, sqlen_dot. change (column j E) with (col j E). unfold Rdiv. ring. }
  rewrite Hl. destruct HE as [HEl HF]. unfold deflate, msub, outer. apply (msub_seq (fun j => inner (column j E) t / sqlen t)); congruence.
Qed.

Lemma chain_deflated : forall env prm most kw two K n p d l E, (0 < n)%nat -> gchain prm most kw two K n p E l -> mchain env prm most kw d p E l -> ochain env prm most kw p E l ->
  forall i, (i < length l)%nat ->
  let Ei := deflate_all p E (map g_t (firstn i l)) in
  gfact prm most kw two K n p Ei (nth i l pc0) /\ max_fact env prm most kw d p Ei (nth i l pc0) /\ asked env prm most kw p Ei (g_dir (nth i l pc0)).
Proof.
  intros env prm most kw two K n p d l. induction l as [|c l IH]; intros E Hn Hg Hm Ho i Hi; [cbn in Hi; lia|]. destruct Hg as [Hg1 Hg2], Hm as [Hm1 Hm2], Ho as [Ho1 Ho2].
  destruct i as [|i]; [cbn; auto|]. cbn [nth firstn map deflate_all fold_left]. unfold deflate_all. cbn [fold_left]. rewrite <- (g_E_deflate _ _ _ _ _ _ _ _ _ Hn Hg1).
  apply IH; auto. cbn in Hi. lia.
Qed.

Lemma T_first : forall n (cs : list (pcomp R)) i, (i <= length cs)%nat -> (forall k, (k < length cs)%nat -> length (g_t (nth k cs pc0)) = n) ->
  first_columns i (of_cols n (map g_t cs)) = map g_t (firstn i cs).
Proof.
  intros n cs i Hi Hl. unfold first_columns. apply (nth_ext _ _ [] []).
  - rewrite !map_length, seq_length, firstn_length. lia.
  - intros k Hk. rewrite map_length, seq_length in Hk. erewrite nth_indep by (rewrite map_length, seq_length; exact Hk).
    rewrite (map_nth (fun k => column k (of_cols n (map g_t cs))) (seq 0 i) 0%nat k), seq_nth by auto. cbn [plus].
    rewrite T_col by (auto; try lia; apply Hl; lia). change (@nil R) with (g_t pc0). rewrite map_nth. f_equal.
    rewrite <- (firstn_skipn i cs) at 1. rewrite app_nth1 by (rewrite firstn_length; lia). reflexivity.
Qed.

(** ** the stored centres and scales *)
Lemma scaled_lengths : forall (env : pp_env R) c s t n p X m v Z, is_matrix n p X -> (2 <= n)%nat -> (c = CMean \/ c = CMedian) -> plain_scale s ->
  pp_scaled env c s t X = Ok (m, v, Z) -> length m = p /\ length v = p /\ scale_data X m v = Ok Z.
Proof.
  intros env c s t n p X m v Z HX Hn Hc Hs E. apply pp_scaled_inv in E as (E1 & E2 & E3). rewrite (check_input_id n p) in E1, E2, E3 by auto. split; [|split; [|exact E1]].
  - destruct Hc as [->| ->]; cbn in E2.
    + apply mean_length in E2. rewrite E2. apply (wf_ncols n p); auto; lia.
    + injection E2 as <-. rewrite median_length. apply (wf_ncols n p); auto; lia.
  - destruct Hs as [->|[->| ->]]; cbn in E3.
    + apply (std_length n p) in E3; auto; lia.
    + injection E3 as <-. apply (mad_length n p); auto; lia.
    + injection E3 as <-. rewrite repeat_length. apply (wf_ncols n p); auto; lia.
Qed.
Lemma scale_name_plain : forall (prm : pparams R) s, scale_name prm = Ok s -> plain_scale s.
Proof.
  intros prm s E. unfold scale_name in E. unfold plain_scale. destruct (pp_scale_data prm); [|inversion E; auto]. destruct (pp_center prm); inversion E; auto.
Qed.
Lemma init_centre : forall prm : pparams R, pp_init prm = Ok prm -> pp_center prm = CMean \/ pp_center prm = CMedian.
Proof. intros prm E. unfold pp_init in E. destruct (pp_center prm); try discriminate; auto. Qed.

Lemma scaled_col : forall (env : pp_env R) prm s n p X m v Z, is_matrix n p X -> (2 <= n)%nat -> (pp_center prm = CMean \/ pp_center prm = CMedian) -> pp_center_data prm = true ->
  pp_trim prm = 0 -> scale_name prm = Ok s -> pp_scaled env (pp_center prm) s (pp_trim prm) X = Ok (m, v, Z) ->
  forall j, (j < p)%nat -> scaling_of prm (column j X) (nth j m 0) (nth j v 0).
Proof.
  intros env prm s n p X m v Z HX Hn Hc Hcd Ht Es E j Hj. pose proof (scale_name_plain _ _ Es) as Hps. apply pp_scaled_inv in E as (_ & E2 & E3).
  rewrite (check_input_id n p) in E2, E3 by auto.
  assert (Hpc : plain_centre (pp_center prm)) by (unfold plain_centre; tauto).
  apply (location_col _ _ _ n p X m j HX ltac:(lia) Hpc) in E2; [|exact Hj]. apply (scale_est_col _ _ _ n p X v j HX ltac:(lia) Hps) in E3; [|exact Hj].
  assert (Hne : col j X <> []) by (apply (col_nonempty n p); auto; lia).
  unfold scaling_of. rewrite Hcd. change (column j X) with (col j X). unfold scale_name in Es. rewrite Ht in E2, E3.
  destruct Hc as [Hc|Hc]; rewrite Hc in *; cbn [col_loc] in E2.
  - destruct (Req_EM_T 0 0) as [_|]; [|congruence]. apply Ok_inj in E2. rewrite mean_of_vmean, variance_of_vvar. destruct (pp_scale_data prm); apply Ok_inj in Es; subst s; cbn [col_sca] in E3.
    + destruct (Req_EM_T 0 0) as [_|]; [|congruence]. apply Ok_inj in E3. split; [split; [auto|intros _; auto]|discriminate].
    + apply Ok_inj in E3. split; [split; [auto|discriminate]|auto].
  - apply Ok_inj in E2. rewrite <- E2. destruct (pp_scale_data prm); apply Ok_inj in Es; subst s; cbn [col_sca] in E3; apply Ok_inj in E3; rewrite <- E3.
    + split; [split; [apply is_median_iff; auto|intros _; apply is_mad_vmad; auto]|discriminate].
    + split; [split; [apply is_median_iff; auto|discriminate]|auto].
Qed.

Lemma C148_l : forall (env : pp_env R) prm d X f prm' d' m n p, is_matrix n p X -> (2 <= n)%nat -> direct_fit prm n p -> pp_init prm = Ok prm -> pp_trim prm = 0 ->
  pp_fit env prm d X f = (prm', d', Ok m) -> (0 < pp_ncomp prm')%nat ->
  length (pm_loc m) = p /\ length (pm_sca m) = p /\ (forall j, (j < p)%nat -> scaling_of prm (column j X) (nth j (pm_loc m) 0) (nth j (pm_sca m) 0)) /\
  forall v, has_response (f_y f) v -> exists ym, pm_y m = Some ym /\ scaling_of prm v (ym_loc ym) (ym_sca ym).
Proof.
  intros env prm d X f prm' d' m n p HX Hn2 Hd Hi Ht E Hh. destruct (plain_run _ _ _ _ _ _ _ _ _ _ HX Hd E Hh) as
    (Hn & Hp0 & Ep & most & s & mX & sX & Xs & yi & cs & yc & Rt & ym & Hix & Hsn & Esc & HXs & Ey & Eck & Hl & Hg & Hmc & HR & -> & Hym).
  destruct (with_h_fields prm (f_h f)) as (W1 & W2 & W3 & W4 & W5 & W6 & W7 & W8 & W9 & W10 & W11). rewrite <- Ep in *.
  pose proof (init_centre _ Hi) as Hc. rewrite <- W4 in Hc. rewrite <- W5 in Ht.
  assert (Hso : forall x a b, scaling_of prm' x a b -> scaling_of prm x a b) by (intros x a b; unfold scaling_of; rewrite W3, W4, W11; auto).
  cbn [pm_loc pm_sca pm_y]. 
  assert (HA : length mX = p /\ length sX = p /\ forall j, (j < p)%nat -> scaling_of prm' (column j X) (nth j mX 0) (nth j sX 0)).
  { unfold st_scale in Esc. destruct (pp_center_data prm') eqn:Ecd.
    - destruct (scaled_lengths _ _ _ _ n p X _ _ _ HX Hn2 Hc (scale_name_plain _ _ Hsn) Esc) as (L1 & L2 & _). split; [exact L1|]. split; [exact L2|].
      intros j Hj. apply (scaled_col env prm' s n p X mX sX Xs); auto.
    - injection Esc as <- <- _. split; [apply repeat_length|]. split; [apply repeat_length|]. intros j Hj. unfold scaling_of. rewrite Ecd. unfold vzeros. rewrite !repeat_nth by auto. split; reflexivity. }
  destruct HA as (HA1 & HA2 & HA3). split; [exact HA1|]. split; [exact HA2|]. split; [intros j Hj; apply Hso; auto|].
  intros v Hv. destruct (has_response_some _ _ _ _ _ _ _ Ey Hv) as (y & my & ->). destruct Hym as (_ & _ & ic & b0 & yfit & r & _ & ->).
  eexists. split; [reflexivity|]. cbn [ym_loc ym_sca]. apply Hso. destruct (response_values _ _ _ _ _ _ _ _ Ey Hv) as [_ Hlv].
  destruct Hv as (a & Hy & Ha).
  assert (Hr : exists k, bind (response env prm' s n k a) (fun yi => Ok (Some yi)) = Ok (Some (y, my))).
  { destruct Hy as [Hy | Hy]; rewrite Hy in Ey; unfold st_y in Ey; eexists; exact Ey. }
  destruct Hr as (k & Hr). destruct (response env prm' s n k a) as [[yi' my']|] eqn:Er; cbn [bind] in Hr; [|discriminate]. inversion Hr; subst yi' my'.
  unfold response in Er.
  assert (Hrows : match a with A1 v => map (fun a => [a]) v | A2 Y => Y end = map (fun x => [x]) v) by (destruct Ha as [-> | ->]; reflexivity).
  rewrite Hrows in Er. do 2 match type of Er with (if ?b then _ else _) = _ => destruct b; [discriminate|] end.
  assert (Hc0 : column 0 (map (fun x : R => [x]) v) = v) by (unfold column; rewrite map_map; cbn [nth]; apply map_id).
  assert (HM : is_matrix n 1 (map (fun x : R => [x]) v)).
  { split; [rewrite map_length; exact Hlv|]. apply Forall_forall. intros q Hq. apply in_map_iff in Hq as (z & <- & _). reflexivity. }
  destruct (pp_center_data prm') eqn:Ecd.
  - destruct (pp_scaled env (pp_center prm') s (pp_trim prm') (map (fun x => [x]) v)) as [[[m' sc] Z]|] eqn:Es; cbn [bind] in Er; [|discriminate]. apply Ok_inj, pair_equal_spec in Er as [<- <-].
    cbn [yi_sca]. rewrite <- Hc0. exact (scaled_col env prm' s n 1 _ m' sc Z HM Hn2 Hc Ecd Ht Hsn Es 0%nat ltac:(lia)).
  - apply Ok_inj, pair_equal_spec in Er as [<- <-]. unfold scaling_of. rewrite Ecd. cbn [yi_sca]. split; reflexivity.
Qed.

(** ** C147 *)
Lemma index_col : forall n p (E : list (list R)) u, is_matrix n p E -> as_col (matvec E u) = A2 (map (fun r => [inner r u]) E).
Proof. intros n p E u HE. unfold as_col, matvec. rewrite map_map. f_equal. apply map_ext. intros r. rewrite inner_dot. reflexivity. Qed.
Lemma normalised_sqlen : forall x : list R, map (fun v => v / sqrt (vsum (map nsqr x))) x = map (fun v => v / sqrt (sqlen x)) x.
Proof. intros x. rewrite sqlen_dot. unfold dot. rewrite map2_same. reflexivity. Qed.

Lemma C147_l : forall (env : pp_env R) prm d X f prm' d' m n p, is_matrix n p X -> (2 <= n)%nat -> direct_fit prm n p -> pp_init prm = Ok prm -> pp_optim prm <> OGrid ->
  pp_fit env prm d X f = (prm', d', Ok m) -> (0 < pp_ncomp prm')%nat ->
  exists most ys Z, ix_new (pp_idx prm) = Ok most /\ scaled_by n p X (pm_loc m) (pm_sca m) Z /\
    (f_y f = YNone -> ys = None) /\
    (forall v, has_response (f_y f) v -> exists ym, pm_y m = Some ym /\
       ys = Some (A2 (map (fun a => [(a - ym_loc ym) / (if Req_EM_T (ym_sca ym) 0 then 1 else ym_sca ym)]) v))) /\
    forall i, (i < pp_ncomp prm')%nat ->
      let E := deflate_all p Z (first_columns i (pm_T m)) in
      let kw := mk_dkw ys (Some (pp_trim prm)) (Some (f_bias f)) (Some (pp_alpha prm)) None None None None None (Some euclid) in
      let index u := most (A2 (map (fun r => [inner r u]) E)) kw in
      is_matrix n p E /\ column i (pm_T m) = map (fun r => inner r (column i (pm_W m))) E /\
      exists dd g x, pe_opt env (pp_optim prm) dd g (nth 0 E []) = Ok x /\ length x = p /\ column i (pm_W m) = map (fun v => v / sqrt (sqlen x)) x /\
        (forall u, length u = p -> g u = match index u with Ok v => Ok (- v) | Err e => Err e end) /\
        index (column i (pm_W m)) = Ok (nth i (pm_max m) 0) /\
        (unit_minimiser p g x -> forall u v, length u = p -> sqlen u = 1 -> index u = Ok v -> v <= nth i (pm_max m) 0).
Proof.
  intros env prm d X f prm' d' m n p HX Hn2 Hd Hinit Ho E Hh. destruct (fit_asked _ _ _ _ _ _ _ _ _ _ HX Hd Ho E Hh) as
    (Hn & Hp0 & Ep & most & s & mX & sX & Xs & yi & cs & Rt & ym & Hix & Hsn & Esc & HXs & Ey & Hl & Hg & Hmc & Hoc & -> & Hym).
  destruct (with_h_fields prm (f_h f)) as (W1 & W2 & W3 & W4 & W5 & W6 & W7 & W8 & W9 & W10 & W11). rewrite <- Ep in *.
  pose proof (init_centre _ Hinit) as Hcc. rewrite <- W4 in Hcc.
  exists most, (k_y (st_kw prm' f yi)), Xs. split; [exact Hix|]. cbn [pm_loc pm_sca pm_T pm_W pm_max pm_y].
  split.
  { split; [exact HXs|]. intros i j Hi Hj.
    assert (Hlm : length mX = p /\ length sX = p /\ scale_data X mX sX = Ok Xs).
    { unfold st_scale in Esc. destruct (pp_center_data prm').
      - exact (scaled_lengths _ _ _ _ n p X _ _ _ HX Hn2 Hcc (scale_name_plain _ _ Hsn) Esc).
      - injection Esc as <- <- <-. split; [apply repeat_length|]. split; [apply repeat_length|]. apply (scale_data_id n); auto. }
    destruct Hlm as (Hlm & Hls & Hsd). destruct (scale_data_cells n p X mX sX HX Hn Hp0 Hlm Hls) as (Xs' & Es' & Hw & Hc). rewrite Hsd in Es'. apply Ok_inj in Es'. subst Xs'.
    specialize (Hc i j Hi Hj). change (cell Xs i j) with (mget Xs i j). change (cell X i j) with (mget X i j). rewrite Hc. unfold standardised.
    split; intros Hz; destruct (Req_EM_T (nth j sX 0) 0); try contradiction; [unfold Rdiv; rewrite Rinv_1; ring|reflexivity]. }
  split.
  { intros Hy. unfold st_y in Ey. rewrite Hy in Ey. inversion Ey; subst. reflexivity. }
  split.
  { intros v Hv. destruct (has_response_some _ _ _ _ _ _ _ Ey Hv) as (y & my & ->). destruct Hym as (ic & b0 & yfit & r & B & Bs & C & ->).
    eexists. split; [reflexivity|]. cbn [ym_loc ym_sca st_kw index_kw k_y]. unfold st_kw, index_kw. cbn [k_y]. f_equal. unfold as_col. f_equal.
    destruct (response_values _ _ _ _ _ _ _ _ Ey Hv) as [_ Hlv]. rewrite (response_scaled _ _ _ _ _ _ _ _ Ey Hv) by lia. rewrite map_map. reflexivity. }
  intros i Hi. assert (Ekw : mk_dkw (k_y (st_kw prm' f yi)) (Some (pp_trim prm)) (Some (f_bias f)) (Some (pp_alpha prm)) None None None None None (Some euclid) = st_kw prm' f yi).
  { unfold st_kw, index_kw. cbn [k_y]. rewrite W5, W10. reflexivity. }
  cbn zeta. rewrite Ekw. set (kw := st_kw prm' f yi) in *. rewrite <- Hl in *.
  rewrite (T_first n cs i) by (try lia; intros k Hk; exact (proj1 (gchain_nth_len _ _ _ _ _ _ _ _ _ k Hg Hk))).
  destruct (chain_deflated _ _ _ _ _ _ _ _ _ _ _ Hn Hg Hmc Hoc i Hi) as (Hgf & Hmf & Hask). cbn zeta in Hgf, Hmf, Hask.
  set (E' := deflate_all p Xs (map g_t (firstn i cs))) in *. pose proof Hgf as (HE' & Hdl & Ht & _).
  destruct (gchain_nth_len _ _ _ _ _ _ _ _ _ i Hg Hi) as (Lt & Ld & _). rewrite W_col by auto.
  split; [exact HE'|]. split.
  { rewrite (T_col n) by auto. rewrite Ht. unfold matvec. apply map_ext. intros r. symmetry. apply inner_dot. }
  destruct Hask as (dd & x & Eo & Hlx & Hdir). rewrite W7 in Eo. exists dd, (pp_objective most kw E'), x.
  assert (Hobj : forall u, length u = p -> pp_objective most kw E' u = match most (A2 (map (fun r => [inner r u]) E')) kw with Ok v => Ok (- v) | Err e => Err e end).
  { intros u Hu. unfold pp_objective, npdot. rewrite (wf_ncols n p E' HE' Hn), Hu, Nat.eqb_refl. cbn [bind]. rewrite (index_col n p) by exact HE'. destruct (most _ kw); reflexivity. }
  assert (Hmax : most (A2 (map (fun r => [inner r (g_dir (nth i cs pc0))]) E')) kw = Ok (nth i (map g_max cs) 0)).
  { replace (nth i (map g_max cs) 0) with (g_max (nth i cs pc0)) by (symmetry; exact (map_nth g_max cs pc0 i)).
    rewrite <- (index_col n p) by exact HE'. rewrite <- Ht. unfold max_fact in Hmf. rewrite W7 in Hmf. destruct (pp_optim prm); [congruence| | |]; apply Hmf. }
  split; [exact Eo|]. split; [exact Hlx|]. split; [rewrite Hdir; apply normalised_sqlen|]. split; [exact Hobj|]. split; [exact Hmax|].
  intros (_ & Hx1 & v0 & Hv0 & Hmin) u v Hu Hu1 Hv.
  assert (Edx : g_dir (nth i cs pc0) = x).
  { rewrite Hdir, normalised_sqlen, Hx1, sqrt_1. rewrite <- (map_id x) at 2. apply map_ext. intros a. field. }
  rewrite Edx in Hmax. rewrite Hobj, Hmax in Hv0 by exact Hlx. apply Ok_inj in Hv0.
  specialize (Hmin u (- v) Hu Hu1). rewrite Hobj, Hv in Hmin by exact Hu. specialize (Hmin eq_refl). lra.
Qed.

(** ** C150: the options of the grid optimiser *)
Lemma opt_int_get : forall k d1 d2, dget (KStr k) d1 = dget (KStr k) d2 -> opt_int k d1 = opt_int k d2.
Proof. intros k d1 d2 H. unfold opt_int. rewrite H. reflexivity. Qed.
Lemma direction_opts : forall (env : pp_env R) prm most kw d1 d2 p E, pp_optim prm = OGrid -> opt_int "ndir" d1 = opt_int "ndir" d2 -> opt_int "maxiter" d1 = opt_int "maxiter" d2 ->
  exists r, direction env prm most kw d1 p E = (d1, r) /\ direction env prm most kw d2 p E = (d2, r).
Proof. intros env prm most kw d1 d2 p E Ho H1 H2. unfold direction. rewrite Ho, H1, H2. eexists. split; reflexivity. Qed.
Lemma loop_opts : forall (env : pp_env R) k prm most kw yi K n p sX d1 d2 E cs yc R0, pp_optim prm = OGrid -> opt_int "ndir" d1 = opt_int "ndir" d2 -> opt_int "maxiter" d1 = opt_int "maxiter" d2 ->
  exists r, pp_loop env k prm most kw yi K n p sX d1 E cs yc R0 = (d1, r) /\ pp_loop env k prm most kw yi K n p sX d2 E cs yc R0 = (d2, r).
Proof.
  intros env k. induction k as [|k IH]; intros prm most kw yi K n p sX d1 d2 E cs yc R0 Ho H1 H2; [eexists; split; reflexivity|]. cbn [pp_loop].
  destruct (direction_opts env prm most kw d1 d2 p E Ho H1 H2) as (r & -> & ->). destruct r as [wo|e]; cbn [bind]; [|eexists; split; reflexivity].
  destruct (component (A := R) _ _ _ _ _ _ _ _ _) as [c|e]; cbn [bind]; [|eexists; split; reflexivity].
  destruct (rotations env p (cs ++ [c])) as [R1|e]; cbn [bind]; [|eexists; split; reflexivity].
  destruct (match yi with None => Ok yc | Some y => _ end) as [yc1|e]; cbn [bind]; [|eexists; split; reflexivity]. apply IH; auto.
Qed.
Lemma grid_options_get : forall d, dget (KStr "ndir") d = None -> opt_int "ndir" (grid_options d) = Ok 1000%Z /\ opt_int "maxiter" (grid_options d) = opt_int "maxiter" d.
Proof.
  intros d H. unfold opt_int, grid_options. rewrite !dget_set_default. cbn [key_eqb String.eqb Ascii.eqb Bool.eqb]. rewrite H. split; reflexivity.
Qed.
Lemma grid_options_set : forall d v, dget (KStr "ndir") d = Some v -> grid_options d = d.
Proof. intros d v H. unfold grid_options, set_default. rewrite dmem_dget, H. reflexivity. Qed.

Lemma C150_l : forall (env : pp_env R) prm d d2 X f, pp_optim prm = OGrid -> dget (KStr "ndir") d = None ->
  dget (KStr "ndir") d2 = Some (VInt 1000) -> dget (KStr "maxiter") d2 = dget (KStr "maxiter") d ->
  fst (fst (pp_fit env prm d X f)) = fst (fst (pp_fit env prm d2 X f)) /\ snd (pp_fit env prm d X f) = snd (pp_fit env prm d2 X f).
Proof.
  intros env prm d d2 X f Ho H1 H2 H3. destruct (grid_options_get d H1) as [G1 G2]. pose proof (grid_options_set d2 _ H2) as G3.
  assert (G4 : opt_int "ndir" (grid_options d) = opt_int "ndir" d2) by (rewrite G1; unfold opt_int; rewrite H2; reflexivity).
  assert (G5 : opt_int "maxiter" (grid_options d) = opt_int "maxiter" d2) by (rewrite G2; symmetry; apply opt_int_get; exact H3).
  destruct (with_h_fields prm (f_h f)) as (W1 & W2 & W3 & W4 & W5 & W6 & W7 & W8 & W9 & W10 & W11).
  assert (Ho' : pp_optim (with_whitening (with_h prm (f_h f))) = OGrid) by (rewrite ww_optim, W7; exact Ho).
  unfold pp_fit. cbn zeta. rewrite Ho'. rewrite G3.
  destruct (ix_dicomo _ && _); [split; reflexivity|]. destruct (ix_new _) as [most|]; [|split; reflexivity].
  destruct (_ <? _)%nat; [split; reflexivity|]. destruct (scale_name _) as [s|]; [|split; reflexivity].
  destruct (if (_ <? _)%nat && _ then _ else _) as [[[X1 p] dims]|]; [|split; reflexivity].
  destruct (if pp_center_data _ then _ else _) as [[[mX sX] Xs0]|]; [|split; reflexivity].
  destruct (if pp_whiten _ then _ else _) as [[Xs K]|]; [|split; reflexivity].
  match goal with |- fst (fst (match ?g with Ok _ => _ | Err _ => _ end)) = _ /\ _ => destruct g as [yi|] end; [|split; reflexivity].
  rewrite <- G4, <- G5.
  destruct (bind (opt_int "ndir" (grid_options d)) _) as [[]|]; [|split; reflexivity].
  match goal with |- context [pp_loop env ?k ?prm ?most ?kw ?y ?K ?n ?p ?sX d2 ?E ?cs ?yc ?R0] =>
    destruct (loop_opts env k prm most kw y K n p sX (grid_options d) d2 E cs yc R0 Ho' G4 G5) as (r & E1 & E2) end.
  rewrite E1, E2. cbn [fst snd]. split; reflexivity.
Qed.
Lemma C150_maxiter_l : forall (env : pp_env R) prm d X f prm' d' m, pp_optim prm = OGrid -> dget (KStr "maxiter") d = None -> pp_fit env prm d X f <> (prm', d', Ok m).
Proof.
  intros env prm d X f prm' d' m Ho Hd E.
  apply L_Pp2.fit_inv in E as (most & s & X1 & q & dims & mX & sX & Xs0 & Xs & K & yi & cs & yc & Rt & Ep & Ei & Hm & Es & Ec & Esc & Ew & Ey & Ek & _).
  destruct (with_h_fields prm (f_h f)) as (W1 & W2 & W3 & W4 & W5 & W6 & W7 & W8 & W9 & W10 & W11).
  assert (Ho' : pp_optim prm' = OGrid) by (rewrite Ep, ww_optim, W7; exact Ho). unfold st_check, st_opts in Ek. rewrite Ho' in Ek.
  destruct (opt_int "ndir" _) as [z|]; cbn [bind] in Ek; [|discriminate]. destruct (z <? 0)%Z; [discriminate|].
  unfold opt_int, grid_options in Ek. rewrite dget_set_default in Ek. cbn [key_eqb String.eqb Ascii.eqb Bool.eqb] in Ek. rewrite Hd in Ek. discriminate.
Qed.

(** ** C151: whitening *)
Lemma with_h_scaling : forall (prm : pparams R) h cd sd co, with_h (other_scaling prm cd sd co) h = other_scaling (with_h prm h) cd sd co.
Proof. intros prm [h|] cd sd co; reflexivity. Qed.
Lemma C151_params_l : forall (env : pp_env R) prm d X f most, pp_whiten prm = true -> ix_new (pp_idx prm) = Ok most -> (ix_dicomo (pp_idx prm) = true -> ix_mode (pp_idx prm) <> None) ->
  (match f_h f with Some h => h | None => pp_ncomp prm end <= Nat.min (length X) (ncols X))%nat ->
  let prm' := fst (fst (pp_fit env prm d X f)) in
  pp_center_data prm' = true /\ pp_scale_data prm' = false /\ pp_compress prm' = false.
Proof.
  intros env prm d X f most Hw Hix Hmo Hh prm'. destruct (with_h_fields prm (f_h f)) as (W1 & W2 & W3 & W4 & W5 & W6 & W7 & W8 & W9 & W10 & W11).
  assert (E : prm' = with_whitening (with_h prm (f_h f))).
  { unfold prm'. clear prm'. unfold pp_fit. cbn zeta. rewrite W9, Hix.
    replace (ix_dicomo (pp_idx prm) && match ix_mode (pp_idx prm) with None => true | _ => false end) with false
      by (destruct (ix_dicomo (pp_idx prm)), (ix_mode (pp_idx prm)); try reflexivity; exfalso; apply Hmo; reflexivity).
    replace (pp_ncomp (with_h prm (f_h f))) with (match f_h f with Some h => h | None => pp_ncomp prm end) by (destruct (f_h f); reflexivity).
    destruct (Nat.ltb_spec (Nat.min (length X) (ncols X)) (match f_h f with Some h => h | None => pp_ncomp prm end)); [lia|].
    destruct (scale_name _) as [s|]; [|reflexivity].
    destruct (if (_ <? _)%nat && _ then _ else _) as [[[X1 p] dims]|]; [|reflexivity].
    destruct (if pp_center_data _ then _ else _) as [[[mX sX] Xs0]|]; [|reflexivity].
    destruct (if pp_whiten _ then _ else _) as [[Xs K]|]; [|reflexivity].
    match goal with |- fst (fst (match ?g with Ok _ => _ | Err _ => _ end)) = _ => destruct g as [yi|] end; [|reflexivity].
    match goal with |- fst (fst (match ?g with Ok _ => _ | Err _ => _ end)) = _ => destruct g as [[]|] end; [|reflexivity].
    destruct (pp_loop (A := R) _ _ _ _ _ _ _ _ _ _ _ _ _ _ _). reflexivity. }
  rewrite E. unfold with_whitening. rewrite W1, Hw. repeat split.
Qed.
Lemma C151_same_l : forall (env : pp_env R) prm d X f cd sd co, pp_whiten prm = true ->
  snd (pp_fit env (other_scaling prm cd sd co) d X f) = snd (pp_fit env prm d X f).
Proof.
  intros env prm d X f cd sd co Hw. destruct (with_h_fields prm (f_h f)) as (W1 & W2 & W3 & W4 & W5 & W6 & W7 & W8 & W9 & W10 & W11).
  assert (Ew : with_whitening (with_h (other_scaling prm cd sd co) (f_h f)) = with_whitening (with_h prm (f_h f))).
  { rewrite with_h_scaling. unfold with_whitening, other_scaling. cbn [pp_whiten pp_idx pp_ncomp pp_trim pp_alpha pp_optim pp_regopt pp_center pp_square]. rewrite W1, Hw. reflexivity. }
  unfold pp_fit. cbn zeta. rewrite Ew. replace (pp_idx (with_h (other_scaling prm cd sd co) (f_h f))) with (pp_idx (with_h prm (f_h f))) by (rewrite with_h_scaling; reflexivity).
  replace (pp_ncomp (with_h (other_scaling prm cd sd co) (f_h f))) with (pp_ncomp (with_h prm (f_h f))) by (rewrite with_h_scaling; reflexivity).
  destruct (ix_dicomo _ && _); [reflexivity|]. destruct (ix_new _) as [most|]; [|reflexivity]. destruct (_ <? _)%nat; reflexivity.
Qed.

(** ** C149: centring *)
Lemma C149_l : forall prm : pparams R,
  (pp_center prm = CMean \/ pp_center prm = CMedian -> pp_init prm = Ok prm) /\
  (pp_center prm = CL1median \/ pp_center prm = CKstepLTS \/ pp_center prm = CNone \/ pp_center prm = CBad \/ (exists g, pp_center prm = CUser g) -> pp_init prm = Err ValueError).
Proof.
  intros prm. unfold pp_init. split.
  - intros [-> | ->]; reflexivity.
  - intros [->|[->|[->|[->|(g & ->)]]]]; reflexivity.
Qed.
Lemma C149_later_l : forall (env : pp_env R) prm d X f prm' d' m,
  pp_center prm = CKstepLTS \/ pp_center prm = CNone \/ pp_center prm = CBad \/ (exists g, pp_center prm = CUser g) -> pp_scale_data prm = true -> pp_whiten prm = false ->
  pp_fit env prm d X f <> (prm', d', Ok m).
Proof.
  intros env prm d X f prm' d' m Hc Hs Hw E. apply L_Pp2.fit_inv in E as (most & s & X1 & q & dims & mX & sX & Xs0 & Xs & K & yi & cs & yc & Rt & Ep & Ei & Hm & Es & _).
  destruct (with_h_fields prm (f_h f)) as (W1 & W2 & W3 & W4 & W5 & W6 & W7 & W8 & W9 & W10 & W11).
  rewrite Ep in Es. unfold with_whitening in Es. rewrite W1, Hw in Es. unfold scale_name in Es. rewrite W11, Hs, W4 in Es.
  destruct Hc as [Hc|[Hc|[Hc|(g & Hc)]]]; rewrite Hc in Es; discriminate.
Qed.

Lemma C150_default_l : forall (env : pp_env R) prm X f,
  snd (wstep env (wrun env world0 [WNew prm None]) (WFit 0 X f)) = snd (wstep env (wrun env world0 [WNew prm (Some [(KStr "maxiter", VInt 100000)])]) (WFit 0 X f)).
Proof.
  intros env prm X f. cbn [wrun wstep]. destruct (pp_init prm) as [prm'|e]; cbn [fst w_inst w_heap world0 app nth_error wstep]; [|reflexivity].
  cbn [length nth]. change default_options with [(KStr "maxiter", VInt 100000)]. destruct (pp_fit env prm' [(KStr "maxiter", VInt 100000)] X f) as [[a b] r]. reflexivity.
Qed.
