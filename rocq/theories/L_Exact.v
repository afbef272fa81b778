(** Exactly linear responses in rm (C200). *)
From Coq Require Import Reals List Arith ZArith Bool Lia Lra.
Import ListNotations.
From Verif Require Import Num Err Vec VecR OrdR L_Mat S_Utils S_Stats S_Weights M_Utils M_Preproc M_Robcent M_Msupport M_Rm S_Rm L_Scaling L_Scaling2 L_Snipls L_Missing L_Rm L_Rm2 L_Msupport S_MissReg L_MissReg S_Exact.
Open Scope R_scope.

Definition nans (n : nat) : list XR := repeat NaN n.
Lemma dot_fin : forall r b, dot (finite_vec r) (finite_vec b) = Fin (sum_of (map (fun xb => fst xb * snd xb) (combine r b))).
Proof.
  unfold dot. induction r as [|x r IH]; intros [|z b]; try reflexivity. unfold finite_vec. cbn [map map2 combine vsum fold_right]. change (fold_right nadd n0) with (@vsum XR _).
  unfold finite_vec in IH. rewrite IH. cbn. reflexivity.
Qed.
Lemma resid_zero : forall X y b, exact_fit X y b -> vsub (finite_vec y) (matvec (finite_mat X) (finite_vec b)) = repeat (Fin 0) (length X).
Proof.
  intros X y b ->. unfold vsub, matvec, finite_mat, finite_vec at 1. rewrite !map_map. induction X as [|r X IH]; [reflexivity|]. cbn [map map2 length repeat]. rewrite IH. f_equal. rewrite dot_fin. cbn. f_equal. ring.
Qed.
Lemma std_zero : forall n, (1 <= n)%nat -> std_resid (repeat (Fin 0) n) = nans n.
Proof.
  intros n Hn. unfold std_resid.
  assert (E1 : filter (fun v : XR => neqb v n0) (repeat (Fin 0) n) = repeat (Fin 0) n).
  { clear Hn. induction n as [|n IH]; [reflexivity|]. cbn [repeat filter]. rewrite IH. xnum. cbn [XReqb]. replace (Reqb 0 0) with true; [reflexivity|]. symmetry. unfold Reqb. destruct (Req_EM_T 0 0); [reflexivity|congruence]. }
  assert (E2 : filter (fun v : XR => negb (neqb v n0)) (repeat (Fin 0) n) = []).
  { clear Hn E1. induction n as [|n IH]; [reflexivity|]. cbn [repeat filter]. rewrite IH. xnum. cbn [XReqb]. replace (Reqb 0 0) with true; [reflexivity|]. symmetry. unfold Reqb. destruct (Req_EM_T 0 0); [reflexivity|congruence]. }
  rewrite E1, E2, repeat_length. destruct (Nat.ltb_spec (2 * n) n); [lia|].
  assert (E3 : np_median (map nabs []) = NaN) by exact nan0. rewrite E3. unfold nans. clear. induction n as [|n IH]; [reflexivity|]. cbn [repeat map]. rewrite IH. reflexivity.
Qed.
Lemma upd_nans : forall mask g n, mask NaN = false -> upd mask g (nans n) = nans n.
Proof. intros mask g n H. unfold upd, nans. induction n as [|n IH]; [reflexivity|]. cbn [repeat map]. rewrite H, IH. reflexivity. Qed.
Lemma ltb_NaN_r : forall c, XRltb c NaN = false. Proof. intros []; reflexivity. Qed.
Lemma leb_NaN_l : forall c, XRleb NaN c = false. Proof. intros []; reflexivity. Qed.
Lemma weights_nans : forall f (c b r : XR) n, mweights f c b r (nans n) = nans n.
Proof.
  intros f c b r n. destruct f; cbn [mweights].
  - unfold Fair, nans. induction n as [|n IH]; [reflexivity|]. cbn [repeat map]. rewrite IH. f_equal.
  - unfold Huber. rewrite !upd_nans; [reflexivity| |]; xnum; try apply leb_NaN_l; apply ltb_NaN_r.
  - unfold Hampel. rewrite !upd_nans; [reflexivity| | | |]; xnum; rewrite ?leb_NaN_l, ?ltb_NaN_r; reflexivity.
Qed.
Lemma mul_nans : forall n (w : list XR), length w = n -> vmul (nans n) w = nans n.
Proof. unfold vmul, nans. induction n as [|n IH]; intros [|a w] H; try discriminate; [reflexivity|]. cbn [repeat map2]. rewrite IH by (cbn in H; lia). reflexivity. Qed.
Lemma low_nans : forall n, low (nans n) = [].
Proof. intros n. unfold low, where_, nans. generalize 0%nat as k. induction n as [|n IH]; intros k; [reflexivity|]. cbn [repeat where_from]. apply IH. Qed.
Lemma set_none : forall {A} `{Num A} v (x : list A), set_idx [] v x = x.
Proof.
  intros A HA v x. unfold set_idx. generalize 0%nat as k. induction x as [|a x IH]; intros k; [reflexivity|]. cbn [length seq combine map existsb snd]. rewrite IH. reflexivity.
Qed.
Lemma sqrt_nans : forall n, map nsqrt (nans n) = nans n.
Proof. unfold nans. induction n as [|n IH]; [reflexivity|]. cbn [repeat map]. rewrite IH. reflexivity. Qed.
Lemma nans_missing : forall n, Forall (eq NaN) (nans n).
Proof. intros n. apply Forall_forall. intros x H. apply repeat_spec in H. auto. Qed.

(** one pass after an exact solution *)
Lemma body_exact : forall f c b2 r3 Xr yr br (wx : list XR) st, exact_fit Xr yr br -> (1 <= length Xr)%nat -> length wx = length Xr ->
  exists d, rm_body f c b2 r3 (finite_mat Xr) (finite_vec yr) wx st (finite_vec br) =
    (mk_rs (Some (finite_vec br)) (nans (length Xr)) (nans (length Xr)) [] (nans (length Xr)) (vsum (map nsqr (finite_vec br))) d (S (l_loops st)), false) /\
    d = ndiv (nabs (nsub (vsum (map nsqr (finite_vec br))) (l_rold st))) (l_rold st).
Proof.
  intros f c b2 r3 Xr yr br wx st He Hn Hw. eexists. split; [|reflexivity]. unfold rm_body. cbv zeta. rewrite (resid_zero _ _ _ He), (std_zero _ Hn), weights_nans, (mul_nans _ _ Hw). unfold floor_w. rewrite low_nans, set_none, sqrt_nans.
  unfold finite_mat. rewrite map_length. destruct (Nat.leb_spec (length Xr) (2 * length (@nil nat))) as [H|_]; [cbn in H; lia|]. reflexivity.
Qed.
Lemma sum_sq_fin : forall b, vsum (map nsqr (finite_vec b)) = Fin (sum_of (map (fun x => x * x) b)).
Proof. unfold finite_vec. induction b as [|a b IH]; [reflexivity|]. cbn [map vsum fold_right]. change (fold_right nadd n0) with (@vsum XR _). rewrite IH. reflexivity. Qed.
Lemma mweights_length : forall f (c b r : XR) v, length (mweights f c b r v) = length v.
Proof. intros [| |] c b r v; cbn [mweights]; unfold Fair, Huber, Hampel, upd; rewrite !map_length; reflexivity. Qed.

Lemma exact_l : forall (env : rm_env XR) P p X y Xr yr br Xw yw rest r tol, (2 <= length y)%nat -> (1 <= p)%nat -> Forall (fun r => length r = p) Xr ->
  xscaled (re_prep env) (r_centre P) (r_scale P) X (finite_mat Xr) -> xscaled (re_prep env) (r_centre P) (r_scale P) (map (fun v => [v]) y) (map (fun v => [v]) (finite_vec yr)) ->
  exact_fit Xr yr br -> r_tol P = Fin tol -> rejects_missing (re_lstsq env) ->
  rm_run env P X y = ((Xw, yw) :: rest, r) -> re_lstsq env Xw yw = Ok (finite_vec br) ->
  ((3 <= r_maxit P)%nat /\ tol < Rabs (sum_of (map (fun x => x * x) br) - 1 / 100000) / (1 / 100000) -> r = Err LinAlgError) /\
  (~ ((3 <= r_maxit P)%nat /\ tol < Rabs (sum_of (map (fun x => x * x) br) - 1 / 100000) / (1 / 100000)) -> forall m, r = Ok m -> all_missing (rm_cw m)).
Proof.
  intros env P p X y Xr yr br Xw yw rest r tol Hn Hp Hrows [sx EX] [sy0 EY] He Htol Hrej E Hb. unfold rm_run in E.
  destruct (rm_check P) as [f|] eqn:Ec; [|discriminate].
  destruct (Nat.eqb_spec (length y) (length X)) as [Hl|]; [|discriminate]. cbn [negb] in E.
  destruct ((length X =? 1)%nat && (2 <=? ncols X)%nat) eqn:E1; [discriminate|].
  change (@n0 XR _) with (Fin 0) in E. rewrite EX in E.
  destruct (sc_fit_transform (re_prep env) sx (A1 y)) as [st2 [Ys|]] eqn:Ey; [|discriminate].
  assert (EYs : col 0 Ys = finite_vec yr).
  { pose proof EX as EX'. apply ft_inv in EX' as (mm & ss & _ & _ & _ & _ & _ & _ & _ & Est1 & Est2 & Est3).
    destruct (ft_same (re_prep env) sx (new_scaler (r_centre P) (r_scale P) (Fin 0)) st2 (A1 y) (A2 (map (fun v => [v]) y)) Ys) as [s2 E2]; auto.
    - unfold check_input at 1, ncols. cbn [length hd]. destruct (Nat.leb_spec 2 (length y)); [|lia]. cbn [Nat.eqb andb].
      destruct y as [|v1 [|v2 y']]; cbn in Hn; try lia. reflexivity.
    - rewrite EY in E2. injection E2 as _ <-. unfold col. rewrite map_map. cbn [nth]. apply map_id. }
  assert (LX : length (finite_mat Xr) = length X).
  { rewrite (fit_transform_rows _ _ _ _ _ EX). unfold check_input. destruct (Nat.eqb_spec (length X) 1); [lia|reflexivity]. }
  unfold finite_mat in LX at 1. rewrite map_length in LX.
  destruct (a_col_loc sx) as [mX|] eqn:E3; [|discriminate]. destruct (a_col_sca sx) as [sX|] eqn:E4; [|discriminate].
  destruct (a_col_loc st2) as [my|] eqn:E5; [|discriminate]. destruct (a_col_sca st2) as [sy|] eqn:E6; [|discriminate].
  cbv zeta in E. rewrite EYs in E. set (wx := mweights f (ctx env P (ncols X)) _ _ _) in E.
  assert (Lwx : length wx = length Xr) by (unfold wx; rewrite mweights_length; unfold start_dx, finite_mat; rewrite !map_length; reflexivity).
  cbn [rm_loop l_diff l_loops l_sw] in E. set (st0 := mk_rs None _ _ _ _ _ _ _) in E. rewrite Htol in E.
  destruct (nltb (Fin tol) n1 && (1 <? r_maxit P)%nat) eqn:E7; [|discriminate].
  match type of E with context [re_lstsq env ?a ?b] => set (Xw0 := a) in E; set (yw0 := b) in E end.
  assert (EXw : Xw0 = Xw /\ yw0 = yw).
  { destruct (re_lstsq env Xw0 yw0); [|injection E as -> -> _ _; auto]. destruct (rm_body _ _ _ _ _ _ _ _ _) as [st' [|]]; [injection E as -> -> _ _; auto|]. destruct (rm_loop _ _ _ _ _ _ _ _) as [cs rr]. injection E as -> -> _ _; auto. }
  destruct EXw as [-> ->]. rewrite Hb in E.
  destruct (body_exact f (cty env P) (cby env P) (cry env P) Xr yr br wx st0 He ltac:(lia) Lwx) as (d & EB & Ed). rewrite EB in E. rewrite sum_sq_fin in E, Ed.
  assert (Ed' : d = Fin (Rabs (sum_of (map (fun x => x * x) br) - 1 / 100000) / (1 / 100000))).
  { rewrite Ed. unfold st0. cbn [l_rold]. xnum. cbn [XRsub XRadd XRopp XRabs XRdiv]. destruct (Req_EM_T (1 / 100000) 0); [lra|]. reflexivity. }
  clear Ed. subst d. set (D := Rabs _ / _) in *. set (st1 := mk_rs _ _ _ _ _ _ _ _) in E.
  destruct (r_maxit P) as [|k] eqn:Ek; [cbn in E7; rewrite andb_false_r in E7; discriminate|].
  cbn [rm_loop] in E. rewrite Htol, Ek in E. unfold st1 at 1 2 in E. cbn [l_diff l_loops l_sw] in E. change (S (l_loops st0)) with 2%nat in E. 
  change (nltb (Fin tol) (Fin D)) with (Rltb tol D) in E.
  destruct (Rltb tol D && (2 <? S k)%nat) eqn:E8.
  - assert (H8 : (3 <= S k)%nat /\ tol < D) by (apply andb_prop in E8 as [H1 H2]; apply Nat.ltb_lt in H2; rcmp_all; split; [lia|auto]).
    split; [|intros H; contradiction]. intros _.
    assert (HN : exists r0, In r0 (row_scale (nans (length Xr)) (finite_mat Xr)) /\ In NaN r0).
    { destruct Xr as [|r0 Xr']; [cbn in LX; lia|]. exists (vscale NaN (finite_vec r0)). split; [left; reflexivity|]. apply Forall_inv in Hrows. destruct r0 as [|a r0]; [cbn in Hrows; lia|]. left. reflexivity. }
    destruct HN as (r0 & HN1 & HN2). unfold st1 in E at 1. cbn [l_sw] in E. rewrite (Hrej _ _ r0 HN1 HN2) in E. injection E as _ <-. reflexivity.
  - split; [intros [H1 H2]; exfalso; apply andb_false_iff in E8 as [E8|E8]; [rcmp_all; lra|apply Nat.ltb_ge in E8; lia]|]. intros _ m Em.
    assert (EF : rm_finish env P X (finite_mat Xr) y (finite_vec yr) wx mX sX my sy st2 st1 = Ok m) by (injection E as _ <-; exact Em).
    apply rm_finish_inv in EF as (b & _ & _ & EF). cbv zeta in EF. destruct EF as (_ & _ & _ & _ & _ & _ & _ & EF & _). rewrite EF. unfold st1. cbn [l_w0 l_we]. rewrite set_none. apply nans_missing.
Qed.
