(** Lemmas for C203. *)
From Coq Require Import Reals List Arith ZArith Bool Lia Lra.
Import ListNotations.
From Verif Require Import Num Err Vec VecR OrdR L_Mat S_Stats S_Weights S_Regress L_Stats L_Lin M_Utils M_Preproc M_Robcent M_Msupport L_Msupport M_Rm L_Scaling L_Scaling2 L_Snipls L_Snipls2 L_Snipls3 L_Rm L_Rm2 S_Irls L_Irls S_Stop.
Open Scope R_scope.

Lemma size2_eq : forall b : list R, vsum (map nsqr b) = size2 b.
Proof. intros b. unfold size2, sum_of. induction b as [|x b IH]; [reflexivity|]. cbn in *. rewrite <- IH. reflexivity. Qed.
Lemma where_count : forall (g : R -> bool) v k, length (where_from g k v) = length (filter g v).
Proof. intros g. induction v as [|a v IH]; intros k; [reflexivity|]. cbn. destruct (g a); cbn; rewrite IH; reflexivity. Qed.
Lemma zeros_low : forall wx wr : list R, length wr = length wx -> length (zeros (final_weights wx wr)) = length (low (vmul wx wr)).
Proof.
  intros wx wr H. unfold low, where_. rewrite where_count.
  assert (E : final_weights wx wr = map (fun v => if Rlt_dec v (1 / 1000000) then 0 else v) (vmul wx wr)).
  { apply (nth_ext _ _ 0 0). { unfold final_weights, vmul. rewrite !map_length, map2_length, seq_length. lia. }
    intros i Hi. unfold final_weights in *. rewrite map_length, seq_length in Hi. rewrite (nth_map_lt _ _ _ 0%nat) by (rewrite seq_length; lia). rewrite seq_nth by lia. cbn [Nat.add].
    rewrite (nth_map_lt _ _ _ 0) by (unfold vmul; rewrite map2_length; lia). unfold vmul. rewrite (nth_map2 _ _ _ i 0 0) by lia. rnum. reflexivity. }
  rewrite E. generalize (vmul wx wr). clear. induction l as [|a l IH]; [reflexivity|]. cbn [map zeros filter] in *. unfold zeros in IH. unfold wmin in *. change (nlit 1 1000000) with (1 / 1000000) in *. rnum.
  destruct (Rlt_dec a (1 / 1000000)) as [Ha|Ha].
  - replace (Rltb a (1 / 1000000)) with true by (symmetry; apply Rltb_true; exact Ha). destruct (Req_EM_T 0 0); [|congruence]. cbn [length]. f_equal. exact IH.
  - replace (Rltb a (1 / 1000000)) with false by (symmetry; apply Rltb_false; lra). destruct (Req_EM_T a 0); [lra|]. exact IH.
Qed.

(** size before pass k, starting from q *)
Definition qs (q : R) (bs : list (list R)) (k : nat) : R := match k with O => q | S j => size2 (nth j bs []) end.
Definition ch (q : R) (bs : list (list R)) (k : nat) : R := Rabs (size2 (nth k bs []) - qs q bs k) / qs q bs k.
Lemma ch_S : forall q b bs k, ch q (b :: bs) (S k) = ch (size2 b) bs k.
Proof. intros q b bs k. unfold ch. cbn [nth]. replace (qs q (b :: bs) (S k)) with (qs (size2 b) bs k); [reflexivity|]. destruct k; reflexivity. Qed.
Section Loop.
  Variables (env : rm_env R) (P : rm_par R) (f : mfun) (Xs : list (list R)) (ys wx : list R).
  Definition nlow (b : list R) : nat := length (low (vmul (mweights f (cty env P) (cby env P) (cry env P) (std_resid (vsub ys (matvec Xs b)))) wx)).
  Lemma body_facts : forall st b st' brk, rm_body f (cty env P) (cby env P) (cry env P) Xs ys wx st b = (st', brk) ->
    l_b st' = Some b /\ l_rold st' = size2 b /\ l_diff st' = Rabs (size2 b - l_rold st) / l_rold st /\
    (if brk then (length Xs <= 2 * nlow b)%nat else (2 * nlow b < length Xs)%nat /\ l_loops st' = S (l_loops st)).
  Proof.
    intros st b st' brk E. unfold rm_body in E. cbv zeta in E. fold (nlow b) in E. rewrite size2_eq in E.
    destruct (Nat.leb_spec (length Xs) (2 * nlow b)); injection E as <- <-; cbn; repeat split; auto.
  Qed.
  Lemma loop_stop : forall fuel st calls st', rm_loop env fuel P f Xs ys wx st = (calls, Some (Ok st')) -> calls <> [] ->
    exists bs, r_tol P < l_diff st /\ length bs = length calls /\ (l_loops st + length calls <= r_maxit P)%nat /\
      (forall k, (k < length calls)%nat -> re_lstsq env (fst (nth k calls ([], []))) (snd (nth k calls ([], []))) = Ok (nth k bs [])) /\
      l_b st' = Some (nth (length calls - 1) bs []) /\
      (forall k, (S k < length calls)%nat -> r_tol P < ch (l_rold st) bs k /\ (2 * nlow (nth k bs []) < length Xs)%nat) /\
      (ch (l_rold st) bs (length calls - 1) <= r_tol P \/ (l_loops st + length calls)%nat = r_maxit P \/ (length Xs <= 2 * nlow (nth (length calls - 1) bs []))%nat).
  Proof.
    induction fuel as [|fuel IH]; intros st calls st' E Hc; [discriminate|]. cbn [rm_loop] in E.
    destruct (nltb (r_tol P) (l_diff st) && (l_loops st <? r_maxit P)%nat) eqn:EC; [|injection E as <- _; congruence].
    apply andb_prop in EC as [E1 E2]. rnum. apply Rltb_true in E1. apply Nat.ltb_lt in E2.
    destruct (re_lstsq env _ _) as [b|e] eqn:EL; [|discriminate].
    destruct (rm_body f (cty env P) (cby env P) (cry env P) Xs ys wx st b) as [s1 brk] eqn:EB. pose proof (body_facts _ _ _ _ EB) as (F1 & F2 & F3 & F4). destruct brk.
    - injection E as <- <-. exists [b]. cbn [length Nat.sub nth]. split; [exact E1|]. split; [reflexivity|]. split; [lia|]. split; [intros [|k] Hk; [exact EL|lia]|]. split; [exact F1|]. split; [intros; lia|]. right. right. exact F4.
    - destruct F4 as [F4 F5]. destruct (rm_loop env fuel P f Xs ys wx s1) as [cs r] eqn:ER. injection E as <- ->.
      destruct cs as [|c0 cs'].
      + exists [b]. cbn [length Nat.sub nth]. split; [exact E1|]. split; [reflexivity|]. split; [lia|]. split; [intros [|k] Hk; [exact EL|lia]|].
        assert (HS : st' = s1 /\ (l_diff s1 <= r_tol P \/ (r_maxit P <= l_loops s1)%nat)).
        { destruct fuel as [|fuel']; [discriminate|]. cbn [rm_loop] in ER. destruct (nltb (r_tol P) (l_diff s1) && (l_loops s1 <? r_maxit P)%nat) eqn:EC.
          - match type of ER with match ?x with _ => _ end = _ => destruct x as [b1|] end; [|discriminate]. match type of ER with (let '(_, _) := ?x in _) = _ => destruct x as [s2 []] end; [discriminate|]. match type of ER with (let '(_, _) := ?x in _) = _ => destruct x end. discriminate.
          - injection ER as ->. split; [reflexivity|]. apply andb_false_iff in EC as [EC|EC]; [left; rnum; apply Rltb_false in EC; lra|right; apply Nat.ltb_ge in EC; exact EC]. }
        destruct HS as [-> HS]. split; [exact F1|]. split; [intros; lia|]. destruct HS as [HS|HS]; [left|right; left; lia]. rewrite F3 in HS. exact HS.
      + destruct (IH s1 (c0 :: cs') st' ER) as (bs & G1 & G2 & G3 & G4 & G5 & G6 & G7); [discriminate|]. rewrite F2 in G6, G7. rewrite F5 in G3, G7. set (cs := c0 :: cs') in *. assert (Hcs : (1 <= length cs)%nat) by (cbn; lia).
        exists (b :: bs). cbn [length]. replace (S (length cs) - 1)%nat with (S (length cs - 1)) by lia. cbn [nth]. rewrite ch_S.
        split; [exact E1|]. split; [lia|]. split; [lia|]. split; [intros [|k] Hk; [exact EL|apply G4; lia]|]. split; [exact G5|]. split.
        * intros [|k] Hk; [split; [unfold ch; cbn [nth qs]; rewrite <- F3; exact G1|exact F4]|]. rewrite ch_S. apply G6. lia.
        * destruct G7 as [G7|[G7|G7]]; [left; exact G7|right; left; lia|right; right; exact G7].
  Qed.
End Loop.

Lemma stop_l : forall (env : rm_env R) P f n p X y m calls X0 y0, is_matrix n p X -> (2 <= n)%nat -> (1 <= p)%nat -> length y = n ->
  r_fun P = Some f -> cuts_ok f (resid_cuts env P) -> cuts_ok f (lever_cuts env P p) -> rm_scaled env P X y X0 y0 -> rm_run env P X y = (calls, Ok m) -> stopping env P f p X0 y0 calls (rm_coef_scaled m) (rm_cw m).
Proof.
  intros env P f n p X y m calls X0 y0 HX Hn Hp Hy Hf Hc1 Hc2 [[s1 S1] [s2 S2]] E0.
  assert (E : rm_fit env P X y = Ok m) by (unfold rm_fit; rewrite E0; reflexivity).
  apply rm_fit_inv in E as (f' & st1 & Xs & st2 & Ys & mX & sX & my & sy & st & calls' & Hchk & Hly & H1 & Ex & Ey & EmX & EsX & Emy & Esy & El & Ef).
  assert (f' = f).
  { unfold rm_check in Hchk. rewrite Hf in Hchk. destruct (_ || _); [discriminate|].
    destruct f; try (apply Ok_inj in Hchk as <-; reflexivity). destruct (negb _); [discriminate|]. apply Ok_inj in Hchk as <-; reflexivity. }
  subst f'.
  assert (calls' = calls).
  { unfold rm_run in E0. rewrite Hchk in E0. rewrite (proj2 (Nat.eqb_eq _ _) Hly) in E0. cbn [negb] in E0. rewrite H1, Ex, Ey, EmX, EsX, Emy, Esy in E0. cbv zeta in E0.
    unfold start_wx, start_state in El. rewrite El in E0. injection E0 as E0 _. exact E0. }
  subst calls'.
  apply rm_finish_inv in Ef as (b & Eb & HsX & Ef). cbv zeta in Ef. destruct Ef as (_ & _ & Ecs & _ & _ & _ & _ & Ecw & _).
  change (@n0 R Num_R) with 0 in Ex. rewrite S1 in Ex. injection Ex as -> ->.
  assert (Hcol : as_column y0 = Ys).
  { apply ft_inv in S1 as F. destruct F as (_ & _ & _ & _ & _ & _ & _ & _ & _ & C1 & D1 & T1).
    destruct (ft_same (re_prep env) st1 (new_scaler (r_centre P) (r_scale P) 0) st2 (A1 y) (A2 (as_column y)) Ys) as [s3 E3]; auto.
    - rewrite check_A1 by lia. symmetry. apply (check_input_id n 1); auto. rewrite <- Hy. apply as_column_wf.
    - rewrite S2 in E3. congruence. }
  subst Ys. rewrite col_as_column in *. rewrite Ecs.
  assert (W0 : wf n p Xs) by (eapply scaled_wf; eauto; exists st1; exact S1).
  assert (Hy0 : length y0 = n).
  { assert (W1 : wf n 1 (as_column y0)) by (eapply scaled_wf; [|exact Hn|exists s2; exact S2]; rewrite <- Hy; apply as_column_wf).
    destruct W1 as [W1 _]. unfold as_column in W1. rewrite map_length in W1. auto. }
  assert (LX : length Xs = n) by apply (wf_length _ _ _ W0).
  assert (Hne : Xs <> []) by (intros ->; cbn in LX; lia).
  assert (Hnc : ncols X = p) by (apply (wf_ncols n p); auto; lia). rewrite Hnc in El.
  destruct (start_dx_eq Xs Hne) as (md & Hmd & Edx).
  assert (Ewx : start_wx env P f p Xs = map (fun r => weight_at f (lever_cuts env P p) (norm2 r / md)) Xs).
  { unfold start_wx. unfold cuts_ok, lever_cuts in Hc2. unfold ctx, cbx, crx, lever_cuts. destruct (r_specific P); cbn [resid_cuts fst snd] in Hc2; rewrite mweights_at by exact Hc2; rewrite Edx, map_map; reflexivity. }
  set (wx := start_wx env P f p Xs) in *. assert (Lwx : length wx = n) by (rewrite Ewx, map_length; exact LX).
  set (d := start_dy P y y0) in *. assert (Ld : length d = n).
  { unfold d, start_dy. destruct (r_centre P), (r_scale P); rewrite map_length; lia. }
  destruct (loop_solution _ _ _ _ _ _ _ _ _ _ El) as [(_ & ->)|(Hcn & _)]; [unfold start_state in Eb; discriminate|].
  destruct (loop_stop env P f Xs y0 wx _ _ _ _ El Hcn) as (bs & G1 & G2 & G3 & G4 & G5 & G6 & G7).
  change (l_rold (start_state env P f wx y y0)) with (1 / 100000) in *. change (l_diff (start_state env P f wx y y0)) with 1 in *. change (l_loops (start_state env P f wx y y0)) with 1%nat in *.
  assert (Hlen : (1 <= length calls)%nat) by (destruct calls; [congruence|cbn; lia]).
  assert (HW : forall b0, exists wr, resid_weights env P f Xs y0 b0 wr /\ length wr = length wx /\ wr = mweights f (cty env P) (cby env P) (cry env P) (std_resid (vsub y0 (matvec Xs b0))) /\ length (zeros (final_weights wx wr)) = nlow env P f Xs y0 wx b0).
  { intros b0. destruct (std_resid_eq (resid_of Xs y0 b0)) as (s & Hs & Es). { unfold resid_of. destruct Xs; [congruence|discriminate]. }
    eexists. split; [exists s; split; [exact Hs|reflexivity]|]. assert (EQ : map (fun e => weight_at f (resid_cuts env P) (Rabs e / (14826 / 10000 * s))) (resid_of Xs y0 b0) = mweights f (cty env P) (cby env P) (cry env P) (std_resid (vsub y0 (matvec Xs b0)))).
    { rewrite (resid_eq Xs y0 b0) by lia. rewrite Es, mweights_at by exact Hc1. rewrite map_map. reflexivity. }
    assert (LL : length (map (fun e => weight_at f (resid_cuts env P) (Rabs e / (14826 / 10000 * s))) (resid_of Xs y0 b0)) = length wx) by (unfold resid_of; rewrite !map_length, seq_length; lia).
    split; [exact LL|]. split; [exact EQ|]. rewrite <- final_comm by lia. rewrite zeros_low by lia. unfold nlow. rewrite <- EQ. reflexivity. }
  rewrite Eb in G5. injection G5 as Gb.
  exists md, bs. split; [exact Hmd|]. cbv zeta. rewrite <- Ewx. split; [lia|]. split; [exact G1|]. split; [exact G2|]. split; [exact G4|]. split; [exact Gb|]. split.
  - intros k Hk. destruct (G6 k ltac:(lia)) as [H1' H2']. split; [exact H1'|]. destruct (HW (nth k bs [])) as (wr & Hr & _ & _ & Hz). exists wr. split; [exact Hr|]. rewrite Hz. exact H2'.
  - destruct G7 as [G7|[G7|G7]]; [left; exact G7|right; left; lia|right; right].
    destruct (HW b) as (wr & Hr & Lr & Ewr & Hz). rewrite <- Gb in G7. rewrite <- Hz in G7.
    apply loop_passed in El as [[-> _]|(b2 & Eb2 & Ewye & Ew0 & Ewe)]; [unfold start_state in Eb; discriminate|]. rewrite Eb in Eb2. injection Eb2 as <-. rewrite <- Ewr in Ewye.
    rewrite Ecw, Ew0, Ewe, Ewye. change (@n0 R Num_R) with 0. rewrite final_eq by lia. rewrite final_comm by lia. exact G7.
Qed.
