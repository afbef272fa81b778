(** The projector, the reshaping of bases, the constraints, transform and predict *)

From Coq Require Import String Reals List Arith ZArith Bool Lra Lia.
Import List. Import ListNotations.
From Verif Require Import Num Err Vec VecR S_Stats S_Regress L_Mat L_Lin L_Matmul L_Stats M_Utils M_Preproc M_Robcent M_Dicomo M_Ipopt M_SdrUtils M_Sudire S_Sudire L_SdrMat L_SdrKer L_SdrEig L_SdrPow L_SdrMeth.
Open Scope R_scope.

(** ** P (P'P)^-1 P' *)
(** a right inverse of a symmetric matrix is symmetric and a left inverse *)
Lemma inverse_symmetric : forall k (g f : nat -> nat -> R), (forall i j, (i < k)%nat -> (j < k)%nat -> g i j = g j i) ->
  (forall i j, (i < k)%nat -> (j < k)%nat -> sumn k (fun a => g i a * f a j) = delta i j) ->
  forall i j, (i < k)%nat -> (j < k)%nat -> f i j = f j i.
Proof.
  intros k g f Hs Hi.
  assert (Q : forall i j, (i < k)%nat -> (j < k)%nat -> sumn k (fun a => sumn k (fun b => f a i * g a b * f b j)) = f j i).
  { intros i j Hi' Hj. rewrite (sumn_ext k _ (fun a => f a i * delta a j)).
    - apply (sumn_delta_r k j (fun a => f a i)). auto.
    - intros a Ha. rewrite <- (Hi a j) by auto. rewrite <- sumn_scal. apply sumn_ext. intros; ring. }
  intros i j Hi' Hj. rewrite <- (Q i j), <- (Q j i) by auto. rewrite sumn_exchange. apply sumn_ext. intros a Ha. apply sumn_ext. intros b Hb.
  rewrite (Hs a b) by auto. ring.
Qed.

Lemma projector_ok : forall (env : sd_env R) p h P Q, inverse_ok (se_inv env) -> (0 < p)%nat -> (0 < h)%nat -> wf p h P -> projector env P = Ok Q -> projects_onto p Q P.
Proof.
  intros env p h P Q Hinv Hp Hh W E. unfold projector in E. destruct (se_inv env (matmul (transpose P) P)) as [G|e] eqn:EG; [|discriminate].
  cbn [bind] in E. apply Ok_inj in E. subst Q.
  pose proof (rep_self p h P W) as RP. pose proof (rep_transpose p h P _ Hp RP) as RT.
  pose proof (rep_matmul h p h _ _ _ _ Hp RT RP) as RM.
  destruct (Hinv h _ G (proj1 RM) EG) as [WG HG].
  set (g := fun i j => sumn p (fun a => mget P a i * mget P a j)). set (f := mget G).
  assert (Hg : forall i j, (i < h)%nat -> (j < h)%nat -> sumn h (fun a => g i a * f a j) = delta i j).
  { intros i j Hi Hj. unfold delta. transitivity (sum_of (map (fun a => cell (matmul (transpose P) P) i a * cell G a j) (seq 0 h))); [|apply (HG i j Hi Hj)].
    change (sumn h (fun a => g i a * f a j) = sumn h (fun a => cell (matmul (transpose P) P) i a * cell G a j)). apply sumn_ext. intros a Ha.
    rewrite !cell_mget, (proj2 RM) by auto. reflexivity. }
  assert (Sg : forall i j, g i j = g j i) by (intros; unfold g; apply sumn_ext; intros; ring).
  assert (Sf : forall i j, (i < h)%nat -> (j < h)%nat -> f i j = f j i) by (apply (inverse_symmetric h g f); auto).
  assert (Hg' : forall i j, (i < h)%nat -> (j < h)%nat -> sumn h (fun a => f i a * g a j) = delta i j).
  { intros i j Hi Hj. transitivity (delta j i); [|unfold delta; rewrite Nat.eqb_sym; reflexivity]. rewrite <- (Hg j i) by auto. apply sumn_ext. intros a Ha. rewrite (Sf i a), (Sg a j) by auto. ring. }
  pose proof (rep_matmul p h h _ _ _ _ Hh RP (rep_self h h G WG)) as R1.
  pose proof (rep_matmul p h p _ _ _ _ Hh R1 RT) as [WQ EQ].
  set (Q := matmul (matmul P G) (transpose P)) in *.
  assert (Fix : forall i c, (i < p)%nat -> (c < h)%nat -> sumn p (fun a => mget Q i a * mget P a c) = mget P i c).
  { intros i c Hi Hc. rewrite (sumn_ext p _ (fun a => sumn h (fun b => sumn h (fun d => mget P i d * mget G d b) * mget P a b * mget P a c))).
    2: { intros a Ha. rewrite EQ by auto. rewrite <- sumn_scal_r. reflexivity. }
    rewrite sumn_exchange. rewrite (sumn_ext h _ (fun b => sumn h (fun d => mget P i d * (f d b * g b c)))).
    2: { intros b Hb. unfold g. rewrite (sumn_ext p _ (fun a => sumn h (fun d => mget P i d * mget G d b) * (mget P a b * mget P a c))) by (intros; ring).
         rewrite sumn_scal. rewrite <- sumn_scal_r. apply sumn_ext. intros. unfold f. ring. }
    rewrite sumn_exchange. rewrite (sumn_ext h _ (fun d => mget P i d * delta d c)); [apply (sumn_delta_r h c (fun d => mget P i d)); auto|].
    intros d Hd. rewrite sumn_scal, Hg' by auto. reflexivity. }
  split; [exact WQ|]. split; [|split].
  - intros i j Hi Hj. rewrite !cell_mget, !EQ by auto.
    rewrite (sumn_ext h _ (fun b => sumn h (fun d => mget P i d * f d b * mget P j b))) by (intros; rewrite <- sumn_scal_r; reflexivity).
    rewrite (sumn_ext h (fun a => sumn h (fun a0 => mget P j a0 * mget G a0 a) * mget P i a) (fun b => sumn h (fun d => mget P j d * f d b * mget P i b))) by (intros; rewrite <- sumn_scal_r; reflexivity).
    rewrite sumn_exchange. apply sumn_ext. intros a Ha. apply sumn_ext. intros b Hb. rewrite (Sf a b) by auto. ring.
  - intros i j Hi Hj. change sum_to with sumn. change cell with (mget (A := R)).
    rewrite (sumn_ext p _ (fun a => sumn h (fun b => (mget Q i a * sumn h (fun d => mget P a d * mget G d b)) * mget P j b))).
    2: { intros a Ha. rewrite (EQ a j) by auto. rewrite <- sumn_scal. apply sumn_ext. intros; ring. }
    rewrite sumn_exchange, (EQ i j) by auto. apply sumn_ext. intros b Hb. rewrite sumn_scal_r. f_equal.
    rewrite (sumn_ext p _ (fun a => sumn h (fun d => mget Q i a * mget P a d * mget G d b))) by (intros; rewrite <- sumn_scal; apply sumn_ext; intros; ring).
    rewrite sumn_exchange. apply sumn_ext. intros d Hd. rewrite sumn_scal_r, Fix by auto. reflexivity.
  - intros h' i c W' Hi Hc. assert (h' = h).
    { rewrite <- (wf_ncols p h P W Hp). symmetry. apply (wf_ncols p h' P W' Hp). }
    subst h'. change sum_to with sumn. change cell with (mget (A := R)). apply Fix; auto.
Qed.

(** ** flatten / reshape *)
Lemma nth_concat_even : forall p (ls : list (list R)) j i, Forall (fun l => length l = p) ls -> (j < length ls)%nat -> (i < p)%nat ->
  nth (j * p + i) (concat ls) 0 = nth i (nth j ls []) 0.
Proof.
  intros p ls. induction ls as [|l ls IH]; intros j i HF Hj Hi; [cbn in Hj; lia|]. inversion HF; subst. destruct j as [|j]; cbn [nth concat].
  - cbn [Nat.mul Nat.add]. apply app_nth1. auto.
  - rewrite app_nth2 by lia. replace (S j * length l + i - length l)%nat with (j * length l + i)%nat by lia. apply IH; auto. cbn in Hj; lia.
Qed.
Lemma concat_even_length : forall p (ls : list (list R)), Forall (fun l => length l = p) ls -> length (concat ls) = (length ls * p)%nat.
Proof. intros p ls HF. induction HF; cbn; [auto|]. rewrite app_length, IHHF. lia. Qed.

Lemma cols_even : forall n p (X : list (list R)), wf n p X -> Forall (fun c => length c = n) (cols X).
Proof. intros n p X W. apply Forall_forall. intros c Hc. unfold cols in Hc. apply in_map_iff in Hc as [j [<- _]]. unfold col. rewrite map_length. apply (wf_length _ _ _ W). Qed.

Lemma flatF_spec : forall p h (B : list (list R)), (0 < p)%nat -> wf p h B -> length (flatF B) = (h * p)%nat /\
  forall i j, (i < p)%nat -> (j < h)%nat -> nth (j * p + i) (flatF B) 0 = mget B i j.
Proof.
  intros p h B Hp W. unfold flatF. pose proof (cols_even p h B W) as HF.
  assert (Lc : length (cols B) = h) by (rewrite cols_length; apply (wf_ncols p); auto).
  split; [rewrite (concat_even_length p), Lc; auto|].
  intros i j Hi Hj. rewrite (nth_concat_even p) by (auto; lia). rewrite nth_cols by (rewrite (wf_ncols p h); auto). exact (nth_col B i j).
Qed.
Lemma unvec_spec : forall p h (b : list R), (0 < h)%nat -> length b = (h * p)%nat -> exists B, unvec h b = Ok B /\ rep p h B (fun i j => nth (j * p + i) b 0).
Proof.
  intros p h b Hh Lb. unfold unvec. destruct (h =? 0)%nat eqn:E; [apply Nat.eqb_eq in E; lia|].
  rewrite Lb, (Nat.mul_comm h p), Nat.mod_mul, Nat.div_mul by lia. cbn [Nat.eqb]. eexists. split; [reflexivity|]. apply (rep_table p h).
Qed.
Lemma unvec_bad : forall h (b : list R), (h = 0 \/ length b mod h <> 0)%nat -> unvec h b = Err ValueError.
Proof. intros h b Hb. unfold unvec. destruct (h =? 0)%nat eqn:E; [auto|]. apply Nat.eqb_neq in E. destruct (length b mod h =? 0)%nat eqn:F; [apply Nat.eqb_eq in F; lia|auto]. Qed.
Lemma unvec_flatF : forall p h (B : list (list R)), (0 < p)%nat -> (0 < h)%nat -> wf p h B -> unvec h (flatF B) = Ok B.
Proof.
  intros p h B Hp Hh W. destruct (flatF_spec p h B Hp W) as [L E]. destruct (unvec_spec p h (flatF B) Hh L) as [B' [EB RB]]. rewrite EB. f_equal.
  eapply rep_eq; [exact RB|apply rep_self; exact W|]. intros. apply E; auto.
Qed.
Lemma flatF_unvec : forall h (b : list R) B, unvec h b = Ok B -> b <> [] -> flatF B = b.
Proof.
  intros h b B E Hb. destruct (Nat.eq_dec h 0) as [->|Hh]; [discriminate|].
  destruct (Nat.eq_dec (length b mod h) 0) as [Hm|Hm]; [|rewrite unvec_bad in E by auto; discriminate].
  set (p := (length b / h)%nat). assert (Lb : length b = (h * p)%nat) by (unfold p; pose proof (Nat.div_mod (length b) h Hh); lia).
  destruct (unvec_spec p h b ltac:(lia) Lb) as [B' [EB [WB RB]]]. rewrite E in EB. apply Ok_inj in EB. subst B'.
  assert (Hp : (0 < p)%nat) by (destruct p; [destruct b; [congruence|cbn in Lb; lia]|lia]).
  destruct (flatF_spec p h B Hp WB) as [L EF]. apply (list_ext _ _ 0); [lia|]. intros t Ht. rewrite L in Ht.
  pose proof (Nat.div_mod t p ltac:(lia)) as D. pose proof (Nat.mod_upper_bound t p ltac:(lia)) as U.
  assert (Hj : (t / p < h)%nat) by (apply Nat.div_lt_upper_bound; lia).
  rewrite D, (Nat.mul_comm p (t / p)), EF, RB by auto. reflexivity.
Qed.

(** ** constraints *)
Lemma const_xscale_ok : forall n p h X (B : list (list R)) i j, (0 < n)%nat -> (2 <= p)%nat -> (0 < h)%nat -> wf n p X -> wf p h B -> (i < h)%nat -> (j < h)%nat ->
  const_xscale (flatF B) X h i j = Ok (sumn p (fun a => sumn p (fun b => mget B a i * cov_of (column a X) (column b X) * mget B b j)) - delta i j).
Proof.
  intros n p h X B i j Hn Hp Hh WX WB Hi Hj. unfold const_xscale. rewrite (unvec_flatF p h) by (auto; lia). cbn [bind].
  rewrite (wf_ncols n p X WX Hn), (wf_length _ _ _ WB), Nat.eqb_refl. destruct (p =? 1)%nat eqn:E1; [apply Nat.eqb_eq in E1; lia|]. cbn [negb].
  apply Nat.ltb_lt in Hi as Hi'. apply Nat.ltb_lt in Hj as Hj'. rewrite Hi', Hj'. cbn [andb negb]. f_equal.
  pose proof (rep_self p h B WB) as RB. pose proof (rep_transpose p h B _ ltac:(lia) RB) as RT.
  pose proof (rep_matmul h p p _ _ _ _ ltac:(lia) RT (rep_cov n p X Hn WX)) as R1. pose proof (rep_matmul h p h _ _ _ _ ltac:(lia) R1 RB) as R2.
  rewrite (proj2 (rep_msub h h _ _ _ _ R2 (rep_identity h))) by auto. f_equal.
  rewrite sumn_exchange. apply sumn_ext. intros b Hb. rewrite <- sumn_scal_r. reflexivity.
Qed.
Lemma const_zscale_ok : forall n p h X (B : list (list R)) i j, (0 < n)%nat -> (0 < p)%nat -> (0 < h)%nat -> wf n p X -> wf p h B -> (i < h)%nat -> (j < h)%nat ->
  const_zscale (flatF B) X h i j = Ok (sumn p (fun a => mget B a i * mget B a j) - delta i j).
Proof.
  intros n p h X B i j Hn Hp Hh WX WB Hi Hj. unfold const_zscale. rewrite (unvec_flatF p h) by (auto; lia). cbn [bind].
  rewrite (wf_ncols n p X WX Hn), (wf_length _ _ _ WB), Nat.eqb_refl. cbn [negb].
  apply Nat.ltb_lt in Hi as Hi'. apply Nat.ltb_lt in Hj as Hj'. rewrite Hi', Hj'. cbn [andb negb]. f_equal.
  pose proof (rep_self p h B WB) as RB. pose proof (rep_transpose p h B _ ltac:(lia) RB) as RT.
  pose proof (rep_matmul h p p _ _ _ _ ltac:(lia) RT (rep_identity p)) as R1. pose proof (rep_matmul h p h _ _ _ _ ltac:(lia) R1 RB) as R2.
  rewrite (proj2 (rep_msub h h _ _ _ _ R2 (rep_identity h))) by auto. f_equal.
  apply sumn_ext. intros b Hb. f_equal. apply (sumn_delta_r p b (fun a => mget B a i)). auto.
Qed.

(** every entry of the matrix is constrained *)
Lemma constraints_list : forall scale (X : list (list R)) h, length (constraints scale X h) = (h * h)%nat /\
  forall i j, (i < h)%nat -> (j < h)%nat -> nth_error (constraints scale X h) (i * h + j) =
    Some (fun b => if scale then const_zscale b X h i j else const_xscale b X h i j).
Proof.
  intros scale X h. unfold constraints.
  set (F := fun i j => fun b : list R => if scale then const_zscale b X h i j else const_xscale b X h i j).
  assert (G : forall m s, length (concat (map (fun i => map (F i) (seq 0 h)) (seq s m))) = (m * h)%nat /\
    forall i j, (i < m)%nat -> (j < h)%nat -> nth_error (concat (map (fun i => map (F i) (seq 0 h)) (seq s m))) (i * h + j) = Some (F (s + i)%nat j)).
  { induction m as [|m IH]; intros s; cbn [seq map concat]; [split; [auto|lia]|].
    destruct (IH (S s)) as [L E]. split; [rewrite app_length, L, map_length, seq_length; lia|]. intros i j Hi Hj. destruct i as [|i].
    - rewrite nth_error_app1 by (rewrite map_length, seq_length; lia). cbn [Nat.mul Nat.add]. rewrite nth_error_map, (nth_error_nth' _ 0%nat) by (rewrite seq_length; auto).
      rewrite seq_nth by auto. cbn. rewrite Nat.add_0_r. reflexivity.
    - rewrite nth_error_app2 by (rewrite map_length, seq_length; lia). rewrite map_length, seq_length.
      replace (S i * h + j - h)%nat with (i * h + j)%nat by lia. rewrite E by lia. f_equal. f_equal. lia. }
  destruct (G h 0%nat) as [L E]. split; [exact L|]. exact E.
Qed.

(** ** transform, predict *)
Lemma finish_inv : forall (env : sd_env R) prm X0 pd ys P m, sd_finish env prm X0 pd ys P = Ok m ->
  exists X, X0 = Some X /\ npmatmul X P = Ok (sm_T m) /\ projector env P = Ok (sm_proj m) /\
    se_ols env (add_constant (sm_T m)) ys = Ok (sm_ols m) /\ sm_fitted m = matvec (add_constant (sm_T m)) (sm_ols m) /\
    (pd_V pd = None -> sm_P m = P) /\ (forall V, pd_V pd = Some V -> npmatmul (map (firstn (pd_p pd)) V) P = Ok (sm_P m)) /\
    sm_loc m = pd_loc pd /\ sm_sca m = pd_sca pd /\ sm_K m = pd_K pd.
Proof.
  intros env prm X0 pd ys P m E. unfold sd_finish in E. destruct (projector env P) as [pm|]; [|discriminate]. cbn [bind] in E.
  destruct X0 as [X|]; [|discriminate]. destruct (npmatmul X P) as [T|] eqn:ET; [|discriminate]. cbn [bind] in E. cbv zeta in E.
  destruct (se_ols env (add_constant T) ys) as [b|] eqn:EO; [|discriminate]. cbn [bind] in E.
  destruct (match pd_V pd with Some V => npmatmul (map (firstn (pd_p pd)) V) P | None => Ok P end) as [P'|] eqn:EP; [|discriminate]. cbn [bind] in E.
  destruct (_ && _ && _); [discriminate|]. apply Ok_inj in E. subst m. cbn. exists X. repeat split; auto.
  - intros EV. rewrite EV in EP. apply Ok_inj in EP. auto.
  - intros V EV. rewrite EV in EP. auto.
Qed.
Lemma finish_ok : forall (env : sd_env R) prm X pd ys P m n p, sd_finish env prm (Some X) pd ys P = Ok m -> pd_V pd = None -> (0 < n)%nat -> wf n p X ->
  sd_transform m X = Ok (sm_T m) /\ (se_ols env (add_constant (sm_T m)) ys = Ok (sm_ols m)) /\ sm_fitted m = matvec (add_constant (sm_T m)) (sm_ols m) /\
  (length (sm_ols m) = ncols (add_constant (sm_T m)) -> sd_predict m X = Ok (sm_fitted m)).
Proof.
  intros env prm X pd ys P m n p E EV Hn W. destruct (finish_inv _ _ _ _ _ _ _ E) as [X' [EX [ET [EJ [EO [EF [EP _]]]]]]]. injection EX as <-.
  specialize (EP EV).
  assert (Et : sd_transform m X = Ok (sm_T m)).
  { unfold sd_transform. rewrite EP. unfold npmatmul in ET. destruct (ncols X =? length P)%nat; [|discriminate]. cbn [negb]. auto. }
  split; [auto|]. split; [auto|]. split; [auto|]. intros L. unfold sd_predict. rewrite Et. cbn [bind]. cbv zeta. rewrite L, Nat.eqb_refl, EF. reflexivity.
Qed.
Lemma transform_bad : forall (m : smodel R) X, ncols X <> length (sm_P m) -> sd_transform m X = Err ValueError /\ sd_predict m X = Err ValueError.
Proof.
  intros m X Hne. apply Nat.eqb_neq in Hne. unfold sd_predict, sd_transform. rewrite Hne. auto.
Qed.
