(** The trace of the projector; estimate_structural_dim *)

From Coq Require Import String Reals List Arith ZArith Bool Lra Lia.
Import List. Import ListNotations.
From Verif Require Import Num Err Vec VecR S_Stats S_Regress L_Mat L_Lin L_Matmul L_Stats M_Utils M_Preproc M_Robcent L_Scaling M_Dicomo M_Ipopt M_SdrUtils M_Sudire S_Sudire S_SdrDim
  L_SdrMat L_SdrKer L_SdrEig L_SdrPow L_SdrMeth L_SdrFit L_SdrFit2 L_SdrFit3.
Open Scope R_scope.

Lemma projector_trace : forall (env : sd_env R) p h P Q, inverse_ok (se_inv env) -> (0 < p)%nat -> (0 < h)%nat -> wf p h P -> projector env P = Ok Q ->
  sumn p (fun i => mget Q i i) = INR h.
Proof.
  intros env p h P Q Hinv Hp Hh W E. unfold projector in E. destruct (se_inv env (matmul (transpose P) P)) as [G|e] eqn:EG; [|discriminate].
  cbn [bind] in E. apply Ok_inj in E. subst Q.
  pose proof (rep_self p h P W) as RP. pose proof (rep_transpose p h P _ Hp RP) as RT.
  pose proof (rep_matmul h p h _ _ _ _ Hp RT RP) as RM.
  destruct (Hinv h _ G (proj1 RM) EG) as [WG HG].
  pose proof (rep_matmul p h h _ _ _ _ Hh RP (rep_self h h G WG)) as R1.
  pose proof (rep_matmul p h p _ _ _ _ Hh R1 RT) as [_ EQ].
  rewrite (sumn_ext p _ (fun i => sumn h (fun b => sumn h (fun d => (mget P i b * mget P i d) * mget G d b)))).
  2: { intros i Hi. rewrite EQ by auto. apply sumn_ext. intros b Hb. rewrite <- sumn_scal_r. apply sumn_ext. intros; ring. }
  rewrite sumn_exchange. transitivity (sumn h (fun _ => 1)); [|rewrite sumn_const; ring]. apply sumn_ext. intros b Hb.
  rewrite sumn_exchange. transitivity (sum_of (map (fun a => cell (matmul (transpose P) P) b a * cell G a b) (seq 0 h))).
  - change (sum_of (map ?f (seq 0 h))) with (sumn h f). apply sumn_ext. intros d Hd. rewrite sumn_scal_r. f_equal. symmetry. rewrite cell_mget. apply (proj2 RM); auto.
  - rewrite (HG b b Hb Hb), Nat.eqb_refl. reflexivity.
Qed.

Lemma sumn_zero_all : forall n f, (forall i, (i < n)%nat -> 0 <= f i) -> sumn n f = 0 -> forall i, (i < n)%nat -> f i = 0.
Proof.
  induction n as [|n IH]; intros f Hf E i Hi; [lia|]. rewrite sumn_S in E. assert (0 <= sumn n f) by (apply sumn_nonneg; auto). assert (0 <= f n) by auto.
  destruct (Nat.eq_dec i n) as [->|]; [lra|]. apply IH; auto; [lra|lia].
Qed.
(** a symmetric idempotent matrix with full trace is the identity *)
Lemma full_trace_identity : forall p (q : nat -> nat -> R), (forall i j, (i < p)%nat -> (j < p)%nat -> q i j = q j i) ->
  (forall i j, (i < p)%nat -> (j < p)%nat -> sumn p (fun a => q i a * q a j) = q i j) -> sumn p (fun i => q i i) = INR p ->
  forall i j, (i < p)%nat -> (j < p)%nat -> q i j = delta i j.
Proof.
  intros p q Hs Hi Ht.
  set (e := fun i j => delta i j - q i j).
  assert (F : sumn p (fun i => sumn p (fun j => e i j * e i j)) = 0).
  { rewrite (sumn_ext p _ (fun i => 1 - q i i)).
    - rewrite sumn_minus, Ht, sumn_const. ring.
    - intros i Hi'. unfold e. rewrite (sumn_ext p _ (fun j => (delta i j * delta i j - 2 * (delta i j * q i j)) + q i j * q j i)).
      + rewrite sumn_plus, Hi, sumn_minus by auto. rewrite (sumn_delta_l p i (fun j => delta i j)) by auto. rewrite sumn_scal, (sumn_delta_l p i (fun j => q i j)) by auto.
        unfold delta. rewrite Nat.eqb_refl. ring.
      + intros j Hj. rewrite (Hs j i) by auto. ring. }
  intros i j Hi' Hj.
  assert (P1 : forall i, (i < p)%nat -> 0 <= sumn p (fun j => e i j * e i j)) by (intros; apply sumn_nonneg; intros; apply Rle_0_sqr).
  assert (Z1 : sumn p (fun j => e i j * e i j) = 0) by (apply (sumn_zero_all p (fun i => sumn p (fun j => e i j * e i j))); auto).
  assert (Z2 : e i j * e i j = 0) by (apply (sumn_zero_all p (fun j => e i j * e i j)); auto; intros; apply Rle_0_sqr).
  apply Rsqr_0_uniq in Z2. unfold e in Z2. lra.
Qed.
Lemma projector_full : forall (env : sd_env R) p P Q, inverse_ok (se_inv env) -> (0 < p)%nat -> wf p p P -> projector env P = Ok Q -> rep p p Q delta.
Proof.
  intros env p P Q Hinv Hp W E. destruct (projector_ok env p p P Q Hinv Hp Hp W E) as [WQ [SQ [IQ _]]]. split; [exact WQ|].
  apply (full_trace_identity p (mget Q)); [exact SQ|exact IQ|]. apply (projector_trace env p p P Q); auto.
Qed.

(** ** argmin *)
Lemma argmin_from_spec : forall (l : list R) pre v best k, length pre = k -> (best < k)%nat -> nth best pre 0 = v ->
  (forall i, (i < k)%nat -> v <= nth i pre 0) -> (forall i, (i < best)%nat -> v < nth i pre 0) -> first_smallest (pre ++ l) (argmin_from k best v l).
Proof.
  intros l. induction l as [|x l IH]; intros pre v best k Lk Hb Ev Hm Hf; cbn [argmin_from].
  - rewrite app_nil_r. subst k v. split; [auto|]. split; auto.
  - assert (EA : pre ++ x :: l = (pre ++ [x]) ++ l) by (rewrite <- app_assoc; reflexivity). rewrite EA. rnum. unfold Rltb. destruct (Rlt_dec x v) as [L|L].
    + apply IH; [rewrite app_length; cbn; lia|lia|rewrite app_nth2, Lk, Nat.sub_diag by lia; reflexivity| |].
      * intros i Hi. destruct (Nat.eq_dec i k) as [->|]; [rewrite app_nth2, Lk, Nat.sub_diag by lia; cbn; lra|]. rewrite app_nth1 by lia. specialize (Hm i ltac:(lia)). lra.
      * intros i Hi. rewrite app_nth1 by lia. specialize (Hm i Hi). lra.
    + apply IH; [rewrite app_length; cbn; lia|lia|rewrite app_nth1 by lia; auto| |].
      * intros i Hi. destruct (Nat.eq_dec i k) as [->|]; [rewrite app_nth2, Lk, Nat.sub_diag by lia; cbn; lra|]. rewrite app_nth1 by lia. apply Hm. lia.
      * intros i Hi. rewrite app_nth1 by lia. auto.
Qed.
Lemma argmin_spec : forall (l : list R) k, argmin l = Ok k -> first_smallest l k.
Proof.
  intros [|x l] k E; [discriminate|]. cbn [argmin] in E. apply Ok_inj in E. subst k. apply (argmin_from_spec l [x] x 0 1); cbn; auto; try lia.
  intros i Hi. assert (i = 0)%nat by lia. subst. lra.
Qed.

(** ** the loops *)
Lemma map2_comb : forall {U V T} (f : U -> V -> T) a b, map2 f a b = map (fun p => f (fst p) (snd p)) (combine a b).
Proof. intros U V T f a. induction a as [|x a IH]; intros [|z b]; cbn; auto. f_equal. auto. Qed.
Section Est.
  Variables (env : sd_env R) (draw : nat -> nat -> list nat) (sv : list (list R) -> res R) (B : nat) (X : list (list R)) (y : list R).
  Lemma fresh_fitted : forall prm d X0 P, snd (fresh_proj env prm d X0 y) = Ok P -> fitted_projector env prm X0 y P.
  Proof.
    intros prm d X0 P E. unfold fresh_proj in E. destruct (sd_init prm None None None d) as [st|] eqn:EI; [|discriminate].
    destruct (sd_fit env st X0 (A1 y) euclid false) as [st' [m|]] eqn:EF; [|discriminate]. cbn [snd bind] in E. apply Ok_inj in E. exists d, st, st', m. auto.
  Qed.
  Lemma msub_spec : forall P Q : list (list R), msub P Q = map (fun rs => map (fun ab => fst ab - snd ab) (combine (fst rs) (snd rs))) (combine P Q).
  Proof. intros. unfold msub, vsub. rewrite map2_comb. apply map_ext. intros [r s]. cbn. rewrite map2_comb. apply map_ext. intros [u v]. reflexivity. Qed.
  Lemma est_boot_spec : forall prm k d1 P, snd (fresh_proj env (prm k) d1 X y) = Ok P -> forall bs d diffs d' r, est_boot env (prm k) (draw k) sv X y P bs d diffs = (d', Ok r) ->
    exists vs, r = diffs ++ vs /\ Forall2 (fun b v => discrepancy env prm draw sv X y k b v) bs vs.
  Proof.
    intros prm k d1 P EP bs. induction bs as [|b bs IH]; intros d diffs d' r E; cbn [est_boot] in E.
    - injection E as _ <-. exists []. rewrite app_nil_r. split; auto.
    - destruct (fresh_proj env (prm k) d (map (fun i => nth i X []) (draw k b)) y) as [d2 [Pb|e]] eqn:EF; cbn [bind] in E; [|discriminate].
      destruct (sv (msub P Pb)) as [v|] eqn:ES; [|discriminate]. destruct (IH _ _ _ _ E) as [vs [-> HF]]. exists (v :: vs). rewrite <- app_assoc. split; [reflexivity|].
      constructor; [|auto]. exists P, Pb. split; [eapply fresh_fitted; eauto|]. split; [apply (fresh_fitted _ d); unfold resample; rewrite EF; auto|]. rewrite <- msub_spec. auto.
  Qed.
  Lemma est_loop_spec : forall prm ks d diffs means d' r, est_loop env prm draw sv B X y ks d diffs means = (d', Ok r) ->
    exists blocks, Forall2 (fun k vs => Forall2 (fun b v => discrepancy env prm draw sv X y k b v) (seq 0 B) vs) ks blocks /\
      r = means ++ map (fun t => vmean (diffs ++ concat (firstn (S t) blocks))) (seq 0 (length ks)).
  Proof.
    intros prm ks. induction ks as [|k ks IH]; intros d diffs means d' r E; cbn [est_loop] in E.
    - injection E as _ <-. exists []. rewrite app_nil_r. auto.
    - destruct (fresh_proj env (prm k) d X y) as [d1 [P|e]] eqn:EF; [|discriminate].
      destruct (est_boot env (prm k) (draw k) sv X y P (seq 0 B) d1 diffs) as [d2 [diffs'|e]] eqn:EB; [|discriminate].
      destruct (est_boot_spec prm k d P ltac:(rewrite EF; auto) _ _ _ _ _ EB) as [vs [-> HV]].
      destruct (IH _ _ _ _ _ E) as [blocks [HF ->]]. exists (vs :: blocks). split; [constructor; auto|].
      rewrite <- app_assoc. f_equal. cbn [length seq map app firstn concat]. rewrite app_nil_r. f_equal.
      rewrite <- seq_shift, map_map. apply map_ext. intros t. cbn [firstn concat]. rewrite <- app_assoc. reflexivity.
  Qed.
End Est.

Lemma Forall2_nth : forall {U V} (Q : U -> V -> Prop) l l' du dv i, Forall2 Q l l' -> (i < length l)%nat -> Q (nth i l du) (nth i l' dv).
Proof. intros U V Q l l' du dv i HF. revert i. induction HF; intros i Hi; cbn in Hi; [lia|]. destruct i; cbn; [auto|apply IHHF; lia]. Qed.
Lemma Forall2_len : forall {U V} (Q : U -> V -> Prop) l l', Forall2 Q l l' -> length l = length l'.
Proof. intros U V Q l l' HF. induction HF; cbn; auto. Qed.

Lemma estimate_inv : forall env mt c cd sd slices (X : list (list R)) y B draw sv d d' k means,
  estimate_structural_dim env mt c cd sd slices X y B draw sv d = (d', Ok (k, means)) ->
  (1 <= k <= ncols X)%nat /\ length means = ncols X /\ first_smallest means (k - 1) /\
  exists blocks, Forall2 (fun k vs => Forall2 (fun b v => discrepancy env (est_prm mt c cd sd slices) draw sv X y k b v) (seq 0 B) vs) (seq 1 (ncols X)) blocks /\
    means = map (fun t => vmean (concat (firstn (S t) blocks))) (seq 0 (ncols X)).
Proof.
  intros env mt c cd sd slices X y B draw sv d d' k means E. unfold estimate_structural_dim in E.
  destruct (est_loop env (est_prm mt c cd sd slices) draw sv B X y (seq 1 (ncols X)) d [] []) as [d1 r] eqn:EL. injection E as _ E.
  destruct r as [ms|]; [|discriminate]. cbn [bind] in E. destruct (argmin ms) as [k'|] eqn:EA; [|discriminate]. cbn [bind] in E. apply Ok_inj in E. injection E as <- <-.
  destruct (est_loop_spec _ _ _ _ _ _ _ _ _ _ _ _ _ EL) as [blocks [HF ->]]. rewrite seq_length in *. cbn [app] in *.
  apply argmin_spec in EA. pose proof EA as [Hk _]. rewrite map_length, seq_length in *. split; [lia|]. split; [auto|]. split; [rewrite Nat.add_sub; auto|]. exists blocks. auto.
Qed.

(** the averages pool all smaller dimensions *)
Lemma sum_of_app2 : forall a b : list R, sum_of (a ++ b) = sum_of a + sum_of b.
Proof. unfold sum_of. induction a as [|x a IH]; intros b; cbn; [ring|]. rewrite IH. ring. Qed.
Lemma sum_concat : forall (ls : list (list R)), sum_of (concat ls) = sum_of (map sum_of ls).
Proof. induction ls as [|l ls IH]; [auto|]. cbn [concat map]. rewrite sum_of_app2, IH. reflexivity. Qed.
Lemma concat_even_length : forall {U} B (ls : list (list U)), Forall (fun vs => length vs = B) ls -> length (concat ls) = (length ls * B)%nat.
Proof. intros U B ls HF. induction HF; cbn; auto. rewrite app_length. lia. Qed.
Lemma firstn_map_nth : forall {U} (l : list U) d t, (t <= length l)%nat -> firstn t l = map (fun i => nth i l d) (seq 0 t).
Proof.
  intros U l d t. revert l. induction t as [|t IH]; intros l Ht; [auto|]. destruct l as [|a l]; [cbn in Ht; lia|]. cbn [firstn seq map nth]. f_equal.
  rewrite <- seq_shift, map_map. apply IH. cbn in Ht; lia.
Qed.
Lemma pooled_mean : forall (blocks : list (list R)) B t, Forall (fun vs => length vs = B) blocks -> (t < length blocks)%nat ->
  vmean (concat (firstn (S t) blocks)) = sumn (S t) (fun i => sumn B (fun b => nth b (nth i blocks []) 0)) / (INR (S t) * INR B).
Proof.
  intros blocks B t HF Ht. rewrite <- mean_of_vmean. unfold mean_of.
  assert (HF' : Forall (fun vs => length vs = B) (firstn (S t) blocks)) by (rewrite <- (firstn_skipn (S t) blocks) in HF; apply Forall_app in HF; apply HF).
  rewrite sum_concat, (concat_even_length B) by auto. rewrite firstn_length, Nat.min_l, mult_INR by lia. f_equal.
  rewrite (firstn_map_nth blocks []) by lia. rewrite map_map. change (sum_of (map ?f (seq 0 (S t)))) with (sumn (S t) f). apply sumn_ext. intros i Hi.
  rewrite sum_of_vsum, vsum_sumn. rewrite Forall_forall in HF. rewrite (HF (nth i blocks [])) by (apply nth_In; lia). reflexivity.
Qed.

(** ** the full dimension *)
Lemma fitted_full : forall env prm n p X y P, svd_shapes (se_svd env) -> square_shape (se_isqrt env) -> eigh_ok (se_eigh env) -> inverse_ok (se_inv env) ->
  wf n p X -> (2 <= n)%nat -> (0 < p)%nat -> sp_copy prm = true -> sp_ncomp prm = p -> fitted_projector env prm X y P -> rep p p P delta.
Proof.
  intros env prm n p X y P HS HQ He HI W Hn Hp Hc Hk (d & st & st' & m & EI & EF & <-).
  assert (Ep : ss_prm st = prm) by (unfold sd_init in EI; destruct (sp_center prm); try discriminate; apply Ok_inj in EI; subst st; reflexivity).
  assert (W2 : wf p p (npcov X)) by (apply (rep_npcov n p X); auto; lia).
  destruct (fit_basis env st st' X (A1 y) euclid false m n p) as (pd & ys & B & _ & _ & _ & WB & _ & _ & _ & _ & EFin); auto; try (rewrite Ep; auto).
  { intros N EN. apply (HQ p _ _ W2 EN). }
  destruct (finish_inv _ _ _ _ _ _ _ EFin) as [X' [_ [_ [EJ _]]]]. rewrite Ep, Hk in WB. apply (projector_full env p B); auto.
Qed.

Lemma discrepancy_full : forall env prm draw sv n p X y b v, svd_shapes (se_svd env) -> square_shape (se_isqrt env) -> eigh_ok (se_eigh env) -> inverse_ok (se_inv env) ->
  (forall p, sv (matrix_of p (fun _ _ => 0)) = Ok 0) ->
  wf n p X -> (2 <= n)%nat -> (0 < p)%nat -> sp_copy (prm p) = true -> sp_ncomp (prm p) = p ->
  length (draw p b) = n -> Forall (fun i => (i < n)%nat) (draw p b) -> discrepancy env prm draw sv X y p b v -> v = 0.
Proof.
  intros env prm draw sv n p X y b v HS HQ He HI HV W Hn Hp Hc Hk Ld Fd (P & Pb & F1 & F2 & ES).
  assert (W2 : wf n p (resample X (draw p b))).
  { split; [unfold resample; rewrite map_length; auto|]. unfold resample. rewrite Forall_forall in *. intros r Hr. apply in_map_iff in Hr as [i [<- Hi]]. apply (wf_nth_row n p X i W). auto. }
  pose proof (fitted_full env _ n p X y P HS HQ He HI W Hn Hp Hc Hk F1) as R1. pose proof (fitted_full env _ n p _ y Pb HS HQ He HI W2 Hn Hp Hc Hk F2) as R2.
  assert (EM : map (fun rs => map (fun ab => fst ab - snd ab) (combine (fst rs) (snd rs))) (combine P Pb) = matrix_of p (fun _ _ => 0)).
  { rewrite <- msub_spec. pose proof (rep_msub p p _ _ _ _ R1 R2) as R3. apply (rep_eq p p _ _ (fun i j => delta i j - delta i j) (fun _ _ => 0)).
    - exact R3.
    - apply (rep_table p p).
    - intros; ring. }
  rewrite EM, HV in ES. apply Ok_inj in ES. auto.
Qed.

Lemma estimate_pooled : forall env mt c cd sd slices (X : list (list R)) y B draw sv d d' k means,
  estimate_structural_dim env mt c cd sd slices X y B draw sv d = (d', Ok (k, means)) ->
  (1 <= k <= ncols X)%nat /\ length means = ncols X /\ first_smallest means (k - 1) /\
  exists D, (forall i b, (1 <= i <= ncols X)%nat -> (b < B)%nat -> discrepancy env (est_prm mt c cd sd slices) draw sv X y i b (D i b)) /\
    means = map (pooled_average D B) (seq 1 (ncols X)).
Proof.
  intros env mt c cd sd slices X y B draw sv d d' k means E. apply estimate_inv in E as (Hk & Lm & HF & blocks & HB & Em). split; [auto|]. split; [auto|]. split; [auto|].
  exists (fun i b => nth b (nth (i - 1) blocks []) 0).
  assert (Lb : length blocks = ncols X) by (apply Forall2_len in HB; rewrite seq_length in HB; auto).
  assert (HL : forall i, (i < ncols X)%nat -> Forall2 (fun b v => discrepancy env (est_prm mt c cd sd slices) draw sv X y (S i) b v) (seq 0 B) (nth i blocks [])).
  { intros i Hi. pose proof (Forall2_nth _ _ _ 0%nat [] i HB ltac:(rewrite seq_length; auto)) as Q. cbv beta in Q. rewrite seq_nth in Q by auto. exact Q. }
  split.
  - intros i b Hi Hb. specialize (HL (i - 1)%nat ltac:(lia)). replace (S (i - 1)) with i in HL by lia.
    pose proof (Forall2_nth _ _ _ 0%nat 0 b HL ltac:(rewrite seq_length; auto)) as Q. cbv beta in Q. rewrite seq_nth in Q by auto. exact Q.
  - rewrite Em, <- seq_shift, map_map. apply map_ext_in. intros t Ht. apply in_seq in Ht.
    rewrite (pooled_mean blocks B t) by (try lia; apply Forall_forall; intros vs Hvs; apply (In_nth _ _ []) in Hvs as [i [Hi <-]]; specialize (HL i ltac:(lia)); apply Forall2_len in HL; rewrite seq_length in HL; auto).
    unfold pooled_average. change sum_to with sumn. f_equal. apply sumn_ext. intros i Hi. apply sumn_ext. intros b Hb. cbn [Nat.sub]. rewrite Nat.sub_0_r. reflexivity.
Qed.

(** with in-range resamples the last average is (p-1)/p times the one before it *)
Lemma estimate_last : forall env mt c cd sd slices n p (X : list (list R)) y B draw sv d d' k means,
  svd_shapes (se_svd env) -> square_shape (se_isqrt env) -> eigh_ok (se_eigh env) -> inverse_ok (se_inv env) -> (forall p, sv (matrix_of p (fun _ _ => 0)) = Ok 0) ->
  wf n p X -> (2 <= n)%nat -> (2 <= p)%nat -> (0 < B)%nat -> (forall b, (b < B)%nat -> length (draw p b) = n /\ Forall (fun i => (i < n)%nat) (draw p b)) ->
  estimate_structural_dim env mt c cd sd slices X y B draw sv d = (d', Ok (k, means)) ->
  nth (p - 1) means 0 = INR (p - 1) / INR p * nth (p - 2) means 0 /\ (0 < nth (p - 2) means 0 -> k <> (p - 1)%nat).
Proof.
  intros env mt c cd sd slices n p X y B draw sv d d' k means HS HQ He HI HV W Hn Hp HB Hd E.
  apply estimate_pooled in E as (Hk & Lm & HF & D & HD & Em). rewrite (wf_ncols n p X W) in * by lia.
  assert (Z : forall b, (b < B)%nat -> D p b = 0).
  { intros b Hb. destruct (Hd b Hb) as [L1 F1]. apply (discrepancy_full env (est_prm mt c cd sd slices) draw sv n p X y b); auto; try lia. apply HD; auto; lia. }
  assert (EQ : nth (p - 1) means 0 = INR (p - 1) / INR p * nth (p - 2) means 0).
  { rewrite Em. rewrite !(nth_indep _ 0 (pooled_average D B 0)) by (rewrite map_length, seq_length; lia). rewrite !map_nth, !seq_nth by lia.
    replace (1 + (p - 1))%nat with p by lia. replace (1 + (p - 2))%nat with (p - 1)%nat by lia. unfold pooled_average. change sum_to with sumn.
    assert (ES : forall f : nat -> R, sumn p f = sumn (p - 1) f + f (p - 1)%nat) by (intros f; replace p with (S (p - 1)) at 1 by lia; apply sumn_S).
    rewrite ES. replace (S (p - 1)) with p by lia.
    assert (EZ : sumn B (fun b => D p b) = 0) by (apply sumn_zero; auto). rewrite EZ.
    assert (0 < INR p) by (apply lt_0_INR; lia). assert (0 < INR (p - 1)) by (apply lt_0_INR; lia). assert (0 < INR B) by (apply lt_0_INR; lia). field. repeat split; lra. }
  split; [auto|]. intros Hpos ->. destruct HF as [_ [HF _]]. specialize (HF (p - 1)%nat ltac:(lia)). replace (p - 1 - 1)%nat with (p - 2)%nat in HF by lia. rewrite EQ in HF.
  assert (0 < INR p) by (apply lt_0_INR; lia). assert (INR (p - 1) = INR p - 1) by (rewrite minus_INR by lia; reflexivity).
  assert (INR (p - 1) / INR p < 1). { apply (Rmult_lt_reg_r (INR p)); [auto|]. unfold Rdiv. rewrite Rmult_assoc, Rinv_l by lra. lra. }
  nra.
Qed.
