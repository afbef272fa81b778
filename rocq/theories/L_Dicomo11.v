(** Trimmed and median statistics through fit. *)

From Coq Require Import String Reals List Arith ZArith Bool Lia Lra Psatz Permutation Sorted.
Import ListNotations.
From Verif Require Import Num Err Vec VecR OrdR L_Mat L_Lin S_Stats L_Stats M_Utils M_Preproc L_Radial L_Preproc M_Dicomo S_Dicomo S_Dicomo2 L_Dicomo L_Dicomo2 L_Dicomo5 L_Dicomo6 L_Dicomo7 L_Energy L_Dicomo8 L_Dicomo10.
Import List. Open Scope R_scope.

(** ** trimmed means *)
Lemma cut_lt : forall t n, 0 <= t < 1/2 -> (0 < n)%nat -> (2 * cut t n < n)%nat.
Proof.
  intros t n Ht Hn. unfold cut. assert (H0 : 0 < INR n) by (apply lt_0_INR; auto). destruct (base_Int_part (t * INR n)) as [H1 H2].
  destruct (Z.lt_ge_cases (Int_part (t * INR n)) 0) as [Hz|Hz]; [destruct (Int_part (t * INR n)); cbn; lia|].
  apply INR_lt. rewrite mult_INR. rewrite (INR_IZR_INZ (Z.to_nat _)), Z2Nat.id by auto. cbn [INR]. nra.
Qed.
Lemma cut_0 : forall n, cut 0 n = 0%nat.
Proof. intros n. unfold cut. rewrite Rmult_0_l. destruct (base_Int_part 0) as [H1 H2]. assert (Int_part 0 = 0)%Z as ->; [|reflexivity]. assert (IZR (Int_part 0) < 1) by lra. assert (-1 < IZR (Int_part 0)) by lra. apply (lt_IZR _ 1) in H. apply (lt_IZR (-1)) in H0. lia. Qed.
Lemma dtrim_ok : forall t (v : list R), 0 <= t < 1/2 -> v <> [] -> exists m, dtrim_mean t v = Ok m /\ t_mean t v m.
Proof.
  intros t v Ht Hv. assert (Hn : (0 < length v)%nat) by (destruct v; [congruence|cbn; lia]). pose proof (cut_lt t _ Ht Hn) as Hc. unfold dtrim_mean. rnum. unfold Reqb. destruct (Req_EM_T t 0) as [->|Hne].
  - exists (vmean v). split; [reflexivity|]. unfold t_mean. rewrite cut_0. exists (sort v). split; [apply sort_perm|]. split; [apply sort_sorted|]. rewrite Nat.mul_0_r, Nat.sub_0_r. cbn [skipn].
    rewrite firstn_all2 by (rewrite sort_length; auto). rewrite mean_of_vmean. apply vmean_perm, sort_perm.
  - destruct (trim_mean1 t v) as [m|e] eqn:E.
    + exists m. split; [reflexivity|]. exact (is_trimmed_mean_model _ _ _ E).
    + rewrite trim_mean1_R in E. change (tcut t (length v)) with (cut t (length v)) in E. destruct (Nat.ltb_spec (length v) (2 * cut t (length v))); [lia|discriminate].
Qed.

Lemma famat_allpairs : forall n f, concat (famat n f) = all_pairs n f. Proof. reflexivity. Qed.
Lemma famat_concat_ne : forall n f, (0 < n)%nat -> concat (famat n f) <> [].
Proof. intros n f Hn E. assert (length (concat (famat n f)) = 0%nat) by (rewrite E; reflexivity). rewrite (concat_len n n) in H by apply famat_wf. nia. Qed.
Lemma mapM_choice : forall {B C} (f : B -> res C) (P : B -> C -> Prop) (l : list B), (forall b, In b l -> exists c, f b = Ok c /\ P b c) ->
  exists out, mapM f l = Ok out /\ length out = length l /\ forall i d d', (i < length l)%nat -> P (nth i l d) (nth i out d').
Proof.
  intros B C f P l. induction l as [|b l IH]; intros H; [exists []; split; [reflexivity|]; split; [reflexivity|cbn; lia]|]. destruct (H b (or_introl eq_refl)) as [c [E HP]]. destruct IH as [out [E2 [L2 H2]]]; [intros; apply H; right; auto|].
  exists (c :: out). cbn [mapM]. rewrite E. cbn [bind]. rewrite E2. split; [reflexivity|]. split; [cbn; lia|]. intros [|i] d d' Hi; [exact HP|]. cbn. apply H2. cbn in Hi. lia.
Qed.
Lemma trimmed_centre : forall t n d, 0 <= t < 1/2 -> (0 < n)%nat -> exists out, double_center_flex (famat n d) "mean" t false = Ok (famat n out, Z.of_nat n) /\ is_trimmed_centring t n d out.
Proof.
  intros t n d Ht Hn. unfold double_center_flex. cbn [String.eqb Ascii.eqb Bool.eqb]. destruct (dtrim_ok t (concat (famat n d)) Ht (famat_concat_ne n d Hn)) as [mu [E1 T1]]. rewrite E1. cbn [bind]. rewrite famat_length.
  destruct (mapM_choice (fun j => dtrim_mean t (col j (famat n d))) (fun j c => t_mean t (col j (famat n d)) c) (seq 0 n)) as [cls [E2 [L2 T2]]].
  { intros j Hj. apply in_seq in Hj. apply dtrim_ok; auto. rewrite famat_col by lia. destruct n; [lia|discriminate]. }
  rewrite E2. cbn [bind].
  destruct (mapM_choice (dtrim_mean t) (t_mean t) (famat n d)) as [rows [E3 [L3 T3]]].
  { intros r Hr. apply dtrim_ok; auto. unfold famat in Hr. apply in_map_iff in Hr as [i [<- _]]. destruct n; [lia|discriminate]. }
  rewrite E3. cbn [bind]. exists (fun i j => d i j - nth i rows 0 - nth j cls 0 + mu). split.
  - f_equal. f_equal. unfold center_cells. rewrite famat_length. cbn [andb]. apply famat_ext. intros i j Hi Hj. rewrite famat_mget by auto. rnum. reflexivity.
  - exists (fun i => nth i rows 0), (fun j => nth j cls 0), mu. split; [|split; [|split; [exact T1|reflexivity]]].
    + intros i Hi. specialize (T3 i [] 0). rewrite famat_row in T3 by auto. apply T3. rewrite famat_length. auto.
    + intros j Hj. specialize (T2 j 0%nat 0). rewrite seq_length, seq_nth in T2 by auto. cbn [Nat.add] in T2. rewrite famat_col in T2 by auto. apply T2. auto.
Qed.
Lemma D_inner_trim : forall t n f g, 0 <= t < 1/2 -> (0 < n)%nat -> exists v, D_inner (famat n f) (famat n g) t = Ok v /\ t_mean t (all_pairs n (fun i j => f i j * g i j)) v.
Proof.
  intros t n f g Ht Hn. unfold D_inner. rewrite !famat_length, Nat.eqb_refl. cbn [negb]. unfold inner_slice. rewrite famat_mul, famat_length. set (h := fun i j => f i j * g i j).
  assert (HL : length (concat (famat n h)) = (n * n)%nat) by (apply (concat_len n n), famat_wf). assert (Hnn : (0 < n * n)%nat) by nia. pose proof (cut_lt t (n * n) Ht Hnn) as Hc.
  assert (HM : forall r, (0 < length r)%nat -> ndiv n1 (nmul (nsqrt (nnat (length r))) (nsqrt (nnat (length r)))) * vsum r = mean_of r).
  { intros r Hr. rnum. rewrite nnat_R, sqrt_sqrt by apply pos_INR. unfold mean_of. change (sum_of r) with (vsum r). field. apply not_0_INR. lia. }
  cbv zeta. rnum. unfold Reqb. destruct (Req_EM_T t 0) as [->|Hne].
  - eexists. split; [reflexivity|]. unfold t_mean. rewrite cut_0. exists (sort (all_pairs n h)). split; [apply sort_perm|]. split; [apply sort_sorted|]. rewrite Nat.mul_0_r, Nat.sub_0_r. cbn [skipn].
    rewrite firstn_all2 by (rewrite sort_length; auto). specialize (HM (concat (famat n h))). revert HM. rnum. intros HM. rewrite HM by (rewrite HL; exact Hnn). rewrite !mean_of_vmean. apply vmean_perm, sort_perm.
  - eexists. split; [reflexivity|]. unfold t_mean. exists (sort (all_pairs n h)). split; [apply sort_perm|]. split; [apply sort_sorted|].
    assert (HA : length (all_pairs n h) = (n * n)%nat) by exact HL. rewrite HA. rewrite (nnat_R (n * n)). fold (cut t (n * n)).
    replace (n * n - cut t (n * n) - cut t (n * n))%nat with (n * n - 2 * cut t (n * n))%nat by lia. change (concat (famat n h)) with (all_pairs n h).
    set (r := firstn (n * n - 2 * cut t (n * n)) (skipn (cut t (n * n)) (sort (all_pairs n h)))). specialize (HM r). revert HM. rnum. intros HM. apply HM.
    unfold r. rewrite firstn_length, skipn_length, sort_length, HA. lia.
Qed.
Lemma dd_trim : forall t n p X ya y, wf n p X -> (0 < n)%nat -> sample ya y -> length y = n -> 0 <= t < 1/2 ->
  exists v A B, difference_divergence X ya "mean" t false = Ok v /\ is_trimmed_centring t n (rowdist X) A /\ is_trimmed_centring t n (fun i j => (nth i y 0 - nth j y 0) ^ 2 / 2) B /\
    t_mean t (all_pairs n (fun i j => A i j * B i j)) v.
Proof.
  intros t n p X ya y HX Hn Hy Hl Ht. unfold difference_divergence, distance_matrix_centered. rewrite (dist_matrix_euclid n p X HX).
  destruct (trimmed_centre t n (rowdist X) Ht Hn) as [A [EA TA]]. rewrite EA. cbn [bind]. rewrite (flat_sample ya y Hy), (singleton_dist y n Hl).
  assert (E : map (map (fun d => nmul (nlit 1 2) (nsqr d))) (famat n (fun i j => Rabs (nth i y 0 - nth j y 0))) = famat n (fun i j => (nth i y 0 - nth j y 0) ^ 2 / 2)).
  { unfold famat. rewrite map_map. apply map_ext. intros i. rewrite map_map. apply map_ext. intros j. unfold nsqr. rnum.
    change (Rabs (nth i y 0 - nth j y 0) * Rabs (nth i y 0 - nth j y 0)) with (Rsqr (Rabs (nth i y 0 - nth j y 0))). rewrite <- Rsqr_abs. unfold Rsqr. lra. }
  rewrite E. destruct (trimmed_centre t n (fun i j => (nth i y 0 - nth j y 0) ^ 2 / 2) Ht Hn) as [B [EB TB]]. rewrite EB. cbn [bind fst].
  destruct (D_inner_trim t n A B Ht Hn) as [v [EV TV]]. exists v, A, B. auto.
Qed.
Lemma fit_mdd_gen : forall {T} `{Num T} dc (s : dstate T) kw X ya t bc, configured s "distance" "mdd" "mean" -> dflt (k_trim kw) n0 = t -> dflt (k_bias kw) false = bc ->
  (0 < length X)%nat -> k_y kw = Some ya -> alen ya = length X ->
  fit_result dc s (A2 X) kw = match difference_divergence X ya "mean" t bc with Ok v => Ok (nsqrt v) | Err e => Err e end.
Proof.
  intros T HN dc s kw X ya t bc [C1 [C2 C3]] Ht Hb HX Hy Hl.
  destruct s as [e m c mo xm ym co]; cbn [d_est d_mode d_center] in C1, C2, C3; subst e m c.
  unfold fit_result, dicomo_fit. rewrite Ht. dsimp. cbn [alen]. destruct (length X =? 0)%nat eqn:En; [apply Nat.eqb_eq in En; lia|]. dsimp.
  unfold fit_mdd. rewrite Ht, Hb. unfold get_y. rewrite Hy. dsimp. cbn [alen]. rewrite Hl, En, Nat.eqb_refl. dsimp.
  cbn [arows]. destruct (difference_divergence X ya "mean" t bc); dsimp; [|reflexivity]. unfold fit_tail. dsimp. reflexivity.
Qed.
Lemma sample_alen : forall ya (y : list R), sample ya y -> alen ya = length y.
Proof. intros ya y [->| ->]; cbn [alen]; rewrite ?map_length; auto. Qed.

(** ** rounding *)
Lemma nround_ok : forall x : R, rounded x (nround x).
Proof.
  intros x. unfold rounded, nround. rnum. replace (IZR 1 / IZR 2) with (1/2) by lra. set (f := Int_part (x + 1/2)). destruct (base_Int_part (x + 1/2)) as [H1 H2]. fold f in H1, H2. rewrite nZ_R.
  unfold Reqb. destruct (Req_EM_T (IZR f) (x + 1/2)) as [E|E].
  - destruct (Z.odd f) eqn:EO; cbn [andb].
    + rewrite minus_IZR. split; [unfold Rabs; destruct (Rcase_abs _); lra|]. intros _. rewrite Z.even_sub. rewrite <- Z.negb_odd, EO. reflexivity.
    + split; [unfold Rabs; destruct (Rcase_abs _); lra|]. intros _. rewrite <- Z.negb_odd, EO. reflexivity.
  - cbn [andb]. split; [unfold Rabs; destruct (Rcase_abs _); lra|]. intros HA. exfalso. revert HA. unfold Rabs. destruct (Rcase_abs _); intros; lra.
Qed.

(** ** trimmed moments *)
Lemma trim_mom_trim : forall t (x y : list R) k opt b, 0 <= t < 1/2 -> x <> [] -> length y = length x -> (2 <= k)%nat ->
  exists c, trim_mom x y false k t opt b = Ok (c * if b then IZR (ntrim_of (length x) t) / IZR (fs_prod (ntrim_of (length x) t) k) else 1) /\
    is_trimmed_comoment t (if (2 <? k)%nat then k - opt else 1) (if (2 <? k)%nat then opt else 1) x y c.
Proof.
  intros t x y k opt b Ht Hx Hl Hk. assert (Hy : y <> []) by (intros ->; destruct x; [congruence|discriminate]).
  destruct (dtrim_ok t x Ht Hx) as [mx [E1 T1]]. destruct (dtrim_ok t y Ht Hy) as [my [E2 T2]].
  set (s1 := if (2 <? k)%nat then (k - opt)%nat else 1%nat). set (s2 := if (2 <? k)%nat then opt else 1%nat).
  set (l := map (fun p => (fst p - mx) ^ s1 * (snd p - my) ^ s2) (combine x y)).
  assert (Hne : l <> []) by (unfold l; destruct x; [congruence|]; destruct y; [congruence|discriminate]).
  destruct (dtrim_ok t l Ht Hne) as [c [E3 T3]]. exists c. split; [|exists mx, my; auto].
  unfold trim_mom. destruct k as [|[|k]]; try lia. fold s1 s2. rewrite E1. cbn [bind]. rewrite E2. cbn [bind]. rewrite map2_combine.
  assert (EL : map (fun p => nmul (npow (nsub (fst p) mx) s1) (npow (nsub (snd p) my) s2)) (combine x y) = l).
  { unfold l. apply map_ext. intros p. rewrite !npow_R. rnum. reflexivity. }
  rewrite EL, E3. cbn [bind]. rnum. rewrite !nZ_R. destruct b; reflexivity.
Qed.
Section Trim.
  Context (dc : dcor_env R).
  Ltac start s xa x kw Hx Hs Ht :=
    let C1 := fresh in let C2 := fresh in let C3 := fresh in match goal with HC : configured s _ _ _ |- _ => destruct HC as [C1 [C2 C3]] end; destruct s as [es0 md0 ce0 mo xm ym co]; cbn [d_est d_mode d_center] in C1, C2, C3; subst es0 md0 ce0;
    unfold fit_result, dicomo_fit; rewrite Ht; dsimp;
    rewrite (sample_len xa x Hs), (len_eqb0 x Hx); unfold fit_arithmetic; dsimp;
    rewrite Ht, (sample_col xa x Hs), ?(sample_len xa x Hs); dsimp.
  Lemma fs_prod_2 : forall z, fs_prod z 2 = (z - 1)%Z.
  Proof. intros z. unfold fs_prod. cbn. ring. Qed.
  Lemma fit_var_trim : forall s xa x kw t, configured s "arithmetic" "var" "mean" -> sample xa x -> x <> [] -> k_trim kw = Some t -> 0 <= t < 1/2 ->
    exists c nt, fit_result dc s xa kw = Ok (c * if biascorr kw then IZR nt / (IZR nt - 1) else 1) /\ is_trimmed_comoment t 1 1 x x c /\ rounded (INR (length x) * (1 - t)) nt.
  Proof.
    intros s xa x kw t HC Hs Hx Ht Hr. destruct (trim_mom_trim t x x 2 0 (biascorr kw) Hr Hx eq_refl (le_n 2)) as [c [E T]]. exists c, (ntrim_of (length x) t). split; [|split; [exact T|]].
    - start s xa x kw Hx Hs Ht. change (dflt (k_bias kw) false) with (biascorr kw). cbn [dflt]. rewrite E. dsimp. unfold fit_tail. dsimp. rewrite fs_prod_2, minus_IZR. reflexivity.
    - unfold ntrim_of. rewrite nnat_R. rnum. apply nround_ok.
  Qed.
  Lemma fit_cov_trim : forall s xa x ya y kw t, configured s "arithmetic" "cov" "mean" -> sample xa x -> x <> [] -> k_trim kw = Some t -> 0 <= t < 1/2 ->
    k_y kw = Some ya -> sample ya y -> length y = length x ->
    exists c nt, fit_result dc s xa kw = Ok (c * if biascorr kw then IZR nt / (IZR nt - 1) else 1) /\ is_trimmed_comoment t 1 1 x y c /\ rounded (INR (length x) * (1 - t)) nt.
  Proof.
    intros s xa x ya y kw t HC Hs Hx Ht Hr Hy Hsy Hl. destruct (trim_mom_trim t x y 2 0 (biascorr kw) Hr Hx Hl (le_n 2)) as [c [E T]]. exists c, (ntrim_of (length x) t). split; [|split; [exact T|]].
    - start s xa x kw Hx Hs Ht. change (dflt (k_bias kw) false) with (biascorr kw). cbn [dflt]. unfold get_y. rewrite Hy. dsimp.
      rewrite (sample_len ya y Hsy), Hl, (len_eqb0 x Hx), Nat.eqb_refl. dsimp. rewrite (sample_col ya y Hsy), E. dsimp. rewrite andb_false_r. dsimp. unfold fit_tail. dsimp. rewrite fs_prod_2, minus_IZR. reflexivity.
    - unfold ntrim_of. rewrite nnat_R. rnum. apply nround_ok.
  Qed.
  Lemma fit_mom_trim : forall s xa x kw t k, configured s "arithmetic" "mom" "mean" -> sample xa x -> x <> [] -> k_trim kw = Some t -> 0 <= t < 1/2 -> biascorr kw = false ->
    k_order kw = Some k -> (match k_option kw with Some i => i | None => 1%nat end <= k)%nat -> (1 <= k)%nat ->
    exists c, fit_result dc s xa kw = Ok c /\ if (k =? 1)%nat then t_mean t x c else is_trimmed_comoment t k 0 x x c.
  Proof.
    intros s xa x kw t k HC Hs Hx Ht Hr Hb Ho Hopt Hk. change (biascorr kw) with (dflt (k_bias kw) false) in Hb. destruct (Nat.eq_dec k 1) as [->|Hk1].
    - destruct (dtrim_ok t x Hr Hx) as [m0 [E T]]. exists m0. split; [|exact T]. start s xa x kw Hx Hs Ht. rewrite Hb, Ho. cbn [dflt trim_mom locest]. rewrite E. dsimp. unfold fit_tail. dsimp. reflexivity.
    - destruct (trim_mom_trim t x x k (if (2 <? k)%nat then dflt (k_option kw) 1%nat else 0%nat) false Hr Hx eq_refl ltac:(lia)) as [c [E T]]. exists c. replace (k =? 1)%nat with false by (symmetry; apply Nat.eqb_neq; auto). split.
      + start s xa x kw Hx Hs Ht. rewrite Hb, Ho. cbn [dflt Nat.ltb Nat.leb] in E |- *. rewrite E. dsimp. unfold fit_tail. dsimp. rewrite Rmult_1_r. reflexivity.
      + destruct T as [mx [my [T1 [T2 T3]]]]. assert (my = mx) as -> by (destruct T1 as [s1 [P1 [S1 ->]]], T2 as [s2 [P2 [S2 ->]]]; rewrite (sorted_perm_unique s1 s2); auto; eapply perm_trans; [apply Permutation_sym; exact P1|exact P2]).
        exists mx, mx. split; [auto|]. split; [auto|]. match type of T3 with t_mean t ?l1 _ => match goal with |- t_mean t ?l2 _ => assert (EE : l1 = l2) end end; [|rewrite <- EE; exact T3].
        apply map_ext_in. intros p Hp. rewrite combine_self in Hp. apply in_map_iff in Hp as [v [<- _]]. cbn [fst snd]. rewrite <- pow_add. rewrite pow_O, Rmult_1_r. f_equal.
        destruct (2 <? k)%nat eqn:E2; [|apply Nat.ltb_ge in E2; lia]. unfold dflt. lia.
  Qed.
End Trim.
Lemma trimvar_ok : forall t (x : list R), 0 < t < 1/2 -> x <> [] -> exists c, trimvar t x = Ok c /\ is_trimmed_comoment t 1 1 x x c.
Proof.
  intros t x Ht Hx. assert (Ht' : 0 <= t < 1/2) by lra. assert (ED : forall v : list R, dtrim_mean t v = trim_mean1 t v) by (intros v; unfold dtrim_mean; rnum; unfold Reqb; destruct (Req_EM_T t 0); [lra|reflexivity]).
  destruct (dtrim_ok t x Ht' Hx) as [m [E1 T1]]. set (l := map (fun p => (fst p - m) ^ 1 * (snd p - m) ^ 1) (combine x x)).
  assert (Hne : l <> []) by (unfold l; destruct x; [congruence|discriminate]). destruct (dtrim_ok t l Ht' Hne) as [c [E2 T2]]. exists c. split; [|exists m, m; auto].
  unfold trimvar. rewrite <- ED, E1. cbn [bind]. rewrite <- ED. replace (map (fun x0 => nsqr (nsub x0 m)) x) with l; [exact E2|]. unfold l. rewrite combine_self, map_map. apply map_ext. intros v. cbn [fst snd]. unfold nsqr. rnum. ring.
Qed.

(** ** median moments *)
Lemma div_one : forall z : R, z / 1 = z. Proof. intros; field. Qed.
Lemma pow_root : forall a k, 0 <= a -> (0 < k)%nat -> Rpowr (a ^ k) (1 / INR k) = a.
Proof.
  intros a k Ha Hk. assert (Hp : 0 <= a ^ k) by (apply pow_le; auto). destruct (Rpowr_root (a ^ k) k Hp Hk) as [H1 H2]. revert H1 H2. generalize (Rpowr (a ^ k) (1 / INR k)). intros w H1 H2.
  destruct (Rtotal_order w a) as [H|[H|H]]; [|auto|]; exfalso.
  - assert (HH : w ^ k < a ^ k); [|lra]. clear - Hk H1 H. revert Hk. induction k as [|k IH]; intros Hk; [lia|]. destruct k as [|k]; [cbn; lra|]. assert (w ^ S k < a ^ S k) by (apply IH; lia). change (w * w ^ S k < a * a ^ S k). assert (0 <= w ^ S k) by (apply pow_le; auto). nra.
  - assert (HH : a ^ k < w ^ k); [|lra]. clear - Hk Ha H. revert Hk. induction k as [|k IH]; intros Hk; [lia|]. destruct k as [|k]; [cbn; lra|]. assert (a ^ S k < w ^ S k) by (apply IH; lia). change (a * a ^ S k < w * w ^ S k). assert (0 <= a ^ S k) by (apply pow_le; auto). nra.
Qed.
Lemma all_same : forall x y : list R, length y = length x -> (forallb (fun b => b) (map2 neqb x y) = true <-> x = y).
Proof.
  induction x as [|a x IH]; intros [|b y] Hl; try discriminate; [tauto|]. cbn [map2 forallb]. rewrite andb_true_iff. rnum. rewrite IH by (cbn in Hl; lia). unfold Reqb. destruct (Req_EM_T a b) as [->|Hne].
  - split; [intros [_ ->]; reflexivity|intros E; injection E as ->; auto].
  - split; [intros [? _]; discriminate|intros E; injection E as ? ?; contradiction].
Qed.
Lemma trim_mom_median : forall (x : list R) k t opt b, x <> [] -> (2 <= k)%nat -> (opt <= k)%nat ->
  trim_mom x x true k t opt b = Ok (vmedian (map (fun v => Rabs (v - vmedian x)) x) * (if (k =? 2)%nat then 14826 / 10000 else 1)).
Proof.
  intros x k t opt b Hx Hk Ho. unfold trim_mom. destruct k as [|[|k]]; try lia. assert (ES : forallb (fun b0 => b0) (map2 neqb x x) = true) by (apply all_same; auto). rewrite ES. cbn [andb].
  set (K := S (S k)) in *. set (s2 := if (2 <? K)%nat then opt else 1%nat). set (s1 := if (2 <? K)%nat then (K - opt)%nat else 1%nat).
  assert (HS : (s1 + s2 = K)%nat) by (unfold s1, s2; destruct (2 <? K)%nat eqn:E; [lia|apply Nat.ltb_ge in E; lia]).
  f_equal. match goal with |- nmul ?a ?b = _ => change (nmul a b) with (Rmult a b) end. f_equal.
  - f_equal. rewrite map2_combine, combine_self, !map_map. apply map_ext. intros v. cbn [fst snd]. rewrite !npow_R. rnum. rewrite <- pow_add, HS. unfold K at 2. rewrite <- (pow_root (Rabs (v - vmedian x)) K) at 2 by (auto using Rabs_pos; lia). f_equal.
    pose proof (nlit_order (S k)) as EN. revert EN. rnum. auto.
Qed.
Lemma fit_median_mom : forall dc s xa x kw, sample xa x -> x <> [] ->
  (forall k, configured s "arithmetic" "mom" "median" -> k_order kw = Some k -> (match k_option kw with Some i => i | None => 1%nat end <= k)%nat -> (2 <= k)%nat ->
     exists d, fit_result dc s xa kw = Ok ((if (k =? 2)%nat then 14826 / 10000 else 1) * d) /\ is_mad 1 x d) /\
  (configured s "arithmetic" "var" "median" -> exists d, fit_result dc s xa kw = Ok (14826 / 10000 * d) /\ is_mad 1 x d) /\
  (configured s "arithmetic" "mom" "median" -> k_order kw = Some 1%nat ->
     (no_trimming kw -> exists m, fit_result dc s xa kw = Ok m /\ is_median x m) /\ (~ no_trimming kw -> fit_result dc s xa kw = Err TypeError)).
Proof.
  intros dc s xa x kw Hs Hx. assert (HM : is_mad 1 x (vmedian (map (fun v => Rabs (v - vmedian x)) x))) by (pose proof (is_mad_vmad 1 x Hx) as H; rewrite div_one in H; exact H). split; [|split].
  - intros k [C1 [C2 C3]] Hk Ho H2. eexists. split; [|exact HM].
    destruct s as [e m c mo xm ym co]; cbn [d_est d_mode d_center] in C1, C2, C3; subst e m c. unfold fit_result, dicomo_fit. dsimp. rewrite Hk, (sample_len xa x Hs), (len_eqb0 x Hx). unfold fit_arithmetic. dsimp. rewrite (sample_col xa x Hs).
    rewrite trim_mom_median by (auto; unfold dflt; destruct (k_option kw); destruct k as [|[|[|k]]]; cbn [Nat.ltb Nat.leb] in *; lia). dsimp. unfold fit_tail. dsimp. f_equal. rnum. ring.
  - intros [C1 [C2 C3]]. eexists. split; [|exact HM].
    destruct s as [e m c mo xm ym co]; cbn [d_est d_mode d_center] in C1, C2, C3; subst e m c. unfold fit_result, dicomo_fit. dsimp. rewrite (sample_len xa x Hs), (len_eqb0 x Hx). unfold fit_arithmetic. dsimp. rewrite (sample_col xa x Hs).
    rewrite trim_mom_median by (auto; lia). dsimp. unfold fit_tail. dsimp. f_equal. rnum. ring.
  - intros [C1 [C2 C3]] Hk. destruct s as [e m c mo xm ym co]; cbn [d_est d_mode d_center] in C1, C2, C3; subst e m c. unfold fit_result, dicomo_fit. dsimp. rewrite Hk, (sample_len xa x Hs), (len_eqb0 x Hx). unfold fit_arithmetic. dsimp. rewrite (sample_col xa x Hs).
    cbn [trim_mom locest]. rnum. unfold Reqb. split; intros Ht.
    + destruct (Req_EM_T (dflt (k_trim kw) 0) 0) as [E|E]; [|destruct Ht as [E'|E']; rewrite E' in E; cbn in E; congruence]. dsimp. unfold fit_tail. dsimp. eexists. split; [reflexivity|]. apply is_median_vmedian. auto.
    + destruct (Req_EM_T (dflt (k_trim kw) 0) 0) as [E|E]; [|reflexivity]. exfalso. apply Ht. unfold no_trimming. destruct (k_trim kw) as [t|]; [right; cbn in E; congruence|auto].
Qed.
(** the scale law of the median "variance" *)
Lemma mad_affine : forall x d a b, is_mad 1 x d -> is_mad 1 (affine a b x) (Rabs a * d).
Proof.
  intros x d a b H. assert (Hx : x <> []) by (destruct H as [m [e [[s [_ [_ [Hx _]]]] _]]]; exact Hx). pose proof (is_mad_unique _ _ _ H) as ->. assert (Hx' : affine a b x <> []) by (destruct x; [congruence|discriminate]).
  pose proof (is_mad_vmad 1 (affine a b x) Hx') as H'. replace (Rabs a * (vmedian (map (fun v => Rabs (v - vmedian x)) x) / 1)) with (vmedian (map (fun v => Rabs (v - vmedian (affine a b x))) (affine a b x)) / 1); [exact H'|].
  rewrite !div_one. unfold affine at 2. rewrite map_map. unfold affine. rewrite vmedian_affine by auto.
  rewrite (map_ext _ (fun v => Rabs a * Rabs (v - vmedian x) + 0)) by (intros v; rewrite <- Rabs_mult, Rplus_0_r; f_equal; ring).
  rewrite <- (map_map (fun v => Rabs (v - vmedian x)) (fun w => Rabs a * w + 0)). rewrite vmedian_affine by (destruct x; [congruence|discriminate]). ring.
Qed.
(** the comedian *)
Lemma fit_median_cov : forall dc s xa x ya y kw, configured s "arithmetic" "cov" "median" -> sample xa x -> x <> [] -> k_y kw = Some ya -> sample ya y -> length y = length x ->
  (x <> y -> exists mx my v, fit_result dc s xa kw = Ok v /\ is_median x mx /\ is_median y my /\ is_median (map (fun p => (fst p - mx) * (snd p - my)) (combine x y)) v) /\
  (x = y -> exists d, fit_result dc s xa kw = Ok (14826 / 10000 * d) /\ is_mad 1 x d).
Proof.
  intros dc s xa x ya y kw [C1 [C2 C3]] Hs Hx Hy Hsy Hl. destruct s as [e m c mo xm ym co]; cbn [d_est d_mode d_center] in C1, C2, C3; subst e m c.
  unfold fit_result, dicomo_fit. dsimp. rewrite (sample_len xa x Hs), (len_eqb0 x Hx). unfold fit_arithmetic. dsimp. rewrite (sample_col xa x Hs).
  unfold get_y. rewrite Hy. dsimp. rewrite ?(sample_len xa x Hs), (sample_len ya y Hsy), Hl, (len_eqb0 x Hx), Nat.eqb_refl. dsimp. rewrite (sample_col ya y Hsy). split; intros HE.
  - assert (ES : forallb (fun b0 => b0) (map2 neqb x y) = false) by (destruct (forallb _ _) eqn:E; [apply all_same in E; auto; contradiction|reflexivity]).
    unfold trim_mom. rewrite ES. cbn [andb Nat.ltb Nat.leb Nat.eqb]. dsimp. rewrite andb_false_r. dsimp. unfold fit_tail. dsimp.
    exists (vmedian x), (vmedian y). eexists. split; [reflexivity|]. assert (Hy0 : y <> []) by (intros ->; destruct x; [congruence|discriminate]). split; [apply is_median_vmedian; auto|]. split; [apply is_median_vmedian; auto|].
    rnum. rewrite Rmult_1_r, map2_combine. match goal with |- is_median ?l1 (vmedian ?l2) => assert (EE : l2 = l1) end.
    { apply map_ext. intros p. cbv beta iota zeta. rnum. rewrite (npow_R (fst p - vmedian x)), (npow_R (snd p - vmedian y)). cbn [pow]. rewrite !Rmult_1_r. reflexivity. }
    rewrite EE. apply is_median_vmedian. destruct x; [congruence|]. destruct y; [congruence|]. discriminate.
  - subst y. rewrite trim_mom_median by (auto; lia). dsimp. rewrite andb_false_r. dsimp. unfold fit_tail. dsimp. eexists. split; [f_equal; rnum; cbn [Nat.eqb]; apply Rmult_comm|].
    pose proof (is_mad_vmad 1 x Hx) as H; rewrite div_one in H; exact H.
Qed.
(** ** roots of negative estimates *)
Lemma fit_ucov_nan : forall (dc : dcor_env XR) s kw X ya v, configured s "distance" "cov" "mean" -> k_trim kw = None -> k_bias kw = Some true -> k_calc kw = None -> X <> [] -> k_y kw = Some ya ->
  dc_u dc (A2 X) ya = Ok (Fin v) -> v < 0 -> fit_result dc s (A2 X) kw = Ok NaN.
Proof.
  intros dc s kw X ya v [C1 [C2 C3]] Ht Hb Hc HX Hy Hd Hv. destruct s as [e m c mo xm ym co]; cbn [d_est d_mode d_center] in C1, C2, C3; subst e m c.
  unfold fit_result, dicomo_fit. rewrite Ht, Hc. dsimp. cbn [alen]. destruct X as [|r X]; [congruence|]. cbn [length Nat.eqb].
  assert (E0 : neqb (n0 : XR) n0 = true) by (cbn; apply Reqb_refl). rewrite E0. dsimp. unfold fit_fast. rewrite Hb. dsimp. unfold get_y. rewrite Hy. dsimp. cbn [arows]. rewrite Hd. dsimp. unfold fit_tail. dsimp.
  f_equal. cbn. unfold Rltb. destruct (Rlt_dec v 0); [reflexivity|contradiction].
Qed.
Lemma fit_umdd_nan : forall (dc : dcor_env XR) s kw X ya v, configured s "distance" "mdd" "mean" -> k_trim kw = None -> k_bias kw = Some true -> X <> [] -> k_y kw = Some ya -> alen ya = length X ->
  difference_divergence X ya "mean" (n0 : XR) true = Ok (Fin v) -> v < 0 -> fit_result dc s (A2 X) kw = Ok NaN.
Proof.
  intros dc s kw X ya v HC Ht Hb HX Hy Hl Hd Hv. rewrite (fit_mdd_gen dc s kw X ya n0 true HC) ; [|rewrite Ht; reflexivity|rewrite Hb; reflexivity|destruct X; [congruence|cbn; lia]|exact Hy|exact Hl].
  rewrite Hd. f_equal. cbn. unfold Rltb. destruct (Rlt_dec v 0); [reflexivity|contradiction].
Qed.
Lemma umdd_negative : difference_divergence [[0];[0];[1];[1]] (A1 [0;1;0;1]) "mean" 0 true = Ok (- (1/6)).
Proof.
  rewrite (dd_u_value 4 1 _ _ [0;1;0;1]); [|split; [reflexivity|repeat constructor]|lia|left; reflexivity|reflexivity]. f_equal.
  unfold umdd_sq. rewrite u_inner_sumn. pose proof ucov_negative as H. unfold ucov_sq in H. rewrite u_inner_sumn in H.
  assert (E : forall i j, ucentred 4 (fun i j => (nth i [0;1;0;1] 0 - nth j [0;1;0;1] 0) ^ 2 / 2) i j = / 2 * ucentred 4 (fun i j => (nth i [0;1;0;1] 0 - nth j [0;1;0;1] 0) ^ 2) i j).
  { intros i j. unfold ucentred. destruct (i =? j)%nat; [lra|]. unfold Rdiv. rewrite (sumn_ext 4 (fun k => (nth i [0;1;0;1] 0 - nth k [0;1;0;1] 0) ^ 2 * / 2) (fun k => / 2 * (nth i [0;1;0;1] 0 - nth k [0;1;0;1] 0) ^ 2)) by (intros; ring).
    rewrite (sumn_ext 4 (fun k => (nth k [0;1;0;1] 0 - nth j [0;1;0;1] 0) ^ 2 * / 2) (fun k => / 2 * (nth k [0;1;0;1] 0 - nth j [0;1;0;1] 0) ^ 2)) by (intros; ring).
    rewrite (sumn_ext 4 (fun k => sumn 4 (fun l => (nth k [0;1;0;1] 0 - nth l [0;1;0;1] 0) ^ 2 * / 2)) (fun k => / 2 * sumn 4 (fun l => (nth k [0;1;0;1] 0 - nth l [0;1;0;1] 0) ^ 2))) by (intros; rewrite <- sumn_scal; apply sumn_ext; intros; ring).
    rewrite !sumn_scal. ring. }
  assert (EB : forall i j, (i < 4)%nat -> (j < 4)%nat -> ucentred 4 (fun i j => (nth i [0;1;0;1] 0 - nth j [0;1;0;1] 0) ^ 2) i j = ucentred 4 (rowdist [[0];[1];[0];[1]]) i j).
  { assert (ED : forall i j, (i < 4)%nat -> (j < 4)%nat -> (nth i [0;1;0;1] 0 - nth j [0;1;0;1] 0) ^ 2 = rowdist [[0];[1];[0];[1]] i j).
    { intros i j Hi Hj. change [[0];[1];[0];[1]] with (map (fun v => [v]) [0;1;0;1]). rewrite rowdist1 by (cbn; lia). destruct i as [|[|[|[|i]]]]; try lia; destruct j as [|[|[|[|j]]]]; try lia; cbn [nth]; unfold Rabs; destruct (Rcase_abs _); lra. }
    intros i j Hi Hj. unfold ucentred. destruct (i =? j)%nat; [reflexivity|]. rewrite ED by auto.
    rewrite (sumn_ext 4 (fun k => (nth i [0;1;0;1] 0 - nth k [0;1;0;1] 0) ^ 2) (fun k => rowdist [[0];[1];[0];[1]] i k)) by (intros; apply ED; auto).
    rewrite (sumn_ext 4 (fun k => (nth k [0;1;0;1] 0 - nth j [0;1;0;1] 0) ^ 2) (fun k => rowdist [[0];[1];[0];[1]] k j)) by (intros; apply ED; auto).
    f_equal. f_equal. apply sumn_ext. intros k Hk. apply sumn_ext. intros l Hll. apply ED; auto. }
  rewrite (sumn_ext 4 _ (fun i => / 2 * sumn 4 (fun j => ucentred 4 (rowdist [[0];[0];[1];[1]]) i j * ucentred 4 (rowdist [[0];[1];[0];[1]]) i j))).
  - rewrite sumn_scal. unfold Rdiv in *. rewrite Rmult_assoc, H. lra.
  - intros i Hi. rewrite <- sumn_scal. apply sumn_ext. intros j Hj. rewrite E, EB by auto. ring.
Qed.
Lemma C125_corr_bounds : forall n X Y, (4 <= n)%nat -> ucov_sq n X X <> 0 -> ucov_sq n Y Y <> 0 ->
  0 <= sqrt (Rabs (ucov_sq n X Y)) / (sqrt (sqrt (Rabs (ucov_sq n X X))) * sqrt (sqrt (Rabs (ucov_sq n Y Y)))) <= 1.
Proof.
  intros n X Y Hn HX HY. pose proof (ucov_self_nonneg n X Hn). pose proof (ucov_self_nonneg n Y Hn). pose proof (ucov_cs n X Y Hn) as HC.
  set (a := ucov_sq n X X) in *. set (b := ucov_sq n Y Y) in *. set (c := ucov_sq n X Y) in *. rewrite (Rabs_pos_eq a), (Rabs_pos_eq b) by auto.
  assert (Ha : 0 < sqrt a) by (apply sqrt_lt_R0; lra). assert (Hb : 0 < sqrt b) by (apply sqrt_lt_R0; lra).
  rewrite <- sqrt_mult by lra. assert (Hab : 0 < sqrt a * sqrt b) by nra. split; [apply Rmult_le_pos; [apply sqrt_pos|apply Rlt_le, Rinv_0_lt_compat, sqrt_lt_R0; auto]|].
  apply (Rmult_le_reg_r (sqrt (sqrt a * sqrt b))); [apply sqrt_lt_R0; auto|]. unfold Rdiv. rewrite Rmult_assoc, Rinv_l, Rmult_1_r, Rmult_1_l by (apply Rgt_not_eq, sqrt_lt_R0; auto).
  apply sqrt_le_1; [apply Rabs_pos|lra|]. rewrite <- sqrt_mult by lra. rewrite <- sqrt_Rsqr_abs. apply sqrt_le_1; [apply Rle_0_sqr|nra|]. exact HC.
Qed.

(** ** the theorems *)
Lemma C125_general_l : forall dc s kw n p q X Y, no_trimming kw -> biascorr kw = true -> k_metric kw = None -> naive_mode kw ->
  is_matrix n p X -> is_matrix n q Y -> (4 <= n)%nat ->
  (configured s "distance" "var" "mean" -> fit_result dc s (A2 X) kw = Ok (sqrt (ucov_sq n X X))) /\
  (configured s "distance" "cov" "mean" -> k_y kw = Some (A2 Y) -> fit_result dc s (A2 X) kw = Ok (sqrt (Rabs (ucov_sq n X Y)))) /\
  (configured s "distance" "corr" "mean" -> k_y kw = Some (A2 Y) -> k_order kw = None ->
     exists r, fit_result dc s (A2 X) kw = Ok r /\
       (ucov_sq n X X <> 0 -> ucov_sq n Y Y <> 0 -> 0 <= r <= 1 /\ r ^ 4 = (ucov_sq n X Y) ^ 2 / (ucov_sq n X X * ucov_sq n Y Y))).
Proof.
  intros dc s kw n p q X Y Ht Hb Hm Hn HX HY H4. split; [|split].
  - intros HC. rewrite (fit_uvar dc s kw n p X) by auto. rewrite Rabs_pos_eq by (apply ucov_self_nonneg; auto). reflexivity.
  - intros HC Hy. apply (fit_ucov dc s kw n p q X Y); auto.
  - intros HC Hy Ho. rewrite (fit_ucorr dc s kw n p q X Y) by auto. eexists. split; [reflexivity|]. intros HX0 HY0. split; [apply C125_corr_bounds; auto|].
    pose proof (ucov_self_nonneg n X H4). pose proof (ucov_self_nonneg n Y H4). rewrite (Rabs_pos_eq (ucov_sq n X X)), (Rabs_pos_eq (ucov_sq n Y Y)) by auto.
    set (a := ucov_sq n X X) in *. set (b := ucov_sq n Y Y) in *. set (c := ucov_sq n X Y) in *.
    assert (Ha : 0 < a) by lra. assert (Hb' : 0 < b) by lra.
    assert (P4 : forall v, 0 <= v -> (sqrt (sqrt v)) ^ 4 = v).
    { intros v Hv. replace ((sqrt (sqrt v)) ^ 4) with ((sqrt (sqrt v) * sqrt (sqrt v)) * (sqrt (sqrt v) * sqrt (sqrt v))) by ring. rewrite sqrt_sqrt by apply sqrt_pos. apply sqrt_sqrt; auto. }
    unfold Rdiv. rewrite Rpow_mult_distr. rewrite pow_inv, Rpow_mult_distr, !P4 by lra. f_equal.
    replace ((sqrt (Rabs c)) ^ 4) with ((sqrt (Rabs c) * sqrt (Rabs c)) * (sqrt (Rabs c) * sqrt (Rabs c))) by ring. rewrite sqrt_sqrt by apply Rabs_pos. rewrite <- Rabs_mult. rewrite Rabs_pos_eq by apply Rle_0_sqr. ring.
Qed.
Lemma C125_estimator_l : forall n X Y, (4 <= n)%nat -> ucov_sq n X Y = ucov_sq n Y X /\ 0 <= ucov_sq n X X /\ (ucov_sq n X Y) ^ 2 <= ucov_sq n X X * ucov_sq n Y Y.
Proof. intros n X Y Hn. split; [apply ucov_sym|]. split; [apply ucov_self_nonneg; auto|]. pose proof (ucov_cs n X Y Hn). lra. Qed.
Lemma C125_refuted_l :
  (forall (dc : dcor_env XR) s kw X ya v, configured s "distance" "cov" "mean" -> k_trim kw = None -> k_bias kw = Some true -> k_calc kw = None -> X <> [] ->
     k_y kw = Some ya -> dc_u dc (A2 X) ya = Ok (Fin v) -> v < 0 -> fit_result dc s (A2 X) kw = Ok NaN) /\
  (exists X Y, is_matrix 4 1 X /\ is_matrix 4 1 Y /\ ucov_sq 4 X Y < 0 /\
     forall dc s kw, configured s "distance" "cov" "mean" -> no_trimming kw -> biascorr kw = true -> k_metric kw = None -> naive_mode kw -> k_y kw = Some (A2 Y) ->
       exists r, 0 < r /\ fit_result dc s (A2 X) kw = Ok r).
Proof.
  split; [exact fit_ucov_nan|]. exists [[0];[0];[1];[1]], [[0];[1];[0];[1]].
  assert (M1 : is_matrix 4 1 [[0];[0];[1];[1]]) by (repeat constructor). assert (M2 : is_matrix 4 1 [[0];[1];[0];[1]]) by (repeat constructor).
  split; [exact M1|]. split; [exact M2|]. split; [rewrite ucov_negative; lra|].
  intros dc s kw HC Ht Hb Hm Hn Hy. exists (sqrt (Rabs (ucov_sq 4 [[0];[0];[1];[1]] [[0];[1];[0];[1]]))). split; [|apply (fit_ucov dc s kw 4 1 1 _ _ HC Ht Hb Hm Hn M1 M2 (le_n 4) Hy)].
  apply sqrt_lt_R0. rewrite ucov_negative. rewrite Rabs_left; lra.
Qed.
Lemma C125_mdd_l : forall dc s kw n p X ya y, configured s "distance" "mdd" "mean" -> no_trimming kw -> biascorr kw = true -> is_matrix n p X -> (4 <= n)%nat ->
  k_y kw = Some ya -> sample ya y -> length y = n -> fit_result dc s (A2 X) kw = Ok (sqrt (umdd_sq n X y)).
Proof.
  intros dc s kw n p X ya y HC Ht Hb HX Hn Hy Hs Hl. rewrite (fit_mdd_gen dc s kw X ya 0 true HC).
  - rewrite (dd_u_value n p X ya y HX Hn Hs Hl). reflexivity.
  - destruct Ht as [-> | ->]; reflexivity.
  - exact Hb.
  - destruct HX as [-> _]. lia.
  - exact Hy.
  - rewrite (sample_alen _ _ Hs). destruct HX as [-> _]. exact Hl.
Qed.
Lemma C125_mdd_refuted_l :
  (forall (dc : dcor_env XR) s kw X ya v, configured s "distance" "mdd" "mean" -> k_trim kw = None -> k_bias kw = Some true -> X <> [] -> k_y kw = Some ya ->
     alen ya = length X -> difference_divergence X ya "mean" (n0 : XR) true = Ok (Fin v) -> v < 0 -> fit_result dc s (A2 X) kw = Ok NaN) /\
  (exists X y, is_matrix 4 1 X /\ length y = 4%nat /\ umdd_sq 4 X y < 0).
Proof.
  split; [exact fit_umdd_nan|]. exists [[0];[0];[1];[1]], [0;1;0;1]. split; [repeat constructor|]. split; [reflexivity|].
  pose proof umdd_negative as H. rewrite (dd_u_value 4 1 _ _ [0;1;0;1]) in H; [|split; [reflexivity|repeat constructor]|lia|left; reflexivity|reflexivity]. injection H as H. lra.
Qed.
Lemma C126_l : forall dc s kw n p X ya y t, configured s "distance" "mdd" "mean" -> k_trim kw = Some t -> 0 <= t < 1/2 -> biascorr kw = false ->
  is_matrix n p X -> (0 < n)%nat -> k_y kw = Some ya -> sample ya y -> length y = n ->
  exists v A B, fit_result dc s (A2 X) kw = Ok (sqrt v) /\ is_trimmed_centring t n (rowdist X) A /\
    is_trimmed_centring t n (fun i j => (nth i y 0 - nth j y 0) ^ 2 / 2) B /\ t_mean t (all_pairs n (fun i j => A i j * B i j)) v.
Proof.
  intros dc s kw n p X ya y t HC Ht Ht' Hb HX Hn Hy Hs Hl. destruct (dd_trim t n p X ya y HX Hn Hs Hl Ht') as (v & A & B & E & H1 & H2 & H3).
  exists v, A, B. split; [|auto]. rewrite (fit_mdd_gen dc s kw X ya t false HC).
  - rewrite E. reflexivity.
  - rewrite Ht. reflexivity.
  - exact Hb.
  - destruct HX as [-> _]. lia.
  - exact Hy.
  - rewrite (sample_alen _ _ Hs). destruct HX as [-> _]. exact Hl.
Qed.
Lemma C127_l : forall dc s xa x kw t, sample xa x -> x <> [] -> k_trim kw = Some t -> 0 <= t < 1/2 ->
  (configured s "arithmetic" "var" "mean" -> exists c nt, fit_result dc s xa kw = Ok (c * if biascorr kw then IZR nt / (IZR nt - 1) else 1) /\
     is_trimmed_comoment t 1 1 x x c /\ rounded (INR (length x) * (1 - t)) nt) /\
  (forall ya y, configured s "arithmetic" "cov" "mean" -> k_y kw = Some ya -> sample ya y -> length y = length x ->
     exists c nt, fit_result dc s xa kw = Ok (c * if biascorr kw then IZR nt / (IZR nt - 1) else 1) /\
       is_trimmed_comoment t 1 1 x y c /\ rounded (INR (length x) * (1 - t)) nt) /\
  (forall k, configured s "arithmetic" "mom" "mean" -> biascorr kw = false -> k_order kw = Some k ->
     (match k_option kw with Some i => i | None => 1%nat end <= k)%nat -> (1 <= k)%nat ->
     exists c, fit_result dc s xa kw = Ok c /\ if (k =? 1)%nat then t_mean t x c else is_trimmed_comoment t k 0 x x c).
Proof.
  intros dc s xa x kw t Hs Hx Ht Ht'. split; [|split].
  - intros HC. apply fit_var_trim; auto.
  - intros ya y HC Hy Hys Hl. apply (fit_cov_trim dc s xa x ya y kw t); auto.
  - intros k HC Hb Ho Ho' Hk. apply (fit_mom_trim dc s xa x kw t k); auto.
Qed.
Lemma cut_quarter : cut (1/4) 4 = 1%nat.
Proof. unfold cut. replace (1 / 4 * INR 4) with 1 by (cbn; lra). assert (E : Int_part 1 = 1%Z); [|rewrite E; reflexivity].
  destruct (base_Int_part 1) as [H1 H2]. assert (L1 : (Int_part 1 <= 1)%Z) by (apply le_IZR; lra). assert (L2 : (0 < Int_part 1)%Z) by (apply lt_IZR; lra). lia.
Qed.
Lemma t_mean_case : t_mean (1/4) [1;5;2;9] (7/2).
Proof.
  unfold t_mean. cbn [length]. rewrite cut_quarter. exists [1;2;5;9]. split; [|split].
  - apply perm_skip, perm_swap.
  - repeat constructor; lra.
  - unfold mean_of. cbn. lra.
Qed.
Lemma is_median_fun : forall x a b, is_median x a -> is_median x b -> a = b.
Proof. intros x a b Ha Hb. rewrite (is_median_unique _ _ Ha), (is_median_unique _ _ Hb). reflexivity. Qed.
Lemma C128_scaling_l : forall dc s x kw a b, configured s "arithmetic" "var" "median" -> x <> [] ->
  exists d, fit_result dc s (A1 x) kw = Ok d /\ fit_result dc s (A1 (affine a b x)) kw = Ok (Rabs a * d).
Proof.
  intros dc s x kw a b HC Hx. destruct (fit_median_mom dc s (A1 x) x kw (or_introl eq_refl) Hx) as (_ & H & _). destruct (H HC) as (d & E & Hd).
  assert (Hx' : affine a b x <> []) by (destruct x; [congruence|discriminate]).
  destruct (fit_median_mom dc s (A1 (affine a b x)) _ kw (or_introl eq_refl) Hx') as (_ & H' & _). destruct (H' HC) as (d' & E' & Hd').
  exists (14826 / 10000 * d). split; [exact E|]. rewrite E'. f_equal. pose proof (mad_affine x d a b Hd) as Hq.
  assert (Q : d' = Rabs a * d).
  { destruct Hd' as (m1 & e1 & A1' & B1 & ->). destruct Hq as (m2 & e2 & A2' & B2 & ->). assert (m1 = m2) by (eapply is_median_fun; eauto). subst m2. f_equal. eapply is_median_fun; eauto. }
  rewrite Q. ring.
Qed.
