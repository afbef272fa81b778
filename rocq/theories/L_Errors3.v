(** Ranks as tick labels; refused responses of the sufficient dimension reduction
    functions *)

From Coq Require Import String Reals QArith List Arith ZArith Bool Lra Lia Permutation Sorted.
Import List. Import ListNotations.
From Verif Require Import Num Err Vec VecR OrdR S_Stats L_Mat L_Stats M_Utils M_Preproc M_Robcent M_Dicomo M_Rm M_Sprm M_Snipls M_Msupport M_Plot M_Ppdire M_SdrUtils M_Sudire M_Plot2 S_Plot S_Errors3 S_Sudire L_Msupport L_Plot2 L_Snipls L_Vars L_SdrEig L_Extra.
Import List. Open Scope R_scope.

(** ** ranks *)
Lemma count_below : forall s j, StronglySorted Rlt s -> (j < length s)%nat ->
  length (filter (fun v => if Rlt_dec v (nth j s 0) then true else false) s) = j.
Proof.
  intros s j Hs. revert j. induction Hs as [|a s Hs IH Ha]; intros j Hj; cbn [length] in Hj; [lia|].
  rewrite Forall_forall in Ha. destruct j as [|j]; cbn [nth filter].
  - destruct (Rlt_dec a a); [lra|]. assert (E : filter (fun v => if Rlt_dec v a then true else false) s = []).
    { clear -Ha. induction s as [|x s IH]; cbn; [reflexivity|]. destruct (Rlt_dec x a) as [L|L]; [specialize (Ha x (or_introl eq_refl)); lra|]. apply IH. intros y Hy. apply Ha. right; auto. }
    rewrite E. reflexivity.
  - assert (HL : a < nth j s 0) by (apply Ha, nth_In; lia). destruct (Rlt_dec a (nth j s 0)); [|lra]. cbn [length]. rewrite IH by lia. reflexivity.
Qed.
Lemma filter_count_perm : forall (f : R -> bool) a b, Permutation a b -> length (filter f a) = length (filter f b).
Proof. intros f a b Hp. induction Hp as [|x a b Hp IH|x y l|a b c H1 I1 H2 I2]; cbn; auto; [destruct (f x); cbn; auto|destruct (f x), (f y); reflexivity|congruence]. Qed.
Lemma values_perm : forall b : list R, Permutation b (map (fun i => nth i b 0) (M_SdrUtils.argsort b)).
Proof.
  intros b. eapply perm_trans; [|apply Permutation_map, argsort_perm].
  rewrite map_nth_seq by lia. cbn [skipn]. rewrite firstn_all. auto.
Qed.
Lemma sorted_strict : forall s : list R, (forall i j, (i <= j < length s)%nat -> nth i s 0 <= nth j s 0) -> NoDup s -> StronglySorted Rlt s.
Proof.
  induction s as [|a s IH]; intros Hs Hd; [constructor|]. inversion Hd as [|? ? Hn Hd']; subst. constructor.
  - apply IH; auto. intros i j Hij. apply (Hs (S i) (S j)). cbn [length]. lia.
  - apply Forall_forall. intros x Hx. destruct (In_nth _ _ 0 Hx) as (k & Hk & <-). specialize (Hs 0%nat (S k) ltac:(cbn [length]; lia)). cbn [nth] in Hs.
    destruct (Rle_lt_or_eq_dec _ _ Hs) as [L|E]; auto. exfalso. apply Hn. rewrite E. auto.
Qed.
Lemma place_rank : forall b i j, NoDup b -> (j < length b)%nat -> nth j (M_SdrUtils.argsort b) 0%nat = i -> rank b i = j.
Proof.
  intros b i j Hd Hj E. unfold rank. rewrite (filter_count_perm _ _ _ (values_perm b)).
  set (s := map (fun i => nth i b 0) (M_SdrUtils.argsort b)). assert (Ls : length s = length b) by (unfold s; rewrite map_length; apply argsort_length).
  assert (N : forall k, (k < length b)%nat -> nth k s 0 = nth (nth k (M_SdrUtils.argsort b) 0%nat) b 0).
  { intros k Hk. unfold s. rewrite (nth_indep _ _ ((fun i => nth i b 0) 0%nat)) by (rewrite map_length, argsort_length; auto). apply (map_nth (fun i => nth i b 0)). }
  assert (En : nth i b 0 = nth j s 0) by (rewrite N, E by auto; reflexivity). rewrite En. apply count_below; [|lia].
  apply sorted_strict; [|eapply Permutation_NoDup; [apply values_perm|auto]].
  intros u w Huw. rewrite !N by lia. apply argsort_sorted. lia.
Qed.
Lemma argsort2_rank : forall b i, NoDup b -> (i < length b)%nat -> nth i (argsort2 b) 0%nat = rank b i.
Proof.
  intros b i Hd Hi. unfold argsort2. cbv zeta. set (f := fun i => match where_ (Nat.eqb i) (M_Plot.argsort b) with j :: _ => j | [] => O end).
  rewrite (nth_indep _ _ (f 0%nat)) by (rewrite map_length, seq_length; auto). rewrite map_nth, seq_nth by auto. cbn [Nat.add]. unfold f.
  change (M_Plot.argsort b) with (M_SdrUtils.argsort b).
  assert (HI : In i (M_SdrUtils.argsort b)) by (eapply Permutation_in; [apply argsort_perm|apply in_seq; lia]).
  destruct (In_nth _ _ 0%nat HI) as (j & Hj & Ej). destruct (where_ (Nat.eqb i) (M_SdrUtils.argsort b)) as [|j' l] eqn:EW.
  - exfalso. assert (In j []) as []. rewrite <- EW. apply (where_in _ _ _ 0%nat). split; auto. apply Nat.eqb_eq. auto.
  - assert (HJ : In j' (where_ (Nat.eqb i) (M_SdrUtils.argsort b))) by (rewrite EW; left; auto). apply (where_in _ _ _ 0%nat) in HJ as [H1 H2]. apply Nat.eqb_eq in H2.
    symmetry. apply place_rank; auto. rewrite argsort_length in H1. auto.
Qed.
Lemma labels_l : forall left (b : list R) j, NoDup b -> (2 * left <= length b)%nat -> In j (snd (coeff_bars left b)) <-> exists i, at_the_ends left (length b) i /\ rank b i = j.
Proof.
  intros left b j Hd Hl. unfold coeff_bars. cbv zeta. cbn [snd]. rewrite union1d_in.
  assert (L2 : length (argsort2 b) = length b) by (unfold argsort2; rewrite map_length, seq_length; reflexivity).
  assert (F : forall j, In j (firstn left (argsort2 b)) <-> exists i, (i < left)%nat /\ rank b i = j).
  { intros k. split.
    - intros Hk. destruct (In_nth _ _ 0%nat Hk) as (i & Hi & E). rewrite firstn_length in Hi. exists i. split; [lia|]. rewrite <- argsort2_rank by (auto; lia). rewrite <- E.
      rewrite <- (firstn_skipn left (argsort2 b)) at 1. rewrite app_nth1; auto. rewrite firstn_length. lia.
    - intros (i & Hi & <-). rewrite <- argsort2_rank by (auto; lia). rewrite <- (firstn_skipn left (argsort2 b)) at 1. rewrite app_nth1 by (rewrite firstn_length; lia). apply nth_In. rewrite firstn_length. lia. }
  assert (K : forall j, In j (skipn (length b - left) (argsort2 b)) <-> exists i, (length b - left <= i < length b)%nat /\ rank b i = j).
  { intros k. assert (Lf : length (firstn (length b - left) (argsort2 b)) = (length b - left)%nat) by (rewrite firstn_length; lia). split.
    - intros Hk. destruct (In_nth _ _ 0%nat Hk) as (i & Hi & E). rewrite skipn_length in Hi. exists (length b - left + i)%nat. split; [lia|]. rewrite <- argsort2_rank by (auto; lia). rewrite <- E.
      rewrite <- (firstn_skipn (length b - left) (argsort2 b)) at 1. rewrite app_nth2 by lia. f_equal. lia.
    - intros (i & Hi & <-). rewrite <- argsort2_rank by (auto; lia). rewrite <- (firstn_skipn (length b - left) (argsort2 b)) at 1. rewrite app_nth2 by lia. apply nth_In. rewrite skipn_length. lia. }
  rewrite F, K. unfold at_the_ends. split; [intros [(i & H1 & H2)|(i & H1 & H2)]; exists i; tauto|intros (i & [H1|H1] & H2); [left|right]; exists i; tauto].
Qed.

(** ** responses of another length *)
Section Refused.
  Context {A : Type} `{Num A} (eigh : mat A -> res (vec A * mat A)).
  Lemma discretize_err : forall (y : vec A) h e, (0 < h)%nat -> discretize y h = Err e -> e = IndexError.
  Proof.
    intros y h e Hh E. unfold discretize in E. destruct (Nat.eqb_spec h 0); [lia|].
    assert (M : forall l e, mapM (fun i => match nth_error (sort y) (i * (length y / h)) with Some v => Ok v | None => Err IndexError end) l = Err e -> e = IndexError).
    { clear. induction l as [|i l IH]; cbn [mapM]; intros e E; [discriminate|].
      destruct (nth_error (sort y) (i * (length y / h))); cbn [bind] in E; [|congruence].
      match type of E with bind ?m _ = _ => destruct m eqn:EM end; cbn [bind] in E; [discriminate|]. inversion E; subst. eauto. }
    cbv zeta in E. match type of E with bind ?m _ = _ => destruct m as [d|e'] eqn:EM end; cbn [bind] in E; [destruct d; congruence|]. inversion E; subst. eapply M; eauto.
  Qed.
  Lemma discretize_len : forall (y : vec A) h l, discretize y h = Ok l -> length l = length y.
  Proof.
    intros y h l E. unfold discretize in E. destruct (h =? 0)%nat; [discriminate|]. cbv zeta in E.
    match type of E with bind ?m _ = _ => destruct m as [d|e'] eqn:EM end; cbn [bind] in E; [|discriminate]. destruct d; [discriminate|]. inversion E. apply map_length.
  Qed.
  Lemma slice_labels_err : forall fuel (y : vec A) e, slice_labels fuel y = Err e -> e = IndexError.
  Proof.
    induction fuel as [|k IH]; intros y e E; destruct y as [|a y]; cbn [slice_labels] in E; try congruence.
    destruct (vvar (a :: y) =?! n0)%num; [eauto|]. match type of E with bind ?m _ = _ => destruct m as [d|e'] eqn:EM end; cbn [bind] in E; [discriminate|]. inversion E; subst; eauto.
  Qed.
  Lemma sliced_refused : forall X (y y' : vec A) k ct ct' c s u, (0 < k)%nat -> sliced eigh X y' k ct' c s = Ok u -> length y <> length X -> sliced eigh X y k ct c s = Err IndexError.
  Proof.
    intros X y y' k ct ct' c s u Hk E HL. unfold sliced in *. destruct (signsqrt eigh X) as [sg|e]; cbn [bind] in *; [|discriminate]. cbv zeta in *.
    destruct (if s then npmatmul (if c then minus_mean X else X) sg else Ok (if c then minus_mean X else X)) as [Xs|e]; cbn [bind] in *; [|discriminate]. clear E.
    destruct (response_labels y k ct) as [ydis|e] eqn:ER; cbn [bind].
    - assert (HD : length ydis = length y).
      { unfold response_labels in ER. destruct ct; [|congruence]. destruct (discretize y k) as [l|] eqn:ED; cbn [bind] in ER; [|discriminate]. inversion ER. rewrite map_length. eapply discretize_len; eauto. }
      destruct (slice_labels (length X) ydis) as [labels|e] eqn:ES; cbn [bind]; [|f_equal; eapply slice_labels_err; eauto].
      unfold used_labels. destruct (length labels <? k)%nat; cbn [bind]; [reflexivity|].
      destruct (Nat.eqb_spec (length ydis) (length X)); [congruence|]. cbn [negb andb]. destruct (Nat.ltb_spec 0 k); [reflexivity|lia].
    - f_equal. unfold response_labels in ER. destruct ct; [|discriminate]. destruct (discretize y k) as [l|] eqn:ED; cbn [bind] in ER; [discriminate|]. inversion ER; subst. eapply discretize_err; eauto.
  Qed.
  Lemma SIR_refused : forall X (y y' : vec A) k d ct ct' c s B, (0 < k)%nat -> SIR eigh X y' k d ct' c s = Ok B -> length y <> length X -> SIR eigh X y k d ct c s = Err IndexError.
  Proof. intros X y y' k d ct ct' c s B Hk E HL. unfold SIR in *. destruct (sliced eigh X y' k ct' c s) as [u|] eqn:ES; cbn [bind] in E; [|discriminate]. rewrite (sliced_refused X y y' k ct ct' c s u) by auto. reflexivity. Qed.
  Lemma SAVE_refused : forall X (y y' : vec A) k d ct ct' c s B, (0 < k)%nat -> SAVE eigh X y' k d ct' c s = Ok B -> length y <> length X -> SAVE eigh X y k d ct c s = Err IndexError.
  Proof. intros X y y' k d ct ct' c s B Hk E HL. unfold SAVE in *. destruct (sliced eigh X y' k ct' c s) as [u|] eqn:ES; cbn [bind] in E; [|discriminate]. rewrite (sliced_refused X y y' k ct ct' c s u) by auto. reflexivity. Qed.
  Lemma DR_refused : forall X (y y' : vec A) k d ct ct' c s B, (0 < k)%nat -> DR eigh X y' k d ct' c s = Ok B -> length y <> length X -> DR eigh X y k d ct c s = Err IndexError.
  Proof. intros X y y' k d ct ct' c s B Hk E HL. unfold DR in *. destruct (sliced eigh X y' k ct' c s) as [u|] eqn:ES; cbn [bind] in E; [|discriminate]. rewrite (sliced_refused X y y' k ct ct' c s u) by auto. reflexivity. Qed.
  Lemma PHD_refused : forall X (y y' : vec A) d c s B, PHD eigh X y' d c s = Ok B -> length y <> length X -> PHD eigh X y d c s = Err ValueError.
  Proof. intros X y y' d c s B E HL. unfold PHD in *. destruct (standardised eigh X c s) as [[sg Xs]|] eqn:ES; cbn [bind] in *; [|discriminate]. destruct (Nat.eqb_spec (length y) (length X)); [congruence|reflexivity]. Qed.
  Lemma IHT_refused : forall X (y y' : vec A) d c s B, IHT eigh X y' d c s = Ok B -> length y <> length X -> IHT eigh X y d c s = Err ValueError.
  Proof. intros X y y' d c s B E HL. unfold IHT in *. destruct (standardised eigh X c s) as [[sg Xs]|] eqn:ES; cbn [bind] in *; [|discriminate]. destruct (Nat.eqb_spec (length y) (length X)); [congruence|reflexivity]. Qed.
End Refused.

Section Scatter.
  Context {A : Type} `{Num A}.
  Lemma yyp_lengths : forall legend t (v : view A) yv Xn label names namesv yp lg, full_theme t -> Xn <> [] -> v_predict v Xn = Ok yp -> legend (label_default label) true = Ok lg -> length (flat yv) <> length yp ->
    view_plot_yyp legend t v (Some yv) Xn label names namesv true = Err ValueError.
  Proof.
    intros legend t v yv Xn label names namesv yp lg Ht HX EP EL HL. unfold view_plot_yyp. cbv zeta. rewrite !color_ok by (auto; lia). cbn [bind].
    destruct Xn as [|r Xn]; [congruence|]. cbn [length Nat.eqb]. rewrite EP. cbn [bind]. rewrite EL. cbn [bind]. unfold scatter. rewrite !color_ok, marker_ok by (auto; lia). cbn [bind].
    destruct (Nat.eqb_spec (length (flat yv)) (length yp)); [congruence|reflexivity].
  Qed.
End Scatter.
