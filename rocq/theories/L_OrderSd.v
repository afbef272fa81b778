(** Order of the cases: the methods of sufficient dimension reduction. *)

From Coq Require Import String Reals List Arith ZArith Bool Lia Lra Permutation FunctionalExtensionality.
Import List. Import ListNotations.
From Verif Require Import Num Err Vec VecR OrdR L_Mat L_Lin L_Matmul S_Stats L_Stats S_Order L_Order M_Utils M_Preproc M_Robcent
  L_Scaling L_Scaling2 L_Preproc L_Snipls L_OrderSc M_SdrUtils S_Sudire L_SdrMat L_SdrKer L_SdrEig L_SdrPow L_SdrMeth L_Sdr L_SdrFit L_SdrCov L_SdrEst.
Open Scope R_scope.

(** ** sums *)
Lemma vsum_perm_R : forall l l' : list R, Permutation l l' -> vsum l = vsum l'.
Proof. intros l l' HP. induction HP; cbn [vsum fold_right] in *; auto; rnum; unfold vsum in *; cbn [fold_right]; rnum; try lra. Qed.
Lemma sum_of_perm : forall l l' : list R, Permutation l l' -> sum_of l = sum_of l'.
Proof. intros. rewrite !sum_of_vsum. apply vsum_perm_R; auto. Qed.
Lemma mean_of_perm : forall l l' : list R, Permutation l l' -> mean_of l = mean_of l'.
Proof. intros l l' HP. unfold mean_of. rewrite (sum_of_perm l l'), (Permutation_length HP); auto. Qed.
Lemma combine_map2 : forall {T U V} (f : T -> U) (g : T -> V) l, combine (map f l) (map g l) = map (fun x => (f x, g x)) l.
Proof. intros T U V f g l. induction l; cbn; congruence. Qed.
Lemma cov_columns_perm : forall (X Y : list (list R)) i j, Permutation X Y -> cov_of (column i X) (column j X) = cov_of (column i Y) (column j Y).
Proof.
  intros X Y i j HP. unfold cov_of, column. rewrite !combine_map2, !map_map, !map_length, (Permutation_length HP). f_equal.
  rewrite (mean_of_perm (map _ X) (map (fun r => nth i r 0) Y)) by (apply Permutation_map; auto).
  rewrite (mean_of_perm (map (fun r => nth j r 0) X) (map (fun r => nth j r 0) Y)) by (apply Permutation_map; auto).
  apply sum_of_perm, Permutation_map; auto.
Qed.
Lemma npcov_order : forall n p o X, case_order n o -> wf n p X -> (0 < n)%nat -> npcov (reorder o X) = npcov (A := R) X.
Proof.
  intros n p o X Ho W Hn. assert (WO : wf n p (reorder o X)) by (apply reorder_wf; auto).
  apply (rep_eq p p _ _ _ _ (rep_cov n p _ Hn WO) (rep_cov n p _ Hn W)). intros i j _ _. apply cov_columns_perm. apply Permutation_sym, (reorder_perm n); auto. apply (wf_length _ _ _ W).
Qed.
Lemma vmean_cols_order : forall n p o (X : list (list R)), case_order n o -> wf n p X -> (0 < n)%nat -> map vmean (cols (reorder o X)) = map vmean (cols X).
Proof.
  intros n p o X Ho W Hn. rewrite (reorder_cols n p o X) by auto. rewrite map_map. apply map_ext_in. intros c Hc.
  pose proof (cols_even n p X W) as HE. rewrite Forall_forall in HE. assert (HP : Permutation c (reorder o c)) by (apply (reorder_perm n); auto).
  unfold vmean. rewrite (vsum_perm_R _ _ HP), (Permutation_length HP). reflexivity.
Qed.
Lemma minus_mean_order : forall n p o X, case_order n o -> wf n p X -> (0 < n)%nat -> minus_mean (reorder o X) = reorder o (minus_mean (A := R) X).
Proof. intros n p o X Ho W Hn. unfold minus_mean. rewrite (vmean_cols_order n p o X), reorder_map by auto. reflexivity. Qed.
Definition omap {T} (f : T -> T) (r : res T) : res T := match r with Ok v => Ok (f v) | Err e => Err e end.
Lemma npmatmul_order : forall n p o (X S : list (list R)), case_order n o -> wf n p X -> (0 < n)%nat -> npmatmul (reorder o X) S = omap (reorder o) (npmatmul X S).
Proof.
  intros n p o X S Ho W Hn. assert (WO : wf n p (reorder o X)) by (apply reorder_wf; auto). unfold npmatmul. rewrite (wf_ncols n p _ WO Hn), (wf_ncols n p _ W Hn).
  destruct (p =? length S)%nat; [|reflexivity]. cbn [omap]. rewrite reorder_matmul. reflexivity.
Qed.
Lemma signsqrt_order : forall eigh n p o (X : list (list R)), case_order n o -> wf n p X -> (0 < n)%nat -> signsqrt eigh (reorder o X) = signsqrt eigh X.
Proof.
  intros eigh n p o X Ho W Hn. assert (WO : wf n p (reorder o X)) by (apply reorder_wf; auto). unfold signsqrt. rewrite (wf_ncols n p _ WO Hn), (wf_ncols n p _ W Hn).
  rewrite (npcov_order n p o X) by auto. reflexivity.
Qed.

(** ** labels *)
Lemma sort_perm_eq : forall l l' : list R, Permutation l l' -> sort l = sort l'.
Proof. intros. apply sort_permutation; auto. Qed.
Lemma discretize_order : forall n o (y : list R) h, case_order n o -> length y = n -> discretize (reorder o y) h = match discretize y h with Ok l => Ok (reorder o l) | Err e => Err e end.
Proof.
  intros n o y h Ho Hy. unfold discretize. rewrite (reorder_length n), Hy by auto. destruct (h =? 0)%nat; [reflexivity|]. cbv zeta.
  rewrite <- (sort_perm_eq y (reorder o y)) by (apply (reorder_perm n); auto). destruct (mapM _ _) as [[|d0 ds]|e]; cbn [bind]; try reflexivity. rewrite reorder_map. reflexivity.
Qed.
Lemma response_labels_order : forall n o (y : list R) k ct, case_order n o -> length y = n -> response_labels (reorder o y) k ct = omap (reorder o) (response_labels y k ct).
Proof.
  intros n o y k ct Ho Hy. unfold response_labels. destruct ct; [|reflexivity]. rewrite (discretize_order n) by auto.
  destruct (discretize y k) as [l|e]; cbn [bind omap]; [|reflexivity]. rewrite reorder_map. reflexivity.
Qed.
Lemma distinct_perm : forall l l' : list R, Permutation l l' -> Permutation (distinct l) (distinct l').
Proof.
  intros l l' HP. apply NoDup_Permutation; try apply distinct_nodup. intros v. rewrite !distinct_in. split; apply Permutation_in; auto. apply Permutation_sym; auto.
Qed.

(** ** kernels *)
Lemma slice_order : forall n o l (X : list (list R)) a, case_order n o -> length l = n -> length X = n -> Permutation (slice l X a) (slice (reorder o l) (reorder o X) a).
Proof.
  intros n o l X a Ho Hl HX. unfold slice. rewrite (reorder_combine n o l X) by auto. apply Permutation_map, filter_permutation, (reorder_perm n); auto.
  rewrite combine_length, Hl, HX. apply Nat.min_id.
Qed.
Lemma fraction_order : forall n o l a, case_order n o -> length l = n -> fraction (reorder o l) a = fraction l a.
Proof.
  intros n o l a Ho Hl. assert (HP := reorder_perm n o l Ho Hl). unfold fraction. rewrite (Permutation_length HP). f_equal. f_equal.
  apply Permutation_length, Permutation_sym, filter_permutation; auto.
Qed.
Section Kernels.
  Variables (n : nat) (o : list nat) (l u u' : list R) (X : list (list R)).
  Hypothesis Ho : case_order n o.
  Hypothesis Hl : length l = n.
  Hypothesis HX : length X = n.
  Hypothesis Hu : Permutation u u'.
  Let l' := reorder o l.
  Let X' := reorder o X.
  Lemma slice_mean_order : forall a i, mean_of (column i (slice l' X' a)) = mean_of (column i (slice l X a)).
  Proof. intros a i. apply mean_of_perm, Permutation_map, Permutation_sym, (slice_order n); auto. Qed.
  Lemma within_order : forall a i j, within l' X' a i j = within l X a i j.
  Proof.
    intros a i j. unfold within. pose proof (slice_order n o l X a Ho Hl HX) as HP. fold l' X' in HP. rewrite <- (Permutation_length HP). destruct (1 <? _)%nat; auto.
    symmetry. apply cov_columns_perm; auto.
  Qed.
  Lemma used_sum : forall f g : R -> R, (forall a, f a = g a) -> sum_of (map f u') = sum_of (map g u).
  Proof. intros f g E. rewrite (map_ext _ _ E). apply sum_of_perm, Permutation_map, Permutation_sym; auto. Qed.
  Lemma between_order : forall i j, between l' u' X' i j = between l u X i j.
  Proof. intros i j. apply used_sum. intros a. unfold l' at 1. rewrite (fraction_order n) by auto. rewrite !slice_mean_order. reflexivity. Qed.
  Lemma average_variance_order : forall p i j, average_variance l' u' X' p i j = average_variance l u X p i j.
  Proof.
    intros p i j. apply used_sum. intros a. unfold l' at 1. rewrite (fraction_order n) by auto. f_equal. change sum_to with sumn. apply sumn_ext. intros b _. rewrite !within_order. reflexivity.
  Qed.
  Lemma directional_order : forall p i j, directional l' u' X' p i j = directional l u X p i j.
  Proof.
    intros p i j. unfold directional. change sum_to with sumn. rewrite between_order. f_equal. f_equal; [f_equal|].
    - f_equal. apply used_sum. intros a. unfold l' at 1. rewrite (fraction_order n) by auto. f_equal. change sum_to with sumn. apply sumn_ext. intros b _.
      unfold second_moment. rewrite !within_order, !slice_mean_order. reflexivity.
    - f_equal. apply sumn_ext. intros b _. rewrite !between_order. reflexivity.
    - f_equal. f_equal. apply sumn_ext. intros b _. apply between_order.
  Qed.
End Kernels.

(** ** the methods *)
Lemma slice_number_le : forall cuts v, (slice_number cuts v <= S (length cuts))%nat.
Proof. intros. unfold slice_number. pose proof (filter_length_le (fun a => if Rle_dec a v then true else false) cuts). lia. Qed.
Lemma continuous_labels : forall (y : list R) k labels, case_labels y k true labels -> (length (distinct labels) <= k)%nat.
Proof.
  intros y k labels [Hk [s [_ ->]]].
  assert (HI : incl (distinct (map (fun v => INR (slice_number (cut_points s k) v)) y)) (map INR (seq 1 k))).
  { intros v Hv. apply (proj1 (distinct_in _ _)) in Hv. apply in_map_iff in Hv as [w [<- _]]. apply in_map. apply in_seq.
    pose proof (slice_number_le (cut_points s k) w) as HL. unfold cut_points in HL at 2. rewrite map_length, seq_length in HL. unfold slice_number in *. lia. }
  pose proof (NoDup_incl_length (distinct_nodup _) HI) as HL. rewrite map_length, seq_length in HL. exact HL.
Qed.

Section Methods.
  Variables (eigh : list (list R) -> res (list R * list (list R))) (n p : nat) (o : list nat) (X : list (list R)) (y : list R).
  Hypothesis He : eigh_ok eigh.
  Hypothesis Hn : (0 < n)%nat.
  Hypothesis Hp : (0 < p)%nat.
  Hypothesis W : wf n p X.
  Hypothesis Ho : case_order n o.
  Hypothesis Hy : length y = n.

  Lemma standardise_order : forall (center scale : bool) sg,
    (let Xc := if center then minus_mean (reorder o X) else reorder o X in if scale then npmatmul Xc sg else Ok Xc) =
    omap (reorder o) (let Xc := if center then minus_mean X else X in if scale then npmatmul Xc sg else Ok Xc).
  Proof.
    intros center scale sg. cbv zeta. assert (WM : wf n p (minus_mean X)) by (apply (rep_minus_mean n p X Hn W)).
    destruct center, scale; try reflexivity; rewrite ?(minus_mean_order n p o X) by auto; try apply (npmatmul_order n p); auto. 
  Qed.
  Lemma sliced_order : forall k ct (center scale : bool), (ct = true \/ (length (distinct y) <= k)%nat) ->
    match sliced eigh X y k ct center scale with
    | Err e => sliced eigh (reorder o X) (reorder o y) k ct center scale = Err e
    | Ok (sg, Z, labels, used) => exists used', Permutation used used' /\ sliced eigh (reorder o X) (reorder o y) k ct center scale = Ok (sg, reorder o Z, reorder o labels, used')
    end.
  Proof.
    intros k ct center scale Hct. unfold sliced. rewrite (signsqrt_order eigh n p o X) by auto. destruct (signsqrt eigh X) as [sg|e] eqn:ES; cbn [bind]; [|reflexivity].
    pose proof (standardise_order center scale sg) as EZ. cbv zeta in EZ |- *. rewrite EZ.
    match goal with |- context[omap (reorder o) ?t] => destruct t as [Z|e] eqn:EZ1 end; cbn [bind omap]; [|reflexivity].
    rewrite (response_labels_order n) by auto. destruct (response_labels y k ct) as [labels|e] eqn:EL; cbn [bind omap]; [|reflexivity].
    destruct (response_labels_ok n p X Hn Hp W y k ct Hy labels EL) as [HL Ll].
    assert (LX : length X = n) by apply (wf_length _ _ _ W). rewrite (reorder_length n o X), LX by auto.
    rewrite (slice_labels_distinct labels) by (try lia; intros ->; cbn in Ll; lia).
    assert (LO : length (reorder o labels) = n) by (apply reorder_length; auto).
    rewrite (slice_labels_distinct (reorder o labels)) by (try lia; intros EQ; rewrite EQ in LO; cbn in LO; lia). cbn [bind].
    assert (HP : Permutation (distinct labels) (distinct (reorder o labels))) by (apply distinct_perm, (reorder_perm n); auto).
    unfold used_labels. rewrite <- (Permutation_length HP). destruct (length (distinct labels) <? k)%nat eqn:EK; cbn [bind]; [reflexivity|]. apply Nat.ltb_ge in EK.
    rewrite LO, Ll, Nat.eqb_refl. cbn [negb andb].
    assert (HK : (length (distinct labels) <= k)%nat).
    { destruct Hct as [->|HK]; [apply (continuous_labels y); auto|]. destruct ct; [apply (continuous_labels y); auto|]. unfold case_labels in HL. subst labels. auto. }
    exists (firstn k (distinct (reorder o labels))). split; [|reflexivity]. rewrite !firstn_all2; auto. rewrite <- (Permutation_length HP). auto.
  Qed.
  Lemma sliced_parts : forall k ct center scale sg Z labels used, sliced eigh X y k ct center scale = Ok (sg, Z, labels, used) ->
    wf n p Z /\ length labels = n /\ length used = k /\ (forall a, In a used -> In a labels).
  Proof.
    intros k ct center scale sg Z labels used E. destruct (sliced_ok eigh n p X Hn Hp W y k ct Hy center scale sg Z labels used E) as (ES & EZ & _ & Ll & Eu & Hk).
    destruct (signsqrt_spec eigh n p X sg He Hn Hp W ES) as [WS _]. pose proof (prepare_ok n p X Hn Hp W sg Z center scale WS EZ) as [WZ _].
    split; [exact WZ|]. split; [exact Ll|]. subst used. split; [rewrite firstn_length; lia|]. intros a Ha. apply distinct_in. 
    rewrite <- (firstn_skipn k). apply in_or_app. auto.
  Qed.
  Lemma sliced_method : forall (kernel : nat -> nat -> list (list R) -> list R -> list R -> list (list R)) (spec : list R -> list R -> list (list R) -> nat -> nat -> nat -> R) (fail0 : bool) k d ct center scale,
    (ct = true \/ (length (distinct y) <= k)%nat) ->
    (forall labels used Z, wf n p Z -> length labels = n -> (forall a, In a used -> In a labels) -> (fail0 = true -> (0 < length used)%nat) -> rep p p (kernel n p Z labels used) (spec labels used Z p)) ->
    (forall labels used used' Z i j, length labels = n -> length Z = n -> Permutation used used' -> spec (reorder o labels) used' (reorder o Z) p i j = spec labels used Z p i j) ->
    let meth X y := bind (sliced eigh X y k ct center scale) (fun '(sg, Xs, ydis, used) => if fail0 && (k =? 0)%nat then Err ValueError else bind (leading eigh (kernel (length X) (ncols X) Xs ydis used) d) (back scale sg)) in
    meth (reorder o X) (reorder o y) = meth X y.
  Proof.
    intros kernel spec fail0 k d ct center scale Hct HR HS meth. unfold meth. pose proof (sliced_order k ct center scale Hct) as HO.
    destruct (sliced eigh X y k ct center scale) as [[[[sg Z] labels] used]|e] eqn:E; [|rewrite HO; reflexivity].
    destruct HO as [used' [HP EO]]. rewrite EO. cbn [bind]. destruct (fail0 && (k =? 0)%nat)%bool eqn:EF; [reflexivity|].
    destruct (sliced_parts k ct center scale sg Z labels used E) as (WZ & Ll & Lu & Hu).
    assert (WO : wf n p (reorder o X)) by (apply reorder_wf; auto). assert (WZO : wf n p (reorder o Z)) by (apply reorder_wf; auto).
    rewrite (wf_length _ _ _ W), (wf_length _ _ _ WO), (wf_ncols n p _ W Hn), (wf_ncols n p _ WO Hn).
    f_equal. f_equal. eapply rep_eq.
    - apply HR; [exact WZO|apply reorder_length; auto| |].
      + intros a Ha. apply (Permutation_in _ (Permutation_sym HP)) in Ha. apply Hu in Ha. apply (Permutation_in _ (reorder_perm n o labels Ho Ll)); auto.
      + intros ->. rewrite <- (Permutation_length HP), Lu. cbn in EF. apply Nat.eqb_neq in EF. lia.
    - apply HR; auto. intros ->. rewrite Lu. cbn in EF. apply Nat.eqb_neq in EF. lia.
    - intros i j _ _. apply HS; auto. apply (wf_length _ _ _ WZ).
  Qed.
  Lemma SIR_order : forall k d ct center scale, (ct = true \/ (length (distinct y) <= k)%nat) -> SIR eigh (reorder o X) (reorder o y) k d ct center scale = SIR eigh X y k d ct center scale.
  Proof.
    intros k d ct center scale Hct. apply (sliced_method (fun n p Z l u => sir_kernel n Z l u) (fun l u Z p => between l u Z) true k d ct center scale Hct).
    - intros labels used Z WZ Ll Hu Hpos. apply (rep_sir labels used Z n p WZ Ll Hu); auto.
    - intros labels used used' Z i j Ll LZ HP. apply (between_order n o labels used used' Z); auto.
  Qed.
  Lemma SAVE_order : forall k d ct center scale, (ct = true \/ (length (distinct y) <= k)%nat) -> SAVE eigh (reorder o X) (reorder o y) k d ct center scale = SAVE eigh X y k d ct center scale.
  Proof.
    intros k d ct center scale Hct. apply (sliced_method (fun n p Z l u => save_kernel n p Z l u) (fun l u Z p => average_variance l u Z p) false k d ct center scale Hct).
    - intros labels used Z WZ Ll Hu Hpos. apply (rep_save labels used Z n p WZ Ll Hu); auto.
    - intros labels used used' Z i j Ll LZ HP. apply (average_variance_order n o labels used used' Z); auto.
  Qed.
  Lemma DR_order : forall k d ct center scale, (ct = true \/ (length (distinct y) <= k)%nat) -> DR eigh (reorder o X) (reorder o y) k d ct center scale = DR eigh X y k d ct center scale.
  Proof.
    intros k d ct center scale Hct. apply (sliced_method (fun n p Z l u => dr_kernel n p Z l u) (fun l u Z p => directional l u Z p) true k d ct center scale Hct).
    - intros labels used Z WZ Ll Hu Hpos. apply (rep_dr labels used Z n p WZ Ll Hu); auto.
    - intros labels used used' Z i j Ll LZ HP. apply (directional_order n o labels used used' Z); auto.
  Qed.

  Lemma standardised_order : forall center scale, standardised eigh (reorder o X) center scale = match standardised eigh X center scale with Ok (sg, Z) => Ok (sg, reorder o Z) | Err e => Err e end.
  Proof.
    intros center scale. unfold standardised. rewrite (signsqrt_order eigh n p o X) by auto. destruct (signsqrt eigh X) as [sg|e]; cbn [bind]; [|reflexivity].
    pose proof (standardise_order center scale sg) as EZ. cbv zeta in EZ |- *. rewrite EZ.
    match goal with |- context[omap (reorder o) ?t] => destruct t as [Z|e] end; reflexivity.
  Qed.
  Lemma standardised_wf : forall center scale sg Z, standardised eigh X center scale = Ok (sg, Z) -> wf n p Z.
  Proof.
    intros center scale sg Z E. unfold standardised in E. destruct (signsqrt eigh X) as [sg'|] eqn:ES; [|discriminate]. cbn [bind] in E. cbv zeta in E.
    destruct (signsqrt_spec eigh n p X sg' He Hn Hp W ES) as [WS _].
    destruct (if scale then _ else _) as [Z'|] eqn:EZ in E; [|discriminate]. cbn [bind] in E. injection E as <- <-. 
    apply (prepare_ok n p X Hn Hp W sg' Z' center scale WS EZ).
  Qed.
  Lemma centred_order : forall v : list R, length v = n -> centred (reorder o v) = reorder o (centred v).
  Proof.
    intros v Hv. unfold centred. rewrite reorder_map. assert (HP := reorder_perm n o v Ho Hv). replace (vmean (reorder o v)) with (vmean v); [reflexivity|].
    unfold vmean. rewrite (vsum_perm_R _ _ HP), (Permutation_length HP). reflexivity.
  Qed.
  Lemma PHD_order : forall d center scale, PHD eigh (reorder o X) (reorder o y) d center scale = PHD eigh X y d center scale.
  Proof.
    intros d center scale. unfold PHD. rewrite standardised_order. destruct (standardised eigh X center scale) as [[sg Z]|e] eqn:E; cbn [bind]; [|reflexivity].
    pose proof (standardised_wf center scale sg Z E) as WZ. assert (LX : length X = n) by apply (wf_length _ _ _ W). rewrite (reorder_length n o y), (reorder_length n o X), Hy, LX by auto.
    replace (phd_kernel (reorder o Z) (reorder o y)) with (phd_kernel Z y); [reflexivity|]. unfold phd_kernel. cbv zeta.
    assert (LZ : length Z = n) by apply (wf_length _ _ _ WZ). rewrite (reorder_length n o Z), centred_order by auto.
    assert (LC : length (centred y) = n) by (unfold centred; rewrite map_length; auto).
    rewrite <- (reorder_map2 _ n) by auto. rewrite LZ. f_equal. symmetry. apply (reorder_gram n p p); auto.
    split; [rewrite map2_length_eq; lia|]. apply Forall_forall. intros r Hr. rewrite L_SdrEst.map2_comb in Hr. apply in_map_iff in Hr as [[r' b] [<- Hr]]. apply in_combine_l in Hr.
    cbn. rewrite map_length. apply (wf_row _ _ _ _ WZ Hr).
  Qed.
  Lemma cov2_order : forall u v : list R, length u = n -> length v = n -> cov2 (reorder o u) (reorder o v) = cov2 u v.
  Proof.
    intros u v Hu Hv. unfold cov2. rewrite !centred_order, (reorder_length n) by auto. rewrite Hu. rewrite (reorder_dot n) by (auto; unfold centred; rewrite map_length; auto). reflexivity.
  Qed.
  Lemma IHT_order : forall d center scale, IHT eigh (reorder o X) (reorder o y) d center scale = IHT eigh X y d center scale.
  Proof.
    intros d center scale. unfold IHT. rewrite standardised_order. destruct (standardised eigh X center scale) as [[sg Z]|e] eqn:E; cbn [bind]; [|reflexivity].
    pose proof (standardised_wf center scale sg Z E) as WZ. assert (LX : length X = n) by apply (wf_length _ _ _ W). rewrite (reorder_length n o y), (reorder_length n o X), Hy, LX by auto.
    assert (WZO : wf n p (reorder o Z)) by (apply reorder_wf; auto).
    assert (EI : iht_columns eigh (reorder o Z) (reorder o y) = iht_columns eigh Z y).
    { unfold iht_columns. cbv zeta. rewrite (npcov_order n p o Z), (reorder_cols n p o Z), map_map, (wf_ncols n p _ WZO Hn), (wf_ncols n p _ WZ Hn) by auto.
      rewrite (map_ext_in (fun c => cov2 (reorder o c) (reorder o y)) (fun c => cov2 c y)); [reflexivity|].
      intros c Hc. apply cov2_order; auto. pose proof (cols_even n p Z WZ) as HE. rewrite Forall_forall in HE. auto. }
    rewrite EI, (wf_ncols n p _ WZO Hn), (wf_ncols n p _ WZ Hn). reflexivity.
  Qed.
End Methods.
