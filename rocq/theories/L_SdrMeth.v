(** SIR, SAVE, DR, PHD, IHT *)

From Coq Require Import Reals List Arith ZArith Bool Lra Lia.
Import ListNotations.
From Verif Require Import Num Err Vec VecR OrdR S_Stats L_Mat L_Lin L_Matmul L_Stats M_SdrUtils S_Sudire L_Sdr L_SdrMat L_SdrKer L_SdrEig L_SdrPow.
Open Scope R_scope.

Lemma rep_minus_mean : forall n p X, (0 < n)%nat -> wf n p X -> rep n p (minus_mean X) (fun i j => mget X i j - mean_of (column j X)).
Proof.
  intros n p X Hn W. assert (Hc : ncols X = p) by (apply (wf_ncols n); auto).
  assert (Lm : length (map vmean (cols X)) = p) by (rewrite map_length, cols_length; auto). split.
  - split; [unfold minus_mean; rewrite map_length; apply (wf_length _ _ _ W)|]. apply Forall_forall. intros r Hr. apply in_map_iff in Hr as [r' [<- Hr']].
    rewrite vsub_length; rewrite (wf_row _ _ _ _ W Hr'); auto.
  - intros i j Hi Hj. unfold mget, minus_mean. rewrite (nth_map_lt _ _ _ []) by (rewrite (wf_length _ _ _ W); auto).
    rewrite nth_vsub by (rewrite (wf_nth_row n p); auto). rewrite (map_cols_nth _ X) by (rewrite Hc; auto). rewrite mean_of_vmean. reflexivity.
Qed.

Lemma npmatmul_ok : forall n k p X Y f g Z, (0 < n)%nat -> (0 < k)%nat -> rep n k X f -> rep k p Y g -> npmatmul X Y = Ok Z -> rep n p Z (fun i j => sumn k (fun a => f i a * g a j)).
Proof.
  intros n k p X Y f g Z Hn Hk HX HY E. unfold npmatmul in E. destruct (ncols X =? length Y)%nat; [|discriminate]. apply Ok_inj in E. subst Z.
  apply rep_matmul; auto.
Qed.
Lemma npmatmul_total : forall n k p (X Y : list (list R)), (0 < n)%nat -> wf n k X -> wf k p Y -> npmatmul X Y = Ok (matmul X Y).
Proof. intros n k p X Y Hn HX HY. unfold npmatmul. rewrite (wf_ncols n k) by auto. rewrite (wf_length _ _ _ HY), Nat.eqb_refl. reflexivity. Qed.

Lemma cuts_points : forall y h, cuts y h = cut_points (sort y) h.
Proof. intros. unfold cuts, cut_points. rewrite sort_len. reflexivity. Qed.
Lemma sorted_sort : forall y, sorted_version y (sort y).
Proof. intros. split; [apply sort_perm|apply sort_sorted]. Qed.

Section Methods.
  Local Notation mx := (list (list R)).
  Implicit Types S Z V B : list (list R).
  Variables (eigh : list (list R) -> res (list R * list (list R))) (n p : nat) (X : list (list R)).
  Hypothesis He : eigh_ok eigh.
  Hypothesis Hn : (0 < n)%nat.
  Hypothesis Hp : (0 < p)%nat.
  Hypothesis W : wf n p X.

  Lemma prepare_ok : forall S Z (center scale : bool), wf p p S ->
    (let Xc := if center then minus_mean X else X in if scale then npmatmul Xc S else Ok Xc) = Ok Z -> prepared_data n p X S Z center scale.
  Proof.
    intros S Z center scale WS E. cbv zeta in E.
    assert (RC : rep n p (if center then minus_mean X else X) (fun i j => mget X i j - (if center then mean_of (column j X) else 0))).
    { destruct center; [apply rep_minus_mean; auto|]. eapply rep_ext; [apply rep_self; exact W|]. intros. cbn beta. ring. }
    destruct scale.
    - pose proof (npmatmul_ok n p p _ _ _ _ Z Hn Hp RC (rep_self p p S WS) E) as [WZ EZ]. split; [exact WZ|]. intros i j Hi Hj. cbv zeta.
      rewrite cell_mget, EZ by auto. reflexivity.
    - apply Ok_inj in E. subst Z. split; [apply RC|]. intros i j Hi Hj. cbv zeta. rewrite cell_mget, (proj2 RC) by auto. reflexivity.
  Qed.

  Lemma back_ok : forall S V B d (scale : bool), wf p p S -> wf p d V -> back scale S V = Ok B -> back_transformed p d S V B scale.
  Proof.
    intros S V B d scale WS WV E. unfold back in E. destruct scale.
    - destruct (npmatmul_ok p p d _ _ _ _ B Hp Hp (rep_self p p S WS) (rep_self p d V WV) E) as [WB EB]. split; [exact WB|]. intros i j Hi Hj.
      rewrite cell_mget, EB by auto. reflexivity.
    - apply Ok_inj in E. subst B. split; [exact WV|]. reflexivity.
  Qed.

  Lemma eigen_basis_intro : forall S Z K (kernel : list (list R) -> nat -> nat -> R) d B (center scale : bool),
    signsqrt eigh X = Ok S ->
    (let Xc := if center then minus_mean X else X in if scale then npmatmul Xc S else Ok Xc) = Ok Z ->
    (wf n p Z -> rep p p K (kernel Z)) -> (forall i j, kernel Z i j = kernel Z j i) ->
    bind (leading eigh K d) (back scale S) = Ok B -> eigen_basis n p (Nat.min d p) X B center scale kernel.
  Proof.
    intros S Z K kernel d B center scale ES EZ HK Hsym E.
    destruct (signsqrt_spec eigh n p X S He Hn Hp W ES) as [WS [SS HS]].
    pose proof (prepare_ok S Z center scale WS EZ) as HZ. specialize (HK (proj1 HZ)).
    destruct (leading eigh K d) as [V|e] eqn:EL; [|discriminate]. cbn [bind] in E.
    pose proof (leading_spec eigh p K _ d V He Hp HK Hsym EL) as HV.
    assert (EK : K = matrix_of p (kernel Z)) by (eapply rep_eq; [exact HK|apply (rep_table p p)|]; reflexivity).
    rewrite EK in HV. exists S, Z, V. repeat split; auto; try apply HZ; try apply HV; try apply WS.
    all: try (intros; apply (back_ok S V B (Nat.min d p) scale WS (proj1 HV) E); auto).
    all: try (apply (back_ok S V B (Nat.min d p) scale WS (proj1 HV) E)).
    all: try apply HS; auto.
  Qed.

  (** ** sliced *)
  Variables (y : list R) (k : nat) (continuous : bool).
  Hypothesis Hy : length y = n.

  Let labelled (labels : list R) : Prop := case_labels y k continuous labels.

  Lemma response_labels_ok : forall labels, response_labels y k continuous = Ok labels -> labelled labels /\ length labels = n.
  Proof.
    intros labels E. unfold response_labels, labelled, case_labels in *. destruct continuous.
    - destruct (discretize y k) as [l|e] eqn:ED; [|discriminate]. cbn [bind] in E. apply Ok_inj in E. subst labels.
      destruct (le_lt_dec 2 k) as [Hk|Hk]; [|destruct (discretize_short y k Hk) as [e Ee]; congruence].
      rewrite discretize_below in ED; auto; [|intros ->; cbn in Hy; lia]. apply Ok_inj in ED. subst l. rewrite !map_length. split; [|auto].
      split; [auto|]. exists (sort y). split; [apply sorted_sort|]. rewrite map_map. apply map_ext. intros v. rewrite nnat_R. f_equal.
      unfold slice_number, below. rewrite cuts_points. reflexivity.
    - apply Ok_inj in E. subst. auto.
  Qed.

  Lemma sliced_ok : forall (center scale : bool) S Z labels used, sliced eigh X y k continuous center scale = Ok (S, Z, labels, used) ->
    signsqrt eigh X = Ok S /\
    (let Xc := if center then minus_mean X else X in if scale then npmatmul Xc S else Ok Xc) = Ok Z /\
    labelled labels /\ length labels = n /\ used = firstn k (distinct labels) /\ (k <= length (distinct labels))%nat.
  Proof.
    intros center scale S Z labels used E. unfold sliced in E.
    destruct (signsqrt eigh X) as [S'|e]; [|discriminate]. cbn [bind] in E. cbv zeta in E. cbv zeta.
    destruct (if scale then npmatmul (if center then minus_mean X else X) S' else Ok (if center then minus_mean X else X)) as [Z'|e] eqn:EZ; [|discriminate]. cbn [bind] in E.
    destruct (response_labels y k continuous) as [l|e] eqn:EL; [|discriminate]. cbn [bind] in E.
    destruct (response_labels_ok l EL) as [HL Ll].
    rewrite (wf_length _ _ _ W) in E. rewrite slice_labels_distinct in E by (try lia; intros ->; cbn in Ll; lia). cbn [bind] in E.
    unfold used_labels in E. destruct (length (distinct l) <? k)%nat eqn:EK; [discriminate|]. cbn [bind] in E.
    apply Nat.ltb_ge in EK. rewrite Ll, Nat.eqb_refl in E. cbn [negb andb] in E. apply Ok_inj in E.
    injection E as <- <- <- <-. rewrite EZ. repeat split; auto.
  Qed.

  Lemma sliced_few : forall (center scale : bool) S labels, signsqrt eigh X = Ok S -> response_labels y k continuous = Ok labels ->
    (length (distinct labels) < k)%nat -> sliced eigh X y k continuous center scale = Err IndexError.
  Proof.
    intros center scale S labels ES EL Hk. unfold sliced. rewrite ES. cbn [bind]. cbv zeta.
    destruct (signsqrt_spec eigh n p X S He Hn Hp W ES) as [WS _].
    assert (EZ : exists Z, (if scale then npmatmul (if center then minus_mean X else X) S else Ok (if center then minus_mean X else X)) = Ok Z).
    { destruct scale; [|eauto]. eexists. apply (npmatmul_total n p p); auto. destruct center; [apply (rep_minus_mean n p X Hn W)|exact W]. }
    destruct EZ as [Z EZ]. rewrite EZ, EL. cbn [bind]. destruct (response_labels_ok labels EL) as [HL Ll].
    rewrite (wf_length _ _ _ W). rewrite slice_labels_distinct by (try lia; intros ->; cbn in Ll; lia). cbn [bind].
    unfold used_labels. apply Nat.ltb_lt in Hk. rewrite Hk. reflexivity.
  Qed.

  Lemma used_in : forall labels a, In a (firstn k (distinct labels)) -> In a labels.
  Proof. intros labels a Ha. apply distinct_in. rewrite <- (firstn_skipn k (distinct labels)). apply in_or_app. auto. Qed.

  Lemma SIR_ok : forall d center scale B, SIR eigh X y k d continuous center scale = Ok B ->
    exists labels, labelled labels /\ (0 < k <= length (distinct labels))%nat /\
      eigen_basis n p (Nat.min d p) X B center scale (between labels (firstn k (distinct labels))).
  Proof.
    intros d center scale B E. unfold SIR in E. destruct (sliced eigh X y k continuous center scale) as [[[[S Z] labels] used]|e] eqn:ES; [|discriminate].
    cbn [bind] in E. destruct (k =? 0)%nat eqn:Ek; [discriminate|]. apply Nat.eqb_neq in Ek.
    destruct (sliced_ok _ _ _ _ _ _ ES) as [E1 [E2 [HL [Ll [Eu Hk]]]]]. subst used.
    exists labels. split; [auto|]. split; [lia|]. rewrite (wf_length _ _ _ W) in E.
    eapply eigen_basis_intro; eauto.
    - intros WZ. apply (rep_sir labels _ Z n p WZ Ll (used_in labels)). rewrite firstn_length. lia.
    - intros. apply between_sym.
  Qed.
  Lemma SAVE_ok : forall d center scale B, SAVE eigh X y k d continuous center scale = Ok B ->
    exists labels, labelled labels /\ (k <= length (distinct labels))%nat /\
      eigen_basis n p (Nat.min d p) X B center scale (fun Z => average_variance labels (firstn k (distinct labels)) Z p).
  Proof.
    intros d center scale B E. unfold SAVE in E. destruct (sliced eigh X y k continuous center scale) as [[[[S Z] labels] used]|e] eqn:ES; [|discriminate].
    cbn [bind] in E. destruct (sliced_ok _ _ _ _ _ _ ES) as [E1 [E2 [HL [Ll [Eu Hk]]]]]. subst used.
    exists labels. split; [auto|]. split; [lia|]. rewrite (wf_length _ _ _ W), (wf_ncols n p X W Hn) in E.
    eapply eigen_basis_intro; eauto.
    - intros WZ. apply (rep_save labels _ Z n p WZ Ll (used_in labels)). auto.
    - intros. apply average_variance_sym.
  Qed.
  Lemma DR_ok : forall d center scale B, DR eigh X y k d continuous center scale = Ok B ->
    exists labels, labelled labels /\ (0 < k <= length (distinct labels))%nat /\
      eigen_basis n p (Nat.min d p) X B center scale (fun Z => directional labels (firstn k (distinct labels)) Z p).
  Proof.
    intros d center scale B E. unfold DR in E. destruct (sliced eigh X y k continuous center scale) as [[[[S Z] labels] used]|e] eqn:ES; [|discriminate].
    cbn [bind] in E. destruct (k =? 0)%nat eqn:Ek; [discriminate|]. apply Nat.eqb_neq in Ek.
    destruct (sliced_ok _ _ _ _ _ _ ES) as [E1 [E2 [HL [Ll [Eu Hk]]]]]. subst used.
    exists labels. split; [auto|]. split; [lia|]. rewrite (wf_length _ _ _ W), (wf_ncols n p X W Hn) in E.
    eapply eigen_basis_intro; eauto.
    - intros WZ. apply (rep_dr labels _ Z n p WZ Ll (used_in labels)). auto.
    - intros. apply directional_sym.
  Qed.
  Lemma sliced_few_methods : forall d center scale S labels, signsqrt eigh X = Ok S -> response_labels y k continuous = Ok labels ->
    (length (distinct labels) < k)%nat ->
    SIR eigh X y k d continuous center scale = Err IndexError /\ SAVE eigh X y k d continuous center scale = Err IndexError /\
    DR eigh X y k d continuous center scale = Err IndexError.
  Proof.
    intros d center scale S labels ES EL Hk. unfold SIR, SAVE, DR. rewrite (sliced_few center scale S labels) by auto. auto.
  Qed.

  (** ** PHD, IHT *)
  Lemma standardised_ok : forall (center scale : bool) S Z, standardised eigh X center scale = Ok (S, Z) ->
    signsqrt eigh X = Ok S /\ (let Xc := if center then minus_mean X else X in if scale then npmatmul Xc S else Ok Xc) = Ok Z.
  Proof.
    intros center scale S Z E. unfold standardised in E. destruct (signsqrt eigh X) as [S'|e]; [|discriminate]. cbn [bind] in E. cbv zeta in *.
    destruct (if scale then npmatmul (if center then minus_mean X else X) S' else Ok (if center then minus_mean X else X)) as [Z'|e] eqn:EZ; [|discriminate].
    cbn [bind] in E. apply Ok_inj in E. injection E as <- <-. auto.
  Qed.
  Lemma PHD_ok : forall d center scale B, PHD eigh X y d center scale = Ok B -> eigen_basis n p (Nat.min d p) X B center scale (fun Z => response_weighted Z y).
  Proof.
    intros d center scale B E. unfold PHD in E. destruct (standardised eigh X center scale) as [[S Z]|e] eqn:ES; [|discriminate]. cbn [bind] in E.
    destruct (standardised_ok _ _ _ _ ES) as [E1 E2]. rewrite (wf_length _ _ _ W), Hy, Nat.eqb_refl in E. cbn [negb] in E.
    eapply eigen_basis_intro; eauto.
    - intros WZ. apply (rep_phd n p); auto.
    - intros. apply response_weighted_sym.
  Qed.

  Lemma mapM_seq : forall (T : Type) (f : nat -> res T) (g : nat -> T) m s l, (forall i b, (s <= i < s + m)%nat -> f i = Ok b -> b = g i) ->
    mapM f (seq s m) = Ok l -> l = map g (seq s m).
  Proof.
    intros T f g m. induction m as [|m IH]; intros s l Hf E; cbn in E; [apply Ok_inj in E; subst; auto|].
    destruct (f s) as [b|e] eqn:Ef; [|discriminate]. cbn [bind] in E. destruct (mapM f (seq (Datatypes.S s) m)) as [l'|e] eqn:El; [|discriminate].
    cbn [bind] in E. apply Ok_inj in E. subst l. cbn. f_equal; [apply Hf; auto; lia|]. apply IH; auto. intros i b' Hi. apply Hf. lia.
  Qed.
  Lemma iht_columns_ok : forall Z cs, wf n p Z -> iht_columns eigh Z y = Ok cs -> cs = map (fun t => power_times p (covariance_matrix p Z) t (cov_with p Z y)) (seq 0 p).
  Proof.
    intros Z cs WZ E. unfold iht_columns in E. cbv zeta in E. rewrite (wf_ncols n p Z WZ Hn) in E.
    assert (EC : map (fun c => cov2 c y) (cols Z) = cov_with p Z y).
    { unfold cols, cov_with. rewrite map_map, (wf_ncols n p Z WZ Hn). apply map_ext. intros i. apply cov2_cov_of. }
    rewrite EC in E.
    match type of E with bind ?m _ = _ => destruct m as [l|e] eqn:EM; [|discriminate] end. cbn [bind] in E. apply Ok_inj in E. subst cs.
    apply (mapM_seq _ _ (fun t => power_times p (covariance_matrix p Z) t (cov_with p Z y))) in EM.
    - subst l. destruct p as [|q]; [lia|]. cbn [Nat.sub seq map]. rewrite Nat.sub_0_r. reflexivity.
    - intros t b Ht Eb. destruct (matpower eigh (npcov Z) (fun v => npow v t)) as [M|e] eqn:EP; [|discriminate]. cbn [bind] in Eb. apply Ok_inj in Eb. subst b.
      apply (matpower_nat eigh n p Z t M); auto. unfold cov_with. rewrite map_length, seq_length. auto.
  Qed.
  Lemma IHT_ok : forall d center scale B, IHT eigh X y d center scale = Ok B -> eigen_basis n p (Nat.min d p) X B center scale (iterated p y).
  Proof.
    intros d center scale B E. unfold IHT in E. destruct (standardised eigh X center scale) as [[S Z]|e] eqn:ES; [|discriminate]. cbn [bind] in E.
    destruct (standardised_ok _ _ _ _ ES) as [E1 E2]. rewrite (wf_length _ _ _ W), Hy, Nat.eqb_refl in E. cbn [negb] in E.
    destruct (iht_columns eigh Z y) as [cs|e] eqn:EI; [|discriminate]. cbn [bind] in E. cbv zeta in E.
    destruct (signsqrt_spec eigh n p X S He Hn Hp W E1) as [WS _]. pose proof (proj1 (prepare_ok S Z center scale WS E2)) as WZ.
    rewrite (wf_ncols n p Z WZ Hn) in E. apply iht_columns_ok in EI; [|auto].
    eapply eigen_basis_intro; [exact E1|exact E2| |intros; unfold iterated, krylov; change sum_to with sumn; apply sumn_ext; intros; ring|exact E].
    intros _. assert (Lc : length cs = p) by (rewrite EI, map_length, seq_length; auto).
    assert (RC : rep p p (of_cols p cs) (fun i t => nth i (power_times p (covariance_matrix p Z) t (cov_with p Z y)) 0)).
    { split; [rewrite <- Lc at 2; apply wf_of_cols|]. intros i t Hi Ht. rewrite mget_of_cols_R by lia. f_equal. rewrite EI.
      rewrite (nth_map_lt _ _ _ 0%nat) by (rewrite seq_length; auto). rewrite seq_nth by auto. reflexivity. }
    exact (rep_matmul p p p _ _ _ _ Hp RC (rep_transpose p p _ _ Hp RC)).
  Qed.
End Methods.

(** positivity *)
Lemma quad_matrix_of : forall p f v, quad_form p (matrix_of p f) v = sumn p (fun i => sumn p (fun j => nth i v 0 * f i j * nth j v 0)).
Proof. intros. apply quad_form_sumn. apply (rep_table p p). Qed.
Lemma krylov_psd : forall p M s v, 0 <= quad_form p (matrix_of p (krylov p M s)) v.
Proof.
  intros p M s v. rewrite quad_matrix_of. unfold krylov. change sum_to with sumn. set (u := fun t i => nth i (power_times p M t s) 0).
  rewrite (sumn_ext p _ (fun i => sumn p (fun t => sumn p (fun j => (nth i v 0 * u t i) * (nth j v 0 * u t j))))).
  - rewrite sumn_exchange. apply sumn_nonneg. intros t Ht. rewrite (sumn_square p (fun i => nth i v 0 * u t i)). apply Rle_0_sqr.
  - intros i Hi. rewrite sumn_exchange. apply sumn_ext. intros j Hj. rewrite <- sumn_scal, <- sumn_scal_r. apply sumn_ext. intros; unfold u; ring.
Qed.
Lemma between_nonneg : forall l u X p v, 0 <= quad_form p (matrix_of p (between l u X)) v.
Proof.
  intros. rewrite (between_psd l u X p) by (apply (rep_table p p)). apply sum_of_nonneg. intros a _.
  apply Rmult_le_pos; [apply fraction_nonneg|]. rewrite <- Rsqr_pow2. apply Rle_0_sqr.
Qed.
Lemma average_variance_nonneg : forall l u X p v, 0 <= quad_form p (matrix_of p (average_variance l u X p)) v.
Proof.
  intros. rewrite (average_variance_psd l u X p) by (apply (rep_table p p)). apply sum_of_nonneg. intros a _.
  apply Rmult_le_pos; [apply fraction_nonneg|]. apply sumn_nonneg. intros. rewrite <- Rsqr_pow2. apply Rle_0_sqr.
Qed.
