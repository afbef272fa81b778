(** Property theorems C191, C192: optimality of sliced inverse regression and of
    principal Hessian directions, completeness of sliced inverse regression. *)
From Coq Require Import Reals List Arith Bool Lia Lra.
Import List. Import ListNotations.
From Verif Require Import Num Err Vec VecR S_Stats S_Regress M_Utils M_Preproc M_SdrUtils S_Sudire S_Best
  L_Mat L_Matmul L_SdrMat L_Sdr L_SdrKer L_SdrEig L_SdrMeth L_SdrPow L_SdrEx L_SdrFin L_Best L_SirFull.
Open Scope R_scope.

(* ------------------------------------------------------------------ *)
(** C191: on data with an invertible covariance matrix, the scores of SIR are
    uncorrelated with variance one, and for every m the first m of them have the
    largest total variance between the slices that any m directions with
    uncorrelated scores of variance one can have. *)
Theorem C191_SIR : forall eigh n p X y k d continuous B, eigh_ok eigh -> (2 <= n)%nat -> (0 < p)%nat -> is_matrix n p X -> length y = n ->
  positive_definite p (covariance_matrix p X) -> SIR eigh X y k d continuous true true = Ok B ->
  exists labels, case_labels y k continuous labels /\
    forall T, scores_along n p (Nat.min d p) X B T ->
      standard_scores (Nat.min d p) T /\
      forall m U TU, (m <= Nat.min d p)%nat -> scores_along n p m X U TU -> standard_scores m TU ->
        sum_to m (fun c => between_slices labels (firstn k (distinct labels)) (column c TU)) <=
        sum_to m (fun c => between_slices labels (firstn k (distinct labels)) (column c T)).
Proof.
  intros eigh n p X y k d continuous B He Hn Hp W Ly PD E.
  destruct (SIR_spec eigh n p X y k d continuous true true B He (Nat.lt_le_trans 0 2 n Nat.lt_0_2 Hn) Hp W Ly E) as [labels [HL [_ [S [Z [V [_ [_ [HS [HZ [HV HB]]]]]]]]]]].
  exists labels. split; [exact HL|]. intros T HT.
  assert (Ll : length labels = n).
  { destruct continuous; cbn in HL; [destruct HL as [_ [s [_ ->]]]; rewrite map_length; exact Ly|subst; reflexivity]. }
  apply (best n p (Nat.min d p) X S Z V B (between labels (firstn k (distinct labels)) Z) (between_slices labels (firstn k (distinct labels)))); auto.
  - intros. apply between_sym.
  - apply (between_crit n p labels (firstn k (distinct labels)) Z); auto.
    + exact (proj1 HZ).
    + apply Forall_forall. intros a Ha. apply (used_in k labels a Ha).
Qed.
Print Assumptions C191_SIR.
(** likewise PHD and the covariance of the response with the squared score *)
Theorem C191_PHD : forall eigh n p X y d B, eigh_ok eigh -> (2 <= n)%nat -> (0 < p)%nat -> is_matrix n p X -> length y = n ->
  positive_definite p (covariance_matrix p X) -> PHD eigh X y d true true = Ok B ->
  forall T, scores_along n p (Nat.min d p) X B T ->
    standard_scores (Nat.min d p) T /\
    forall m U TU, (m <= Nat.min d p)%nat -> scores_along n p m X U TU -> standard_scores m TU ->
      sum_to m (fun c => curvature y (column c TU)) <= sum_to m (fun c => curvature y (column c T)).
Proof.
  intros eigh n p X y d B He Hn Hp W Ly PD E T HT.
  destruct (PHD_spec eigh n p X y d true true B He (Nat.lt_le_trans 0 2 n Nat.lt_0_2 Hn) Hp W Ly E) as [S [Z [V [_ [_ [HS [HZ [HV HB]]]]]]]].
  apply (best n p (Nat.min d p) X S Z V B (response_weighted Z y) (curvature y)); auto.
  - intros. apply response_weighted_sym.
  - apply (curvature_crit n p y Z). exact (proj1 HZ).
Qed.
Print Assumptions C191_PHD.
(** five cases; SIR with two slices and PHD return directions, and their scores exist *)
Lemma scores_exist : forall n p m X B, (0 < p)%nat -> is_matrix n p X -> is_matrix p m B -> scores_along n p m X B (matmul X B).
Proof.
  intros n p m X B Hp W WB. destruct (rep_matmul n p m _ _ _ _ Hp (rep_self _ _ _ W) (rep_self _ _ _ WB)) as [WT HT].
  split; [exact WB|]. split; [exact WT|]. intros i c Hi Hc. exact (HT i c Hi Hc).
Qed.
Example C191_case : let y := [1; 0; 0; 1; 0] in
  eigh_ok eigh2 /\ is_matrix 5 2 X5 /\ positive_definite 2 (covariance_matrix 2 X5) /\
  (exists B, SIR eigh2 X5 y 2 1 false true true = Ok B /\ scores_along 5 2 1 X5 B (matmul X5 B)) /\
  exists B, PHD eigh2 X5 y 1 true true = Ok B /\ scores_along 5 2 1 X5 B (matmul X5 B).
Proof.
  intros y. split; [exact eigh2_ok|]. split; [exact X5_wf|]. split; [exact (X_posdef X5 X5_cov_entry)|].
  assert (Hd : (2 <= length (distinct y))%nat).
  { unfold y. cbn [distinct filter]. repeat (destruct (Req_EM_T _ _); try (exfalso; lra); cbn [filter length]); lia. }
  split.
  - destruct (ex_SIR 5 X5 y 2 1 true true ltac:(lia) X5_wf eq_refl ltac:(lia)) as [B EB]. exists B. split; [exact EB|].
    destruct (SIR_spec eigh2 5 2 X5 y 2 1 false true true B eigh2_ok ltac:(lia) ltac:(lia) X5_wf eq_refl EB) as [l [_ [_ [S [Z [V [_ [_ [_ [_ [_ [WB _]]]]]]]]]]]].
    apply scores_exist; [lia|exact X5_wf|exact WB].
  - assert (EB : exists B, PHD eigh2 X5 y 1 true true = Ok B).
    { unfold PHD, standardised. destruct (ex_signsqrt 5 X5 ltac:(lia) X5_wf) as [S ES]. rewrite ES. cbn [bind].
      assert (WS : wf 2 2 S) by exact (proj1 (signsqrt_spec eigh2 5 2 X5 S eigh2_ok ltac:(lia) ltac:(lia) X5_wf ES)).
      assert (WC : wf 5 2 (minus_mean X5)) by apply (rep_minus_mean 5 2 X5 ltac:(lia) X5_wf).
      rewrite (npmatmul_total 5 2 2) by (auto; lia). cbn [bind length X5 y Nat.eqb negb].
      eapply ex_back; [apply (rep_phd 5 2); [lia| |reflexivity]|exact WS|intros; apply response_weighted_sym].
      apply (rep_matmul 5 2 2 _ _ _ _ ltac:(lia) (rep_self _ _ _ WC) (rep_self _ _ _ WS)). }
    destruct EB as [B EB]. exists B. split; [exact EB|].
    destruct (PHD_spec eigh2 5 2 X5 y 1 true true B eigh2_ok ltac:(lia) ltac:(lia) X5_wf eq_refl EB) as [S [Z [V [_ [_ [_ [_ [_ [WB _]]]]]]]]].
    apply scores_exist; [lia|exact X5_wf|exact WB].
Qed.

(* ------------------------------------------------------------------ *)
(** C192: SIR with as many directions as slices (one less if every class has its
    slice) loses no difference between slice means: every projection that is
    uncorrelated with all scores has the same mean in every slice ... *)
Theorem C192_complete : forall eigh n p X y k d continuous B, eigh_ok eigh -> (2 <= n)%nat -> (0 < p)%nat -> is_matrix n p X -> length y = n ->
  positive_definite p (covariance_matrix p X) -> SIR eigh X y k d continuous true true = Ok B ->
  exists labels, case_labels y k continuous labels /\
    ((k <= d)%nat \/ (length (distinct labels) <= d + 1)%nat ->
     forall T U TU, scores_along n p (Nat.min d p) X B T -> scores_along n p 1 X U TU ->
       (forall c, (c < Nat.min d p)%nat -> cov_of (column 0 TU) (column c T) = 0) ->
       forall a, In a (firstn k (distinct labels)) -> mean_of (slice_values labels (column 0 TU) a) = mean_of (column 0 TU)).
Proof.
  intros eigh n p X y k d continuous B He Hn Hp W Ly PD E.
  destruct (SIR_spec eigh n p X y k d continuous true true B He (Nat.lt_le_trans 0 2 n Nat.lt_0_2 Hn) Hp W Ly E) as [labels [HL [Hk [S [Z [V [_ [_ [HS [HZ [HV HB]]]]]]]]]]].
  exists labels. split; [exact HL|]. intros Hd T U TU.
  assert (Ll : length labels = n).
  { destruct continuous; cbn in HL; [destruct HL as [_ [s [_ ->]]]; rewrite map_length; exact Ly|subst; reflexivity]. }
  assert (Lu : length (firstn k (distinct labels)) = k) by (rewrite firstn_length; lia).
  assert (Hne : labels <> []) by (intros ->; cbn in Ll; lia).
  apply (full n p (Nat.min d p) k X S Z V B labels (firstn k (distinct labels))); auto.
  - intros a Ha. apply (used_in k labels a Ha).
  - destruct (le_lt_dec p d) as [L|L]; [right; left; lia|]. destruct (le_lt_dec k d) as [L2|L2]; [left; lia|]. right; right.
    destruct Hd as [Hd|Hd]; [lia|]. split; [lia|]. assert (Ef : firstn k (distinct labels) = distinct labels) by (apply firstn_all2; lia). rewrite Ef.
    split; [apply (labels_distinct labels Hne)|]. intros a Ha. apply distinct_in. exact Ha.
Qed.
Print Assumptions C192_complete.
(** ... and the slice means of every variable are those predicted from the slice means of the scores *)
Theorem C192_reconstructs : forall eigh n p X y k d continuous B, eigh_ok eigh -> (2 <= n)%nat -> (0 < p)%nat -> is_matrix n p X -> length y = n ->
  positive_definite p (covariance_matrix p X) -> SIR eigh X y k d continuous true true = Ok B ->
  exists labels, case_labels y k continuous labels /\
    ((k <= d)%nat \/ (length (distinct labels) <= d + 1)%nat ->
     forall T j a, scores_along n p (Nat.min d p) X B T -> (j < p)%nat -> In a (firstn k (distinct labels)) ->
       mean_of (slice_values labels (column j X) a) - mean_of (column j X) =
       sum_to (Nat.min d p) (fun c => cov_of (column j X) (column c T) * (mean_of (slice_values labels (column c T) a) - mean_of (column c T)))).
Proof.
  intros eigh n p X y k d continuous B He Hn Hp W Ly PD E.
  destruct (SIR_spec eigh n p X y k d continuous true true B He (Nat.lt_le_trans 0 2 n Nat.lt_0_2 Hn) Hp W Ly E) as [labels [HL [Hk [S [Z [V [_ [_ [HS [HZ [HV HB]]]]]]]]]]].
  exists labels. split; [exact HL|]. intros Hd T j a HT Hj Ha.
  assert (Ll : length labels = n).
  { destruct continuous; cbn in HL; [destruct HL as [_ [s [_ ->]]]; rewrite map_length; exact Ly|subst; reflexivity]. }
  assert (Lu : length (firstn k (distinct labels)) = k) by (rewrite firstn_length; lia).
  assert (Hne : labels <> []) by (intros ->; cbn in Ll; lia).
  apply (reconstruct n p (Nat.min d p) X B T labels (firstn k (distinct labels))); auto.
  - apply (best n p (Nat.min d p) X S Z V B (between labels (firstn k (distinct labels)) Z) (between_slices labels (firstn k (distinct labels)))); auto.
    + intros. apply between_sym.
    + apply (between_crit n p labels (firstn k (distinct labels)) Z); auto; [exact (proj1 HZ)|].
      apply Forall_forall. intros b Hb. apply (used_in k labels b Hb).
  - intros U TU HTU Hc. apply (full n p (Nat.min d p) k X S Z V B labels (firstn k (distinct labels)) Hn W (HS PD) HZ HV HB Ll) with (T := T) (U := U); auto.
    + intros b Hb. apply (used_in k labels b Hb).
    + destruct (le_lt_dec p d) as [L|L]; [right; left; lia|]. destruct (le_lt_dec k d) as [L2|L2]; [left; lia|]. right; right.
      destruct Hd as [Hd|Hd]; [lia|]. split; [lia|]. assert (Ef : firstn k (distinct labels) = distinct labels) by (apply firstn_all2; lia). rewrite Ef.
      split; [apply (labels_distinct labels Hne)|]. intros b Hb. apply distinct_in. exact Hb.
Qed.
Print Assumptions C192_reconstructs.
(** two classes, one direction *)
Example C192_case : let y := [1; 0; 0; 1; 0] in
  eigh_ok eigh2 /\ is_matrix 5 2 X5 /\ positive_definite 2 (covariance_matrix 2 X5) /\ (exists B, SIR eigh2 X5 y 2 1 false true true = Ok B) /\ (length (distinct y) <= 1 + 1)%nat.
Proof.
  intros y. destruct C191_case as (H1 & H2 & H3 & (B & HB & _) & _). split; [exact H1|]. split; [exact H2|]. split; [exact H3|]. split; [exists B; exact HB|].
  unfold y. cbn [distinct filter]. repeat (destruct (Req_EM_T _ _); try (exfalso; lra); cbn [filter length]); lia.
Qed.
