(** The grid planes: what [gridplane] and [gridplane_2] return. *)

From Coq Require Import Reals List Arith ZArith Bool Lia Lra Psatz.
Import ListNotations.
From Verif Require Import Num Err Vec VecR L_Mat L_Lin M_Utils M_Dicomo M_Ppdire S_Stats S_Regress L_Snipls S_Ppdire.
Open Scope R_scope.

Lemma acos_1 : acos 1 = 0.
Proof. apply acos_1. Qed.
Lemma asin_1 : asin 1 = PI / 2.
Proof. apply asin_1. Qed.
Lemma asin_m1 : asin (-1) = - (PI / 2).
Proof. replace (-1) with (- (1)) by ring. rewrite asin_opp, asin_1. ring. Qed.
Lemma acos_m1 : acos (-1) = PI.
Proof. replace (-1) with (- (1)) by ring. rewrite acos_opp, acos_1. ring. Qed.

Lemma nsign_pos : forall x : R, 0 < x -> nsign x = 1.
Proof. intros x Hx. unfold nsign. rnum. unfold Rltb. destruct (Rlt_dec 0 x); [reflexivity|lra]. Qed.
Lemma nsign_neg : forall x : R, x < 0 -> nsign x = -1.
Proof. intros x Hx. unfold nsign. rnum. unfold Rltb. destruct (Rlt_dec 0 x); [lra|]. destruct (Rlt_dec x 0); [lra|lra]. Qed.

Lemma stops_R : forall lo hi, lo < 0 -> 0 < hi -> stops trigR (lo, hi) = (0, - (PI/2), PI, PI/2).
Proof.
  intros lo hi Hl Hh. unfold stops. cbn [fst snd trigR t_acos t_asin]. rewrite nsign_pos, nsign_neg by auto.
  rewrite acos_1, acos_m1, asin_1, asin_m1. reflexivity.
Qed.
Lemma pymax_R : forall a b : R, pymax a b = Rmax a b.
Proof. intros a b. unfold pymax. rnum. unfold Rltb, Rmax. destruct (Rlt_dec a b), (Rle_dec a b); auto; lra. Qed.
Lemma pymin_R : forall a b : R, pymin a b = Rmin a b.
Proof. intros a b. unfold pymin. rnum. unfold Rltb, Rmin. destruct (Rlt_dec b a), (Rle_dec a b); auto; lra. Qed.

Lemma linspace_length : forall (a b : R) n e, length (linspace a b n e) = n.
Proof. intros. unfold linspace. rewrite map_length, seq_length. reflexivity. Qed.
Lemma linspace_open : forall (b : R) n k, (k < n)%nat -> nth k (linspace 0 b n false) 0 = INR k * b / INR n.
Proof.
  intros b n k Hk. unfold linspace. rewrite (nth_map_lt _ _ _ 0%nat) by (rewrite seq_length; auto). rewrite seq_nth by auto. cbn [andb].
  assert (En : (n =? 0)%nat = false) by (apply Nat.eqb_neq; lia). rewrite En. rewrite !nnat_R. rnum. cbn [Nat.add]. unfold Rdiv. ring.
Qed.
Lemma linspace_closed : forall (a b : R) n k, (k < n)%nat -> nth k (linspace a b n true) 0 = a + INR k * (b - a) / INR (n - 1).
Proof.
  intros a b n k Hk. unfold linspace. rewrite (nth_map_lt _ _ _ 0%nat) by (rewrite seq_length; auto). rewrite seq_nth by auto. cbn [andb Nat.add].
  rewrite !nnat_R. rnum. destruct (k =? n - 1)%nat eqn:E1; cbn [andb].
  - apply Nat.eqb_eq in E1. destruct (1 <? n)%nat eqn:E2.
    + apply Nat.ltb_lt in E2. rewrite E1. assert (INR (n - 1) <> 0) by (apply not_0_INR; lia). field. auto.
    + apply Nat.ltb_ge in E2. assert (n = 1)%nat by lia. subst n. assert (k = 0)%nat by lia. subst k. cbn. unfold Rdiv. ring.
  - apply Nat.eqb_neq in E1. assert (E3 : (n - 1 =? 0)%nat = false) by (apply Nat.eqb_neq; lia). rewrite E3. unfold Rdiv. ring.
Qed.

Lemma nth_directions : forall (ang : list R) hi k, (k < length ang)%nat ->
  nth k (directions trigR ang hi) (0, 0) = (hi * cos (nth k ang 0), hi * sin (nth k ang 0)).
Proof.
  intros ang hi k Hk. unfold directions. rewrite (nth_map_lt _ _ _ 0) by auto. cbn [trigR t_cos t_sin]. rnum. unfold Reqb.
  destruct (Req_EM_T hi 1) as [->|]; f_equal; ring.
Qed.

(** ** picking the first maximum *)
Lemma find_nan : forall l : list R, find nisnan l = None.
Proof. induction l as [|x l IH]; cbn; auto. rewrite nisnan_R. exact IH. Qed.
Lemma npmax_R : forall l : list R, l <> [] -> npmax l = Ok (vmaxl l).
Proof. intros [|x l] Hl; [congruence|]. unfold npmax. rewrite find_nan. reflexivity. Qed.
Lemma npmax_Ok : forall l m, npmax (A:=R) l = Ok m -> is_max l m.
Proof. intros [|x l] m E; [discriminate|]. rewrite npmax_R in E by discriminate. apply Ok_inj in E as <-. apply vmaxl_is_max; discriminate. Qed.

Lemma find_combine : forall (dirs : list (R * R)) meas m d v, length dirs = length meas ->
  find (fun dv => Reqb (snd dv) m) (combine dirs meas) = Some (d, v) <->
  exists k, (k < length meas)%nat /\ nth k meas 0 = m /\ nth k dirs (0, 0) = d /\ v = m /\ forall i, (i < k)%nat -> nth i meas 0 <> m.
Proof.
  induction dirs as [|d0 dirs IH]; intros [|x meas] m d v Hl; cbn in Hl; try lia.
  - split; [discriminate|]. intros (k & Hk & _). cbn in Hk. lia.
  - cbn [combine find snd]. unfold Reqb at 1. destruct (Req_EM_T x m) as [Ex|Nx].
    + split.
      * intros E. inversion E; subst. exists 0%nat. cbn. repeat split; auto; lia.
      * intros (k & Hk & E1 & E2 & -> & Hf). destruct k as [|k]; [cbn in E2; subst; auto|].
        exfalso. apply (Hf 0%nat); [lia|]. exact Ex.
    + rewrite IH by lia. split.
      * intros (k & Hk & E1 & E2 & -> & Hf). exists (S k). cbn. repeat split; auto; [lia|]. intros [|i] Hi; auto. apply Hf; lia.
      * intros (k & Hk & E1 & E2 & -> & Hf). destruct k as [|k]; [cbn in E1; congruence|]. exists k. cbn in *. repeat split; auto; [lia|].
        intros i Hi. apply (Hf (S i)). lia.
Qed.

Lemma pick_spec : forall (dirs : list (R * R)) meas a b m, length dirs = length meas ->
  pick dirs meas = Ok (a, b, m) <->
  exists k, (k < length meas)%nat /\ nth k meas 0 = m /\ nth k dirs (0, 0) = (a, b) /\
    forall i, (i < length meas)%nat -> nth i meas 0 <= m /\ ((i < k)%nat -> nth i meas 0 < m).
Proof.
  intros dirs meas a b m Hl. unfold pick. split.
  - destruct (npmax meas) as [mx|e] eqn:Em; cbn [bind]; [|discriminate]. rnum. apply npmax_Ok in Em as [Hin Hmax].
    destruct (find _ _) as [[d v]|] eqn:Ef; [|discriminate]. intros E. cbn [fst] in E. inversion E; subst.
    apply (find_combine dirs meas m (a, b) v Hl) in Ef as (k & Hk & E1 & E2 & _ & Hf). exists k. repeat split; auto.
    + apply Hmax, nth_In; auto.
    + intros Hik. specialize (Hf i Hik). assert (nth i meas 0 <= m) by (apply Hmax, nth_In; auto). lra.
  - intros (k & Hk & E1 & E2 & Hf). assert (Hne : meas <> []) by (intros ->; cbn in Hk; lia).
    assert (Em : vmaxl meas = m).
    { apply (is_max_unique meas); [apply vmaxl_is_max; auto|]. split; [rewrite <- E1; apply nth_In; auto|].
      intros x Hx. apply (In_nth _ _ 0) in Hx as (i & Hi & <-). apply Hf; auto. }
    rewrite npmax_R by auto. cbn [bind]. rewrite Em. rnum.
    replace (find (fun dv : R * R * R => Reqb (snd dv) m) (combine dirs meas)) with (Some ((a, b), m)).
    + reflexivity.
    + symmetry. apply find_combine; auto. exists k. repeat split; auto. intros i Hi E. destruct (Hf i) as [_ H2]; [lia|]. specialize (H2 Hi). lra.
Qed.

(** ** the measures *)
Lemma project_combine2 : forall n (X : list (list R)) a b, is_matrix n 2 X -> project X (a, b) = combine2 X a b.
Proof.
  intros n X a b [_ HF]. unfold project, combine2, matvec. apply map_ext_in. intros r Hr. rewrite Forall_forall in HF. specialize (HF r Hr).
  destruct r as [|x [|y [|? ?]]]; cbn in HF; try lia. unfold dot. cbn. rnum. ring.
Qed.
Lemma two_columns_ok : forall n (X : list (list R)), is_matrix n 2 X -> two_columns X = true.
Proof. intros n X [_ HF]. apply forallb_forall. intros r Hr. rewrite Forall_forall in HF. apply Nat.eqb_eq. auto. Qed.

Definition val most (g : gargs R) (X : list (list R)) (a b m : R) : Prop := sample_value most (ga_kw g) (ga_square g) (combine2 X a b) m.

Lemma maybe_sq_R : forall s (v : R), maybe_sq s v = if s then v * v else v.
Proof. reflexivity. Qed.

Lemma measures_spec : forall most g n X dirs meas, is_matrix n 2 X ->
  measures most g X dirs = Ok meas <->
  length meas = length dirs /\ forall i, (i < length dirs)%nat -> val most g X (fst (nth i dirs (0, 0))) (snd (nth i dirs (0, 0))) (nth i meas 0).
Proof.
  intros most g n X dirs meas HX. unfold measures. revert meas; induction dirs as [|d dirs IH]; intros meas.
  - cbn [mapM length]. split.
    + intros E. apply Ok_inj in E as <-. split; auto. intros i Hi; lia.
    + intros [Hl _]. destruct meas; [reflexivity|cbn in Hl; lia].
  - cbn [mapM]. destruct d as [a b]. rewrite (project_combine2 n) by auto. destruct (most (A1 (combine2 X a b)) (ga_kw g)) as [u|e] eqn:Eu; cbn [bind].
    + split.
      * intros E. destruct (mapM _ dirs) as [ms|e] eqn:Em; cbn [bind] in E; [|discriminate]. apply Ok_inj in E as <-.
        pose proof (proj1 (IH ms) eq_refl) as [Hl Hv]. cbn [length]. split; [lia|]. intros [|i] Hi; cbn; [exists u; split; auto|apply Hv; lia].
      * intros [Hl Hv]. destruct meas as [|m meas]; [cbn in Hl; lia|]. cbn [length] in *.
        assert (Em : mapM (fun d => bind (most (A1 (project X d)) (ga_kw g)) (fun v => Ok (maybe_sq (ga_square g) v))) dirs = Ok meas).
        { apply IH. split; [lia|]. intros i Hi. apply (Hv (S i)). lia. }
        rewrite Em. cbn [bind]. destruct (Hv 0%nat) as (u' & E1 & E2); [lia|]. cbn in E1, E2. rewrite E1 in Eu. apply Ok_inj in Eu as <-. rewrite E2. reflexivity.
    + split; [discriminate|]. intros [Hl Hv]. destruct (Hv 0%nat) as (u' & E1 & E2); [cbn; lia|]. cbn in E1. congruence.
Qed.

Lemma plane_spec : forall most g n X dirs a b m, is_matrix n 2 X ->
  bind (measures most g X dirs) (pick dirs) = Ok (a, b, m) <-> first_best (length dirs) (fun k => nth k dirs (0, 0)) (val most g X) a b m.
Proof.
  intros most g n X dirs a b m HX. unfold first_best. split.
  - destruct (measures most g X dirs) as [meas|e] eqn:Em; cbn [bind]; [|discriminate]. intros E.
    apply (measures_spec most g n X dirs meas HX) in Em as [Hl Hv]. apply pick_spec in E as (k & Hk & E1 & E2 & Hf); [|lia]. rewrite Hl in *.
    exists k. split; [auto|]. split; [auto|]. split.
    + specialize (Hv k Hk). rewrite E2, E1 in Hv. exact Hv.
    + intros i Hi. exists (nth i meas 0). split; [apply Hv; auto|apply Hf; auto].
  - intros (k & Hk & E1 & E2 & Hf).
    assert (HM : exists meas, measures most g X dirs = Ok meas).
    { assert (HM : forall l, (forall d, In d l -> exists v, val most g X (fst d) (snd d) v) -> exists meas, measures most g X l = Ok meas).
      { induction l as [|d l IH]; intros Hd; [exists []; reflexivity|]. destruct IH as [ms Ems]; [intros; apply Hd; right; auto|].
        destruct (Hd d (or_introl eq_refl)) as (v & u & Eu & _). unfold measures in *. cbn [mapM]. destruct d as [x y]. cbn [fst snd] in Eu.
        rewrite (project_combine2 n), Eu by auto. cbn [bind]. rewrite Ems. eexists; reflexivity. }
      apply HM. intros d Hd. apply (In_nth _ _ (0, 0)) in Hd as (i & Hi & <-). destruct (Hf i Hi) as (v & Hv & _). exists v; exact Hv. }
    destruct HM as [meas Em]. rewrite Em. cbn [bind]. apply (measures_spec most g n X dirs meas HX) in Em as [Hl Hv].
    apply pick_spec; [lia|]. rewrite Hl.
    assert (Hu : forall x y v w, val most g X x y v -> val most g X x y w -> v = w).
    { intros x y v w (u1 & F1 & ->) (u2 & F2 & ->). rewrite F1 in F2. apply Ok_inj in F2 as ->. reflexivity. }
    exists k. split; [auto|]. split.
    + specialize (Hv k Hk). rewrite E1 in Hv. exact (Hu _ _ _ _ Hv E2).
    + split; [auto|]. intros i Hi. destruct (Hf i Hi) as (v & H1 & H2). rewrite (Hu _ _ _ _ (Hv i Hi) H1). exact H2.
Qed.

Lemma first_best_ext : forall n dir dir' value a b m, (forall k, (k < n)%nat -> dir k = dir' k) ->
  first_best n dir value a b m -> first_best n dir' value a b m.
Proof.
  intros n dir dir' value a b m He (k & Hk & E1 & E2 & Hf). exists k. rewrite <- He by auto. repeat split; auto.
  intros i Hi. rewrite <- He by auto. auto.
Qed.

Lemma gridplane_spec : forall most n X g lo hi a b m, is_matrix n 2 X -> ga_alphamat g = AmTuple -> ga_range g = (lo, hi) -> lo < 0 -> 0 < hi ->
  gridplane trigR most X g = Ok (a, b, m) <->
  first_best (ga_ndir g) (fun k => (hi * cos (angle1 (ga_ndir g) k), hi * sin (angle1 (ga_ndir g) k))) (val most g X) a b m.
Proof.
  intros most n X g lo hi a b m HX Ha Hr Hlo Hhi. unfold gridplane. rewrite Ha, Hr, stops_R by auto. rewrite !pymax_R.
  pose proof PI_RGT_0. rewrite (Rmax_left 0 (- (PI/2))) by lra. rewrite (Rmax_left PI (PI/2)) by lra. cbn [snd].
  rewrite (two_columns_ok n) by auto. cbn [negb]. rewrite (plane_spec most g n) by auto.
  assert (Hl : length (directions trigR (linspace 0 PI (ga_ndir g) false) hi) = ga_ndir g) by (unfold directions; rewrite map_length, linspace_length; reflexivity).
  rewrite Hl. split; apply first_best_ext; intros k Hk; rewrite nth_directions by (rewrite linspace_length; auto); rewrite linspace_open by auto; reflexivity.
Qed.

Lemma gridplane_2_spec : forall most n X q g lo hi a b m, is_matrix n 2 X -> ga_alphamat g = AmArray -> ga_range g = (lo, hi) -> lo < 0 -> 0 < hi ->
  ga_stops g = stops trigR (lo, hi) ->
  gridplane_2 trigR most X q g = Ok (a, b, m) <->
  first_best (ga_ndir g) (fun k => (hi * cos (angle2 (ga_ndir g) k) / norm2 q hi (angle2 (ga_ndir g) k),
                                    hi * sin (angle2 (ga_ndir g) k) / norm2 q hi (angle2 (ga_ndir g) k))) (val most g X) a b m.
Proof.
  intros most n X q g lo hi a b m HX Ha Hr Hlo Hhi Hs. unfold gridplane_2. rewrite Ha, Hs, Hr, stops_R by auto. rewrite !pymin_R.
  pose proof PI_RGT_0. rewrite (Rmin_right 0 (- (PI/2))) by lra. rewrite (Rmin_right PI (PI/2)) by lra. cbn [snd].
  rewrite (two_columns_ok n) by auto. cbn [negb]. rewrite (plane_spec most g n) by auto.
  rewrite map_length. replace (length (directions trigR (linspace (- (PI/2)) (PI/2) (ga_ndir g) true) hi)) with (ga_ndir g) by
    (unfold directions; rewrite map_length, linspace_length; reflexivity).
  assert (He : forall k, (k < ga_ndir g)%nat -> nth k (map (fun d : R * R =>
      let dv := nsqrt (nadd n1 (nmul (nmul (nnat 2) (nmul (fst d) (snd d))) q)) in (ndiv (fst d) dv, ndiv (snd d) dv))
      (directions trigR (linspace (- (PI/2)) (PI/2) (ga_ndir g) true) hi)) (0, 0) =
    (hi * cos (angle2 (ga_ndir g) k) / norm2 q hi (angle2 (ga_ndir g) k), hi * sin (angle2 (ga_ndir g) k) / norm2 q hi (angle2 (ga_ndir g) k))).
  { intros k Hk. rewrite (nth_map_lt _ _ _ (0, 0)) by (unfold directions; rewrite map_length, linspace_length; auto).
    rewrite nth_directions by (rewrite linspace_length; auto). rewrite linspace_closed by auto. cbn [fst snd]. rewrite nnat_R. rnum.
    replace (- (PI / 2) + INR k * (PI / 2 - - (PI / 2)) / INR (ga_ndir g - 1)) with (angle2 (ga_ndir g) k) by (unfold angle2; replace (PI / 2 - - (PI / 2)) with PI by lra; unfold Rdiv; ring).
    unfold norm2. replace (INR 2) with 2 by (cbn; ring). reflexivity. }
  split; apply first_best_ext; intros k Hk; rewrite He by auto; reflexivity.
Qed.
