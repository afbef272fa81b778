(** Lemmas for snipls (C32-C38, C88, C89). *)

From Coq Require Import Reals List Arith ZArith Bool Lia Lra Permutation.
Import ListNotations.
From Verif Require Import Num Err Vec VecR OrdR L_Mat S_Stats S_Regress L_Stats M_Utils M_Preproc M_Robcent M_Plot M_Snipls
  L_Lin L_Matmul L_Deflate L_Scaling L_Scaling2 L_Preproc L_Msupport.
Open Scope R_scope.

Lemma bind_Ok : forall {A B} (x : res A) (g : A -> res B) b, bind x g = Ok b -> exists a, x = Ok a /\ g a = Ok b.
Proof. intros A B [a|e] g b E; [exists a; auto|discriminate]. Qed.

(* ---------------- basic facts -------------------------------------- *)
Lemma dotv_R : forall nan (u v : list R), dotv nan u v = dot u v.
Proof. intros [|] u v; [|reflexivity]. unfold dotv, nansum. rewrite nonnan_R. reflexivity. Qed.
Lemma xw_R : forall nan (X : list (list R)) w, xw nan X w = matvec X w.
Proof. intros. unfold xw, matvec. apply map_ext. intros; apply dotv_R. Qed.
Lemma xty_R : forall nan (X : list (list R)) y, xty nan X y = tmatvec X y.
Proof. intros. unfold xty, tmatvec. apply map_ext. intros; apply dotv_R. Qed.
Lemma nsqr_vnorm : forall t : list R, nsqr (vnorm t) = dot t t.
Proof. intros t. unfold nsqr. rnum. apply norm_sq. Qed.

Lemma insert_nat_in : forall x l y, In y (insert_nat x l) <-> y = x \/ In y l.
Proof.
  intros x l; induction l as [|h t IH]; intros y; cbn [insert_nat].
  - cbn; intuition.
  - destruct (Nat.ltb_spec x h); [cbn; intuition|]. destruct (Nat.eqb_spec x h); [subst; cbn; intuition|]. cbn [In]. rewrite IH. intuition.
Qed.
Lemma union1d_in : forall a b y, In y (union1d a b) <-> In y a \/ In y b.
Proof.
  intros a b y. unfold union1d. rewrite <- in_app_iff. generalize (a ++ b) as l. induction l as [|x l IH]; cbn [fold_right]; [reflexivity|].
  rewrite insert_nat_in, IH. cbn; intuition.
Qed.

Lemma existsb_in : forall j l, existsb (Nat.eqb j) l = true <-> In j l.
Proof.
  intros j l. rewrite existsb_exists. split; [intros (x & Hx & E); apply Nat.eqb_eq in E; subst; auto|].
  intros Hj. exists j. split; auto. apply Nat.eqb_refl.
Qed.
Lemma keep_length : forall good (v : list R), length (keep good v) = length v.
Proof. intros. unfold keep. rewrite map_length, combine_length, seq_length. lia. Qed.
Lemma keep_nth : forall good (v : list R) j, (j < length v)%nat ->
  nth j (keep good v) 0 = if existsb (Nat.eqb j) good then nth j v 0 else 0.
Proof.
  intros good v j Hj. unfold keep.
  rewrite (nth_map_lt _ _ _ (0%nat, 0)) by (rewrite combine_length, seq_length; lia).
  rewrite combine_nth by (rewrite seq_length; auto). rewrite seq_nth by auto. cbn [fst snd Nat.add].
  destruct (existsb (Nat.eqb j) good); reflexivity.
Qed.
Lemma keep_in : forall good (v : list R) j, (j < length v)%nat -> In j good -> nth j (keep good v) 0 = nth j v 0.
Proof. intros good v j Hj Hin. rewrite keep_nth by auto. apply existsb_in in Hin. rewrite Hin. reflexivity. Qed.
Lemma keep_out : forall good (v : list R) j, ~ In j good -> nth j (keep good v) 0 = 0.
Proof.
  intros good v j Hn. destruct (Nat.lt_ge_cases j (length v)).
  - rewrite keep_nth by auto. destruct (existsb (Nat.eqb j) good) eqn:E; [apply existsb_in in E; contradiction|reflexivity].
  - apply nth_overflow. rewrite keep_length; auto.
Qed.
(** a vector supported on [good] does not see the truncation *)
Lemma dot_keep : forall good (v w : list R), length v = length w -> (forall j, ~ In j good -> nth j w 0 = 0) ->
  dot (keep good v) w = dot v w.
Proof.
  intros good v w Hl Hw. rewrite (dot_sumn _ _ (length v)) by (rewrite ?keep_length; auto). rewrite (dot_sumn _ _ (length v)) by auto.
  apply sumn_ext. intros j Hj. rewrite keep_nth by auto. destruct (existsb (Nat.eqb j) good) eqn:E; [reflexivity|].
  rewrite Hw; [ring|]. intros Hin. apply existsb_in in Hin. congruence.
Qed.
Lemma dot_keep_le : forall good (v : list R), dot (keep good v) (keep good v) <= dot v v.
Proof.
  intros good v. rewrite (dot_sumn _ _ (length v)) by (rewrite ?keep_length; auto). rewrite (dot_sumn v v (length v)) by auto.
  apply sumn_le. intros j Hj. rewrite keep_nth by auto. pose proof (Rle_0_sqr (nth j v 0)) as Hs. unfold Rsqr in Hs.
  destruct (existsb (Nat.eqb j) good); lra.
Qed.

(* maximum *)
Lemma fold_max_ge : forall (l : list R) a, a <= fold_left nmax l a /\ forall x, In x l -> x <= fold_left nmax l a.
Proof.
  induction l as [|y l IH]; intros a; cbn [fold_left]; [split; [lra|intros x []]|].
  destruct (IH (nmax a y)) as [H1 H2].
  assert (Hm : a <= nmax a y /\ y <= nmax a y).
  { unfold nmax. rnum. destruct (Rltb a y) eqn:E; [apply Rltb_true in E; lra|apply Rltb_false in E; lra]. }
  split; [lra|]. intros x [<-|Hx]; [lra|auto].
Qed.
Lemma fold_max_in : forall (l : list R) a, fold_left nmax l a = a \/ In (fold_left nmax l a) l.
Proof.
  induction l as [|y l IH]; intros a; cbn [fold_left]; auto. destruct (IH (nmax a y)) as [E|E]; [|right; right; auto].
  rewrite E. unfold nmax. destruct (a <?! y)%num; [right; left; auto|left; auto].
Qed.
Lemma vmaxl_is_max : forall l : list R, l <> [] -> is_max l (vmaxl l).
Proof.
  intros [|x l] Hne; [congruence|]. cbn [vmaxl]. destruct (fold_max_ge l x) as [H1 H2]. split.
  - destruct (fold_max_in l x) as [->|H]; [left; auto|right; auto].
  - intros y [<-|Hy]; auto.
Qed.
Lemma is_max_unique : forall l a b, is_max l a -> is_max l b -> a = b.
Proof. intros l a b [H1 H2] [H3 H4]. apply Rle_antisym; auto. Qed.
Lemma vmaxl_scale : forall (l : list R) k, l <> [] -> 0 <= k -> vmaxl (map (fun x => x * k) l) = vmaxl l * k.
Proof.
  intros l k Hne Hk. apply (is_max_unique (map (fun x => x * k) l)).
  - apply vmaxl_is_max. destruct l; [congruence|discriminate].
  - destruct (vmaxl_is_max l Hne) as [H1 H2]. split; [apply in_map_iff; exists (vmaxl l); auto|].
    intros x Hx. apply in_map_iff in Hx as (y & <- & Hy). apply Rmult_le_compat_r; auto.
Qed.

(* ---------------- one step ----------------------------------------- *)
(** [cov]: X'y.  [sel eta cov j]: variable j passes the threshold *)
Definition sel (eta : R) (cov : list R) (j : nat) : Prop :=
  (j < length cov)%nat /\ eta * vmaxl (map Rabs cov) < Rabs (nth j cov 0).
Definition soft (eta : R) (cov : list R) : list R :=
  map (fun v => (Rabs v - eta * vmaxl (map Rabs cov)) * sign_of v / vnorm cov) cov.

Lemma nsign_sign_of : forall x, nsign x = sign_of x.
Proof.
  intros x. unfold nsign, sign_of. rnum. unfold Rltb. destruct (Rlt_dec 0 x); [reflexivity|].
  destruct (Rlt_dec x 0); [reflexivity|]. assert (x = 0) by lra. subst. destruct (Reqb 0 0); reflexivity.
Qed.
Lemma sign_of_div : forall x k, 0 < k -> sign_of (x / k) = sign_of x.
Proof.
  intros x k Hk. assert (Hi := Rinv_0_lt_compat k Hk). unfold sign_of, Rdiv.
  destruct (Rlt_dec 0 x), (Rlt_dec 0 (x * / k)); auto; try (exfalso; nra).
  destruct (Rlt_dec x 0), (Rlt_dec (x * / k) 0); auto; exfalso; nra.
Qed.
Lemma step_core : forall eta (cov : list R), cov <> [] ->
  let nw := vnorm cov in
  let wh := map (fun v => v / nw) cov in
  let mx := vmaxl (map Rabs wh) in
  let g := map (fun v => Rabs v - eta * mx) wh in
  map2 Rmult g (map sign_of wh) = soft eta cov /\
  (forall j, In j (where_ (fun v => Rltb 0 v) g) <-> sel eta cov j).
Proof.
  intros eta cov Hne nw wh mx g.
  assert (Hnw : 0 <= nw) by apply norm_nonneg.
  destruct (Req_dec nw 0) as [E0|E0].
  - (* cov = 0 *)
    assert (Hz : Forall (fun x => x = 0) cov).
    { apply dot_self_zero. rewrite <- norm_sq. fold nw. rewrite E0. ring. }
    rewrite Forall_forall in Hz.
    assert (Ewh : wh = map (fun _ => 0) cov) by (unfold wh; apply map_ext_in; intros v Hv; rewrite (Hz v Hv); unfold Rdiv; ring).
    assert (Emx : mx = 0).
    { unfold mx. destruct (vmaxl_is_max (map Rabs wh)) as [Hin _]; [rewrite Ewh; destruct cov; [congruence|discriminate]|].
      rewrite Ewh, map_map in Hin. apply in_map_iff in Hin as (v & Ev & _). rewrite Rabs_R0 in Ev. rewrite Ewh, map_map, Rabs_R0. symmetry; exact Ev. }
    assert (Ecm : vmaxl (map Rabs cov) = 0).
    { destruct (vmaxl_is_max (map Rabs cov)) as [Hin _]; [destruct cov; [congruence|discriminate]|].
      apply in_map_iff in Hin as (v & Ev & Hv). rewrite <- Ev, (Hz v Hv). apply Rabs_R0. }
    assert (Hs0 : sign_of 0 = 0) by (unfold sign_of; destruct (Rlt_dec 0 0); [lra|destruct (Rlt_dec 0 0); lra]).
    split.
    + unfold g, soft. rewrite Ewh, !map_map. rewrite Ecm. rewrite map2_map_l, map2_map_r, map2_same. apply map_ext_in. intros v Hv.
      rewrite (Hz v Hv), Hs0. unfold Rdiv. ring.
    + intros j. rewrite (where_in _ _ _ 0). unfold sel, g. rewrite map_length. rewrite Ewh, map_length, map_map. split.
      * intros [Hj E]. exfalso. rewrite (nth_map_lt _ _ _ 0) in E by auto. apply Rltb_true in E. rewrite Emx, Rabs_R0 in E. lra.
      * intros [Hj E]. exfalso. rewrite (Hz _ (nth_In cov 0 Hj)), Rabs_R0, Ecm in E. lra.
  - assert (Hp : 0 < nw) by lra.
    assert (Habs : forall v, Rabs (v / nw) = Rabs v * / nw).
    { intros v. unfold Rdiv. rewrite Rabs_mult, (Rabs_right (/ nw)); auto. left; apply Rinv_0_lt_compat; auto. }
    assert (Emx : mx = vmaxl (map Rabs cov) * / nw).
    { unfold mx, wh. rewrite map_map. rewrite (map_ext (fun x => Rabs (x / nw)) (fun x => Rabs x * / nw)) by auto.
      rewrite <- (map_map Rabs (fun x => x * / nw)). apply vmaxl_scale; [destruct cov; [congruence|discriminate]|].
      left; apply Rinv_0_lt_compat; auto. }
    split.
    + unfold g, soft, wh. rewrite !map_map, map2_map_l, map2_map_r, map2_same. apply map_ext. intros v.
      rewrite Habs, sign_of_div, Emx by auto. fold nw. unfold Rdiv. ring.
    + intros j. rewrite (where_in _ _ _ 0). unfold sel, g, wh. rewrite !map_length, map_map.
      assert (Hg : forall j, (j < length cov)%nat ->
         nth j (map (fun x => Rabs (x / nw) - eta * mx) cov) 0 = (Rabs (nth j cov 0) - eta * vmaxl (map Rabs cov)) * / nw).
      { intros j' Hj. rewrite (nth_map_lt _ _ _ 0) by auto. rewrite Habs, Emx. ring. }
      assert (Hi := Rinv_0_lt_compat nw Hp).
      split; intros [Hj E]; split; auto; rewrite Hg in * by auto.
      * apply Rltb_true in E. nra.
      * apply Rltb_true. apply Rmult_lt_0_compat; auto. lra.
Qed.

Lemma vnorm_R : forall t : list R, vnorm t = sqrt (vsqnorm t). Proof. reflexivity. Qed.

Definition step_facts (eta ssx ssy : R) (X : list (list R)) (y : list R) (old : list nat) (c : scomp R) : Prop :=
  let cov := tmatvec X y in
  (forall j, In j (c_good c) <-> In j old \/ sel eta cov j) /\
  c_w c = keep (c_good c) (soft eta cov) /\ c_t c = matvec X (c_w c) /\
  c_q c = vscale (/ dot (c_t c) (c_t c)) (tmatvec X (c_t c)) /\
  c_p c = keep (c_good c) (c_q c) /\ c_c c = dot y (c_t c) / dot (c_t c) (c_t c) /\
  c_xev c = dot (c_t c) (c_t c) * dot (c_p c) (c_p c) / ssx * 100 /\
  c_yev c = dot (c_t c) (c_t c) * (c_c c * c_c c) / ssy * 100 /\
  c_X c = msub X (outer (c_t c) (c_q c)) /\ c_y c = vsub y (vscale (c_c c) (c_t c)).
Lemma step_spec : forall nan eta ssx ssy n p (X : list (list R)) y old c, wf n p X -> (0 < n)%nat -> (0 < p)%nat -> length y = n ->
  snipls_step nan eta ssx ssy X y old = Some c -> step_facts eta ssx ssy X y old c.
Proof.
  intros nan eta ssx ssy n p X y old c HX Hn Hp Hy E. unfold step_facts. set (cov := tmatvec X y). unfold snipls_step in E. cbv zeta in E. rewrite !xw_R, !xty_R, !dotv_R, !nsqr_vnorm in E. fold cov in E.
  assert (Hlc : length cov = p) by (apply (tmatvec_length n p); auto).
  assert (Hne : cov <> []) by (destruct cov; [cbn in Hlc; lia|discriminate]).
  destruct (step_core eta cov Hne) as [E1 E2].
  rnum.
  rewrite (map_ext (@nsign R Num_R) sign_of) in E by apply nsign_sign_of.
  rewrite E1 in E.
  set (new := where_ (fun v => Rltb 0 v) (map (fun v => Rabs v - eta * vmaxl (map Rabs (map (fun v => v / vnorm cov) cov))) (map (fun v => v / vnorm cov) cov))) in *.
  destruct (union1d old new) as [|g0 gs] eqn:Eg; [discriminate|]. rewrite <- Eg in E. injection E as <-.
  cbn [c_w c_t c_q c_p c_c c_xev c_yev c_good c_X c_y].
  split; [intros j; rewrite Eg; rewrite <- Eg; rewrite union1d_in, E2; reflexivity|].
  assert (Eq : forall v k, map (fun x => x / k) v = vscale (/ k) v).
  { intros v k. unfold vscale. apply map_ext. intros; rnum. unfold Rdiv; ring. }
  rewrite Eg. rewrite !Eq. repeat split.
  all: unfold nsqr; rnum; f_equal; lra.
Qed.

(* ---------------- the loop ------------------------------------------ *)
Definition todc (c : scomp R) : dcomp := mk_dcomp (c_w c) (c_t c) (c_q c).
Definition sc0 : scomp R := mk_scomp [] [] [] [] 0 0 0 [] [] [].

Lemma soft_length : forall eta cov, length (soft eta cov) = length cov.
Proof. intros; apply map_length. Qed.
Lemma step_lengths : forall eta ssx ssy n p X y old c, wf n p X -> (0 < n)%nat -> length y = n -> step_facts eta ssx ssy X y old c ->
  length (c_w c) = p /\ length (c_t c) = n /\ length (c_q c) = p /\ length (c_p c) = p /\ wf n p (c_X c) /\ length (c_y c) = n.
Proof.
  intros eta ssx ssy n p X y old c HX Hn Hy (_ & Ew & Et & Eq & Ep & _ & _ & _ & EX & Ey).
  assert (H1 : length (c_w c) = p) by (rewrite Ew, keep_length, soft_length; apply (tmatvec_length n p); auto).
  assert (H2 : length (c_t c) = n) by (rewrite Et, matvec_length; apply (wf_length _ _ _ HX)).
  assert (H3 : length (c_q c) = p) by (rewrite Eq, vscale_length; apply (tmatvec_length n p); auto).
  split; auto. split; auto. split; auto. split; [rewrite Ep, keep_length; auto|]. split.
  - rewrite EX. apply wf_msub; auto. rewrite <- H2, <- H3. apply wf_outer.
  - rewrite Ey, vsub_length; auto. rewrite vscale_length; lia.
Qed.

(** the i-th component starts from the data deflated by the previous ones *)
Definition before (X : list (list R)) (l : list (scomp R)) (i : nat) : list (list R) :=
  match i with O => X | S i' => c_X (nth i' l sc0) end.
Definition ybefore (y : list R) (l : list (scomp R)) (i : nat) : list R :=
  match i with O => y | S i' => c_y (nth i' l sc0) end.
Definition gbefore (old : list nat) (l : list (scomp R)) (i : nat) : list nat :=
  match i with O => old | S i' => c_good (nth i' l sc0) end.

Lemma loop_facts : forall nan (eta ssx ssy : R) n p, (0 < n)%nat -> (0 < p)%nat -> forall k (X : list (list R)) y old, wf n p X -> length y = n ->
  let l := snipls_loop nan eta ssx ssy k X y old in
  forall i, (i < length l)%nat ->
    wf n p (before X l i) /\ length (ybefore y l i) = n /\
    step_facts eta ssx ssy (before X l i) (ybefore y l i) (gbefore old l i) (nth i l sc0).
Proof.
  intros nan eta ssx ssy n p Hn Hp. induction k as [|k IH]; intros X y old HX Hy l i Hi; [cbn in Hi; lia|].
  subst l. cbn [snipls_loop] in *. destruct (snipls_step nan eta ssx ssy X y old) as [c|] eqn:E; [|cbn in Hi; lia].
  pose proof (step_spec nan eta ssx ssy n p X y old c HX Hn Hp Hy E) as F.
  destruct i as [|i]; [cbn [before ybefore gbefore nth]; auto|].
  destruct (step_lengths eta ssx ssy n p X y old c HX Hn Hy F) as (_ & _ & _ & _ & HX' & Hy').
  cbn [length] in Hi. specialize (IH (c_X c) (c_y c) (c_good c) HX' Hy' i ltac:(lia)).
  destruct i as [|i]; exact IH.
Qed.
Lemma loop_length : forall nan (eta ssx ssy : R) n p, (0 < n)%nat -> (0 < p)%nat -> forall k (X : list (list R)) y old, wf n p X -> length y = n ->
  length (snipls_loop nan eta ssx ssy k X y old) = k \/ (snipls_loop nan eta ssx ssy k X y old = [] /\ old = [] /\ (0 < k)%nat).
Proof.
  intros nan eta ssx ssy n p Hn Hp. induction k as [|k IH]; intros X y old HX Hy; [left; reflexivity|].
  cbn [snipls_loop]. destruct (snipls_step nan eta ssx ssy X y old) as [c|] eqn:E.
  - pose proof (step_spec nan eta ssx ssy n p X y old c HX Hn Hp Hy E) as F.
    destruct (step_lengths eta ssx ssy n p X y old c HX Hn Hy F) as (_ & _ & _ & _ & HX' & Hy').
    left. cbn [length]. f_equal. destruct (IH (c_X c) (c_y c) (c_good c) HX' Hy') as [H|(_ & H & _)]; auto.
    exfalso. unfold snipls_step in E. cbv zeta in E. destruct (union1d old _) as [|g gs]; [discriminate|]. injection E as <-. discriminate.
  - right. split; auto. split; [|lia]. unfold snipls_step in E. cbv zeta in E. destruct (union1d old _) as [|g gs] eqn:Eg; [|discriminate].
    destruct old as [|x old]; auto. exfalso. assert (Hin : In x []) by (rewrite <- Eg; apply union1d_in; left; left; auto). destruct Hin.
Qed.
Lemma loop_chain : forall nan (eta ssx ssy : R) n p, (0 < n)%nat -> (0 < p)%nat -> forall k (X : list (list R)) y old, wf n p X -> length y = n ->
  let l := snipls_loop nan eta ssx ssy k X y old in
  (forall c, In c l -> dot (c_t c) (c_t c) <> 0) ->
  is_chain p X (map todc l) /\ map c_c l = ycoefs y (map todc l) /\
  forall i, (i <= length l)%nat -> before X l i = final X (map todc (firstn i l)) /\ ybefore y l i = yfinal y (map todc (firstn i l)).
Proof.
  intros nan eta ssx ssy n p Hn Hp. induction k as [|k IH]; intros X y old HX Hy l H0.
  - subst l. cbn. split; auto. split; auto. intros i Hi. assert (i = 0)%nat by lia. subst. split; reflexivity.
  - subst l. cbn [snipls_loop] in *. destruct (snipls_step nan eta ssx ssy X y old) as [c|] eqn:E.
    + pose proof (step_spec nan eta ssx ssy n p X y old c HX Hn Hp Hy E) as F.
      destruct (step_lengths eta ssx ssy n p X y old c HX Hn Hy F) as (Hw & Ht & Hq & _ & HX' & Hy').
      destruct F as (_ & Ew & Et & Eq & Ep & Ec & _ & _ & EX & Ey).
      destruct (IH (c_X c) (c_y c) (c_good c) HX' Hy') as (HC & HY & HB); [intros c' Hc'; apply H0; right; auto|].
      assert (Ey' : c_y c = ystep y (d_t (todc c))) by (rewrite Ey, Ec; reflexivity).
      split; [|split].
      * cbn [map is_chain]. split; [exact Hw|]. split; [exact Et|]. split; [apply H0; left; auto|]. split; [exact Eq|].
        unfold deflated. cbn [todc d_t d_q]. rewrite <- EX. exact HC.
      * cbn [map ycoefs]. rewrite HY, <- Ey'. f_equal. exact Ec.
      * intros [|i] Hi; [split; reflexivity|]. cbn [length] in Hi. destruct (HB i ltac:(lia)) as [B1 B2].
        cbn [firstn map final yfinal before ybefore nth]. unfold deflated. cbn [todc d_t d_q] in *. rewrite <- EX, <- Ey', <- B1, <- B2.
        destruct i as [|i]; split; reflexivity.
    + cbn. split; auto. split; auto. intros i Hi. assert (i = 0)%nat by lia. subst. split; reflexivity.
Qed.

(* ---------------- inversion of fit ---------------------------------- *)
Definition scaled_by (env : prep_env R) (c : centre_opt R) (s : scale_opt R) (X X0 : list (list R)) : Prop :=
  exists st, sc_fit_transform env (new_scaler c s 0) (A2 X) = (st, Ok X0).
Definition as_column (y : list R) : list (list R) := map (fun v => [v]) y.

Lemma scale_data_wf : forall n p (X Xs : list (list R)) m s, wf n p X -> (0 < n)%nat -> scale_data X m s = Ok Xs -> wf n p Xs.
Proof.
  intros n p X Xs m s HX Hn E. unfold scale_data in E. rewrite (wf_ncols n p) in E by auto.
  destruct (p =? 1)%nat.
  - destruct m as [|m0 m]; [discriminate|]. destruct (handle_zeros s) as [|s0 s']; [discriminate|]. injection E as <-. apply wf_mapmap; auto.
  - assert (Hbc : forall (f : R -> R -> R) (Y Z : list (list R)) v, wf n p Y ->
      (if (length v =? p)%nat then Ok (rows_op f Y v) else match v with [v0] => Ok (map (map (fun x => f x v0)) Y) | _ => Err ValueError end) = Ok Z -> wf n p Z).
    { intros f Y Z v HY EZ. destruct (Nat.eqb_spec (length v) p).
      - injection EZ as <-. apply wf_map2_rows; auto.
      - destruct v as [|v0 [|v1 v]]; try discriminate. injection EZ as <-. apply wf_mapmap; auto. }
    apply bind_Ok in E as (Xm & E1 & E2). apply Hbc in E1; auto. apply Hbc in E2; auto.
Qed.
Lemma scaled_wf : forall env c s n p X X0, wf n p X -> (2 <= n)%nat -> scaled_by env c s X X0 -> wf n p X0.
Proof.
  intros env c s n p X X0 HX Hn [st E]. apply C01_fit_transform_l in E as (st1 & _ & E). unfold sc_transform in E.
  destruct (a_center st1), (a_scale st1); try discriminate. rewrite (check_input_id n p) in E by auto.
  destruct (scale_data X l l0) as [Y|] eqn:Es; [|discriminate]. injection E as _ <-. apply (scale_data_wf n p) in Es; auto; lia.
Qed.
Lemma scaled_inv : forall env c s X m v X0, scaled env c s X = Ok (m, v, X0) ->
  scaled_by env c s X X0.
Proof.
  intros env c s X m v X0 E. unfold scaled in E. change (@n0 R Num_R) with 0 in E.
  destruct (sc_fit_transform env (new_scaler c s 0) (A2 X)) as [st [Z|e]] eqn:Ef; [|discriminate].
  exists st. destruct (a_col_loc st), (a_col_sca st); try discriminate. injection E as _ _ <-. exact Ef.
Qed.
Lemma scaled_by_fun : forall env c s X Y Z, scaled_by env c s X Y -> scaled_by env c s X Z -> Y = Z.
Proof. intros env c s X Y Z [s1 E1] [s2 E2]. congruence. Qed.
Lemma as_column_wf : forall y : list R, wf (length y) 1 (as_column y).
Proof. intros y. split; [apply map_length|]. rewrite Forall_forall. intros r Hr. apply in_map_iff in Hr as (v & <- & _). reflexivity. Qed.
Lemma col_as_column : forall y : list R, col 0 (as_column y) = y.
Proof. intros y. unfold as_column, col. rewrite map_map. cbn. apply map_id. Qed.
Lemma as_column_col : forall n (Y : list (list R)), wf n 1 Y -> as_column (col 0 Y) = Y.
Proof.
  intros n Y [_ HF]. unfold as_column, col. rewrite map_map. rewrite <- (map_id Y) at 2. apply map_ext_in. intros r Hr.
  rewrite Forall_forall in HF. specialize (HF r Hr). destruct r as [|a [|b r]]; cbn in HF; try lia. reflexivity.
Qed.

Section Fit.
  Variables (env : prep_env R) (inv : list (list R) -> res (list (list R))) (eta : R) (k : nat) (c : centre_opt R) (s : scale_opt R).
  Variables (n p : nat) (X : list (list R)) (y : list R) (f : snipls_model R).
  Hypothesis HX : is_matrix n p X.
  Hypothesis Hn : (2 <= n)%nat.
  Hypothesis Hp : (1 <= p)%nat.
  Hypothesis Hy : length y = n.
  Hypothesis Hfit : snipls_fit env inv eta k c s X y = Ok f.

  Definition comps_of (X0 : list (list R)) (y0 : list R) : list (scomp R) :=
    snipls_loop false eta (vsum (map nansum (map (map nsqr) X0))) (nansum (map nsqr y0)) k X0 y0 [].

  Lemma fit_inv : exists X0 y0 B Rw T,
    scaled_by env c s X X0 /\ scaled_by env c s (as_column y) (as_column y0) /\ wf n p X0 /\ length y0 = n /\
    let l := comps_of X0 y0 in
    let W := of_cols p (map c_w l) in let P := of_cols p (map c_p l) in
    match l with
    | [] => B = vzeros p /\ Rw = of_cols p [vzeros p] /\ T = of_cols n (repeat (vzeros n) k)
    | _ => exists PWi Gi, inv (matmul (transpose P) W) = Ok PWi /\
             inv (matmul (matmul (transpose W) (matmul (transpose X0) X0)) W) = Ok Gi /\
             B = matvec W (matvec Gi (matvec (transpose W) (tmatvec X0 y0))) /\
             Rw = matmul W PWi /\ T = of_cols n (map c_t l)
    end /\
    length (sn_xsca f) = p /\
    sn_p f = p /\ sn_W f = W /\ sn_P f = P /\ sn_C f = map c_c l /\ sn_T f = T /\ sn_R f = Rw /\ sn_coef_scaled f = B /\
    sn_coef f = map2 (fun sx b => (nth 0 (sn_ysca f) 0 / sx) * b) (sn_xsca f) B /\
    sn_intercept f = snipls_intercept c (vsub y (matvec X (sn_coef f))) /\
    sn_fitted f = map (fun v => v + sn_intercept f) (matvec X (sn_coef f)) /\
    sn_resid f = vsub y (sn_fitted f) /\
    sn_xev f = map c_xev l /\ sn_yev f = map c_yev l /\
    sn_retained f = map c_good l /\ sn_colret f = (match l with [] => None | _ => Some (last (map c_good l) []) end) /\
    (exists X0', scaled env c s X = Ok (sn_xloc f, sn_xsca f, X0')) /\
    (exists Y0', scaled env c s (as_column y) = Ok (sn_yloc f, sn_ysca f, Y0')).
  Proof.
    unfold snipls_fit in Hfit.
    assert (HlX : length X = n) by (apply (wf_length _ _ _ HX)). rewrite (wf_ncols n p) in Hfit by (auto; lia). rewrite HlX in Hfit.
    destruct (Nat.eqb_spec n 1) as [|_]; [lia|]. cbn [andb] in Hfit. rewrite Hy, Nat.eqb_refl in Hfit. cbn [negb] in Hfit.
    apply bind_Ok in Hfit as (((mX, sX), X0) & E1 & E). apply bind_Ok in E as (((my, sy), Y0) & E2 & E).
    fold (as_column y) in E2.
    pose proof (scaled_inv _ _ _ _ _ _ _ E1) as S1. pose proof (scaled_inv _ _ _ _ _ _ _ E2) as S2.
    assert (W1 : wf n p X0) by (apply (scaled_wf env c s n p X); auto).
    assert (W2 : wf n 1 Y0) by (apply (scaled_wf env c s n 1 (as_column y)); auto; rewrite <- Hy; apply as_column_wf).
    cbv zeta in E. rewrite manynan_R, vanynan_R in E. cbn [orb] in E.
    assert (Hl0 : length (col 0 Y0) = n) by (rewrite col_length; apply (wf_length _ _ _ W2)).
    set (y0 := col 0 Y0) in *. rewrite xty_R in E. fold (comps_of X0 y0) in E.
    apply bind_Ok in E as (((B, Rw), T) & E3 & E).
    destruct (Nat.eqb_spec (length sX) p) as [HsX|]; [|discriminate]. cbn [negb] in E.
    apply Ok_inj in E. subst f. cbn [sn_eta sn_ncomp sn_p sn_W sn_P sn_C sn_T sn_coef sn_coef_scaled sn_intercept sn_xev sn_yev sn_fitted sn_resid sn_R sn_retained sn_colret sn_xloc sn_yloc sn_xsca sn_ysca].
    exists X0, y0, B, Rw, T.
    split; [exact S1|]. split; [unfold y0; rewrite (as_column_col n) by auto; exact S2|]. split; [exact W1|]. split; [exact Hl0|].
    cbv zeta. split.
    { destruct (comps_of X0 y0) as [|c0 l] eqn:El.
      - injection E3 as <- <- <-. auto.
      - apply bind_Ok in E3 as (PWi & F1 & E3). apply bind_Ok in E3 as (Gi & F2 & E3). injection E3 as <- <- <-.
        exists PWi, Gi. auto. }
    rewrite !xw_R.
    repeat (split; [first [exact HsX|reflexivity]|]).
    split; [exists X0; exact E1|exists Y0; exact E2].
  Qed.
End Fit.
