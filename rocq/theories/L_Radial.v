(** Lemmas for the generalised spatial signs (C19-C24). *)

From Coq Require Import Reals List Arith ZArith Bool Lia Lra Permutation Sorted.
Import ListNotations.
From Verif Require Import Num Err Vec VecR OrdR L_Mat S_Stats S_Radial L_Stats M_Utils M_Preproc M_Robcent M_Gsspp
  L_Scaling L_Scaling2 L_Lin L_Preproc.
Open Scope R_scope.

Lemma hrank_valid : forall n p, (1 <= n)%nat -> (1 <= p)%nat -> ((hrank n p < n)%nat <-> (p <= n)%nat).
Proof.
  intros n p Hn Hp. unfold hrank.
  pose proof (Nat.div_mod (n + p + 1) 2 ltac:(lia)) as H. pose proof (Nat.mod_upper_bound (n + p + 1) 2 ltac:(lia)). lia.
Qed.

(** powers *)
Lemma pow23_R : forall x : R, pow23 x = Rpowr x (2/3). Proof. intros; unfold pow23; rnum; reflexivity. Qed.
Lemma pow32_R : forall x : R, pow32 x = Rpowr x (3/2). Proof. intros; unfold pow32; rnum; reflexivity. Qed.
Lemma Rpowr_pos : forall x y, 0 < x -> Rpowr x y = Rpower x y.
Proof. intros x y Hx. unfold Rpowr. destruct (Rlt_dec 0 x); [reflexivity|lra]. Qed.
Lemma Rpowr_zero : forall y, y <> 0 -> Rpowr 0 y = 0.
Proof. intros y Hy. unfold Rpowr. destruct (Rlt_dec 0 0); [lra|]. destruct (Req_EM_T y 0); [lra|reflexivity]. Qed.
Lemma Rpower_gt0 : forall x y, 0 < Rpower x y. Proof. intros; apply exp_pos. Qed.
Lemma Rpowr_nonneg : forall x y, 0 <= x -> y <> 0 -> 0 <= Rpowr x y.
Proof.
  intros x y Hx Hy. destruct (Req_EM_T x 0) as [->|Hn]; [rewrite Rpowr_zero; auto; lra|].
  rewrite Rpowr_pos by lra. left. apply Rpower_gt0.
Qed.
Lemma Rpowr_lt : forall x y z, 0 < z -> 0 <= x < y -> Rpowr x z < Rpowr y z.
Proof.
  intros x y z Hz Hxy. rewrite (Rpowr_pos y) by lra. destruct (Req_EM_T x 0) as [->|Hn].
  - rewrite Rpowr_zero by lra. apply Rpower_gt0.
  - rewrite Rpowr_pos by lra. apply Rlt_Rpower_l; lra.
Qed.
Lemma Rpowr_le : forall x y z, 0 < z -> 0 <= x <= y -> Rpowr x z <= Rpowr y z.
Proof.
  intros x y z Hz [Hx Hxy]. destruct (Req_EM_T x y) as [->|Hn]; [lra|]. left. apply Rpowr_lt; lra.
Qed.
Lemma Rpowr_inv : forall x y z, 0 <= x -> y * z = 1 -> Rpowr (Rpowr x y) z = x.
Proof.
  intros x y z Hx Hyz. assert (y <> 0) by nra. assert (z <> 0) by nra.
  destruct (Req_EM_T x 0) as [->|Hn].
  - rewrite !Rpowr_zero; auto.
  - rewrite (Rpowr_pos x) by lra. rewrite Rpowr_pos by apply Rpower_gt0. rewrite Rpower_mult, Hyz. apply Rpower_1. lra.
Qed.
Lemma pow32_23 : forall x : R, 0 <= x -> pow32 (pow23 x) = x.
Proof. intros x Hx. rewrite pow23_R, pow32_R. apply Rpowr_inv; auto; lra. Qed.
Lemma pow23_32 : forall x : R, 0 <= x -> pow23 (pow32 x) = x.
Proof. intros x Hx. rewrite pow23_R, pow32_R. apply Rpowr_inv; auto; lra. Qed.
Lemma pow23_lt : forall x y : R, 0 <= x < y -> pow23 x < pow23 y.
Proof. intros; rewrite !pow23_R; apply Rpowr_lt; auto; lra. Qed.
Lemma pow23_le : forall x y : R, 0 <= x <= y -> pow23 x <= pow23 y.
Proof. intros; rewrite !pow23_R; apply Rpowr_le; auto; lra. Qed.
Lemma pow32_lt : forall x y : R, 0 <= x < y -> pow32 x < pow32 y.
Proof. intros; rewrite !pow32_R; apply Rpowr_lt; auto; lra. Qed.
Lemma pow32_le : forall x y : R, 0 <= x <= y -> pow32 x <= pow32 y.
Proof. intros; rewrite !pow32_R; apply Rpowr_le; auto; lra. Qed.
Lemma pow23_nonneg : forall x : R, 0 <= x -> 0 <= pow23 x.
Proof. intros; rewrite pow23_R; apply Rpowr_nonneg; auto; lra. Qed.
Lemma pow32_nonneg : forall x : R, 0 <= x -> 0 <= pow32 x.
Proof. intros; rewrite pow32_R; apply Rpowr_nonneg; auto; lra. Qed.
Lemma two_thirds_pow23 : forall x : R, 0 <= x -> two_thirds x (pow23 x).
Proof.
  intros x Hx. split; [apply pow23_nonneg; auto|]. rewrite pow23_R.
  destruct (Req_EM_T x 0) as [->|Hn]; [rewrite Rpowr_zero by lra; ring|]. rewrite Rpowr_pos by lra.
  rewrite <- !Rpower_plus. replace (2/3 + 2/3 + 2/3) with (1 + 1) by lra.
  rewrite Rpower_plus, Rpower_1 by lra. reflexivity.
Qed.
Lemma two_thirds_pow32 : forall x : R, 0 <= x -> two_thirds (pow32 x) x.
Proof. intros x Hx. pose proof (two_thirds_pow23 (pow32 x) (pow32_nonneg x Hx)) as H. rewrite pow23_32 in H; auto. Qed.

(** order statistics *)
Lemma hstat_ok : forall (v : list R) p n, length v = n -> (1 <= p <= n)%nat ->
  exists h, hstat v p n = Ok h /\ is_order_stat v (hrank n p) h /\ In h v.
Proof.
  intros v p n Hl Hp. unfold hstat. assert (Hk : (hrank n p < n)%nat) by (apply hrank_valid; lia).
  change (hpos n p) with (hrank n p). destruct (nth_error (sort v) (hrank n p)) as [h|] eqn:E.
  - exists h. assert (Hh : nth (hrank n p) (sort v) 0 = h) by (apply nth_error_nth; auto). split; auto. split.
    + exists (sort v). repeat split; auto; try apply sort_perm; try apply sort_sorted. lia.
    + rewrite <- Hh. apply sort_nth_in. lia.
  - apply nth_error_None in E. rewrite sort_length in E. lia.
Qed.
Lemma hstat_err : forall (v : list R) p n, length v = n -> (1 <= n)%nat -> (n < p)%nat -> hstat v p n = Err IndexError.
Proof.
  intros v p n Hl Hn Hp. unfold hstat. destruct (nth_error (sort v) (hpos n p)) as [h|] eqn:E; [|reflexivity].
  assert (Hk : (hpos n p < length (sort v))%nat) by (apply nth_error_Some; congruence).
  rewrite sort_length, Hl in Hk. change (hpos n p) with (hrank n p) in Hk. destruct (hrank_valid n p Hn ltac:(lia)) as [Hv _]. specialize (Hv Hk). lia.
Qed.

Definition nonneg_list (dd : list R) : Prop := Forall (fun d => 0 <= d) dd.
Lemma nonneg_nth : forall dd i, nonneg_list dd -> 0 <= nth i dd 0.
Proof.
  intros dd i H. destruct (Nat.lt_ge_cases i (length dd)) as [Hi|Hi].
  - unfold nonneg_list in H. rewrite Forall_forall in H. apply H, nth_In, Hi.
  - rewrite nth_overflow by auto. lra.
Qed.
Lemma order_stat_nonneg : forall dd k h, nonneg_list dd -> is_order_stat dd k h -> 0 <= h.
Proof.
  intros dd k h Hd (s & Hp & Hs & Hk & ->). unfold nonneg_list in Hd. rewrite Forall_forall in Hd. apply Hd.
  apply (Permutation_in _ (Permutation_sym Hp)). apply nth_In. rewrite <- (Permutation_length Hp). exact Hk.
Qed.
Lemma order_stat_map_incr : forall (f : R -> R) l k h, (forall x y, In x l -> In y l -> x <= y -> f x <= f y) ->
  is_order_stat l k h -> is_order_stat (map f l) k (f h).
Proof.
  intros f l k h Hf (s & Hp & Hs & Hk & ->). exists (map f s). split; [apply Permutation_map; auto|]. split.
  - assert (Hin : forall x, In x s -> In x l) by (intros x; apply Permutation_in, Permutation_sym; auto). clear Hp Hk.
    induction Hs as [|x s Hs IH Hx]; cbn [map]; constructor.
    + apply IH. intros y Hy. apply Hin. right; auto.
    + apply Forall_forall. intros y Hy. apply in_map_iff in Hy as [z [<- Hz]]. rewrite Forall_forall in Hx.
      apply Hf; auto; apply Hin; [left; auto|right; auto].
  - rewrite map_length. split; auto. rewrite (nth_indep (map f s) 0 (f 0)), map_nth; auto.
    rewrite map_length, <- (Permutation_length Hp). exact Hk.
Qed.
Lemma order_stat_unique : forall l k h h', is_order_stat l k h -> is_order_stat l k h' -> h = h'.
Proof.
  intros l k h h' (s & Hp & Hs & Hk & ->) (s' & Hp' & Hs' & Hk' & ->).
  rewrite (sorted_perm_unique s s'); auto. apply (perm_trans (Permutation_sym Hp) Hp').
Qed.

(** the six functions *)
Lemma map_nth_fun : forall (f : R -> R) dd i n, length dd = n -> (i < n)%nat -> nth i (map f dd) 0 = f (nth i dd 0).
Proof. intros f dd i n Hl Hi. apply nth_map_lt. lia. Qed.

Lemma quad_ok : forall dd p n, length dd = n -> nonneg_list dd -> (1 <= p <= n)%nat ->
  exists xi, quad dd p n = Ok xi /\ length xi = n /\ quad_rule n p dd xi.
Proof.
  intros dd p n Hl Hd Hp. destruct (hstat_ok dd p n Hl Hp) as (h & E & Ho & _).
  unfold quad. rewrite E. cbn [bind]. eexists; split; [reflexivity|]. split; [rewrite map_length; auto|].
  exists h. split; auto. intros i Hi. rewrite (map_nth_fun _ _ _ n) by auto. unfold nsqr. rnum.
  pose proof (order_stat_nonneg _ _ _ Hd Ho). pose proof (nonneg_nth dd i Hd).
  destruct (Rltb h (nth i dd 0)) eqn:Er; rcmp_all; split; intros; try lra. field. lra.
Qed.
Lemma winsor_ok : forall dd p n, length dd = n -> nonneg_list dd -> (1 <= p <= n)%nat ->
  exists xi, winsor dd p n = Ok xi /\ length xi = n /\ winsor_rule n p dd xi.
Proof.
  intros dd p n Hl Hd Hp. destruct (hstat_ok dd p n Hl Hp) as (h & E & Ho & _).
  unfold winsor. rewrite E. cbn [bind]. eexists; split; [reflexivity|]. split; [rewrite map_length; auto|].
  exists h. split; auto. intros i Hi. rewrite (map_nth_fun _ _ _ n) by auto. rnum.
  pose proof (order_stat_nonneg _ _ _ Hd Ho). pose proof (nonneg_nth dd i Hd).
  destruct (Rltb h (nth i dd 0)) eqn:Er; rcmp_all; split; intros; try lra. field. lra.
Qed.
Lemma hstat_pow23 : forall dd p n, length dd = n -> nonneg_list dd -> (1 <= p <= n)%nat ->
  exists h, hstat (map pow23 dd) p n = Ok (pow23 h) /\ is_order_stat dd (hrank n p) h /\ 0 <= h.
Proof.
  intros dd p n Hl Hd Hp. destruct (hstat_ok dd p n Hl Hp) as (h & _ & Ho & _).
  destruct (hstat_ok (map pow23 dd) p n ltac:(rewrite map_length; auto) Hp) as (h' & E & Ho' & _).
  exists h. split; [|split; [auto|apply (order_stat_nonneg _ _ _ Hd Ho)]]. rewrite E. f_equal.
  apply (order_stat_unique _ _ _ _ Ho'). apply order_stat_map_incr; auto.
  intros x y Hx Hy Hxy. apply pow23_le. unfold nonneg_list in Hd. rewrite Forall_forall in Hd. split; auto.
Qed.
Lemma ball_ok : forall dd p n, length dd = n -> nonneg_list dd -> (1 <= p <= n)%nat ->
  exists xi, ball dd p n = Ok xi /\ length xi = n /\ ball_rule n p dd xi.
Proof.
  intros dd p n Hl Hd Hp. destruct (hstat_pow23 dd p n Hl Hd Hp) as (h & E & Ho & Hh).
  unfold ball. rewrite E. cbn [bind]. eexists; split; [reflexivity|]. split; [rewrite map_length; auto|].
  exists h. split; auto. intros i Hi. rewrite (map_nth_fun _ _ _ n) by auto. rewrite pow32_23 by auto. rnum.
  destruct (Rltb h (nth i dd 0)) eqn:Er; rcmp_all; split; intros; lra.
Qed.

Lemma wh_ok : forall dd p n, length dd = n -> nonneg_list dd -> (1 <= p <= n)%nat ->
  exists h a, hstat (map pow23 dd) p n = Ok (pow23 h) /\
    hstat (map (fun d => nabs (nsub d (pow23 h))) (map pow23 dd)) p n = Ok a /\
    is_order_stat dd (hrank n p) h /\ 0 <= h /\ 0 <= a /\
    wilson_hilferty n p dd (map pow23 dd) (pow23 h) a.
Proof.
  intros dd p n Hl Hd Hp. destruct (hstat_pow23 dd p n Hl Hd Hp) as (h & E & Ho & Hh).
  destruct (hstat_ok (map (fun d => nabs (nsub d (pow23 h))) (map pow23 dd)) p n ltac:(rewrite !map_length; auto) Hp) as (a & Ea & Hoa & Hia).
  exists h, a. split; [auto|]. split; [auto|]. split; [auto|]. split; [auto|]. split.
  - apply in_map_iff in Hia as [z [<- _]]. rnum. apply Rabs_pos.
  - split; [rewrite map_length; auto|]. split.
    + intros i Hi. rewrite (map_nth_fun _ _ _ n) by auto. apply two_thirds_pow23, nonneg_nth, Hd.
    + split; [|exact Hoa]. apply order_stat_map_incr; auto.
      intros x y Hx Hy Hxy. apply pow23_le. unfold nonneg_list in Hd. rewrite Forall_forall in Hd. split; auto.
Qed.

Lemma shell_ok : forall dd p n, length dd = n -> nonneg_list dd -> (1 <= p <= n)%nat ->
  exists xi, shell dd p n = Ok xi /\ length xi = n /\ shell_rule n p dd xi.
Proof.
  intros dd p n Hl Hd Hp. destruct (wh_ok dd p n Hl Hd Hp) as (h & a & E1 & E2 & Ho & Hh & Ha & Hwh).
  unfold shell. rewrite E1. cbn [bind]. rewrite E2. cbn [bind].
  eexists; split; [reflexivity|]. split; [rewrite map_length; auto|].
  exists (map pow23 dd), (pow23 h), a. split; auto. intros i Hi. rewrite !(map_nth_fun _ _ _ n) by auto.
  pose proof (nonneg_nth dd i Hd) as Hdi. pose proof (pow23_nonneg _ Hdi) as Hti. pose proof (pow23_nonneg _ Hh) as Htm.
  set (d := nth i dd 0) in *.
  assert (H2 : pow32 (nadd (pow23 h) a) < d <-> pow23 h + a < pow23 d).
  { rnum. split; intros Hlt.
    - rewrite <- (pow23_32 (pow23 h + a)) by lra. apply pow23_lt. split; auto. apply pow32_nonneg; lra.
    - rewrite <- (pow32_23 d) by auto. apply pow32_lt. lra. }
  assert (H1 : d < pow32 (nmax n0 (nsub (pow23 h) a)) <-> pow23 d < pow23 h - a).
  { unfold nmax. rnum. destruct (Rltb 0 (pow23 h - a)) eqn:Eq; rcmp_all; split; intros Hlt.
    - rewrite <- (pow23_32 (pow23 h - a)) by lra. apply pow23_lt; lra.
    - rewrite <- (pow32_23 d) by auto. apply pow32_lt; lra.
    - rewrite pow32_R, Rpowr_zero in Hlt by lra. lra.
    - lra. }
  rnum. destruct (Rltb (pow32 (pow23 h + a)) d) eqn:Ea; rcmp_all.
  - apply H2 in Ea. split; intros Hc; [|reflexivity]. rewrite Rabs_right in Hc by lra. lra.
  - assert (~ pow23 h + a < pow23 d) by (intros Hc; apply H2 in Hc; lra).
    destruct (Rltb d (pow32 (nmax 0 (pow23 h - a)))) eqn:Eb; rcmp_all.
    + apply H1 in Eb. split; intros Hc; [|reflexivity]. rewrite Rabs_left in Hc by lra. lra.
    + assert (~ pow23 d < pow23 h - a) by (intros Hc; apply H1 in Hc; lra).
      split; intros Hc; [reflexivity|]. assert (Rabs (pow23 d - pow23 h) <= a) by (apply Rabs_le; lra). lra.
Qed.

Lemma linred_ok : forall dd p n, length dd = n -> nonneg_list dd -> (1 <= p <= n)%nat ->
  exists xi, linear_redescending dd p n = Ok xi /\ length xi = n /\ linred_rule n p dd xi.
Proof.
  intros dd p n Hl Hd Hp. destruct (wh_ok dd p n Hl Hd Hp) as (h & a & E1 & E2 & Ho & Hh & Ha & Hwh).
  unfold linear_redescending. rewrite E1. cbn [bind]. rewrite E2. cbn [bind].
  eexists; split; [reflexivity|]. split; [rewrite map_length; auto|].
  pose proof (pow23_nonneg _ Hh) as Htm.
  set (c := pow32 (pow23 h + 14826 / 10000 * a)).
  assert (Hc0 : 0 <= c) by (apply pow32_nonneg; lra).
  assert (Hhc : h <= c). { unfold c. rewrite <- (pow32_23 h) at 1 by auto. apply pow32_le. lra. }
  exists (map pow23 dd), (pow23 h), a, h, c. split; auto. split; auto. split; auto. split; [apply two_thirds_pow32; lra|].
  split; auto. intros i Hi. rewrite !(map_nth_fun _ _ _ n) by auto. rewrite pow32_23 by auto.
  rnum. fold c. set (d := nth i dd 0).
  destruct (Rltb c d) eqn:Ea, (Rltb h d) eqn:Eb, (Rleb d c) eqn:Ec; rcmp_all; cbn [andb]; repeat split; intros; lra.
Qed.

Lemma ss_ok : forall dd p n, length dd = n -> nonneg_list dd ->
  exists xi, ss dd p n = Ok xi /\ length xi = n /\ ss_rule n p dd xi.
Proof.
  intros dd p n Hl Hd. unfold ss. eexists; split; [reflexivity|]. split; [rewrite map_length; auto|].
  intros i Hi. rewrite (map_nth_fun _ _ _ n) by auto. pose proof (nonneg_nth dd i Hd) as Hdi. set (d := nth i dd 0) in *.
  unfold nmax, ss_prec. rnum. destruct (Rltb d (1 / 10000000000)) eqn:E; rcmp_all; (split; [|split]); intros; try lra.
  - apply Rdiv_lt_0_compat; lra.
  - field. lra.
Qed.

Lemma C21_too_few_l : forall f dd p n, length dd = n -> (1 <= n)%nat -> (n < p)%nat ->
  (f = Quad \/ f = Winsor \/ f = Ball \/ f = Shell \/ f = LinRed) -> radial_fun (A:=R) f dd p n = Err IndexError.
Proof.
  intros f dd p n Hl Hn Hp Hf.
  assert (H1 : hstat dd p n = Err IndexError) by (apply hstat_err; auto).
  assert (H2 : hstat (map pow23 dd) p n = Err IndexError) by (apply hstat_err; rewrite ?map_length; auto).
  destruct Hf as [->|[->|[->|[->| ->]]]]; cbn [radial_fun]; unfold quad, winsor, ball, shell, linear_redescending; rewrite ?H1, ?H2; reflexivity.
Qed.
Lemma C21_enough_l : forall f dd p n, length dd = n -> nonneg_list dd -> (1 <= p <= n)%nat ->
  (f = Quad \/ f = Winsor \/ f = Ball \/ f = Shell \/ f = LinRed) -> exists xi, radial_fun (A:=R) f dd p n = Ok xi /\ length xi = n.
Proof.
  intros f dd p n Hl Hd Hp Hf.
  destruct Hf as [->|[->|[->|[->| ->]]]]; cbn [radial_fun].
  - destruct (quad_ok dd p n Hl Hd Hp) as (xi & ? & ? & _); eauto.
  - destruct (winsor_ok dd p n Hl Hd Hp) as (xi & ? & ? & _); eauto.
  - destruct (ball_ok dd p n Hl Hd Hp) as (xi & ? & ? & _); eauto.
  - destruct (shell_ok dd p n Hl Hd Hp) as (xi & ? & ? & _); eauto.
  - destruct (linred_ok dd p n Hl Hd Hp) as (xi & ? & ? & _); eauto.
Qed.

Lemma C20_rules_l : forall dd p n, length dd = n -> nonneg_list dd -> (1 <= p <= n)%nat ->
  (exists xi, radial_fun Quad dd p n = Ok xi /\ length xi = n /\ quad_rule n p dd xi) /\
  (exists xi, radial_fun Winsor dd p n = Ok xi /\ length xi = n /\ winsor_rule n p dd xi) /\
  (exists xi, radial_fun Ball dd p n = Ok xi /\ length xi = n /\ ball_rule n p dd xi) /\
  (exists xi, radial_fun Shell dd p n = Ok xi /\ length xi = n /\ shell_rule n p dd xi) /\
  (exists xi, radial_fun LinRed dd p n = Ok xi /\ length xi = n /\ linred_rule n p dd xi) /\
  (exists xi, radial_fun SS dd p n = Ok xi /\ length xi = n /\ ss_rule n p dd xi).
Proof.
  intros dd p n Hl Hd Hp. repeat split; cbn [radial_fun].
  - apply quad_ok; auto.
  - apply winsor_ok; auto.
  - apply ball_ok; auto.
  - apply shell_ok; auto.
  - apply linred_ok; auto.
  - apply ss_ok; auto.
Qed.

(** factors in [0,1] *)
Lemma C19_unit_l : forall f dd p n xi, length dd = n -> nonneg_list dd -> (1 <= p <= n)%nat ->
  (f = Quad \/ f = Winsor \/ f = Ball \/ f = Shell \/ f = LinRed) ->
  radial_fun (A:=R) f dd p n = Ok xi -> forall i, (i < n)%nat -> 0 <= nth i xi 0 <= 1.
Proof.
  intros f dd p n xi Hl Hd Hp Hf E i Hi. pose proof (nonneg_nth dd i Hd) as Hdi.
  destruct Hf as [->|[->|[->|[->| ->]]]]; cbn [radial_fun] in E.
  - destruct (quad_ok dd p n Hl Hd Hp) as (xi' & E' & _ & h & Ho & Hr). rewrite E in E'. apply Ok_inj in E' as <-.
    pose proof (order_stat_nonneg _ _ _ Hd Ho). destruct (Hr i Hi) as [H1 H2].
    destruct (Rle_lt_dec (nth i dd 0) h) as [Hle|Hlt]; [rewrite H1; lra|]. specialize (H2 Hlt). set (d := nth i dd 0) in *.
    assert (E2 : nth i xi 0 * (d * d) = h * h). { rewrite <- Rmult_assoc, H2. field. lra. }
    assert (0 < d * d) by nra. split; [|apply (Rmult_le_reg_r (d * d)); nra]. apply (Rmult_le_reg_r (d * d)); nra.
  - destruct (winsor_ok dd p n Hl Hd Hp) as (xi' & E' & _ & h & Ho & Hr). rewrite E in E'. apply Ok_inj in E' as <-.
    pose proof (order_stat_nonneg _ _ _ Hd Ho). destruct (Hr i Hi) as [H1 H2].
    destruct (Rle_lt_dec (nth i dd 0) h) as [Hle|Hlt]; [rewrite H1; lra|]. specialize (H2 Hlt). set (d := nth i dd 0) in *.
    split; apply (Rmult_le_reg_r d); lra.
  - destruct (ball_ok dd p n Hl Hd Hp) as (xi' & E' & _ & h & Ho & Hr). rewrite E in E'. apply Ok_inj in E' as <-.
    destruct (Hr i Hi) as [H1 H2]. destruct (Rle_lt_dec (nth i dd 0) h) as [Hle|Hlt]; [rewrite H1|rewrite H2]; lra.
  - destruct (shell_ok dd p n Hl Hd Hp) as (xi' & E' & _ & t & m & a & Ho & Hr). rewrite E in E'. apply Ok_inj in E' as <-.
    destruct (Hr i Hi) as [H1 H2]. destruct (Rle_lt_dec (Rabs (nth i t 0 - m)) a) as [Hle|Hlt]; [rewrite H1|rewrite H2]; lra.
  - destruct (linred_ok dd p n Hl Hd Hp) as (xi' & E' & _ & t & m & a & h & c & Hw & Ho & Hc & _ & Hhc & Hr). rewrite E in E'. apply Ok_inj in E' as <-.
    destruct (Hr i Hi) as (H1 & H2 & H3). destruct (Rle_lt_dec (nth i dd 0) h) as [Hle|Hlt]; [rewrite H1; lra|].
    destruct (Rle_lt_dec (nth i dd 0) c) as [Hle2|Hlt2]; [rewrite H2 by lra|rewrite H3; lra].
    set (d := nth i dd 0) in *. assert (Hb : 0 <= (d - h) / (c - h) <= 1); [|lra].
    split; [apply Rmult_le_pos; [lra|left; apply Rinv_0_lt_compat; lra]|].
    apply (Rmult_le_reg_r (c - h)); [lra|]. unfold Rdiv. rewrite Rmult_assoc, Rinv_l by lra. lra.
Qed.

(** larger norms never get larger factors (all but shell) *)
Lemma C20_antitone_l : forall f dd p n xi, length dd = n -> nonneg_list dd -> (1 <= p <= n)%nat ->
  (f = Quad \/ f = Winsor \/ f = Ball \/ f = LinRed) -> radial_fun (A:=R) f dd p n = Ok xi ->
  forall i j, (i < n)%nat -> (j < n)%nat -> nth i dd 0 <= nth j dd 0 -> nth j xi 0 <= nth i xi 0.
Proof.
  intros f dd p n xi Hl Hd Hp Hf E i j Hi Hj Hij.
  assert (Hu : 0 <= nth i xi 0 <= 1 /\ 0 <= nth j xi 0 <= 1).
  { split; (apply (C19_unit_l f dd p n xi); auto; destruct Hf as [->|[->|[->| ->]]]; auto 6). }
  pose proof (nonneg_nth dd i Hd) as Hdi. pose proof (nonneg_nth dd j Hd) as Hdj.
  set (di := nth i dd 0) in *. set (dj := nth j dd 0) in *.
  destruct Hf as [->|[->|[->| ->]]]; cbn [radial_fun] in E.
  - destruct (quad_ok dd p n Hl Hd Hp) as (xi' & E' & _ & h & Ho & Hr). rewrite E in E'. apply Ok_inj in E' as <-.
    pose proof (order_stat_nonneg _ _ _ Hd Ho). destruct (Hr i Hi) as [H1 H2], (Hr j Hj) as [H3 H4]. fold di in H1, H2. fold dj in H3, H4.
    destruct (Rle_lt_dec di h) as [Hle|Hlt]; [rewrite H1; lra|]. specialize (H2 Hlt). specialize (H4 ltac:(lra)).
    assert (E2 : nth i xi 0 = h * h / (di * di)). { apply (Rmult_eq_reg_r di); [|lra]. rewrite H2. field. lra. }
    assert (E3 : nth j xi 0 = h * h / (dj * dj)). { apply (Rmult_eq_reg_r dj); [|lra]. rewrite H4. field. lra. }
    rewrite E2, E3. apply Rmult_le_compat_l; [nra|]. apply Rinv_le_contravar; nra.
  - destruct (winsor_ok dd p n Hl Hd Hp) as (xi' & E' & _ & h & Ho & Hr). rewrite E in E'. apply Ok_inj in E' as <-.
    pose proof (order_stat_nonneg _ _ _ Hd Ho). destruct (Hr i Hi) as [H1 H2], (Hr j Hj) as [H3 H4]. fold di in H1, H2. fold dj in H3, H4.
    destruct (Rle_lt_dec di h) as [Hle|Hlt]; [rewrite H1; lra|]. specialize (H2 Hlt). specialize (H4 ltac:(lra)).
    assert (E2 : nth i xi 0 = h / di). { apply (Rmult_eq_reg_r di); [|lra]. rewrite H2. field. lra. }
    assert (E3 : nth j xi 0 = h / dj). { apply (Rmult_eq_reg_r dj); [|lra]. rewrite H4. field. lra. }
    rewrite E2, E3. apply Rmult_le_compat_l; [nra|]. apply Rinv_le_contravar; nra.
  - destruct (ball_ok dd p n Hl Hd Hp) as (xi' & E' & _ & h & Ho & Hr). rewrite E in E'. apply Ok_inj in E' as <-.
    destruct (Hr i Hi) as [H1 H2], (Hr j Hj) as [H3 H4]. fold di in H1, H2. fold dj in H3, H4.
    destruct (Rle_lt_dec di h) as [Hle|Hlt]; [rewrite H1; lra|]. rewrite H4; lra.
  - destruct (linred_ok dd p n Hl Hd Hp) as (xi' & E' & _ & t & m & a & h & c & Hw & Ho & Hc & _ & Hhc & Hr). rewrite E in E'. apply Ok_inj in E' as <-.
    destruct (Hr i Hi) as (H1 & H2 & H3), (Hr j Hj) as (H4 & H5 & H6). fold di in H1, H2, H3. fold dj in H4, H5, H6.
    destruct (Rle_lt_dec di h) as [Hle|Hlt]; [rewrite H1; lra|].
    destruct (Rle_lt_dec dj c) as [Hle2|Hlt2]; [|rewrite H6; lra]. rewrite H2, H5 by lra.
    assert ((di - h) / (c - h) <= (dj - h) / (c - h)); [|lra]. apply Rmult_le_compat_r; [left; apply Rinv_0_lt_compat; lra|lra].
Qed.

(* ------------------------------------------------------------------ *)
(** the estimator level *)
Definition documented_radial {A} (f : radial (A:=A)) : Prop :=
  f = Quad \/ f = Winsor \/ f = Ball \/ f = Shell \/ f = LinRed \/ f = SS.
(** the published rule of each documented function *)
Definition radial_rule {A} (f : radial (A:=A)) : nat -> nat -> list R -> list R -> Prop :=
  match f with
  | Quad => quad_rule | SS => ss_rule | Winsor => winsor_rule | Ball => ball_rule
  | Shell => shell_rule | LinRed => linred_rule | RUser _ => fun _ _ _ _ => False
  end.

Lemma centre_only : forall (env : prep_env R) c n p X m st, wf n p X -> (2 <= n)%nat -> (1 <= p)%nat ->
  sc_fit env (new_scaler c SNone 0) (A2 X) = (st, Ok tt) -> a_center st = Some m -> length m = p ->
  versatile_scale env c SNone 0 (A2 X) = Ok (map (fun r => vsub r m) X) /\ c <> CBad.
Proof.
  intros env c n p X m st Hw Hn Hp E Em Hm. pose proof E as E0.
  apply fit_ok_inv in E as (m' & s & E1 & E2 & E3 & E4 & ->). cbn [a_center] in Em. injection Em as ->.
  split; [|intros ->; cbn in E4; discriminate].
  unfold versatile_scale, sc_fit_transform. rewrite E0. unfold sc_transform. cbn [a_center a_scale].
  rewrite (check_input_id n p) in * by auto.
  cbn [new_scaler sc_scale sc_trimming scale_est] in E2. apply Ok_inj in E2 as <-.
  assert (Hnc : ncols X = p) by (apply (wf_ncols n p); auto; lia).
  destruct (scale_data_cells n p X m (repeat n1 (ncols X))) as (Xs & E5 & Hw5 & Hc); auto; try lia; [rewrite repeat_length; auto|].
  rewrite E5. cbn. f_equal. apply (mat_ext n p); auto.
  - apply (wf_map_rows n p); auto. intros r Hr. rewrite vsub_length; lia.
  - intros i j Hi Hj. rewrite Hc by auto. rewrite (mget_map_rows n p) by auto. rewrite nth_vsub.
    + rewrite Hnc. rewrite (nth_indep (repeat n1 p) 0 n1) by (rewrite repeat_length; auto). rewrite nth_repeat. rnum.
      destruct (Req_EM_T 1 0); [lra|]. unfold mget. rnum. field.
    + rewrite (wf_nth_row n p) by auto. auto.
    + rewrite (wf_nth_row n p) by auto. auto.
Qed.

Lemma norms_edist : forall (X : list (list R)) m, norms (map (fun r => vsub r m) X) = map (fun r => edist r m) X.
Proof. intros X m. unfold norms. rewrite map_map. apply map_ext. intros r. rewrite edist_vnorm. reflexivity. Qed.
Lemma edists_nonneg : forall (X : list (list R)) m, nonneg_list (map (fun r => edist r m) X).
Proof. intros X m. apply Forall_forall. intros d Hd. apply in_map_iff in Hd as [r [<- _]]. apply sqrt_pos. Qed.

Lemma radial_documented : forall (f : radial (A:=R)) dd p n, documented_radial f -> length dd = n -> nonneg_list dd -> (1 <= p)%nat ->
  (p <= n)%nat \/ f = SS -> exists xi, radial_fun f dd p n = Ok xi /\ length xi = n /\ radial_rule f n p dd xi.
Proof.
  intros f dd p n Hf Hl Hd Hp Hpn.
  destruct Hf as [->|[->|[->|[->|[->| ->]]]]];
    try (destruct Hpn as [Hpn|Hpn]; [|discriminate]); cbn [radial_fun radial_rule].
  - apply quad_ok; auto.
  - apply winsor_ok; auto.
  - apply ball_ok; auto.
  - apply shell_ok; auto.
  - apply linred_ok; auto.
  - apply ss_ok; auto.
Qed.

Lemma row_mul_cells : forall n p (X : list (list R)) xi, wf n p X -> length xi = n ->
  wf n p (row_mul X xi) /\ forall i j, (i < n)%nat -> (j < p)%nat -> mget (row_mul X xi) i j = mget X i j * nth i xi 0.
Proof.
  intros n p X xi Hw Hx. split.
  - unfold row_mul. split; [rewrite map2_length_eq; rewrite (wf_length n p X Hw); auto|].
    apply Forall_forall. intros r Hr. apply (In_nth _ _ []) in Hr as [i [Hi <-]].
    rewrite map2_length_eq in Hi by (rewrite (wf_length n p X Hw); auto).
    rewrite (nth_map2 _ _ _ _ [] 0) by (rewrite ?(wf_length n p X Hw) in *; lia).
    rewrite map_length. apply (wf_nth_row n p); auto. rewrite (wf_length n p X Hw) in Hi. auto.
  - intros i j Hi Hj. unfold mget, row_mul. rewrite (nth_map2 _ _ _ _ [] 0) by (rewrite ?(wf_length n p X Hw); lia).
    rewrite (map_nth_fun _ _ _ p) by (auto; apply (wf_nth_row n p); auto). reflexivity.
Qed.

Lemma C19_rows_l : forall (env : prep_env R) c f n p X m st, is_matrix n p X -> (2 <= n)%nat -> (1 <= p)%nat ->
  documented_radial f -> (p <= n)%nat \/ f = SS -> c <> CNone ->
  sc_fit env (new_scaler c SNone 0) (A2 X) = (st, Ok tt) -> a_center st = Some m -> length m = p ->
  exists Z xi, gen_ss_pp env c (FStr f) (A2 X) = Ok Z /\
    snd (gss_fit_transform env (new_gss c (FStr f)) (A2 X)) = Ok Z /\
    is_matrix n p Z /\ length xi = n /\
    (forall i j, (i < n)%nat -> (j < p)%nat -> cell Z i j = nth i xi 0 * (cell X i j - nth j m 0)) /\
    radial_rule f n p (map (fun r => edist r m) X) xi /\
    (f <> SS -> forall i, (i < n)%nat -> 0 <= nth i xi 0 <= 1).
Proof.
  intros env c f n p X m st Hw Hn Hp Hf Hpn Hc E Em Hm.
  destruct (centre_only env c n p X m st Hw Hn Hp E Em Hm) as [Ev Hcb].
  assert (Hl : length (map (fun r => edist r m) X) = n) by (rewrite map_length; apply (wf_length n p); auto).
  destruct (radial_documented f (map (fun r => edist r m) X) p n Hf Hl (edists_nonneg X m) Hp Hpn) as (xi & Ex & Hxl & Hr).
  assert (HwX : wf n p (map (fun r => vsub r m) X)).
  { apply (wf_map_rows n p); auto. intros r Hr'. rewrite vsub_length; lia. }
  destruct (row_mul_cells n p _ xi HwX Hxl) as [HwZ HcZ].
  assert (Hci : check_input (A2 X) = X) by (apply (check_input_id n p); auto).
  assert (Hnc : ncols X = p) by (apply (wf_ncols n p); auto; lia).
  exists (row_mul (map (fun r => vsub r m) X) xi), xi. split; [|split; [|split; [exact HwZ|split; [exact Hxl|split; [|split; [exact Hr|]]]]]].
  - unfold gen_ss_pp. rewrite Hci, Hnc, (wf_length n p X Hw).
    assert (Hg : bind (versatile_scale env c SNone n0 (A2 X)) (fun Xm => gsspp_ Xm p n f) = Ok (row_mul (map (fun r => vsub r m) X) xi)).
    { change (@n0 R Num_R) with 0. rewrite Ev. cbn [bind]. unfold gsspp_. rewrite norms_edist, Ex. reflexivity. }
    destruct c; auto; congruence.
  - unfold gss_fit_transform, gss_fit. cbn [new_gss g_fun g_center]. rewrite Hci, Hnc, (wf_length n p X Hw).
    change (@n0 R Num_R) with 0. rewrite Ev. cbn [bind]. rewrite norms_edist, Ex. cbn [bind]. reflexivity.
  - intros i j Hi Hj. rewrite cell_mget, HcZ by auto. rewrite (mget_map_rows n p) by auto. rewrite nth_vsub.
    + rewrite cell_mget. unfold mget. rnum. ring.
    + rewrite (wf_nth_row n p); auto.
    + rewrite (wf_nth_row n p); auto.
  - intros Hs. apply (C19_unit_l f (map (fun r => edist r m) X) p n xi Hl (edists_nonneg X m)); auto.
    + destruct Hpn as [|Hpn]; [lia|congruence].
    + destruct Hf as [->|[->|[->|[->|[->| ->]]]]]; auto 6. congruence.
Qed.

(** spatial signs *)
Lemma C22_unit_l : forall (env : prep_env R) c n p X m st, is_matrix n p X -> (2 <= n)%nat -> (1 <= p)%nat -> c <> CNone ->
  sc_fit env (new_scaler c SNone 0) (A2 X) = (st, Ok tt) -> a_center st = Some m -> length m = p ->
  exists Z, gen_ss_pp env c (FStr SS) (A2 X) = Ok Z /\ is_matrix n p Z /\
    forall i, (i < n)%nat ->
      (exists a, 0 < a /\ forall j, (j < p)%nat -> cell Z i j = a * (cell X i j - nth j m 0)) /\
      (1 / 10000000000 <= edist (nth i X []) m -> sqlen (nth i Z []) = 1) /\
      (edist (nth i X []) m < 1 / 10000000000 -> sqlen (nth i Z []) < 1).
Proof.
  intros env c n p X m st Hw Hn Hp Hc E Em Hm.
  destruct (C19_rows_l env c SS n p X m st Hw Hn Hp) as (Z & xi & EZ & _ & HwZ & Hxl & Hcell & Hr & _); auto;
    [unfold documented_radial; auto 7|].
  exists Z. split; auto. split; auto. intros i Hi. cbn [radial_rule] in Hr.
  assert (Hd : nth i (map (fun r => edist r m) X) 0 = edist (nth i X []) m).
  { rewrite (nth_map_lt _ _ _ []); auto. rewrite (wf_length n p X Hw). auto. }
  specialize (Hr i Hi). rewrite Hd in Hr. destruct Hr as (Hxi & H1 & H2).
  assert (Hrow : nth i Z [] = vscale (nth i xi 0) (vsub (nth i X []) m)).
  { assert (Hlx : length (nth i X []) = p) by (apply (wf_nth_row n p); auto).
    assert (Hlz : length (nth i Z []) = p) by (apply (wf_nth_row n p); auto).
    apply (list_ext _ _ 0).
    - rewrite vscale_length, vsub_length; lia.
    - intros j Hj. rewrite nth_vscale, nth_vsub by lia. apply Hcell; auto. lia. }
  assert (Hsq : sqlen (nth i Z []) = (nth i xi 0 * edist (nth i X []) m) * (nth i xi 0 * edist (nth i X []) m)).
  { rewrite Hrow, sqlen_dot, dot_vscale_l, dot_vscale_r, edist_vnorm.
    rewrite <- norm_sq. ring. }
  assert (Hd0 : 0 <= edist (nth i X []) m) by apply sqrt_pos.
  split; [exists (nth i xi 0); split; auto|]. split.
  - intros Hge. rewrite Hsq, H1 by auto. ring.
  - intros Hlt. rewrite Hsq. specialize (H2 Hlt). nra.
Qed.

(* ------------------------------------------------------------------ *)
(** gen_ss_covmat *)
Lemma wf_table : forall {A} n p (f : nat -> nat -> A), wf n p (map (fun i => map (fun j => f i j) (seq 0 p)) (seq 0 n)).
Proof.
  intros A n p f. split; [rewrite map_length, seq_length; auto|]. apply Forall_forall. intros r Hr.
  apply in_map_iff in Hr as [i [<- _]]. rewrite map_length, seq_length. reflexivity.
Qed.
Lemma mget_table : forall n p (f : nat -> nat -> R) i j, (i < n)%nat -> (j < p)%nat ->
  mget (map (fun i => map (fun j => f i j) (seq 0 p)) (seq 0 n)) i j = f i j.
Proof.
  intros n p f i j Hi Hj. unfold mget. rewrite (nth_map_lt _ _ _ 0%nat) by (rewrite seq_length; auto).
  rewrite (nth_map_lt _ _ _ 0%nat) by (rewrite seq_length; auto). rewrite !seq_nth by auto. reflexivity.
Qed.

Lemma elementwise_TX : forall n p (Z : list (list R)), wf n p Z -> (2 <= n)%nat -> (1 <= p)%nat ->
  ((2 <= p)%nat -> n <> p -> elementwise nmul (transpose Z) Z = Err ValueError) /\
  (p = n -> exists W, elementwise nmul (transpose Z) Z = Ok W /\ wf n n W /\
     forall i j, (i < n)%nat -> (j < n)%nat -> mget W i j = mget Z j i * mget Z i j) /\
  (p = 1%nat -> exists W, elementwise nmul (transpose Z) Z = Ok W /\ wf n n W /\
     forall i j, (i < n)%nat -> (j < n)%nat -> mget W i j = mget Z j 0 * mget Z i 0).
Proof.
  intros n p Z Hw Hn Hp.
  assert (HwT : wf p n (transpose Z)) by (apply wf_cols; auto; lia).
  assert (E1 : length (transpose Z) = p) by apply HwT.
  assert (E2 : ncols (transpose Z) = n) by (apply (wf_ncols p n); auto).
  assert (E3 : length Z = n) by apply Hw. assert (E4 : ncols Z = p) by (apply (wf_ncols n p); auto; lia).
  unfold elementwise. rewrite E1, E2, E3, E4. split; [|split].
  - intros Hp2 Hnp. unfold bcast. destruct (Nat.eqb_spec p n); [lia|]. destruct (Nat.eqb_spec p 1); [lia|].
    destruct (Nat.eqb_spec n 1); [lia|]. reflexivity.
  - intros ->. unfold bcast. rewrite Nat.eqb_refl. eexists; split; [reflexivity|]. split; [apply (wf_table n n)|].
    intros i j Hi Hj. rewrite (mget_table n n) by auto. destruct (Nat.eqb_spec n 1); [lia|]. rnum. f_equal.
    unfold transpose. apply (mget_cols n n); auto.
  - intros ->. unfold bcast. destruct (Nat.eqb_spec 1 n); [lia|]. rewrite Nat.eqb_refl. destruct (Nat.eqb_spec n 1); [lia|].
    eexists; split; [reflexivity|]. split; [apply (wf_table n n)|].
    intros i j Hi Hj. rewrite (mget_table n n) by auto. rnum. f_equal. unfold transpose. apply (mget_cols n 1); auto.
Qed.

Lemma C23_behaviour_l : forall (env : prep_env R) c f n p X m st, is_matrix n p X -> (2 <= n)%nat -> (1 <= p)%nat ->
  documented_radial f -> (p <= n)%nat \/ f = SS -> c <> CNone ->
  sc_fit env (new_scaler c SNone 0) (A2 X) = (st, Ok tt) -> a_center st = Some m -> length m = p ->
  gen_ss_covmat env c (FStr f) (A2 X) = Err TypeError /\
  ((2 <= p)%nat -> n <> p -> gen_ss_covmat env c (FCall f) (A2 X) = Err ValueError) /\
  exists Z, gen_ss_pp env c (FCall f) (A2 X) = Ok Z /\ is_matrix n p Z /\
    (p = n -> exists W, gen_ss_covmat env c (FCall f) (A2 X) = Ok W /\ is_matrix n n W /\
       forall i j, (i < n)%nat -> (j < n)%nat -> cell W i j = cell Z j i * cell Z i j / INR n) /\
    (p = 1%nat -> exists W, gen_ss_covmat env c (FCall f) (A2 X) = Ok W /\ is_matrix n n W /\
       forall i j, (i < n)%nat -> (j < n)%nat -> cell W i j = cell Z j 0 * cell Z i 0 / INR n).
Proof.
  intros env c f n p X m st Hw Hn Hp Hf Hpn Hc E Em Hm.
  destruct (centre_only env c n p X m st Hw Hn Hp E Em Hm) as [Ev Hcb].
  destruct (C19_rows_l env c f n p X m st Hw Hn Hp Hf Hpn Hc E Em Hm) as (Z & xi & EZ & _ & HwZ & _).
  assert (Hci : check_input (A2 X) = X) by (apply (check_input_id n p); auto).
  assert (Hnc : ncols X = p) by (apply (wf_ncols n p); auto; lia).
  assert (Hln : length X = n) by apply Hw.
  assert (EZ2 : gen_ss_pp env c (FCall f) (A2 X) = Ok Z) by (rewrite <- EZ; destruct c; reflexivity).
  assert (EZ3 : gsspp_ (map (fun r => vsub r m) X) p n f = Ok Z).
  { rewrite <- EZ. unfold gen_ss_pp. rewrite Hci, Hnc, Hln. change (@n0 R Num_R) with 0. rewrite Ev. destruct c; try reflexivity; congruence. }
  destruct (elementwise_TX n p Z HwZ Hn Hp) as (F1 & F2 & F3).
  assert (EC : gen_ss_covmat env c (FCall f) (A2 X) = bind (elementwise nmul (transpose Z) Z) (fun W => Ok (map (map (fun v => ndiv v (nnat n))) W))).
  { unfold gen_ss_covmat. rewrite Hci, Hnc, Hln. change (@n0 R Num_R) with 0. rewrite Ev. cbn [bind]. rewrite EZ3. reflexivity. }
  split; [|split].
  - unfold gen_ss_covmat. rewrite Hci. change (@n0 R Num_R) with 0. rewrite Ev. reflexivity.
  - intros Hp2 Hnp. rewrite EC, F1 by auto. reflexivity.
  - exists Z. split; auto. split; auto. split.
    + intros Hpn2. destruct (F2 Hpn2) as (W & EW & HwW & HcW). rewrite EC, EW. eexists; split; [reflexivity|].
      split; [apply (wf_mapmap n n); auto|]. intros i j Hi Hj. rewrite cell_mget, (mget_mapmap n n) by auto.
      rewrite HcW, nnat_R by auto. reflexivity.
    + intros Hp1. destruct (F3 Hp1) as (W & EW & HwW & HcW). rewrite EC, EW. eexists; split; [reflexivity|].
      split; [apply (wf_mapmap n n); auto|]. intros i j Hi Hj. rewrite cell_mget, (mget_mapmap n n) by auto.
      rewrite HcW, nnat_R by auto. reflexivity.
Qed.

Lemma C24_returned_l : forall (env : prep_env R) c f X Z x,
  snd (gss_fit_transform env (new_gss c f) X) = Ok Z ->
  gss_transform (fst (gss_fit_transform env (new_gss c f) X)) x = Ok Z.
Proof.
  intros env c f X Z x E. unfold gss_fit_transform in *. destruct (gss_fit env (new_gss c f) X) as [st [u|e]]; cbn [fst snd] in *.
  - exact E.
  - discriminate.
Qed.

(** the plain spatial sign *)
Lemma sqlen_zero_or_pos : forall u : list R, 0 <= dot u u.
Proof. intros u. rewrite <- norm_sq. pose proof (norm_nonneg u). nra. Qed.
Lemma div_norm_vscale : forall r : list R, map (fun x => ndiv x (vnorm r)) r = vscale (/ vnorm r) r.
Proof. intros r. unfold vscale. apply map_ext. intros x. rnum. unfold Rdiv. ring. Qed.
Lemma C22_sign_l : forall n p X i, is_matrix n p X -> (i < n)%nat -> sqlen (nth i X []) <> 0 ->
  is_matrix n p (spatial_sign X) /\ sqlen (nth i (spatial_sign X) []) = 1 /\
  (exists a, 0 < a /\ forall j, (j < p)%nat -> cell (spatial_sign X) i j = a * cell X i j) /\
  nth i (spatial_sign (spatial_sign X)) [] = nth i (spatial_sign X) [].
Proof.
  intros n p X i [Hl HF] Hi Hne. rewrite sqlen_dot in Hne.
  assert (Er : nth i (spatial_sign X) [] = vscale (/ vnorm (nth i X [])) (nth i X [])).
  { unfold spatial_sign. rewrite nth_map_lt with (db := []) by lia. apply div_norm_vscale. }
  assert (Hpos : 0 < vnorm (nth i X [])).
  { pose proof (norm_nonneg (nth i X [])) as H0. pose proof (norm_sq (nth i X [])) as H1. destruct H0 as [H0|H0]; auto. rewrite <- H0 in H1. lra. }
  assert (Eu : sqlen (nth i (spatial_sign X) []) = 1).
  { rewrite Er, sqlen_dot, dot_vscale_l, dot_vscale_r, <- norm_sq. field. lra. }
  assert (Hrow : length (nth i X []) = p) by (rewrite Forall_forall in HF; apply HF, nth_In; lia).
  split; [|split; [exact Eu|split]].
  - split; [unfold spatial_sign; rewrite map_length; auto|]. unfold spatial_sign. apply Forall_map. eapply Forall_impl; [|exact HF]. intros r Hr. rewrite map_length. exact Hr.
  - exists (/ vnorm (nth i X [])). split; [apply Rinv_0_lt_compat; auto|]. intros j Hj. unfold cell. rewrite Er. unfold vscale.
    rewrite nth_map_lt with (db := 0) by lia. reflexivity.
  - assert (E2 : nth i (spatial_sign (spatial_sign X)) [] = vscale (/ vnorm (nth i (spatial_sign X) [])) (nth i (spatial_sign X) [])).
    { unfold spatial_sign at 1. rewrite nth_map_lt with (db := []) by (unfold spatial_sign; rewrite map_length; lia). apply div_norm_vscale. }
    rewrite E2. rewrite sqlen_dot in Eu. rewrite norm_dot, Eu, sqrt_1, Rinv_1. unfold vscale. rewrite <- (map_id (nth i (spatial_sign X) [])) at 2.
    apply map_ext. intros x. rnum. ring.
Qed.
