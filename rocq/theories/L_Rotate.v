(** Lemmas for C166-C168: rotations. *)

From Coq Require Import Reals List Arith ZArith Bool Lia Lra Permutation Sorted.
Import ListNotations.
From Verif Require Import Num Err Vec VecR OrdR L_Mat S_Stats S_Radial S_Rotate L_Stats M_Utils M_Preproc M_Robcent M_Gsspp
  L_Scaling L_Scaling2 L_Lin L_Preproc L_Radial.
Open Scope R_scope.

Lemma rotated_length : forall p Q r, length (rotated p Q r) = p.
Proof. intros. unfold rotated. rewrite map_length, seq_length. reflexivity. Qed.
Lemma moved_length : forall p c Q v r, length (moved p c Q v r) = p.
Proof. intros. unfold moved. rewrite map_length, seq_length. reflexivity. Qed.
Lemma nth_map_seq : forall (f : nat -> R) p j, (j < p)%nat -> nth j (map f (seq 0 p)) 0 = f j.
Proof. intros f p j Hj. rewrite (nth_map_lt f _ j O 0) by (rewrite seq_length; auto). rewrite seq_nth by auto. reflexivity. Qed.
Lemma nth_rotated : forall p Q r j, (j < p)%nat -> nth j (rotated p Q r) 0 = dot r (col j Q).
Proof. intros. unfold rotated. rewrite nth_map_seq by auto. rewrite inner_dot. reflexivity. Qed.
Lemma nth_rotated_sumn : forall p Q r j, is_matrix p p Q -> length r = p -> (j < p)%nat ->
  nth j (rotated p Q r) 0 = sumn p (fun a => nth a r 0 * mget Q a j).
Proof.
  intros p Q r j HQ Hr Hj. rewrite nth_rotated by auto. rewrite dot_comm, (dot_col_sumn p p) by auto.
  apply sumn_ext. intros; ring.
Qed.
Lemma nth_moved : forall p c Q v r j, (j < p)%nat -> nth j (moved p c Q v r) 0 = c * nth j (rotated p Q r) 0 + nth j v 0.
Proof. intros. unfold moved. rewrite nth_map_seq by auto. reflexivity. Qed.

Lemma rotated_dot : forall p Q u w, rotation p Q -> length u = p -> length w = p ->
  dot (rotated p Q u) (rotated p Q w) = dot u w.
Proof.
  intros p Q u w [HQ HO] Hu Hw.
  rewrite (dot_sumn _ _ p) by apply rotated_length. rewrite (dot_sumn u w p) by auto.
  transitivity (sumn p (fun j => sumn p (fun a => sumn p (fun b => nth a u 0 * nth b w 0 * (mget Q a j * mget Q b j))))).
  { apply sumn_ext. intros j Hj. rewrite !(nth_rotated_sumn p) by auto. rewrite <- sumn_scal_r. apply sumn_ext. intros a Ha.
    rewrite <- sumn_scal. apply sumn_ext. intros b Hb. ring. }
  rewrite sumn_exchange. apply sumn_ext. intros a Ha.
  rewrite sumn_exchange.
  transitivity (sumn p (fun b => nth a u 0 * nth b w 0 * (if (a =? b)%nat then 1 else 0))).
  { apply sumn_ext. intros b Hb. rewrite <- (proj1 (HO a b Ha Hb)). rewrite sumn_scal. f_equal.
    rewrite inner_dot, (dot_row_sumn p p) by (auto; apply (wf_nth_row p p); auto). apply sumn_ext. intros j Hj. reflexivity. }
  rewrite (sumn_ext p _ (fun b => if (b =? a)%nat then nth a u 0 * nth b w 0 else 0)).
  - rewrite (sumn_delta p a (fun b => nth a u 0 * nth b w 0)) by auto. reflexivity.
  - intros b Hb. rewrite (Nat.eqb_sym a b). destruct (b =? a)%nat; ring.
Qed.

Lemma rotated_vsub : forall p Q u w, is_matrix p p Q -> length u = p -> length w = p ->
  vsub (rotated p Q u) (rotated p Q w) = rotated p Q (vsub u w).
Proof.
  intros p Q u w HQ Hu Hw. apply (list_ext _ _ 0); [rewrite vsub_length; rewrite !rotated_length; auto|].
  intros j Hj. rewrite vsub_length, rotated_length in Hj by (rewrite !rotated_length; auto).
  rewrite nth_vsub by (rewrite !rotated_length; auto).
  rewrite !nth_rotated by auto. rewrite dot_vsub_l by lia. reflexivity.
Qed.
Lemma rotated_vscale : forall p Q a u, rotated p Q (vscale a u) = vscale a (rotated p Q u).
Proof.
  intros p Q a u. apply (list_ext _ _ 0); [rewrite vscale_length, !rotated_length; auto|].
  intros j Hj. rewrite rotated_length in Hj. rewrite nth_vscale, !nth_rotated by auto. rewrite dot_vscale_l. reflexivity.
Qed.
Lemma moved_vsub : forall p c Q v u w, is_matrix p p Q -> length u = p -> length w = p ->
  vsub (moved p c Q v u) (moved p c Q v w) = vscale c (rotated p Q (vsub u w)).
Proof.
  intros p c Q v u w HQ Hu Hw. rewrite <- rotated_vsub by auto.
  apply (list_ext _ _ 0); [rewrite vscale_length, !vsub_length; rewrite ?moved_length, ?rotated_length; auto|].
  intros j Hj. rewrite vsub_length, moved_length in Hj by (rewrite !moved_length; auto).
  rewrite nth_vscale, !nth_vsub by (rewrite ?moved_length, ?rotated_length; auto).
  rewrite !nth_moved by auto. ring.
Qed.
Lemma moved_edist : forall p c Q v u w, rotation p Q -> 0 <= c -> length u = p -> length w = p ->
  edist (moved p c Q v u) (moved p c Q v w) = c * edist u w.
Proof.
  intros p c Q v u w HQ Hc Hu Hw. rewrite !edist_vnorm, moved_vsub by (auto; apply HQ).
  rewrite norm_vscale, Rabs_right by lra. f_equal. rewrite !norm_dot. f_equal.
  apply rotated_dot; auto; rewrite vsub_length; lia.
Qed.

(** radial functions are unchanged when all norms are multiplied *)
Lemma pow23_mult : forall a b : R, 0 < a -> 0 <= b -> pow23 (a * b) = pow23 a * pow23 b.
Proof.
  intros a b Ha Hb. rewrite !pow23_R. destruct (Req_dec b 0) as [->|Hb'].
  - rewrite Rmult_0_r. rewrite Rpowr_zero by lra. ring.
  - rewrite !Rpowr_pos by (try nra; lra). unfold Rpower. rewrite ln_mult by lra. rewrite <- exp_plus. f_equal. ring.
Qed.
Lemma pow32_mult : forall a b : R, 0 < a -> 0 <= b -> pow32 (a * b) = pow32 a * pow32 b.
Proof.
  intros a b Ha Hb. rewrite !pow32_R. destruct (Req_dec b 0) as [->|Hb'].
  - rewrite Rmult_0_r. rewrite Rpowr_zero by lra. ring.
  - rewrite !Rpowr_pos by (try nra; lra). unfold Rpower. rewrite ln_mult by lra. rewrite <- exp_plus. f_equal. ring.
Qed.
Lemma pow23_pos : forall a : R, 0 < a -> 0 < pow23 a.
Proof. intros a Ha. rewrite pow23_R, Rpowr_pos by auto. apply Rpower_gt0. Qed.
Lemma hstat_scaled : forall (v : list R) c p n, 0 < c -> hstat (map (Rmult c) v) p n = bind (hstat v p n) (fun h => Ok (c * h)).
Proof.
  intros v c p n Hc. unfold hstat. rewrite sort_map_incr by (intros; nra). rewrite nth_error_map.
  destruct (nth_error (sort v) (hpos n p)); reflexivity.
Qed.
Lemma Rltb_scaled : forall c a b, 0 < c -> Rltb (c * a) (c * b) = Rltb a b.
Proof. intros c a b Hc. unfold Rltb. destruct (Rlt_dec (c * a) (c * b)), (Rlt_dec a b); auto; exfalso; nra. Qed.
Lemma Rleb_scaled : forall c a b, 0 < c -> Rleb (c * a) (c * b) = Rleb a b.
Proof. intros c a b Hc. unfold Rleb. destruct (Rle_dec (c * a) (c * b)), (Rle_dec a b); auto; exfalso; nra. Qed.

Lemma bind_ok : forall {A B} (x : A) (f : A -> res B), bind (Ok x) f = f x. Proof. reflexivity. Qed.
Lemma map_scaled_wh : forall c dd, 0 < c -> nonneg_list dd -> map pow23 (map (Rmult c) dd) = map (Rmult (pow23 c)) (map pow23 dd).
Proof.
  intros c dd Hc Hd. rewrite !map_map. apply map_ext_in. intros d Hin. unfold nonneg_list in Hd. rewrite Forall_forall in Hd.
  apply pow23_mult; auto.
Qed.
Lemma map_absdev_scaled : forall c (l : list R) h, 0 < c ->
  map (fun d => nabs (nsub d (c * h))) (map (Rmult c) l) = map (Rmult c) (map (fun d => nabs (nsub d h)) l).
Proof.
  intros c l h Hc. rewrite !map_map. apply map_ext. intros d. rnum. replace (c * d - c * h) with (c * (d - h)) by ring.
  rewrite Rabs_mult, (Rabs_right c) by lra. reflexivity.
Qed.
Lemma hstat_nonneg : forall (v : list R) p n h, nonneg_list v -> hstat v p n = Ok h -> 0 <= h.
Proof.
  intros v p n h Hv E. unfold hstat in E. destruct (nth_error (sort v) (hpos n p)) as [h'|] eqn:En; [|discriminate].
  injection E as <-. apply nth_error_In in En. apply (Permutation_in _ (Permutation_sym (sort_perm v))) in En.
  unfold nonneg_list in Hv. rewrite Forall_forall in Hv. auto.
Qed.
Lemma nonneg_pow23 : forall dd, nonneg_list dd -> nonneg_list (map (@pow23 R _) dd).
Proof.
  intros dd Hd. apply Forall_forall. intros x Hx. apply in_map_iff in Hx as [d [<- Hin]]. unfold nonneg_list in Hd.
  rewrite Forall_forall in Hd. apply pow23_nonneg; auto.
Qed.
Lemma nonneg_abs : forall (l : list R) h, nonneg_list (map (fun d => nabs (nsub d h)) l).
Proof. intros l h. apply Forall_forall. intros x Hx. apply in_map_iff in Hx as [d [<- _]]. rnum. apply Rabs_pos. Qed.
Lemma Rmax_scaled : forall c a, 0 < c -> nmax 0 (c * a) = c * nmax 0 a.
Proof.
  intros c a Hc. unfold nmax. rnum. unfold Rltb. destruct (Rlt_dec 0 (c * a)), (Rlt_dec 0 a); auto; try ring; exfalso; nra.
Qed.
Lemma nmax0_nonneg : forall a : R, 0 <= nmax 0 a.
Proof. intros a. unfold nmax. rnum. unfold Rltb, Rleb. repeat destruct Rle_dec; repeat destruct Rlt_dec; lra. Qed.

Lemma radial_scaled : forall f dd p n c, (f = Quad \/ f = Winsor \/ f = Ball \/ f = Shell \/ f = LinRed) -> nonneg_list dd -> 0 < c ->
  radial_fun (A:=R) f (map (Rmult c) dd) p n = radial_fun f dd p n.
Proof.
  intros f dd p n c Hf Hd Hc. pose proof (pow23_pos c Hc) as Hk.
  assert (Hin : forall d, In d dd -> 0 <= d) by (unfold nonneg_list in Hd; rewrite Forall_forall in Hd; auto).
  assert (Hkc : pow32 (pow23 c) = c) by (apply pow32_23; lra).
  destruct Hf as [->|[->|[->|[->| ->]]]]; cbn [radial_fun].
  - unfold quad. rewrite hstat_scaled by auto. destruct (hstat dd p n) as [h|e] eqn:E; [|reflexivity]. rewrite !bind_ok. f_equal.
    rewrite map_map. apply map_ext_in. intros d Hi. specialize (Hin d Hi). pose proof (hstat_nonneg _ _ _ _ Hd E). rnum. rewrite Rltb_scaled by auto.
    unfold Rltb. destruct (Rlt_dec h d); [|reflexivity]. unfold nsqr. rnum. field. split; lra.
  - unfold winsor. rewrite hstat_scaled by auto. destruct (hstat dd p n) as [h|e] eqn:E; [|reflexivity]. rewrite !bind_ok. f_equal.
    rewrite map_map. apply map_ext_in. intros d Hi. specialize (Hin d Hi). pose proof (hstat_nonneg _ _ _ _ Hd E). rnum. rewrite Rltb_scaled by auto.
    unfold Rltb. destruct (Rlt_dec h d); [|reflexivity]. field. split; lra.
  - unfold ball. rewrite map_scaled_wh, hstat_scaled by auto. destruct (hstat (map pow23 dd) p n) as [h|e] eqn:E; [|reflexivity]. rewrite !bind_ok. f_equal.
    pose proof (hstat_nonneg _ _ _ _ (nonneg_pow23 dd Hd) E). rewrite pow32_mult, Hkc by auto.
    rewrite map_map. apply map_ext_in. intros d Hi. rnum. rewrite Rltb_scaled by auto. reflexivity.
  - unfold shell. rewrite map_scaled_wh, hstat_scaled by auto. destruct (hstat (map pow23 dd) p n) as [h|e] eqn:E; [|reflexivity]. rewrite !bind_ok.
    rewrite map_absdev_scaled, hstat_scaled by auto.
    destruct (hstat (map (fun d => nabs (nsub d h)) (map pow23 dd)) p n) as [a|e] eqn:Ea; [|reflexivity]. rewrite !bind_ok. f_equal.
    pose proof (hstat_nonneg _ _ _ _ (nonneg_pow23 dd Hd) E). pose proof (hstat_nonneg _ _ _ _ (nonneg_abs _ h) Ea).
    replace (nsub (pow23 c * h) (pow23 c * a)) with (pow23 c * nsub h a) by (rnum; ring).
    replace (nadd (pow23 c * h) (pow23 c * a)) with (pow23 c * nadd h a) by (rnum; ring).
    change (@n0 R _) with 0. rewrite Rmax_scaled by auto.
    assert (0 <= nmax 0 (nsub h a)) by (apply nmax0_nonneg). rewrite !pow32_mult, Hkc by (auto; rnum; lra).
    rewrite map_map. apply map_ext_in. intros d Hi. rnum. rewrite !Rltb_scaled by auto. reflexivity.
  - unfold linear_redescending. rewrite map_scaled_wh, hstat_scaled by auto. destruct (hstat (map pow23 dd) p n) as [h|e] eqn:E; [|reflexivity]. rewrite !bind_ok.
    rewrite map_absdev_scaled, hstat_scaled by auto.
    destruct (hstat (map (fun d => nabs (nsub d h)) (map pow23 dd)) p n) as [a|e] eqn:Ea; [|reflexivity]. rewrite !bind_ok. f_equal.
    pose proof (hstat_nonneg _ _ _ _ (nonneg_pow23 dd Hd) E). pose proof (hstat_nonneg _ _ _ _ (nonneg_abs _ h) Ea).
    set (b := nlit 14826 10000). assert (Hb : 0 <= b) by (unfold b; rnum; lra).
    replace (nadd (pow23 c * h) (nmul b (pow23 c * a))) with (pow23 c * nadd h (nmul b a)) by (rnum; ring).
    rewrite !pow32_mult, Hkc by (auto; rnum; nra).
    rewrite map_map. apply map_ext_in. intros d Hi. rnum. rewrite !Rltb_scaled, !Rleb_scaled by auto.
    destruct (Rltb _ d); [reflexivity|]. unfold Rltb, Rleb. destruct (Rlt_dec (pow32 h) d); [|reflexivity].
    destruct (Rle_dec d _); [|reflexivity]. cbn [andb]. field. split; nra.
Qed.

(* ------------------------------------------------------------------ *)
(** the centre *)

Definition centred_rows (X : list (list R)) (m : list R) := map (fun r => vsub r m) X.
Lemma gen_ss_pp_form : forall (env : prep_env R) co f n p X m st, is_matrix n p X -> (2 <= n)%nat -> (1 <= p)%nat -> co <> CNone ->
  sc_fit env (new_scaler co SNone 0) (A2 X) = (st, Ok tt) -> a_center st = Some m -> length m = p ->
  gen_ss_pp env co (FStr f) (A2 X) = bind (radial_fun f (map (fun r => edist r m) X) p n) (fun xi => Ok (row_mul (centred_rows X m) xi)).
Proof.
  intros env co f n p X m st Hw Hn Hp Hc E Em Hm.
  destruct (centre_only env co n p X m st Hw Hn Hp E Em Hm) as [Ev Hcb].
  assert (Hci : check_input (A2 X) = X) by (apply (check_input_id n p); auto).
  assert (Hnc : ncols X = p) by (apply (wf_ncols n p); auto; lia).
  unfold gen_ss_pp. rewrite Hci, Hnc, (wf_length n p X Hw).
  assert (Hg : bind (versatile_scale env co SNone n0 (A2 X)) (fun Xm => gsspp_ Xm p n f)
     = bind (radial_fun f (map (fun r => edist r m) X) p n) (fun xi => Ok (row_mul (centred_rows X m) xi))).
  { change (@n0 R Num_R) with 0. rewrite Ev. cbn [bind]. unfold gsspp_. rewrite norms_edist. reflexivity. }
  destruct co; auto; congruence.
Qed.

Lemma moved_matrix : forall n p c Q v X, is_matrix n p X -> is_matrix n p (map (moved p c Q v) X).
Proof. intros n p c Q v X HX. apply (wf_map_rows n p); auto. intros r _. apply moved_length. Qed.
Lemma moved_edists : forall n p c Q v X m, is_matrix n p X -> rotation p Q -> 0 <= c -> length m = p ->
  map (fun r => edist r (moved p c Q v m)) (map (moved p c Q v) X) = map (Rmult c) (map (fun r => edist r m) X).
Proof.
  intros n p c Q v X m HX HQ Hc Hm. rewrite !map_map. apply map_ext_in. intros r Hr. apply moved_edist; auto. apply (wf_row n p X); auto.
Qed.
Lemma row_mul_moved : forall n p c Q v X m xi, is_matrix n p X -> rotation p Q -> length m = p -> length xi = n ->
  row_mul (centred_rows (map (moved p c Q v) X) (moved p c Q v m)) xi
  = map (fun r => vscale c (rotated p Q r)) (row_mul (centred_rows X m) xi).
Proof.
  intros n p c Q v X m xi HX HQ Hm Hxi. unfold row_mul, centred_rows. rewrite map_map, !map2_map_l, map_map2.
  assert (Hrow : forall r, In r X -> length r = p) by (intros; apply (wf_row n p X); auto).
  clear HX Hxi n. revert xi. induction X as [|r X IH]; intros [|x xi]; [reflexivity..|]. cbn [map2]. f_equal.
  - rewrite moved_vsub by (auto; first [apply HQ|apply Hrow; left; auto]).
    assert (Hx : forall u : list R, map (fun y => nmul y x) u = vscale x u)
      by (intros u; unfold vscale; apply map_ext; intros; rnum; ring).
    rewrite !Hx, rotated_vscale. unfold vscale. rewrite !map_map. apply map_ext. intros; rnum; ring.
  - apply IH. intros; apply Hrow; right; auto.
Qed.

Lemma gss_moved : forall (env : prep_env R) co f n p X m st m' st' Q c v, is_matrix n p X -> (2 <= n)%nat -> (1 <= p)%nat -> co <> CNone ->
  documented_radial f -> (p <= n)%nat \/ f = SS -> rotation p Q -> 0 < c -> (f <> SS \/ c = 1) ->
  sc_fit env (new_scaler co SNone 0) (A2 X) = (st, Ok tt) -> a_center st = Some m -> length m = p ->
  sc_fit env (new_scaler co SNone 0) (A2 (map (moved p c Q v) X)) = (st', Ok tt) -> a_center st' = Some m' -> m' = moved p c Q v m ->
  exists Z, gen_ss_pp env co (FStr f) (A2 X) = Ok Z /\ is_matrix n p Z /\
    gen_ss_pp env co (FStr f) (A2 (map (moved p c Q v) X)) = Ok (map (fun r => vscale c (rotated p Q r)) Z).
Proof.
  intros env co f n p X m st m' st' Q c v HX Hn Hp Hco Hf Hpn HQ Hc Hsc E Em Hm E' Em' ->.
  rewrite (gen_ss_pp_form env co f n p X m st) by auto.
  rewrite (gen_ss_pp_form env co f n p (map (moved p c Q v) X) (moved p c Q v m) st') by (auto; first [apply moved_matrix; auto|apply moved_length]).
  rewrite (moved_edists n) by (auto; lra).
  assert (Hl : length (map (fun r => edist r m) X) = n) by (rewrite map_length; apply (wf_length n p); auto).
  assert (Er : radial_fun f (map (Rmult c) (map (fun r => edist r m) X)) p n = radial_fun f (map (fun r => edist r m) X) p n).
  { destruct Hsc as [Hs| ->].
    - apply radial_scaled; auto; [|apply edists_nonneg]. destruct Hf as [->|[->|[->|[->|[->| ->]]]]]; auto. congruence.
    - f_equal. rewrite <- (map_id (map (fun r => edist r m) X)) at 2. apply map_ext. intros; ring. }
  rewrite Er.
  destruct (radial_documented f (map (fun r => edist r m) X) p n Hf Hl (edists_nonneg X m) Hp Hpn) as (xi & Ex & Hxl & _).
  rewrite Ex. cbn [bind]. eexists. split; [reflexivity|]. split.
  - apply (row_mul_cells n p); auto. apply (wf_map_rows n p); auto. intros r Hr'. rewrite vsub_length; lia.
  - f_equal. apply (row_mul_moved n); auto.
Qed.

(** the mean follows *)
Lemma mean_moved : forall n p c Q v X, is_matrix n p X -> (1 <= n)%nat -> rotation p Q ->
  map vmean (cols (map (moved p c Q v) X)) = moved p c Q v (map vmean (cols X)).
Proof.
  intros n p c Q v X HX Hn HQ.
  assert (HX' : is_matrix n p (map (moved p c Q v) X)) by (apply moved_matrix; auto).
  assert (Hc : ncols X = p) by (apply (wf_ncols n p); auto). assert (Hc' : ncols (map (moved p c Q v) X) = p) by (apply (wf_ncols n p); auto).
  assert (Hlm : length (map (@vmean R _) (cols X)) = p) by (rewrite map_length, cols_length; auto).
  assert (HlX : length X = n) by apply HX.
  assert (Hin : INR n <> 0) by (apply not_0_INR; lia).
  apply (list_ext _ _ 0); [rewrite moved_length, map_length, cols_length; auto|].
  intros j Hj. rewrite map_length, cols_length, Hc' in Hj.
  rewrite nth_moved by auto. rewrite (nth_rotated_sumn p) by (auto; apply HQ).
  rewrite (map_cols_nth vmean) by (rewrite Hc'; auto). rewrite vmean_R, col_length, map_length, HlX.
  unfold col. rewrite map_map. 
  rewrite (vsum_map_sumn _ X []). rewrite HlX.
  rewrite (sumn_ext n _ (fun i => c * sumn p (fun a => mget X i a * mget Q a j) + nth j v 0)).
  2:{ intros i Hi. change (@n0 R _) with 0. rewrite nth_moved by auto. rewrite (nth_rotated_sumn p) by (auto; first [apply HQ|apply (wf_nth_row n p); auto]). reflexivity. }
  rewrite sumn_plus, sumn_const, sumn_scal. rewrite sumn_exchange.
  rewrite (sumn_ext p (fun a => nth a (map vmean (cols X)) 0 * mget Q a j) (fun a => / INR n * sumn n (fun i => mget X i a * mget Q a j))).
  - rewrite sumn_scal. field. auto.
  - intros a Ha. rewrite (map_cols_nth vmean) by (rewrite Hc; auto). rewrite vmean_R, col_length, HlX.
    rewrite sumn_scal_r. unfold col. rewrite (vsum_map_sumn _ X []), HlX. unfold mget at 2. field. auto.
Qed.

(* ------------------------------------------------------------------ *)
(** the spatial median *)

Lemma moved_onto : forall p c Q v b', rotation p Q -> 0 < c -> length b' = p ->
  exists b, length b = p /\ moved p c Q v b = b'.
Proof.
  intros p c Q v b' [HQ HO] Hc Hb.
  exists (map (fun a => sumn p (fun k => (nth k b' 0 - nth k v 0) / c * mget Q a k)) (seq 0 p)).
  split; [rewrite map_length, seq_length; auto|]. apply (list_ext _ _ 0); [rewrite moved_length; auto|].
  intros j Hj. rewrite moved_length in Hj. rewrite nth_moved by auto.
  rewrite (nth_rotated_sumn p) by (auto; rewrite map_length, seq_length; auto).
  rewrite (sumn_ext p _ (fun a => sumn p (fun k => (nth k b' 0 - nth k v 0) / c * (mget Q a k * mget Q a j)))).
  2:{ intros a Ha. rewrite nth_map_seq by auto. rewrite <- sumn_scal_r. apply sumn_ext. intros; ring. }
  rewrite sumn_exchange.
  rewrite (sumn_ext p _ (fun k => if (k =? j)%nat then (nth k b' 0 - nth k v 0) / c else 0)).
  - rewrite (sumn_delta p j (fun k => (nth k b' 0 - nth k v 0) / c)) by auto. field. lra.
  - intros k Hk. rewrite sumn_scal.
    assert (E : sumn p (fun a => mget Q a k * mget Q a j) = if (k =? j)%nat then 1 else 0).
    { rewrite <- (proj2 (HO k j Hk Hj)). rewrite inner_dot. change (column k Q) with (col k Q). change (column j Q) with (col j Q).
      rewrite (dot_col_sumn p p) by (auto; rewrite col_length; apply HQ). apply sumn_ext. intros a Ha.
      pose proof (nth_col Q a j) as E. rnum. rewrite E. reflexivity. }
    rewrite E. destruct (k =? j)%nat; ring.
Qed.

Lemma total_distance_moved : forall n p c Q v X a, is_matrix n p X -> rotation p Q -> 0 <= c -> length a = p ->
  total_distance (map (moved p c Q v) X) (moved p c Q v a) = c * total_distance X a.
Proof.
  intros n p c Q v X a HX HQ Hc Ha. unfold total_distance. rewrite (moved_edists n) by auto.
  change sum_of with (@vsum R Num_R). rewrite (map_ext (Rmult c) (fun x => c * x)) by reflexivity.
  rewrite vsum_map_scal, map_id. reflexivity.
Qed.
Lemma spatial_median_moved : forall n p c Q v X a, is_matrix n p X -> rotation p Q -> 0 < c ->
  spatial_median_of p X a -> spatial_median_of p (map (moved p c Q v) X) (moved p c Q v a).
Proof.
  intros n p c Q v X a HX HQ Hc [Ha Hm]. split; [apply moved_length|]. intros b' Hb'.
  destruct (moved_onto p c Q v b' HQ Hc Hb') as (b & Hb & <-).
  rewrite !(total_distance_moved n) by (auto; lra). apply Rmult_le_compat_l; [lra|]. auto.
Qed.

(** a minimiser is unique unless the cases lie on a line *)
Lemma vsum_le_strict : forall {B} (f g : B -> R) l, (forall x, In x l -> f x <= g x) -> vsum (map g l) <= vsum (map f l) ->
  forall x, In x l -> f x = g x.
Proof.
  intros B f g l; induction l as [|y l IH]; intros Hle Hs x Hx; [destruct Hx|].
  cbn [map] in Hs. rewrite !vsum_cons in Hs.
  assert (H1 : f y <= g y) by (apply Hle; left; auto).
  assert (H2 : vsum (map f l) <= vsum (map g l)) by (apply vsum_le; intros; apply Hle; right; auto).
  destruct Hx as [<-|Hx]; [lra|]. apply IH; auto; [intros; apply Hle; right; auto|lra].
Qed.
Lemma aligned : forall (u w : list R), length u = length w -> vnorm (vadd u w) = vnorm u + vnorm w ->
  forall j, (j < length u)%nat -> vnorm w * nth j u 0 = vnorm u * nth j w 0.
Proof.
  intros u w Hl E.
  assert (Ed : dot u w = vnorm u * vnorm w).
  { assert (E2 : vnorm (vadd u w) * vnorm (vadd u w) = (vnorm u + vnorm w) * (vnorm u + vnorm w)) by (rewrite E; reflexivity).
    rewrite norm_sq in E2. rewrite dot_vadd_l, !dot_vadd_r in E2 by lia. rewrite (dot_comm w u) in E2.
    pose proof (norm_sq u). pose proof (norm_sq w). nra. }
  assert (Hz : dot (vsub (vscale (vnorm w) u) (vscale (vnorm u) w)) (vsub (vscale (vnorm w) u) (vscale (vnorm u) w)) = 0).
  { rewrite dot_vsub_l, !dot_vsub_r by (rewrite !vscale_length; auto). rewrite !dot_vscale_l, !dot_vscale_r.
    rewrite (dot_comm w u), Ed, <- !norm_sq. ring. }
  apply dot_self_zero in Hz. intros j Hj. rewrite Forall_forall in Hz.
  assert (E0 : nth j (vsub (vscale (vnorm w) u) (vscale (vnorm u) w)) 0 = 0).
  { apply Hz, nth_In. rewrite vsub_length; rewrite !vscale_length; auto. }
  rewrite nth_vsub in E0 by (rewrite !vscale_length; auto). rewrite !nth_vscale in E0. lra.
Qed.
Lemma norm_triangle : forall u w : list R, length u = length w -> vnorm (vadd u w) <= vnorm u + vnorm w.
Proof.
  intros u w Hl. pose proof (norm_nonneg u). pose proof (norm_nonneg w). pose proof (norm_nonneg (vadd u w)).
  assert (vnorm (vadd u w) * vnorm (vadd u w) <= (vnorm u + vnorm w) * (vnorm u + vnorm w)); [|nra].
  rewrite norm_sq. rewrite dot_vadd_l, !dot_vadd_r by lia. rewrite (dot_comm w u).
  pose proof (norm_sq u). pose proof (norm_sq w). pose proof (cauchy_schwarz u w Hl).
  pose proof (Rle_abs (dot u w)). nra.
Qed.
Lemma norm_zero_entries : forall u : list R, vnorm u = 0 -> forall j, (j < length u)%nat -> nth j u 0 = 0.
Proof.
  intros u E j Hj. assert (Hz : dot u u = 0) by (rewrite <- norm_sq, E; ring). apply dot_self_zero in Hz.
  rewrite Forall_forall in Hz. apply Hz, nth_In; auto.
Qed.

Lemma spatial_median_unique : forall n p X a b, is_matrix n p X -> ~ on_a_line p X ->
  spatial_median_of p X a -> spatial_median_of p X b -> a = b.
Proof.
  intros n p X a b HX Hno [Ha Hma] [Hb Hmb].
  apply (list_ext _ _ 0); [lia|]. intros k Hk. rewrite Ha in Hk.
  destruct (Req_dec (nth k a 0) (nth k b 0)) as [E|Hne]; [exact E|exfalso]. apply Hno.
  exists a, (vsub b a). set (m := vscale (1/2) (vadd a b)).
  assert (Hm : length m = p) by (unfold m; rewrite vscale_length, vadd_length; lia).
  assert (Hrow : forall r, In r X -> length r = p) by (intros; apply (wf_row n p X); auto).
  assert (Em : forall r, In r X -> vadd (vsub r a) (vsub r b) = vscale 2 (vsub r m)).
  { intros r Hr. apply (list_ext _ _ 0); [rewrite vscale_length, vadd_length, !vsub_length; rewrite ?vsub_length; rewrite ?(Hrow r Hr); lia|].
    intros j Hj. rewrite vadd_length, vsub_length in Hj by (rewrite ?vsub_length; rewrite ?(Hrow r Hr); lia).
    rewrite nth_vscale. unfold vadd at 1. rewrite (nth_map2 _ _ _ _ 0 0) by (rewrite vsub_length; rewrite ?(Hrow r Hr) in *; lia).
    rewrite !nth_vsub by (rewrite ?(Hrow r Hr) in *; lia). unfold m. rewrite nth_vscale. unfold vadd.
    rewrite (nth_map2 _ _ _ _ 0 0) by (rewrite ?(Hrow r Hr) in *; lia). rnum. field. }
  assert (En : forall r, In r X -> 2 * edist r m = edist r a + edist r b).
  { intros r Hr. apply (vsum_le_strict (fun r => 2 * edist r m) (fun r => edist r a + edist r b) X); auto.
    - intros r' Hr'. rewrite !edist_vnorm. replace (2 * vnorm (vsub r' m)) with (vnorm (vscale 2 (vsub r' m))) by (rewrite norm_vscale, Rabs_right; lra).
      rewrite <- Em by auto. apply norm_triangle. rewrite !vsub_length; rewrite ?(Hrow r' Hr'); lia.
    - rewrite vsum_map_plus, vsum_map_scal.
      pose proof (Hma m Hm). pose proof (Hmb m Hm). unfold total_distance in *. change sum_of with (@vsum R Num_R) in *. lra. }
  intros r Hr. specialize (En r Hr).
  assert (E2 : vnorm (vadd (vsub r a) (vsub r b)) = vnorm (vsub r a) + vnorm (vsub r b)).
  { rewrite (Em r Hr), norm_vscale, Rabs_right by lra. rewrite <- !edist_vnorm. exact En. }
  assert (Hl : length (vsub r a) = length (vsub r b)) by (rewrite !vsub_length; rewrite ?(Hrow r Hr); lia).
  assert (Hla : length (vsub r a) = p) by (rewrite vsub_length; rewrite ?(Hrow r Hr); lia).
  pose proof (aligned _ _ Hl E2) as Hal.
  set (A := vnorm (vsub r a)) in *. set (B := vnorm (vsub r b)) in *.
  assert (Hcell : forall j, (j < p)%nat -> B * (nth j r 0 - nth j a 0) = A * (nth j r 0 - nth j b 0)).
  { intros j Hj. specialize (Hal j ltac:(lia)). rewrite !nth_vsub in Hal by (rewrite ?(Hrow r Hr); lia). exact Hal. }
  assert (HAB : B - A <> 0).
  { intros Heq. assert (B = A) by lra. pose proof (Hcell k Hk) as Hck. rewrite H in Hck.
    assert (HA : A = 0) by nra. assert (HB : B = 0) by lra.
    pose proof (norm_zero_entries _ HA k ltac:(lia)) as E3. pose proof (norm_zero_entries _ HB k ltac:(lia)) as E4.
    rewrite nth_vsub in E3, E4 by (rewrite ?(Hrow r Hr); lia). lra. }
  exists (- A / (B - A)). intros j Hj. rewrite nth_vsub by lia. specialize (Hcell j Hj).
  apply (Rmult_eq_reg_r (B - A)); auto. field_simplify; auto. nra.
Qed.

(* ------------------------------------------------------------------ *)
(** kstepLTS *)

Lemma sqdist_moved : forall p c Q v u w, rotation p Q -> length u = p -> length w = p ->
  sqdist (moved p c Q v u) (moved p c Q v w) = c * c * sqdist u w.
Proof.
  intros p c Q v u w HQ Hu Hw. rewrite !sqdist_dot, moved_vsub by (auto; apply HQ).
  rewrite dot_vscale_l, dot_vscale_r, rotated_dot by (auto; rewrite vsub_length; lia). ring.
Qed.
Lemma filter_map_gen : forall {B C} (f : B -> C) (t : C -> bool) l, filter t (map f l) = map f (filter (fun x => t (f x)) l).
Proof. intros B C f t l; induction l as [|x l IH]; cbn; auto. destruct (t (f x)); cbn; rewrite IH; reflexivity. Qed.
Lemma lts_subset_moved : forall n p c Q v X m, is_matrix n p X -> rotation p Q -> 0 < c -> length m = p ->
  lts_subset (map (moved p c Q v) X) (moved p c Q v m) = map (moved p c Q v) (lts_subset X m).
Proof.
  intros n p c Q v X m HX HQ Hc Hm. rewrite !lts_subset_R, filter_map_gen. f_equal.
  assert (Hd : map (fun r => sqdist r (moved p c Q v m)) (map (moved p c Q v) X) = map (Rmult (c * c)) (map (fun r => sqdist r m) X)).
  { rewrite !map_map. apply map_ext_in. intros r Hr. apply sqdist_moved; auto. apply (wf_row n p X); auto. }
  assert (Hcut : lts_cut (map (moved p c Q v) X) (moved p c Q v m) = c * c * lts_cut X m).
  { unfold lts_cut. rewrite Hd, map_length, sort_map_incr by (intros; nra).
    replace 0 with (c * c * 0) at 1 by ring. rewrite map_nth. reflexivity. }
  apply filter_ext_in. intros r Hr. rewrite Hcut, (sqdist_moved p c Q v) by (auto; apply (wf_row n p X); auto).
  apply Rleb_scaled. nra.
Qed.
Lemma lts_step_moved : forall n p c Q v X m, is_matrix n p X -> (1 <= n)%nat -> rotation p Q -> 0 < c -> length m = p ->
  lts_step (map (moved p c Q v) X) (moved p c Q v m) = moved p c Q v (lts_step X m).
Proof.
  intros n p c Q v X m HX Hn HQ Hc Hm. unfold lts_step. rewrite !manynan_R, (lts_subset_moved n) by auto.
  apply (mean_moved (length (lts_subset X m))); auto.
  - split; auto. apply Forall_forall. intros r Hr. rewrite lts_subset_R in Hr. apply filter_In in Hr as [Hr _]. apply (wf_row n p X); auto.
  - pose proof (lts_subset_size X m) as Hs. rewrite (wf_length _ _ _ HX) in Hs. specialize (Hs Hn). pose proof (half_up_pos n Hn). lia.
Qed.
