(** Order and direction of the variables: the action of a relabelling on rows,
    matrices and sets of variables. *)

From Coq Require Import Reals List Arith ZArith Bool Lia Lra Permutation Sorted.
Import ListNotations.
From Verif Require Import Num Err Vec VecR OrdR L_Mat L_Lin L_Matmul S_Stats S_Regress L_Stats M_Utils M_Preproc M_Robcent M_Plot M_Snipls S_Vars
  L_Msupport L_Plot2 L_Snipls.
Open Scope R_scope.

(** increasing lists of numbers are determined by their members *)
Lemma sorted_lt_ext : forall l l' : list nat, StronglySorted lt l -> StronglySorted lt l' -> (forall x, In x l <-> In x l') -> l = l'.
Proof.
  induction l as [|a l IH]; intros l' Hl Hl' He.
  - destruct l' as [|b l']; [reflexivity|]. exfalso. apply (He b). left. reflexivity.
  - destruct l' as [|b l']; [exfalso; apply (He a); left; reflexivity|].
    inversion Hl as [|? ? Hs Hf]; inversion Hl' as [|? ? Hs' Hf']; subst. rewrite Forall_forall in Hf, Hf'.
    assert (a = b).
    { destruct (proj1 (He a) (or_introl eq_refl)) as [E|E]; [auto|]. destruct (proj2 (He b) (or_introl eq_refl)) as [E'|E']; [auto|].
      specialize (Hf b E'). specialize (Hf' a E). lia. }
    subst b. f_equal. apply IH; auto. intros x. split; intros Hx.
    + destruct (proj1 (He x) (or_intror Hx)) as [E|E]; [|exact E]. subst x. specialize (Hf a Hx). lia.
    + destruct (proj2 (He x) (or_intror Hx)) as [E|E]; [|exact E]. subst x. specialize (Hf' a Hx). lia.
Qed.
Lemma insert_nat_sorted : forall x l, StronglySorted lt l -> StronglySorted lt (insert_nat x l).
Proof.
  intros x. induction l as [|h t IH]; intros Hl; cbn [insert_nat]; [repeat constructor|].
  inversion Hl as [|? ? Hs Hf]; subst. destruct (Nat.ltb_spec x h).
  - constructor; [exact Hl|]. constructor; [exact H|]. rewrite Forall_forall in *. intros y Hy. specialize (Hf y Hy). lia.
  - destruct (Nat.eqb_spec x h); [exact Hl|]. constructor; [apply IH; exact Hs|]. rewrite Forall_forall in *. intros y Hy. apply insert_nat_in in Hy as [->|Hy]; [lia|auto].
Qed.
Lemma union1d_sorted : forall a b, StronglySorted lt (union1d a b).
Proof. intros a b. unfold union1d. induction (a ++ b) as [|x l IH]; cbn; [constructor|]. apply insert_nat_sorted. exact IH. Qed.
Lemma seq_sorted : forall n s, StronglySorted lt (seq s n).
Proof.
  induction n as [|n IH]; intros s; cbn; constructor; auto. apply Forall_forall. intros x Hx. apply in_seq in Hx. lia.
Qed.
Lemma filter_sorted : forall (f : nat -> bool) l, StronglySorted lt l -> StronglySorted lt (filter f l).
Proof.
  intros f. induction l as [|a l IH]; intros Hl; cbn; [constructor|]. inversion Hl as [|? ? Hs Hf]; subst.
  destruct (f a); [|auto]. constructor; [auto|]. rewrite Forall_forall in *. intros x Hx. apply filter_In in Hx as [Hx _]. auto.
Qed.

Section Relabel.
  Variables (p : nat) (q : list (nat * R)).
  Hypothesis Hq : relabelling p q.
  Definition sg (k : nat) : nat := fst (nth k q (0%nat, 1)).
  Definition ep (k : nat) : R := snd (nth k q (0%nat, 1)).
  Lemma q_length : length q = p.
  Proof. destruct Hq as [HP _]. apply Permutation_length in HP. rewrite map_length, seq_length in HP. exact HP. Qed.
  Lemma q_in : forall je, In je q -> (fst je < p)%nat.
  Proof. intros je H. destruct Hq as [HP _]. apply (in_map fst) in H. apply (Permutation_in _ HP) in H. apply in_seq in H. lia. Qed.
  Lemma sg_lt : forall k, (k < p)%nat -> (sg k < p)%nat.
  Proof. intros k Hk. apply q_in. apply nth_In. rewrite q_length. exact Hk. Qed.
  Lemma ep_cases : forall k, ep k = 1 \/ ep k = -1.
  Proof.
    intros k. unfold ep. destruct (Nat.lt_ge_cases k (length q)) as [Hk|Hk]; [|rewrite nth_overflow by exact Hk; left; reflexivity].
    destruct Hq as [_ HF]. rewrite Forall_forall in HF. apply HF. apply nth_In. exact Hk.
  Qed.
  Lemma ep_sq : forall k, ep k * ep k = 1.
  Proof. intros k. destruct (ep_cases k) as [->| ->]; ring. Qed.
  Lemma ep_abs : forall k, Rabs (ep k) = 1.
  Proof. intros k. destruct (ep_cases k) as [->| ->]; [apply Rabs_R1|]. rewrite Rabs_left; lra. Qed.
  Lemma fst_sg : map fst q = map sg (seq 0 p).
  Proof.
    apply (nth_ext _ _ 0%nat 0%nat); [rewrite !map_length, seq_length; apply q_length|]. rewrite map_length, q_length. intros k Hk.
    rewrite (nth_map_lt _ _ _ (0%nat, 1)) by (rewrite q_length; exact Hk). rewrite (nth_map_lt sg (seq 0 p) k 0%nat 0%nat) by (rewrite seq_length; exact Hk). rewrite seq_nth by exact Hk. reflexivity.
  Qed.
  Lemma sg_onto : forall j, (j < p)%nat -> exists k, (k < p)%nat /\ sg k = j.
  Proof.
    intros j Hj. destruct Hq as [HP _]. assert (HI : In j (map fst q)) by (apply (Permutation_in _ (Permutation_sym HP)); apply in_seq; lia).
    rewrite fst_sg in HI. apply in_map_iff in HI as [k [E HI]]. apply in_seq in HI. exists k. split; [lia|exact E].
  Qed.
  Lemma sum_sg : forall f, sumn p (fun k => f (sg k)) = sumn p f.
  Proof.
    intros f. unfold sumn. rewrite <- (map_map sg f). rewrite <- fst_sg. apply vsum_perm. apply Permutation_map. exact (proj1 Hq).
  Qed.
  Lemma rr_length : forall v, length (relabel_row q v) = p.
  Proof. intros v. unfold relabel_row. rewrite map_length. apply q_length. Qed.
  Lemma rr_nth : forall v k, (k < p)%nat -> nth k (relabel_row q v) 0 = ep k * nth (sg k) v 0.
  Proof. intros v k Hk. unfold relabel_row. rewrite (nth_map_lt _ _ _ (0%nat, 1)) by (rewrite q_length; exact Hk). reflexivity. Qed.
  Lemma rp_length : forall v, length (relabel_pos q v) = p.
  Proof. intros v. unfold relabel_pos. rewrite map_length. apply q_length. Qed.
  Lemma rp_nth : forall v k, (k < p)%nat -> nth k (relabel_pos q v) 0 = nth (sg k) v 0.
  Proof. intros v k Hk. unfold relabel_pos. rewrite (nth_map_lt _ _ _ (0%nat, 1)) by (rewrite q_length; exact Hk). reflexivity. Qed.
  Lemma row_ext : forall u v : list R, length u = p -> length v = p -> (forall k, (k < p)%nat -> nth k u 0 = nth k v 0) -> u = v.
  Proof. intros u v Hu Hv H. apply (nth_ext _ _ 0 0); [congruence|]. rewrite Hu. exact H. Qed.
  Lemma rp_perm : forall v, length v = p -> Permutation (relabel_pos q v) v.
  Proof.
    intros v Hv. unfold relabel_pos. rewrite <- (map_map fst (fun j => nth j v 0)). apply Permutation_trans with (map (fun j => nth j v 0) (seq 0 p)).
    - apply Permutation_map. exact (proj1 Hq).
    - rewrite <- Hv. rewrite (map_nth_seq v 0). apply Permutation_refl.
  Qed.
  Lemma dot_rr : forall u v, length u = p -> length v = p -> dot (relabel_row q u) (relabel_row q v) = dot u v.
  Proof.
    intros u v Hu Hv. rewrite !(dot_sumn _ _ p) by first [apply rr_length|assumption]. rewrite <- (sum_sg (fun j => nth j u 0 * nth j v 0)).
    apply sumn_ext. intros k Hk. rewrite !rr_nth by exact Hk. transitivity (ep k * ep k * (nth (sg k) u 0 * nth (sg k) v 0)); [ring|]. rewrite ep_sq. ring.
  Qed.
  Lemma vnorm_rr : forall v, length v = p -> vnorm (relabel_row q v) = vnorm v.
  Proof. intros v Hv. unfold vnorm. f_equal. rewrite <- !dot_self_sqnorm. apply dot_rr; auto. Qed.
  Lemma map_odd : forall f v, (forall x, f (- x) = - f x) -> length v = p -> map f (relabel_row q v) = relabel_row q (map f v).
  Proof.
    intros f v Hf Hv. apply row_ext; [rewrite map_length; apply rr_length|apply rr_length|]. intros k Hk.
    rewrite (nth_map_lt _ _ _ 0) by (rewrite rr_length; exact Hk). rewrite !rr_nth by exact Hk. rewrite (nth_map_lt f v _ 0) by (rewrite Hv; apply sg_lt; exact Hk).
    destruct (ep_cases k) as [->| ->]; [rewrite !Rmult_1_l; reflexivity|]. replace (-1 * nth (sg k) v 0) with (- nth (sg k) v 0) by ring. rewrite Hf. ring.
  Qed.
  Lemma map_even : forall {T} (f : R -> T) v, (forall x, f (- x) = f x) -> length v = p -> map f (relabel_row q v) = map f (relabel_pos q v).
  Proof.
    intros T f v Hf Hv. apply (nth_ext _ _ (f 0) (f 0)); [rewrite !map_length, rr_length, rp_length; reflexivity|]. rewrite map_length, rr_length. intros k Hk.
    rewrite !(map_nth f). rewrite rr_nth, rp_nth by exact Hk. destruct (ep_cases k) as [->| ->]; [f_equal; ring|]. replace (-1 * nth (sg k) v 0) with (- nth (sg k) v 0) by ring. apply Hf.
  Qed.
  Lemma map_rp : forall f v, length v = p -> map f (relabel_pos q v) = relabel_pos q (map f v).
  Proof.
    intros f v Hv. unfold relabel_pos. rewrite map_map. apply map_ext_in. intros je Hje. rewrite (nth_map_lt f v _ 0) by (rewrite Hv; apply q_in; exact Hje). reflexivity.
  Qed.
  Lemma vmaxl_perm : forall l l' : list R, l <> [] -> Permutation l l' -> vmaxl l = vmaxl l'.
  Proof.
    intros l l' Hl HP. assert (Hl' : l' <> []) by (intros ->; apply Permutation_sym, Permutation_nil in HP; auto).
    destruct (vmaxl_is_max l' Hl') as [H1 H2]. apply (is_max_unique l); [apply vmaxl_is_max; auto|]. split; [apply (Permutation_in _ (Permutation_sym HP)); exact H1|].
    intros x Hx. apply H2. apply (Permutation_in _ HP). exact Hx.
  Qed.
  Lemma max_abs_rr : forall v, (0 < p)%nat -> length v = p -> vmaxl (map nabs (relabel_row q v)) = vmaxl (map nabs v).
  Proof.
    intros v Hp Hv. rewrite (map_even (nabs (A := R))) by (auto; intros; apply Rabs_Ropp). apply vmaxl_perm.
    - intros E. apply (f_equal (@length R)) in E. rewrite map_length, rp_length in E. cbn in E. lia.
    - apply Permutation_map, rp_perm, Hv.
  Qed.

  (** matrices *)
  Lemma relabel_wf : forall n X, wf n p X -> wf n p (relabel q X).
  Proof. intros n X [H1 H2]. split; [unfold relabel; rewrite map_length; exact H1|]. unfold relabel. apply Forall_forall. intros r Hr. apply in_map_iff in Hr as [r0 [<- _]]. apply rr_length. Qed.
  Lemma mget_relabel : forall n X i k, wf n p X -> (i < n)%nat -> (k < p)%nat -> mget (relabel q X) i k = ep k * mget X i (sg k).
  Proof.
    intros n X i k [H1 H2] Hi Hk. unfold mget, relabel. rewrite (nth_map_lt _ _ _ []) by lia. apply rr_nth. exact Hk.
  Qed.
  Lemma matvec_rr : forall n X w, wf n p X -> length w = p -> matvec (relabel q X) (relabel_row q w) = matvec X w.
  Proof.
    intros n X w [_ H] Hw. unfold matvec, relabel. rewrite map_map. apply map_ext_in. intros r Hr. rewrite Forall_forall in H. apply dot_rr; auto.
  Qed.
  Lemma col_relabel : forall X k, (k < p)%nat -> col k (relabel q X) = vscale (ep k) (col (sg k) X).
  Proof. intros X k Hk. unfold col, relabel, vscale. rewrite !map_map. apply map_ext. intros r. apply rr_nth. exact Hk. Qed.
  Lemma tmatvec_rr : forall n X y, wf n p X -> (0 < n)%nat -> tmatvec (relabel q X) y = relabel_row q (tmatvec X y).
  Proof.
    intros n X y W Hn. assert (W' : wf n p (relabel q X)) by (apply relabel_wf; exact W). apply row_ext; [apply (tmatvec_length n); auto|apply rr_length|]. intros k Hk.
    rewrite rr_nth by exact Hk. rewrite !(nth_tmatvec n p) by first [assumption|apply sg_lt; exact Hk].
    rewrite col_relabel by exact Hk. apply dot_vscale_l.
  Qed.
  Lemma msub_outer_rr : forall n X t u, wf n p X -> length t = n -> length u = p -> msub (relabel q X) (outer t (relabel_row q u)) = relabel q (msub X (outer t u)).
  Proof.
    intros n X t u [H1 H2] Ht Hu. unfold msub, outer, relabel. revert t n H1 Ht. induction X as [|r X IH]; intros t n H1 Ht; destruct t as [|a t]; try reflexivity.
    cbn [map map2]. pose proof (Forall_inv H2) as Hr. pose proof (Forall_inv_tail H2) as HX. cbn beta in Hr. f_equal; [|apply (IH HX t (length X)); cbn in Ht, H1; lia].
    assert (L1 : length (vscale a u) = p) by (unfold vscale; rewrite map_length; exact Hu).
    apply row_ext; [rewrite vsub_length; rewrite ?rr_length; auto; unfold vscale; rewrite map_length, rr_length; reflexivity|apply rr_length|]. intros k Hk.
    rewrite rr_nth by exact Hk. unfold vsub. rewrite !(nth_map2 _ _ _ _ 0 0 0) by (try (unfold vscale; rewrite ?map_length); rewrite ?rr_length, ?Hr, ?Hu; try apply sg_lt; lia).
    rewrite rr_nth by exact Hk. unfold vscale. rewrite !(nth_map_lt _ _ _ 0) by (rewrite ?rr_length, ?Hu; try apply sg_lt; exact Hk). rewrite rr_nth by exact Hk. rnum. ring.
  Qed.

  (** sets of variables *)
  Lemma rs_in : forall l k, In k (relabel_set q l) <-> (k < p)%nat /\ In (sg k) l.
  Proof. intros l k. unfold relabel_set. rewrite filter_In, in_seq, q_length. fold (sg k). rewrite existsb_in. split; intros [H1 H2]; split; auto; lia. Qed.
  Lemma rs_sorted : forall l, StronglySorted lt (relabel_set q l).
  Proof. intros l. apply filter_sorted, seq_sorted. Qed.
  Lemma rs_where : forall (f : R -> bool) v, length v = p -> where_ f (relabel_pos q v) = relabel_set q (where_ f v).
  Proof.
    intros f v Hv. apply sorted_lt_ext; [rewrite (where_filter f _ 0); apply filter_sorted, seq_sorted|apply rs_sorted|]. intros k. rewrite rs_in, !(where_in f _ _ 0), rp_length, Hv.
    split; intros [H1 H2]; [rewrite rp_nth in H2 by exact H1|rewrite rp_nth by exact H1]; repeat split; auto using sg_lt. apply H2.
  Qed.
  Lemma rs_union : forall a b, relabel_set q (union1d a b) = union1d (relabel_set q a) (relabel_set q b).
  Proof.
    intros a b. apply sorted_lt_ext; [apply rs_sorted|apply union1d_sorted|]. intros k. rewrite rs_in, !union1d_in, !rs_in. tauto.
  Qed.
  Lemma rs_nil : forall l, (forall j, In j l -> (j < p)%nat) -> relabel_set q l = [] -> l = [].
  Proof.
    intros l Hl E. destruct l as [|j l]; [reflexivity|]. destruct (sg_onto j (Hl j (or_introl eq_refl))) as [k [Hk Ek]].
    assert (In k (relabel_set q (j :: l))) by (apply rs_in; split; [exact Hk|left; auto]). rewrite E in H. contradiction.
  Qed.
  Lemma keep_rr : forall good v, length v = p -> keep (relabel_set q good) (relabel_row q v) = relabel_row q (keep good v).
  Proof.
    intros good v Hv. apply row_ext; [rewrite keep_length; apply rr_length|apply rr_length|]. intros k Hk. rewrite rr_nth by exact Hk.
    destruct (in_dec Nat.eq_dec (sg k) good) as [HI|HI].
    - rewrite !keep_in; try (rewrite ?rr_length, ?Hv; auto using sg_lt); [apply rr_nth; exact Hk|apply rs_in; auto].
    - rewrite !keep_out; auto; [ring|]. rewrite rs_in. tauto.
  Qed.
End Relabel.
