(** The first components do not depend on how many are asked for: prefix lemmas *)
From Coq Require Import String List Reals Lra Lia Arith ZArith Bool.
Import ListNotations. Import List.
From Verif Require Import Num Err Vec M_Utils M_Preproc M_Robcent M_Plot M_Snipls M_Dicomo M_Ppdire M_SdrUtils M_Sudire L_Stats L_Scaling L_Snipls L_Lin L_Pp2 L_SdrFit L_SdrFit2.
From Verif Require Import S_Regress S_Nested.
Open Scope R_scope.

(** ** Columns *)
Lemma firstn_of_cols : forall {A} `{Num A} k p (cs : list (list A)), of_cols p (firstn k cs) = map (firstn k) (of_cols p cs).
Proof.
  intros A HA k p cs. unfold of_cols. rewrite map_map. apply map_ext. intros j. symmetry. apply firstn_map.
Qed.
Lemma firstn_seq : forall k n, firstn k (seq 0 n) = seq 0 (Nat.min k n).
Proof.
  intros k n. destruct (le_lt_dec k n) as [L|L].
  - rewrite Nat.min_l by lia. replace n with (k + (n - k))%nat by lia. rewrite seq_app, firstn_app, seq_length, firstn_all2 by (rewrite seq_length; lia).
    replace (k - k)%nat with 0%nat by lia. cbn. apply app_nil_r.
  - rewrite Nat.min_r by lia. apply firstn_all2. rewrite seq_length. lia.
Qed.
Lemma nth_firstn_lt : forall {A} k j (l : list A) d, (j < k)%nat -> nth j (firstn k l) d = nth j l d.
Proof.
  intros A k. induction k as [|k IH]; intros j l d Hj; [lia|]. destruct l as [|x l]; [reflexivity|]. destruct j; [reflexivity|]. cbn. apply IH. lia.
Qed.
Lemma firstn_cols : forall {A} `{Num A} k (M : list (list A)), cols (map (firstn k) M) = firstn k (cols M).
Proof.
  intros A HA k M. unfold cols. rewrite firstn_map, firstn_seq.
  replace (ncols (map (firstn k) M)) with (Nat.min k (ncols M)) by (unfold ncols; destruct M; cbn; [lia|rewrite firstn_length; reflexivity]).
  apply map_ext_in. intros j Hj. apply in_seq in Hj. unfold col. rewrite map_map. apply map_ext. intros r. apply nth_firstn_lt. lia.
Qed.
Lemma firstn_matmul : forall {A} `{Num A} k (X M : list (list A)), matmul X (map (firstn k) M) = map (firstn k) (matmul X M).
Proof.
  intros A HA k X M. unfold matmul. rewrite map_map. apply map_ext. intros r. rewrite firstn_cols. symmetry. apply firstn_map.
Qed.
Lemma firstn_npmatmul : forall {A} `{Num A} k (X M Z : list (list A)), npmatmul X M = Ok Z -> npmatmul X (map (firstn k) M) = Ok (map (firstn k) Z).
Proof.
  intros A HA k X M Z. unfold npmatmul. rewrite map_length. destruct (ncols X =? length M)%nat; [|discriminate]. intros E. apply Ok_inj in E. subst Z.
  f_equal. apply firstn_matmul.
Qed.

(** ** snipls *)
Lemma snipls_prefix : forall {A} `{Num A} nan (eta ssx ssy : A) k k' X y old, (k' <= k)%nat ->
  snipls_loop nan eta ssx ssy k' X y old = firstn k' (snipls_loop nan eta ssx ssy k X y old).
Proof.
  intros A HA nan eta ssx ssy k. induction k as [|k IH]; intros k' X y old Hk.
  - replace k' with 0%nat by lia. reflexivity.
  - destruct k' as [|k']; [reflexivity|]. cbn [snipls_loop]. destruct (snipls_step _ _ _ _ _ _ _) as [c|]; [|reflexivity].
    cbn [firstn]. f_equal. apply IH. lia.
Qed.

Lemma C177_snipls_l : forall {A} `{Num A} (env : prep_env A) inv eta k k' c s X y m m',
  (k' <= k)%nat -> snipls_fit env inv eta k c s X y = Ok m -> snipls_fit env inv eta k' c s X y = Ok m' ->
  sn_W m' = map (firstn k') (sn_W m) /\ sn_P m' = map (firstn k') (sn_P m) /\ sn_T m' = map (firstn k') (sn_T m) /\
  sn_C m' = firstn k' (sn_C m) /\ sn_xev m' = firstn k' (sn_xev m) /\ sn_yev m' = firstn k' (sn_yev m) /\
  sn_retained m' = firstn k' (sn_retained m) /\
  sn_xloc m' = sn_xloc m /\ sn_xsca m' = sn_xsca m /\ sn_yloc m' = sn_yloc m /\ sn_ysca m' = sn_ysca m.
Proof.
  intros A HA env inv eta k k' c s X y m m' Hk E E'. unfold snipls_fit in E, E'.
  destruct (_ && _); [discriminate|]. destruct (negb (length X =? length y)%nat); [discriminate|].
  destruct (scaled env c s X) as [[[mX sX] X0]|]; [|discriminate]. cbn [bind] in E, E'.
  destruct (scaled env c s (map (fun v => [v]) y)) as [[[my sy] Y0]|]; [|discriminate]. cbn [bind] in E, E'. cbv zeta in E, E'.
  rewrite (snipls_prefix _ _ _ _ k k') in E' by exact Hk.
  remember (snipls_loop _ _ _ _ k _ _ _) as l eqn:El. clear El.
  match type of E with bind ?b _ = _ => destruct b as [[[B Rw] T]|] eqn:Eb; [|discriminate] end. cbn [bind] in E.
  match type of E' with bind ?b _ = _ => destruct b as [[[B' Rw'] T']|] eqn:Eb'; [|discriminate] end. cbn [bind] in E'.
  destruct (negb _); [discriminate|]. apply Ok_inj in E. apply Ok_inj in E'. subst m m'. cbn [sn_W sn_P sn_T sn_C sn_xev sn_yev sn_retained sn_xloc sn_xsca sn_yloc sn_ysca].
  rewrite <- !firstn_map, !firstn_of_cols. repeat (split; [reflexivity|]). split; [|repeat (split; [reflexivity|]); reflexivity].
  destruct l as [|c0 l].
  - rewrite firstn_nil in Eb'. apply Ok_inj in Eb. apply Ok_inj in Eb'. injection Eb as _ _ <-. injection Eb' as _ _ <-.
    rewrite <- firstn_of_cols. f_equal. clear -Hk. revert k Hk. induction k' as [|k' IH]; intros k Hk; [reflexivity|].
    destruct k; [lia|]. cbn. f_equal. apply IH. lia.
  - match type of Eb with bind ?b _ = _ => destruct b as [PWi|]; [|discriminate] end. cbn [bind] in Eb.
    match type of Eb with bind ?b _ = _ => destruct b as [Gi|]; [|discriminate] end. cbn [bind] in Eb. apply Ok_inj in Eb. injection Eb as _ _ <-.
    destruct k' as [|k'].
    + cbn [firstn] in Eb'. apply Ok_inj in Eb'. injection Eb' as _ _ <-. rewrite <- firstn_of_cols. reflexivity.
    + cbn [firstn] in Eb'.
      match type of Eb' with bind ?b _ = _ => destruct b as [PWi'|]; [|discriminate] end. cbn [bind] in Eb'.
      match type of Eb' with bind ?b _ = _ => destruct b as [Gi'|]; [|discriminate] end. cbn [bind] in Eb'. apply Ok_inj in Eb'. injection Eb' as _ _ <-.
      rewrite <- firstn_of_cols, <- firstn_map. reflexivity.
Qed.

(** ** ppdire *)
Section PpLoop.
  Context {A : Type} `{Num A}.
  Variables (env : pp_env A) (prm : pparams A) (most : arr A -> dkw A -> res A) (kw : dkw A) (yi : option (yinfo A)) (K : option (mat A)) (n p : nat) (sX : vec A).

  Lemma loop_h : forall h k d E cs yc Rt, pp_loop env k (with_h prm (Some h)) most kw yi K n p sX d E cs yc Rt = pp_loop env k prm most kw yi K n p sX d E cs yc Rt.
  Proof.
    intros h k. induction k as [|k IH]; intros d E cs yc Rt; [reflexivity|]. cbn [pp_loop].
    change (direction env (with_h prm (Some h)) most kw d p E) with (direction env prm most kw d p E).
    destruct (direction env prm most kw d p E) as [d' rw].
    match goal with |- match ?a with _ => _ end = match ?b with _ => _ end => change a with b; destruct b as [[[[c cs'] yc'] R']|] end; [apply IH|reflexivity].
  Qed.

  Lemma loop_grows : forall k d E cs yc Rt d' cs1 yc1 R1, pp_loop env k prm most kw yi K n p sX d E cs yc Rt = (d', Ok (cs1, yc1, R1)) ->
    exists a b, cs1 = (cs ++ a)%list /\ yc1 = (yc ++ b)%list /\ length a = k /\ length b = match yi with Some _ => k | None => 0%nat end.
  Proof.
    intros k. induction k as [|k IH]; intros d E cs yc Rt d' cs1 yc1 R1 Hl.
    - cbn in Hl. injection Hl as _ <- <- _. exists [], []. rewrite !app_nil_r. destruct yi; auto.
    - cbn [pp_loop] in Hl. destruct (direction env prm most kw d p E) as [d2 rw].
      destruct rw as [wo|]; cbn [bind] in Hl; [|discriminate].
      destruct (component prm most kw _ K n p E wo) as [c|]; cbn [bind] in Hl; [|discriminate]. cbv zeta in Hl.
      destruct (rotations env p (cs ++ [c])) as [R'|]; cbn [bind] in Hl; [|discriminate].
      destruct yi as [y|]; cbn [bind] in Hl.
      + destruct (inner_coef env prm (yi_kw y) (yi_s y) (yi_0 y) (g_t c)) as [ci|]; cbn [bind] in Hl; [|discriminate].
        destruct (negb (length sX =? p)%nat); cbn [bind] in Hl; [discriminate|].
        apply IH in Hl as (a & b & E1 & E2 & L1 & L2). subst cs1 yc1. rewrite <- !app_assoc. eexists (c :: a), (_ :: b). cbn. repeat split; auto.
      + apply IH in Hl as (a & b & E1 & E2 & L1 & L2). subst cs1 yc1. rewrite <- !app_assoc. eexists (c :: a), b. cbn. repeat split; auto.
  Qed.

  Lemma loop_prefix : forall k' k d E cs yc Rt d' cs1 yc1 R1, (k' <= k)%nat -> pp_loop env k prm most kw yi K n p sX d E cs yc Rt = (d', Ok (cs1, yc1, R1)) ->
    exists d2 R2, pp_loop env k' prm most kw yi K n p sX d E cs yc Rt = (d2, Ok (firstn (length cs + k') cs1, firstn (length yc + k') yc1, R2)).
  Proof.
    intros k'. induction k' as [|k' IH]; intros k d E cs yc Rt d' cs1 yc1 R1 Hk Hl.
    - apply loop_grows in Hl as (a & b & -> & -> & _ & _). exists d, Rt. cbn. rewrite !Nat.add_0_r, !firstn_app, !firstn_all, !Nat.sub_diag. cbn. rewrite !app_nil_r. reflexivity.
    - destruct k as [|k]; [lia|]. cbn [pp_loop] in Hl |- *. destruct (direction env prm most kw d p E) as [d2 rw].
      match type of Hl with match ?b with _ => _ end = _ => destruct b as [[[[c cs'] yc'] R']|] eqn:Eb end; [|discriminate].
      assert (L : length cs' = S (length cs) /\ length yc' = match yi with Some _ => S (length yc) | None => length yc end /\ (yi = None -> yc' = yc)).
      { destruct rw as [wo|]; cbn [bind] in Eb; [|discriminate].
        destruct (component prm most kw _ K n p E wo) as [c'|]; cbn [bind] in Eb; [|discriminate]. cbv zeta in Eb.
        destruct (rotations env p (cs ++ [c'])) as [R''|]; cbn [bind] in Eb; [|discriminate].
        destruct yi as [y|]; cbn [bind] in Eb.
        - destruct (inner_coef env prm (yi_kw y) (yi_s y) (yi_0 y) (g_t c')) as [ci|]; cbn [bind] in Eb; [|discriminate].
          destruct (negb (length sX =? p)%nat); cbn [bind] in Eb; [discriminate|]. apply Ok_inj in Eb. injection Eb as _ <- <- _.
          rewrite !app_length. cbn. repeat split; try lia. discriminate.
        - apply Ok_inj in Eb. injection Eb as _ <- <- _. rewrite app_length. cbn. repeat split; lia. }
      destruct L as (L1 & L2 & L3). destruct (IH k _ _ _ _ _ _ _ _ _ ltac:(lia) Hl) as (d3 & R3 & E3). exists d3, R3. rewrite E3, L1, L2.
      replace (S (length cs) + k')%nat with (length cs + S k')%nat by lia.
      pose proof (loop_grows _ _ _ _ _ _ _ _ _ _ Hl) as G.
      destruct yi as [y|]; [replace (S (length yc) + k')%nat with (length yc + S k')%nat by lia; reflexivity|].
      destruct G as (a & b & _ & Eyc & _ & Lb). destruct b; [|discriminate]. rewrite app_nil_r in Eyc. rewrite (L3 eq_refl) in Eyc. subst yc1.
      rewrite (firstn_all2 (n := length yc + k')), (firstn_all2 (n := length yc + S k')) by lia. reflexivity.
  Qed.
End PpLoop.

Lemma same_params : forall {A} `{Num A} (prm prm' : pparams A) f f', same_call prm prm' f f' ->
  with_h prm' (f_h f') = with_h (with_h prm (f_h f)) (Some (asked prm' f')).
Proof.
  intros A HA [] [] f f'. unfold same_call, asked. cbn. intros (E1 & E2 & E3 & E4 & E5 & E6 & E7 & E8 & E9 & E10 & E11 & _). subst.
  destruct (f_h f), (f_h f'); reflexivity.
Qed.
Lemma whitening_h : forall {A} `{Num A} (prm : pparams A) h, with_whitening (with_h prm (Some h)) = with_h (with_whitening prm) (Some h).
Proof. intros A HA prm h. unfold with_whitening. cbn. destruct (pp_whiten prm) eqn:E; cbn; rewrite ?E; reflexivity. Qed.

Lemma firstn_back : forall k p dims M, L_Pp2.back p dims (map (firstn k) M) = map (firstn k) (L_Pp2.back p dims M).
Proof. intros k p dims M. unfold L_Pp2.back. destruct dims; [apply firstn_matmul|reflexivity]. Qed.

Definition y_prefix (k : nat) (a b : option (pp_ymodel R)) : Prop :=
  match a, b with
  | None, None => True
  | Some u, Some v => ym_coef v = map (firstn k) (ym_coef u) /\ ym_coef_scaled v = map (firstn k) (ym_coef_scaled u) /\ ym_C v = firstn k (ym_C u) /\
      ym_loc v = ym_loc u /\ ym_sca v = ym_sca u
  | _, _ => False
  end.
Lemma C177_ppdire_l : forall (env : pp_env R) prm prm' d X f f' q1 d1 m q2 d2 m', same_call prm prm' f f' -> (asked prm' f' <= asked prm f)%nat ->
  pp_fit env prm d X f = (q1, d1, Ok m) -> pp_fit env prm' d X f' = (q2, d2, Ok m') ->
  let k := asked prm' f' in
  pm_W m' = map (firstn k) (pm_W m) /\ pm_P m' = map (firstn k) (pm_P m) /\ pm_T m' = map (firstn k) (pm_T m) /\
  pm_max m' = firstn k (pm_max m) /\ pm_crit m' = firstn k (pm_crit m) /\ pm_loc m' = pm_loc m /\ pm_sca m' = pm_sca m /\
  y_prefix k (pm_y m) (pm_y m').
Proof.
  intros env prm prm' d X f f' q1 d1 m q2 d2 m' HS Hk E E' k.
  assert (Hk0 : k = asked prm' f') by reflexivity.
  apply L_Pp2.fit_inv in E as (most & s & Xc & p & dims & mX & sX & Xs0 & Xs & K & yi & cs & yc & Rt & Eq & Em & _ & Es & Ec & Esc & Ew & Ey & Ek & El & Een).
  apply L_Pp2.fit_inv in E' as (most' & s' & Xc' & p' & dims' & mX' & sX' & Xs0' & Xs' & K' & yi' & cs' & yc' & Rt' & Eq' & Em' & _ & Es' & Ec' & Esc' & Ew' & Ey' & Ek' & El' & Een').
  assert (Fy : f_y f' = f_y f) by apply HS. assert (Fb : f_bias f' = f_bias f) by apply HS.
  rewrite (same_params prm prm' f f' HS), whitening_h, <- Eq in Eq'. fold k in Eq'. subst q2.
  assert (N1 : pp_ncomp q1 = asked prm f).
  { subst q1. rewrite ww_ncomp. unfold asked. destruct (f_h f); reflexivity. }
  change (ix_new (pp_idx q1) = Ok most') in Em'. rewrite Em in Em'. apply Ok_inj in Em'. subst most'.
  change (scale_name q1 = Ok s') in Es'. rewrite Es in Es'. apply Ok_inj in Es'. subst s'.
  change (st_compress env q1 X = Ok (Xc', p', dims')) in Ec'. rewrite Ec in Ec'. injection Ec' as <- <- <-.
  change (st_scale env q1 s p Xc = Ok (mX', sX', Xs0')) in Esc'. rewrite Esc in Esc'. injection Esc' as <- <- <-.
  change (st_whiten env q1 p Xs0 = Ok (Xs', K')) in Ew'. rewrite Ew in Ew'. injection Ew' as <- <-.
  change (st_y env q1 s (length X) (f_y f') = Ok yi') in Ey'. rewrite Fy, Ey in Ey'. apply Ok_inj in Ey'. subst yi'.
  rewrite loop_h in El'. change (pp_ncomp (with_h q1 (Some k))) with k in El'.
  replace (st_kw (with_h q1 (Some k)) f' yi) with (st_kw q1 f yi) in El' by (unfold st_kw; rewrite Fb; reflexivity).
  change (st_opts (with_h q1 (Some k)) d) with (st_opts q1 d) in El'.
  assert (Hle : (k <= pp_ncomp q1)%nat) by (rewrite N1; exact Hk).
  destruct (loop_prefix _ _ _ _ _ _ _ _ _ _ _ _ _ _ _ _ _ _ _ _ Hle El) as (d3 & R3 & E3). rewrite E3 in El'. cbn [length Nat.add] in El'. injection El' as _ <- <- _.
  destruct Een as (_ & mXe & sXe & Xse & Ee & ym & -> & Hym). destruct Een' as (_ & mXe' & sXe' & Xse' & Ee' & ym' & -> & Hym').
  change (match dims with Some _ => st_scale env q1 s p X | None => Ok (mX, sX, Xs) end = Ok (mXe', sXe', Xse')) in Ee'.
  rewrite Ee in Ee'. injection Ee' as <- <- <-.
  cbn [pm_W pm_P pm_T pm_max pm_crit pm_loc pm_sca pm_y].
  rewrite <- !firstn_map, !firstn_of_cols, !firstn_back. repeat (split; [reflexivity|]).
  destruct yi as [[y my]|]; [|subst ym ym'; exact I].
  destruct Hym as (ic & b0 & yf & r & _ & ->). destruct Hym' as (ic' & b0' & yf' & r' & _ & ->). cbn [y_prefix ym_coef ym_coef_scaled ym_C ym_loc ym_sca].
  rewrite <- !firstn_map, !firstn_of_cols, !firstn_back. repeat (split; [reflexivity|]). reflexivity.
Qed.

(** ** sudire *)
Lemma same_sudire_eq : forall {A} `{Num A} (a b : sparams A), same_sudire a b ->
  sd_whitening b = (let q := sd_whitening a in mk_sp (sp_meth q) (sp_ncomp b) (sp_trim q) (sp_center q) (sp_center_data q) (sp_scale_data q) (sp_whiten q) (sp_compress q) (sp_slices q) (sp_copy q) (sp_cont q) (sp_return q)).
Proof.
  intros A HA [m0 n0 t0 c0 cd0 sc0 w0 k0 sl0 cp0 ct0 r0] [] (E1 & E2 & E3 & E4 & E5 & E6 & E7 & E8 & E9 & E10 & E11). cbn in *. subst. unfold sd_whitening. cbn. destruct w0; reflexivity.
Qed.
Lemma leading_firstn : forall {A} `{Num A} eigh M d d' (V : mat A), (d' <= d)%nat -> leading eigh M d = Ok V -> leading eigh M d' = Ok (map (firstn d') V).
Proof.
  intros A HA eigh M d d' V Hd E. unfold leading in *. destruct (eigh M) as [[vals vecs]|]; [|discriminate]. cbn [bind] in *. apply Ok_inj in E. subst V. f_equal.
  unfold take_cols. rewrite map_map. apply map_ext. intros r. rewrite firstn_map, firstn_firstn, Nat.min_l by lia. reflexivity.
Qed.
Lemma back_firstn : forall {A} `{Num A} s sg k (V Z : mat A), M_SdrUtils.back s sg V = Ok Z -> M_SdrUtils.back s sg (map (firstn k) V) = Ok (map (firstn k) Z).
Proof.
  intros A HA s sg k V Z. unfold M_SdrUtils.back. destruct s; [apply firstn_npmatmul|]. intros E. apply Ok_inj in E. subst Z. reflexivity.
Qed.
Ltac lead :=
  match goal with
  | L : (?d' <= ?d)%nat, H : bind (leading ?eg ?M ?d) _ = Ok _ |- bind (leading ?eg ?M ?d') _ = Ok _ =>
      let V := fresh "V" in let EV := fresh "EV" in
      destruct (leading eg M d) as [V|] eqn:EV; [|discriminate]; cbn [bind] in H;
      rewrite (leading_firstn eg M d d' V L EV); cbn [bind]; apply back_firstn; exact H
  end.
Lemma direct_firstn : forall {A} `{Num A} (env : sd_env A) prm k' Xs ys P, (k' <= sp_ncomp prm)%nat ->
  sd_direct env prm Xs ys = Some (Ok P) ->
  sd_direct env (mk_sp (sp_meth prm) k' (sp_trim prm) (sp_center prm) (sp_center_data prm) (sp_scale_data prm) (sp_whiten prm) (sp_compress prm) (sp_slices prm) (sp_copy prm) (sp_cont prm) (sp_return prm)) Xs ys
  = Some (Ok (map (firstn k') P)).
Proof.
  intros A HA env prm k' Xs ys P Hk E. unfold sd_direct in *. cbn [sp_meth sp_ncomp sp_slices sp_cont sp_center_data sp_scale_data] in *.
  destruct (sp_meth prm); try discriminate; injection E as E; f_equal.
  - unfold SIR in *. destruct (sliced _ _ _ _ _ _) as [[[[sg Z] yd] u]|]; [|discriminate]. cbn [bind] in *. destruct (_ =? 0)%nat; [discriminate|]. lead.
  - unfold SAVE in *. destruct (sliced _ _ _ _ _ _) as [[[[sg Z] yd] u]|]; [|discriminate]. cbn [bind] in *. lead.
  - unfold DR in *. destruct (sliced _ _ _ _ _ _) as [[[[sg Z] yd] u]|]; [|discriminate]. cbn [bind] in *. destruct (_ =? 0)%nat; [discriminate|]. lead.
  - unfold PHD in *. destruct (standardised _ _ _) as [[sg Z]|]; [|discriminate]. cbn [bind] in *. destruct (negb _); [discriminate|]. lead.
  - unfold IHT in *. destruct (standardised _ _ _) as [[sg Z]|]; [|discriminate]. cbn [bind] in *. destruct (negb _); [discriminate|].
    destruct (iht_columns _ _) as [cs|]; [|discriminate]. cbn [bind] in *. cbv zeta in *. lead.
Qed.
Lemma C177_sudire_l : forall (env : sd_env R) st st' X y metric bias s1 m s2 m',
  same_sudire (ss_prm st) (ss_prm st') -> direct_method (sp_meth (ss_prm st)) -> sp_copy (ss_prm st) = true ->
  (sp_ncomp (ss_prm st') <= sp_ncomp (ss_prm st))%nat ->
  sd_fit env st X y metric bias = (s1, Ok m) -> sd_fit env st' X y metric bias = (s2, Ok m') ->
  let k := sp_ncomp (ss_prm st') in
  sm_P m' = map (firstn k) (sm_P m) /\ sm_T m' = map (firstn k) (sm_T m) /\ sm_K m' = sm_K m /\ sm_loc m' = sm_loc m /\ sm_sca m' = sm_sca m.
Proof.
  intros env st st' X y metric bias s1 m s2 m' HS HD Hc Hk E E' k.
  assert (Hc' : sp_copy (ss_prm st') = true) by (destruct HS as (_ & _ & _ & _ & _ & _ & _ & _ & -> & _); exact Hc).
  pose proof (same_sudire_eq _ _ HS) as Hq.
  apply L_SdrFit2.fit_inv in E as (pd & ys & P & _ & Ep & Ey & Ed & Ef); [|exact Hc].
  apply L_SdrFit2.fit_inv in E' as (pd' & ys' & P' & _ & Ep' & Ey' & Ed' & Ef'); [|exact Hc'].
  rewrite Ey in Ey'. apply Ok_inj in Ey'. subst ys'. cbv zeta in *.
  assert (Hn : sp_ncomp (sd_whitening (ss_prm st)) = sp_ncomp (ss_prm st)) by (unfold sd_whitening; destruct (sp_whiten (ss_prm st)); reflexivity).
  assert (Hm : direct_method (sp_meth (sd_whitening (ss_prm st)))) by (unfold sd_whitening; destruct (sp_whiten (ss_prm st)); exact HD).
  remember (sd_whitening (ss_prm st)) as q eqn:Eqq. rewrite Hq in Ep', Ed', Ef'. fold k in Ep', Ed', Ef'.
  match type of Ep' with sd_prepare _ ?b _ = _ => change (sd_prepare env q X = Ok pd') in Ep'; remember b as q' eqn:Eq' end.
  rewrite Ep in Ep'. apply Ok_inj in Ep'. subst pd'.
  assert (NN : sd_direct env q (pd_Xs pd) ys <> None) by (unfold sd_direct; destruct Hm as [->|[->|[->|[->| ->]]]]; discriminate).
  destruct Ed as [(P0 & Ed & E0)|(Ed & _)]; [|contradiction].
  assert (Hk' : (k <= sp_ncomp q)%nat) by (rewrite Hn; exact Hk).
  pose proof (direct_firstn env q k _ _ _ Hk' Ed) as Ed2. rewrite <- Eq' in Ed2.
  destruct Ed' as [(P0' & Ed' & E0')|(Ed' & _)]; [|rewrite Ed2 in Ed'; discriminate].
  rewrite Ed2 in Ed'. injection Ed' as <-.
  assert (EP : P' = map (firstn k) P).
  { subst q'. cbn [sp_scale_data] in E0'. unfold n2_times in *. destruct (sp_scale_data q).
    - rewrite (firstn_npmatmul k _ _ _ E0) in E0'. apply Ok_inj in E0'. auto.
    - apply Ok_inj in E0. apply Ok_inj in E0'. subst. reflexivity. }
  subst P'. apply L_SdrFit.finish_inv in Ef as (X1 & EX & ET & _ & _ & _ & V1 & V2 & L1 & L2 & L3). injection EX as <-.
  apply L_SdrFit.finish_inv in Ef' as (X1 & EX & ET' & _ & _ & _ & V1' & V2' & L1' & L2' & L3'). injection EX as <-.
  rewrite L1, L2, L3, L1', L2', L3'. rewrite (firstn_npmatmul k _ _ _ ET) in ET'. apply Ok_inj in ET'. rewrite <- ET'.
  split; [|auto]. destruct (pd_V pd) as [V|].
  - specialize (V2 V eq_refl). specialize (V2' V eq_refl). rewrite (firstn_npmatmul k _ _ _ V2) in V2'. apply Ok_inj in V2'. auto.
  - rewrite (V1 eq_refl), (V1' eq_refl). reflexivity.
Qed.
