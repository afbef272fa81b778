(** Lemmas for C206. *)
From Coq Require Import Reals List Arith ZArith Bool Lia Lra.
Import ListNotations.
From Verif Require Import Num Err Vec VecR OrdR L_Mat L_Lin M_Utils M_Dicomo M_Ppdire S_Stats S_Regress L_Stats L_Snipls S_Ppdire L_Grid L_Grid2 S_GridStop.
Open Scope R_scope.

Lemma projections_eq : forall Z w, projections Z w = matvec Z w.
Proof. intros Z w. apply map_ext. intros r. apply inner_dot. Qed.

Section Stop.
  Variables (most : arr R -> dkw R -> res R) (g g2 : gargs R) (n p : nat) (Z : list (list R)).
  Hypothesis HG : grid_args g g2.
  Hypothesis HZ : wf n p Z.
  Hypothesis Hn : (0 < n)%nat.

  Lemma at_oval : forall w o, oval most g Z w o -> objective_at most g Z w o.
  Proof. intros w o (u & E & ->). exists u. rewrite projections_eq. auto. Qed.

  Lemma refine_trace : forall fuel zopt afin oo of zopt' afin' o, good_ndir (ga_ndir g) -> unit_state Z p zopt afin ->
    refine trigR most fuel g2 Z zopt afin oo of = Ok (zopt', afin', o) ->
    exists ws os, length ws = length os /\ (length os <= fuel)%nat /\
      (forall k, (k < length os)%nat -> one_sweep most g2 Z p (nth k (afin :: ws) []) (nth (S k) (afin :: ws) []) /\ objective_at most g Z (nth (S k) (afin :: ws) []) (nth k os 0)) /\
      afin' = nth (length os) (afin :: ws) [] /\ o = nth (S (length os)) (oo :: of :: os) 0 /\
      (forall k, (k < length os)%nat -> 1 / 10000 < rel_change (nth k (oo :: of :: os) 0) (nth (S k) (oo :: of :: os) 0)) /\
      (length os = fuel \/ rel_change (nth (length os) (oo :: of :: os) 0) (nth (S (length os)) (oo :: of :: os) 0) <= 1 / 10000).
  Proof.
    induction fuel as [|fuel IH]; intros zopt afin oo of zopt' afin' o Hgd Hu E.
    - cbn in E. inversion E; subst. exists [], []. cbn. repeat split; auto; intros; lia.
    - cbn [refine] in E. destruct (nltb _ _) eqn:El.
      + destruct (sweep2 trigR most g2 Z (seq 0 (length afin)) zopt afin) as [[z1 a1]|e] eqn:Es; cbn [bind] in E; [|discriminate].
        assert (HF : Forall (fun j => (j < p)%nat) (seq 0 (length afin))).
        { apply Forall_forall. intros j Hj. apply in_seq in Hj. destruct Hu as (Hl & _). lia. }
        pose proof Es as Es0. apply (sweep2_inv most g g2 n p Z HG HZ Hn) in Es as (R1 & _); auto.
        destruct (objective most g2 Z a1) as [ob|e] eqn:Eo; cbn [bind] in E; [|discriminate].
        assert (Hob : oval most g Z a1 ob). { destruct (g2_kw g g2 HG) as (K1 & K2 & _). apply (objective_spec most g n p Z HZ Hn g2); auto. apply R1. }
        apply IH in E as (ws & os & L1 & L2 & L3 & L4 & L5 & L6 & L7); auto.
        exists (a1 :: ws), (ob :: os). cbn [length]. split; [lia|]. split; [lia|]. split.
        { intros [|k] Hk; [|apply (L3 k); lia]. cbn [nth]. split; [|apply at_oval; exact Hob].
          unfold one_sweep. rewrite !projections_eq. destruct Hu as (Hl & _ & Hz). destruct R1 as (_ & _ & Hz1). rewrite <- Hl. rewrite <- Hz, <- Hz1. exact Es0. }
        split; [exact L4|]. split; [exact L5|]. split.
        { intros [|k] Hk; [|apply (L6 k); lia]. cbn [nth]. apply Rltb_true in El. exact El. }
        destruct L7 as [L7|L7]; [left; lia|right; exact L7].
      + inversion E; subst. exists [], []. cbn [length nth]. split; [reflexivity|]. split; [lia|]. split; [intros; lia|]. split; [reflexivity|]. split; [reflexivity|]. split; [intros; lia|].
        right. apply Rltb_false in El. exact El.
  Qed.

  (** the objectives are not zero and not near the number the search starts from *)
  Hypothesis Hpos : forall w o, length w = p -> sqlen w = 1 -> objective_at most g Z w o -> -999 <= o /\ o <> 0.
  Lemma grid_stop_l : forall maxiter w o, (3 <= p)%nat -> good_ndir (ga_ndir g) -> grid_search trigR most g g2 maxiter Z p = Ok (w, o) ->
    grid_stopping most g g2 Z p maxiter w o.
  Proof.
    intros maxiter w o Hp Hgd E. unfold grid_search in E.
    destruct (mapM _ (seq 0 p)) as [ms|e]; cbn [bind] in E; [|discriminate].
    destruct (first_sweep trigR most g Z p) as [[z1 a1]|e] eqn:E1; cbn [bind] in E; [|discriminate].
    destruct (first_sweep_inv most g g2 n p Z HG HZ Hn z1 a1 ltac:(lia) E1) as (Hu1 & _).
    destruct (objective most g Z a1) as [ob|e] eqn:Eo; cbn [bind] in E; [|discriminate].
    destruct (Z.eqb_spec maxiter 0); [discriminate|]. destruct (Z.ltb_spec maxiter 0); [discriminate|].
    destruct (refine _ _ _ _ _ _ _ _ _) as [[[z2 a2] o2]|e] eqn:Er; cbn [bind] in E; [|discriminate]. inversion E; subst a2 o2; clear E.
    assert (Hob : objective_at most g Z a1 ob) by (apply at_oval; apply (objective_spec most g n p Z HZ Hn g); auto; apply Hu1).
    assert (Hb : -999 <= ob /\ ob <> 0). { apply (Hpos a1); auto; [apply Hu1|]. rewrite sqlen_dot. apply Hu1. }
    assert (Em : (@nopp R Num_R (nnat 1000)) = -1000). { rewrite nnat_R. replace (INR 1000) with 1000 by (rewrite INR_IZR_INZ; reflexivity). rnum. lra. }
    rewrite Em in Er. apply refine_trace in Er as (ws & os & L1 & L2 & L3 & L4 & L5 & L6 & L7); auto.
    assert (C0 : 1 / 10000 < rel_change ob (-1000)).
    { destruct Hb as [Hb0 _]. unfold rel_change. rewrite (Rabs_left (-1000)) by lra. replace (- -1000) with 1000 by lra. rewrite Rabs_right by lra. lra. }
    assert (P1 : (1 <= length os)%nat).
    { destruct os as [|o1 os]; [|cbn; lia]. exfalso. cbn [length nth] in L7. destruct L7 as [L7|L7]; [lia|lra]. }
    destruct os as [|o1 os]; [cbn in P1; lia|]. destruct ws as [|w1 ws]; [cbn in L1; lia|].
    assert (U1 : length w1 = p /\ sqlen w1 = 1).
    { destruct (L3 0%nat ltac:(cbn; lia)) as [S1 _]. cbn [nth] in S1. unfold one_sweep in S1. rewrite projections_eq in S1.
      apply (sweep2_inv most g g2 n p Z HG HZ Hn) in S1 as (V & _); auto.
      - split; [apply V|]. rewrite sqlen_dot. apply V.
      - apply Forall_forall. intros j Hj. apply in_seq in Hj. lia.
      - destruct Hu1 as (A1 & A2 & A3). split; [exact A1|]. split; [exact A2|reflexivity]. }
    assert (Hb1 : -999 <= o1 /\ o1 <> 0). { destruct (L3 0%nat ltac:(cbn; lia)) as [_ S2]. apply (Hpos w1); [apply U1|apply U1|exact S2]. }
    assert (C1 : 1 / 10000 < rel_change (-1000) o1).
    { unfold rel_change. destruct Hb1 as [B1 B2]. assert (Hpo : 0 < Rabs o1) by (apply Rabs_pos_lt; exact B2). rewrite (Rabs_left (-1000 - o1)) by lra.
      apply Rmult_lt_reg_r with (Rabs o1); [exact Hpo|]. unfold Rdiv at 2. rewrite Rmult_assoc, Rinv_l, Rmult_1_r by lra. destruct (Rle_dec 0 o1); [rewrite Rabs_right by lra|rewrite Rabs_left by lra]; lra. }
    assert (P2 : (2 <= length (o1 :: os))%nat).
    { destruct os as [|o3 os]; [|cbn; lia]. exfalso. cbn [length nth] in L7. destruct L7 as [L7|L7]; [lia|lra]. }
    exists (a1 :: w1 :: ws), (o1 :: os). cbv zeta. set (OS := o1 :: os) in *. set (WS := w1 :: ws) in *.
    split; [cbn [length]; lia|]. split; [exists z1; exact E1|]. split; [exact L3|]. split; [exact L4|]. split.
    { rewrite L5. replace (S (length OS)) with (S (S (length OS - 1))) by lia. reflexivity. }
    split; [lia|]. split; [intros k Hk; apply (L6 (S (S k))); lia|].
    destruct L7 as [L7|L7]; [left; exact L7|right].
    assert (Hl : exists m, length OS = S (S m)) by (exists (length OS - 2)%nat; lia). destruct Hl as [m Hm].
    replace (length OS - 2)%nat with m by lia. replace (length OS - 1)%nat with (S m) by lia. rewrite Hm in L7. exact L7.
  Qed.
End Stop.

Lemma near_l : forall most g g2 n p Z, grid_args g g2 -> is_matrix n p Z -> (0 < n)%nat -> (3 <= p)%nat -> good_ndir (ga_ndir g) ->
  forall maxiter w o z w1 o1, grid_search trigR most g g2 maxiter Z p = Ok (w, o) -> first_sweep trigR most g Z p = Ok (z, w1) ->
  objective_at most g Z w1 o1 -> Rabs (o1 + 1000) <= 1 / 10 -> w = w1 /\ o = -1000.
Proof.
  intros most g g2 n p Z HG HZ Hn Hp Hgd maxiter w o z w1 o1 E E1 Ho Hb. unfold grid_search in E.
  destruct (mapM _ (seq 0 p)) as [ms|e]; cbn [bind] in E; [|discriminate]. rewrite E1 in E. cbn [bind] in E.
  destruct (first_sweep_inv most g g2 n p Z HG HZ Hn z w1 ltac:(lia) E1) as (Hu1 & _).
  destruct (objective most g Z w1) as [ob|e] eqn:Eo; cbn [bind] in E; [|discriminate].
  assert (Hob : oval most g Z w1 ob) by (apply (objective_spec most g n p Z HZ Hn g); auto; apply Hu1).
  assert (ob = o1).
  { destruct Hob as (u & E2 & ->). destruct Ho as (u' & E3 & ->). rewrite projections_eq, E2 in E3. apply Ok_inj in E3 as ->. reflexivity. }
  subst ob. destruct (Z.eqb_spec maxiter 0); [discriminate|]. destruct (Z.ltb_spec maxiter 0); [discriminate|].
  assert (Em : (@nopp R Num_R (nnat 1000)) = -1000). { rewrite nnat_R. replace (INR 1000) with 1000 by (rewrite INR_IZR_INZ; reflexivity). rnum. lra. }
  rewrite Em in E. cbn [refine] in E.
  replace (nltb (nlit 1 10000) (ndiv (nabs (nsub o1 (-1000))) (nabs (-1000)))) with false in E.
  - cbn [bind] in E. injection E as <- <-. auto.
  - symmetry. apply Rltb_false. rnum. replace (o1 - -1000) with (o1 + 1000) by ring. rewrite (Rabs_left (-1000)) by lra. replace (- -1000) with 1000 by lra. lra.
Qed.

Lemma search_swept : forall most (g g2 : gargs R) maxiter Z p r, grid_search trigR most g g2 maxiter Z p = Ok r -> exists z w, first_sweep trigR most g Z p = Ok (z, w).
Proof.
  intros most g g2 maxiter Z p r E. unfold grid_search in E. destruct (mapM _ _); cbn [bind] in E; [|discriminate].
  destruct (first_sweep trigR most g Z p) as [[z w]|]; [eauto|discriminate].
Qed.
