(** fit as a state transition: parameters and staleness; the constructor. *)

From Coq Require Import String Reals List Arith ZArith Bool Lia Lra Psatz.
Import ListNotations.
From Verif Require Import Num Err Vec VecR M_Utils M_Preproc M_Dicomo S_Dicomo L_Dicomo2.
Import List. Open Scope R_scope.

Section Gen.
  Context {A : Type} `{Num A}.

  Definition par_eq (s s' : dstate A) : Prop := d_est s = d_est s' /\ d_mode s = d_mode s' /\ d_center s = d_center s'.
  Lemma par_refl : forall s, par_eq s s. Proof. intros; repeat split. Qed.
  Lemma par_trans : forall s s' s'', par_eq s s' -> par_eq s' s'' -> par_eq s s''.
  Proof. intros s s' s'' [? [? ?]] [? [? ?]]. repeat split; congruence. Qed.
  Lemma par_moment : forall s v, par_eq s (with_moment s v). Proof. intros; repeat split. Qed.
  Lemma par_xmom : forall s v, par_eq s (with_xmom s v). Proof. intros; repeat split. Qed.
  Lemma par_ymom : forall s v, par_eq s (with_ymom s v). Proof. intros; repeat split. Qed.
  Lemma par_como : forall s v, par_eq s (with_como s v). Proof. intros; repeat split. Qed.

  Ltac case1 :=
    match goal with
    | |- context [step _ ?r _] => destruct r; cbn [step]
    | |- context [if ?b then _ else _] => destruct b
    | |- context [match ?r with Some _ => _ | None => _ end] => destruct r
    | |- context [match ?r with Ok _ => _ | Err _ => _ end] => destruct r
    | |- context [match ?r with (_, _) => _ end] => is_var r; destruct r
    | |- context [match ?r with (_, _) => _ end] => destruct r
    end; cbn [step fst snd].
  Ltac parsolve := repeat case1; cbn [fst snd];
    repeat first [ apply par_refl | (eapply par_trans; [|apply par_moment]) | (eapply par_trans; [|apply par_xmom])
                 | (eapply par_trans; [|apply par_ymom]) | (eapply par_trans; [|apply par_como]) ].

  Lemma fit_arithmetic_par : forall s mode order opt x kw, par_eq s (fst (fit_arithmetic s mode order opt x kw)).
  Proof. intros. unfold fit_arithmetic. cbv zeta. parsolve. Qed.
  Lemma fit_mdd_par : forall s mode x kw, par_eq s (fst (fit_mdd s mode x kw)).
  Proof. intros. unfold fit_mdd. cbv zeta. parsolve. Qed.
  Lemma fit_fast_par : forall dc s mode x kw, par_eq s (fst (fit_fast dc s mode x kw)).
  Proof. intros. unfold fit_fast. cbv zeta. parsolve. Qed.
  Lemma fit_distance_par : forall s mode order opt x kw, par_eq s (fst (fit_distance s mode order opt x kw)).
  Proof. intros. unfold fit_distance. cbv zeta. parsolve. Qed.
  Lemma fit_tail_par : forall s l order opt alpha f st, par_eq s (fst (fit_tail s l order opt alpha f st)).
  Proof. intros. unfold fit_tail. cbv zeta. parsolve. Qed.

  Definition six (m : string) : bool := smem m ["std"; "skew"; "kurt"; "cos"; "M3"; "cok"]%string.

  Lemma setc_six : forall m o, snd (mode_of m o) = six m.
  Proof.
    intros m o. unfold mode_of, six, smem. cbn [existsb].
    repeat match goal with |- context [(m =? ?k)%string] => destruct (String.eqb_spec m k); [subst m; reflexivity|] end. reflexivity.
  Qed.

  Lemma C55_params_l : forall dc s x kw, let s' := fst (dicomo_fit dc s x kw) in
    d_est s' = d_est s /\ d_mode s' = d_mode s /\
    d_center s' = (if smem (d_mode s) ["std"; "skew"; "kurt"; "cos"; "M3"; "cok"]%string then "mean"%string else d_center s).
  Proof.
    intros dc s x kw. cbv zeta. fold (six (d_mode s)). rewrite <- (setc_six (d_mode s) (dflt (k_order kw) 2%nat)).
    unfold dicomo_fit. destruct (mode_of (d_mode s) (dflt (k_order kw) 2%nat)) as [[mode order] setc]. cbn [snd]. cbv zeta.
    set (s0 := if setc then with_center s "mean" else s).
    assert (H0 : d_est s0 = d_est s /\ d_mode s0 = d_mode s /\ d_center s0 = if setc then "mean"%string else d_center s)
      by (unfold s0; destruct setc; repeat split).
    assert (Hp : forall s', par_eq s0 s' -> d_est s' = d_est s /\ d_mode s' = d_mode s /\ d_center s' = if setc then "mean"%string else d_center s).
    { intros s' [P1 [P2 P3]]. destruct H0 as [Q1 [Q2 Q3]]. rewrite <- P1, <- P2, <- P3. auto. }
    destruct (alen x =? 0)%nat; [apply Hp, par_refl|].
    match goal with |- context [match ?e with (s1, r) => match r with Ok _ => _ | Err _ => _ end end] => set (E := e) end.
    assert (HE : par_eq s0 (fst E)).
    { unfold E. destruct (d_est s0 =? "arithmetic")%string; [apply fit_arithmetic_par|].
      destruct (d_est s0 =? "distance")%string; [|apply par_refl].
      destruct (smem mode ["ballcov"; "mdd"; "mdc"]%string); [apply fit_mdd_par|].
      match goal with |- context [if ?b then _ else _] => destruct b end; [apply fit_fast_par|apply fit_distance_par]. }
    destruct E as [s1 [l|e]]; cbn [fst] in HE; [|apply Hp, HE].
    apply Hp. eapply par_trans; [exact HE|apply fit_tail_par].
  Qed.

  (** the value returned does not depend on attributes left by earlier fits *)
  Definition supported (est mode : string) : bool :=
    ((est =? "arithmetic")%string && smem mode ["mom"; "var"; "std"; "skew"; "kurt"; "com"; "cov"; "cok"; "cos"; "corr"; "continuum"; "M3"]%string)
    || ((est =? "distance")%string && smem mode ["mom"; "var"; "std"; "skew"; "kurt"; "com"; "cov"; "cok"; "cos"; "corr"; "continuum"; "M3"; "mdd"; "mdc"; "ballcov"]%string).

  Lemma smem_in : forall s l, smem s l = true -> In s l.
  Proof. intros s l Hs. unfold smem in Hs. apply existsb_exists in Hs as [k [Hk E]]. apply String.eqb_eq in E as ->. exact Hk. Qed.


  (** two runs from states with the same parameters *)
  Definition sim (keep : bool) (o o' : dstate A * res (@dlocals A)) : Prop :=
    snd o = snd o' /\ par_eq (fst o) (fst o') /\
    (keep = true -> is_ok (snd o) = true -> d_moment (fst o) = d_moment (fst o')).

  Ltac simcase :=
    match goal with
    | |- context [step _ ?r _] => destruct r; cbn [step]
    | |- context [if ?b then _ else _] => destruct b
    | |- context [match ?r with Some _ => _ | None => _ end] => destruct r
    | |- context [match ?r with Ok _ => _ | Err _ => _ end] => destruct r
    | |- context [match ?r with (_, _) => _ end] => is_var r; destruct r
    | |- context [match ?r with (_, _) => _ end] => destruct r
    end; cbn [step fst snd].
  Ltac simdone := split; [reflexivity|split; [repeat split|cbn; intros; try discriminate; reflexivity]].

  Ltac same_par s s' Hp :=
    destruct s as [e m c mo xm ym co]; destruct s' as [e' m' c' mo' xm' ym' co']; destruct Hp as [P1 [P2 P3]];
    cbn [d_est d_mode d_center] in P1, P2, P3; subst e' m' c'.

  Lemma fit_arithmetic_sim : forall s s' mode order opt x kw, par_eq s s' ->
    sim ((mode =? "mom") || (mode =? "com"))%string (fit_arithmetic s mode order opt x kw) (fit_arithmetic s' mode order opt x kw).
  Proof.
    intros s s' mode order opt x kw Hp. same_par s s' Hp. unfold fit_arithmetic. cbv zeta. cbn [d_mode d_center].
    destruct (mode =? "mom")%string eqn:Ea, (mode =? "com")%string eqn:Eb; cbn [orb];
      [exfalso; apply String.eqb_eq in Ea; subst mode; discriminate Eb|..]; clear Ea Eb; repeat simcase; simdone.
  Qed.
  Lemma fit_distance_sim : forall s s' mode order opt x kw, par_eq s s' ->
    sim ((mode =? "mom") || (mode =? "com"))%string (fit_distance s mode order opt x kw) (fit_distance s' mode order opt x kw).
  Proof.
    intros s s' mode order opt x kw Hp. same_par s s' Hp. unfold fit_distance. cbv zeta. cbn [d_mode d_center].
    destruct (mode =? "mom")%string eqn:Ea, (mode =? "com")%string eqn:Eb; cbn [orb];
      [exfalso; apply String.eqb_eq in Ea; subst mode; discriminate Eb|..]; clear Ea Eb; repeat simcase; simdone.
  Qed.
  Lemma fit_fast_sim : forall dc s s' mode x kw, par_eq s s' ->
    sim ((mode =? "mom") || (mode =? "com"))%string (fit_fast dc s mode x kw) (fit_fast dc s' mode x kw).
  Proof.
    intros dc s s' mode x kw Hp. same_par s s' Hp. unfold fit_fast. cbv zeta. cbn [d_mode d_center].
    destruct (mode =? "mom")%string eqn:Ea, (mode =? "com")%string eqn:Eb; cbn [orb];
      [exfalso; apply String.eqb_eq in Ea; subst mode; discriminate Eb|..]; clear Ea Eb; repeat simcase; simdone.
  Qed.
  Lemma fit_mdd_sim : forall s s' mode x kw, par_eq s s' ->
    sim ((mode =? "mdd") || (mode =? "ballcov"))%string (fit_mdd s mode x kw) (fit_mdd s' mode x kw).
  Proof.
    intros s s' mode x kw Hp. same_par s s' Hp. unfold fit_mdd. cbv zeta. cbn [d_mode d_center].
    destruct (mode =? "mdd")%string eqn:Ea, (mode =? "ballcov")%string eqn:Eb; cbn [orb];
      [exfalso; apply String.eqb_eq in Ea; subst mode; discriminate Eb|..]; clear Ea Eb; repeat simcase; simdone.
  Qed.

  (** the local mode that the last part of fit sees *)
  Lemma fit_arithmetic_mode : forall s mode order opt x kw l, snd (fit_arithmetic s mode order opt x kw) = Ok l -> l_mode l = mode.
  Proof.
    intros s mode order opt x kw l. unfold fit_arithmetic. cbv zeta. 
    repeat simcase; intros E; try discriminate; apply Ok_inj in E; subst l; reflexivity.
  Qed.
  Lemma fit_distance_mode : forall s mode order opt x kw l, snd (fit_distance s mode order opt x kw) = Ok l -> l_mode l = mode.
  Proof.
    intros s mode order opt x kw l. unfold fit_distance. cbv zeta. 
    repeat simcase; intros E; try discriminate; apply Ok_inj in E; subst l; reflexivity.
  Qed.
  Lemma fit_fast_mode : forall dc s mode x kw l, snd (fit_fast dc s mode x kw) = Ok l -> l_mode l = mode.
  Proof.
    intros dc s mode x kw l. unfold fit_fast. cbv zeta. 
    repeat simcase; intros E; try discriminate; apply Ok_inj in E; subst l; reflexivity.
  Qed.
  Lemma fit_mdd_mode : forall s mode x kw l, snd (fit_mdd s mode x kw) = Ok l -> 
    l_mode l = mode /\ (mode = "mdd")%string \/ l_mode l = "corr"%string.
  Proof.
    intros s mode x kw l. unfold fit_mdd. cbv zeta. destruct (String.eqb_spec mode "mdd"); [subst mode; cbn [String.eqb Ascii.eqb Bool.eqb]|];
    repeat simcase; intros E; try discriminate; apply Ok_inj in E; subst l; auto.
  Qed.

  Lemma fit_tail_sim : forall s s' l order opt alpha f st, par_eq s s' ->
    ((l_mode l = "corr" \/ l_mode l = "continuum")%string \/ d_moment s = d_moment s') ->
    snd (fit_tail s l order opt alpha f st) = snd (fit_tail s' l order opt alpha f st).
  Proof.
    intros s s' l order opt alpha f st Hp Hk. same_par s s' Hp. cbn [d_moment] in Hk. unfold fit_tail. cbv zeta. cbn [d_mode].
    destruct Hk as [[Hk|Hk]|Hk].
    - rewrite Hk. cbn [String.eqb Ascii.eqb Bool.eqb]. repeat (simcase; cbn [d_moment with_moment]); reflexivity.
    - rewrite Hk. cbn [String.eqb Ascii.eqb Bool.eqb]. repeat (simcase; cbn [d_moment with_moment]); reflexivity.
    - subst mo'. repeat (simcase; cbn [d_moment with_moment]); reflexivity.
  Qed.

  Definition good_mode (est m : string) : bool :=
    smem m ["mom"; "com"; "corr"; "continuum"]%string || ((est =? "distance")%string && smem m ["mdd"; "mdc"; "ballcov"]%string).

  Lemma supported_good : forall est m o, supported est m = true -> good_mode est (fst (fst (mode_of m o))) = true.
  Proof.
    intros est m o Hs. unfold supported in Hs. apply orb_prop in Hs as [Hs|Hs]; apply andb_prop in Hs as [He Hm];
      apply smem_in in Hm; cbn [In] in Hm;
      repeat (destruct Hm as [Hm|Hm]; [subst m; unfold good_mode; rewrite ?He; reflexivity|]); contradiction.
  Qed.

  Lemma C55_fresh_l : forall dc s s' x kw, d_est s = d_est s' -> d_mode s = d_mode s' -> d_center s = d_center s' ->
    supported (d_est s) (d_mode s) = true -> snd (dicomo_fit dc s x kw) = snd (dicomo_fit dc s' x kw).
  Proof.
    intros dc s s' x kw E1 E2 E3 Hsup. pose proof (supported_good _ _ (dflt (k_order kw) 2%nat) Hsup) as Hg.
    assert (Hest : d_est s = "arithmetic"%string \/ d_est s = "distance"%string).
    { unfold supported in Hsup. apply orb_prop in Hsup as [H1|H1]; apply andb_prop in H1 as [H1 _]; apply String.eqb_eq in H1; auto. }
    unfold dicomo_fit. rewrite <- E2.
    destruct (mode_of (d_mode s) (dflt (k_order kw) 2%nat)) as [[mode order] setc]. cbn [fst] in Hg. cbv zeta.
    set (s0 := if setc then with_center s "mean" else s). set (s0' := if setc then with_center s' "mean" else s').
    assert (Hp : par_eq s0 s0') by (unfold s0, s0'; destruct setc; repeat split; cbn; auto).
    assert (He0 : d_est s0 = d_est s) by (unfold s0; destruct setc; reflexivity).
    destruct (alen x =? 0)%nat; [reflexivity|].
    assert (P1 : d_est s0' = d_est s0) by (symmetry; apply Hp). assert (P3 : d_center s0' = d_center s0) by (symmetry; apply Hp).
    rewrite P1, P3.
    assert (fin : forall (o o' : dstate A * res (@dlocals A)) opt alpha f st, snd o = snd o' -> par_eq (fst o) (fst o') ->
      (forall l, snd o = Ok l -> (l_mode l = "corr" \/ l_mode l = "continuum")%string \/ d_moment (fst o) = d_moment (fst o')) ->
      snd (let '(s1, r) := o in match r with Ok l => fit_tail s1 l order opt alpha f st | Err e => (s1, Err e) end) =
      snd (let '(s1, r) := o' in match r with Ok l => fit_tail s1 l order opt alpha f st | Err e => (s1, Err e) end)).
    { intros [s1 r] [s1' r'] opt alpha f st. cbn [fst snd]. intros -> Hpp Hk. destruct r' as [l|e]; [|reflexivity].
      apply fit_tail_sim; auto. }
    assert (Hstep : forall keep o o', sim keep o o' -> (forall l, snd o = Ok l -> l_mode l = mode) ->
       (smem mode ["mom"; "com"; "corr"; "continuum"]%string = true) -> keep = ((mode =? "mom") || (mode =? "com"))%string ->
       (forall l, snd o = Ok l -> (l_mode l = "corr" \/ l_mode l = "continuum")%string \/ d_moment (fst o) = d_moment (fst o'))).
    { intros keep o o' [_ [_ S3]] Hm Hmem Hkeep l El. rewrite El in S3. rewrite (Hm l El).
      apply smem_in in Hmem. cbn [In] in Hmem. destruct Hmem as [Hq|[Hq|[Hq|[Hq|[]]]]]; subst mode; auto; right; apply S3; auto. }
    destruct Hest as [Hest|Hest]; rewrite He0, Hest in *; cbn [String.eqb Ascii.eqb Bool.eqb].
    - assert (Hmem : smem mode ["mom"; "com"; "corr"; "continuum"]%string = true).
      { unfold good_mode in Hg. cbn [String.eqb Ascii.eqb Bool.eqb andb] in Hg. rewrite orb_false_r in Hg. exact Hg. }
      pose proof (fit_arithmetic_sim s0 s0' mode order (if (2 <? order)%nat then dflt (k_option kw) 1%nat else 0%nat) x kw Hp) as Hs.
      apply fin; [apply Hs|apply Hs|]. eapply Hstep; [exact Hs| |exact Hmem|reflexivity]. intros l. apply fit_arithmetic_mode.
    - destruct (smem mode ["ballcov"; "mdd"; "mdc"]%string) eqn:Eb.
      + pose proof (fit_mdd_sim s0 s0' mode x kw Hp) as Hs. apply fin; [apply Hs|apply Hs|].
        intros l El. pose proof (fit_mdd_mode _ _ _ _ _ El) as [[Hm1 Hm2]|Hm]; [|auto].
        right. apply Hs; [rewrite Hm2; reflexivity|rewrite El; reflexivity].
      + assert (Hmem : smem mode ["mom"; "com"; "corr"; "continuum"]%string = true).
        { unfold good_mode in Hg. apply orb_prop in Hg as [Hg|Hg]; auto. cbn [String.eqb Ascii.eqb Bool.eqb andb] in Hg.
          exfalso. apply smem_in in Hg. cbn [In] in Hg. destruct Hg as [<-|[<-|[<-|[]]]]; discriminate Eb. }
        match goal with |- context [if ?b then _ else _] => destruct b end.
        * pose proof (fit_fast_sim dc s0 s0' mode x kw Hp) as Hs. apply fin; [apply Hs|apply Hs|].
          eapply Hstep; [exact Hs| |exact Hmem|reflexivity]. intros l. apply fit_fast_mode.
        * pose proof (fit_distance_sim s0 s0' mode order (if (2 <? order)%nat then dflt (k_option kw) 1%nat else 0%nat) x kw Hp) as Hs. apply fin; [apply Hs|apply Hs|].
          eapply Hstep; [exact Hs| |exact Hmem|reflexivity]. intros l. apply fit_distance_mode.
  Qed.

  (** est 'sign' and 'entropy' compute nothing *)
  Lemma C55_sign_l : forall dc s x kw, d_est s = "sign"%string \/ d_est s = "entropy"%string -> alen x <> 0%nat ->
    smem (d_mode s) ["corr"; "continuum"; "cos"; "cok"]%string = false ->
    snd (dicomo_fit dc s x kw) = match d_moment s with Some v => Ok v | None => Err AttributeError end.
  Proof.
    intros dc s x kw He Hx Hm. unfold dicomo_fit.
    assert (Hmode : (fst (fst (mode_of (d_mode s) (dflt (k_order kw) 2%nat))) =? "corr")%string = false /\
                    (fst (fst (mode_of (d_mode s) (dflt (k_order kw) 2%nat))) =? "continuum")%string = false).
    { unfold mode_of. cbn [smem existsb] in Hm.
      repeat match goal with |- context [(d_mode s =? ?k)%string] => destruct (String.eqb_spec (d_mode s) k) as [Ek|]; [rewrite ?Ek in Hm; split; reflexivity|] end.
      cbn [fst]. unfold smem in Hm. cbn [existsb] in Hm. destruct (d_mode s =? "corr")%string; [discriminate|]. destruct (d_mode s =? "continuum")%string; [discriminate|]. auto. }
    destruct (mode_of (d_mode s) (dflt (k_order kw) 2%nat)) as [[mode order] setc]. cbn [fst] in Hmode. destruct Hmode as [M1 M2]. cbv zeta.
    set (s0 := if setc then with_center s "mean" else s).
    assert (H0 : d_est s0 = d_est s /\ d_mode s0 = d_mode s /\ d_moment s0 = d_moment s) by (unfold s0; destruct setc; repeat split).
    destruct H0 as [Q1 [Q2 Q3]]. rewrite Q1. apply Nat.eqb_neq in Hx. rewrite Hx.
    assert ((d_est s =? "arithmetic")%string = false /\ (d_est s =? "distance")%string = false) as [-> ->] by (destruct He as [He|He]; rewrite He; split; reflexivity).
    cbn. unfold fit_tail. cbv zeta. cbn [l_mode]. rewrite M1, M2, Q2.
    assert (smem (d_mode s) ["cok"; "cos"]%string = false) as ->.
    { unfold smem in *. cbn [existsb] in *. destruct (d_mode s =? "cok")%string; [rewrite ?orb_true_r in Hm; discriminate|].
      destruct (d_mode s =? "cos")%string; [rewrite ?orb_true_r in Hm; discriminate|]. reflexivity. }
    cbn [andb]. rewrite Q3. destruct (d_moment s); reflexivity.
  Qed.

  (** C61 *)
  Lemma smem_iff : forall s l, smem s l = true <-> In s l.
  Proof.
    intros s l. split; [apply smem_in|]. intros Hi. apply existsb_exists. exists s. split; auto. apply String.eqb_refl.
  Qed.
  Lemma C61_l : forall est mode center,
    (exists s, dicomo_init (A:=A) est mode center = Ok s) <->
    In est ["arithmetic"; "distance"; "sign"; "entropy"]%string /\
    In mode ["mom"; "var"; "std"; "skew"; "kurt"; "com"; "cov"; "cok"; "cos"; "corr"; "continuum"; "M3"; "mdd"; "ballcov"]%string /\
    In center ["mean"; "median"]%string /\ ~ (est = "arithmetic" /\ mode = "mdd")%string.
  Proof.
    intros est mode center. rewrite <- !smem_iff. fold li_est li_mo li_center. unfold dicomo_init.
    destruct (smem mode li_mo) eqn:E1; cbn [negb]; [|split; [intros [s Hs]; discriminate|intros [_ [Hf _]]; discriminate]].
    destruct (smem est li_est) eqn:E2; cbn [negb]; [|split; [intros [s Hs]; discriminate|intros [Hf _]; discriminate]].
    destruct (smem center li_center) eqn:E3; cbn [negb]; [|split; [intros [s Hs]; discriminate|intros [_ [_ [Hf _]]]; discriminate]].
    destruct (String.eqb_spec est "arithmetic") as [->|Hn]; cbn [andb].
    - destruct (smem mode ["mdd"; "mdc"]%string) eqn:E4.
      + split; [intros [s Hs]; discriminate|]. intros [_ [_ [_ Hf]]]. exfalso. apply Hf. split; auto.
        apply smem_in in E4. cbn [In] in E4. destruct E4 as [<-|[<-|[]]]; auto. discriminate E1.
      + split; [intros _; repeat split; auto; intros [_ ->]; discriminate E4|]. intros _. eexists. reflexivity.
    - split; [intros _; repeat split; auto; intros [? _]; contradiction|]. intros _. eexists. reflexivity.
  Qed.
  Lemma C61_state_l : forall est mode center s, dicomo_init (A:=A) est mode center = Ok s ->
    d_est s = est /\ d_mode s = mode /\ d_center s = center /\ d_moment s = None.
  Proof.
    intros est mode center s. unfold dicomo_init. repeat match goal with |- context [if ?b then _ else _] => destruct b end; intros E; try discriminate.
    apply Ok_inj in E as <-. repeat split.
  Qed.
End Gen.
