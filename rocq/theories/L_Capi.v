(** Lemmas for capi. *)

From Coq Require Import String Reals List Arith ZArith Bool Lia Lra.
Import List. Import ListNotations.
From Verif Require Import Num Err Vec VecR OrdR L_Mat S_Stats L_Stats M_Utils M_Dicomo S_Dicomo L_Dicomo L_Dicomo2 L_Dicomo5 L_Dicomo9 L_Dicomo4 M_Capi S_Capi.
Import List. Open Scope R_scope.

Definition sel (d i : Z) (v : R) : R := if (i <=? d)%Z then v else 0.

Section Gen.
  Context {St : Type} (pi : pindex R St) (inv : string -> St -> Prop) (x y : arr R) (kw : dkw R) (V : string -> Z -> Z -> R).
  Hypothesis HA : answers pi inv x y kw V.

  Ltac go_mode := match goal with H : inv ?m ?s |- context [pi_mode pi ?s ?m'] =>
     let s' := fresh "s" in let E := fresh "E" in let H' := fresh "H" in
     destruct (proj1 HA m s m' H) as [s' [E H']]; rewrite E; clear E H end.
  Ltac go_fit := match goal with H : inv ?m ?s |- context [pi_fit pi ?s x y ?i ?j kw] =>
     let s' := fresh "s" in let E := fresh "E" in let H' := fresh "H" in
     destruct (proj2 HA m s i j H) as [s' [E H']]; [cbn; tauto|lia|lia|]; rewrite E; clear E H end.
  Ltac run := cbn; unfold Pos.to_nat, set_slot, vzeros; cbn.
  Lemma outer_run : forall sc d m0 m, inv m0 m -> (2 <= d <= 4)%Z ->
    exists m', capi_outer pi m x y kw (order_kwargs sc) [1;2;3]%Z (degrees d) 0 (vzeros 6) =
      (m', Ok [V (mode_at sc 2) 2 1; sel d 3 (V (mode_at sc 3) 3 1); sel d 3 (V (mode_at sc 3) 3 2);
               sel d 4 (V (mode_at sc 4) 4 1); sel d 4 (V (mode_at sc 4) 4 2); sel d 4 (V (mode_at sc 4) 4 3)]%Z) /\ inv (mode_at sc d) m'.
  Proof.
    intros sc d m0 m Hm Hd. assert (D : d = 2%Z \/ d = 3%Z \/ d = 4%Z) by lia.
    destruct D as [->|[->| ->]]; (change (degrees 2) with [2]%Z || change (degrees 3) with [2;3]%Z || change (degrees 4) with [2;3;4]%Z);
    destruct sc; unfold order_kwargs, sel, mode_at; cbn [Z.eqb Pos.eqb Z.leb Z.compare Pos.compare Pos.compare_cont];
    run; repeat (first [go_mode|go_fit]; run); eexists; (split; [reflexivity|assumption]).
  Qed.

  Lemma dot6 : forall a b c d e f u v w p q r : R, dot [a;b;c;d;e;f] [u;v;w;p;q;r] = a*u + b*v + c*w + d*p + e*q + f*r.
  Proof. intros. unfold dot. cbn. rnum. ring. Qed.

  Lemma outer_rest : forall modes rest is k mo m, (forall i, In i is -> (2 <= i <= 4)%Z) ->
    capi_outer pi m x y kw modes (1 :: 2 :: 3 :: rest)%Z is k mo = capi_outer pi m x y kw modes [1;2;3]%Z is k mo.
  Proof.
    intros modes rest is. induction is as [|i is IH]; intros k mo m Hi; cbn [capi_outer]; [reflexivity|].
    destruct (nth_error modes (Z.to_nat (i - 2))); [|reflexivity]. destruct (pi_mode pi m s); [|reflexivity].
    assert (E : firstn (Nat.min (Z.to_nat (i - 1)) (length (1 :: 2 :: 3 :: rest)%Z)) (1 :: 2 :: 3 :: rest)%Z = firstn (Nat.min (Z.to_nat (i - 1)) (length [1;2;3]%Z)) [1;2;3]%Z).
    { assert (D : (2 <= i <= 4)%Z) by (apply Hi; left; reflexivity). assert (D' : i = 2%Z \/ i = 3%Z \/ i = 4%Z) by lia.
      destruct D' as [->|[->| ->]]; cbn [length Nat.min]; reflexivity. }
    rewrite E. destruct (capi_inner _ _ _ _ _ _ _ _) as [m2 [mo'|e]]; [|reflexivity]. apply IH. intros i' Hi'. apply Hi. right. exact Hi'.
  Qed.

  Lemma C62_gen_l : forall s m0 w0 w1 w2 w3 w4 w5 rest, inv m0 (c_most s) -> (2 <= c_max s <= 4)%Z -> c_weights s = [w0;w1;w2;w3;w4;w5] ->
    (c_options s = None \/ c_options s = Some (1 :: 2 :: 3 :: rest)%Z) ->
    let v := fun i j => V (mode_at (c_scaling s) i) i j in
    let r := w0 * v 2%Z 1%Z + (if (3 <=? c_max s)%Z then w1 * v 3%Z 1%Z + w2 * v 3%Z 2%Z else 0)
      + (if (4 <=? c_max s)%Z then w3 * v 4%Z 1%Z + w4 * v 4%Z 2%Z + w5 * v 4%Z 3%Z else 0) in
    exists m' ms, capi_fit pi s x y kw = (mk_cstate (c_max s) (c_weights s) (c_scaling s) (c_options s) m' (Some r) (Some ms), Ok r) /\
      inv (mode_at (c_scaling s) (c_max s)) m'.
  Proof.
    intros s m0 w0 w1 w2 w3 w4 w5 rest Hm Hd Hw Ho v r. destruct (outer_run (c_scaling s) (c_max s) m0 (c_most s) Hm Hd) as [m' [E Hm']].
    exists m'. eexists. unfold capi_fit. replace (c_max s <? 2)%Z with false by (symmetry; apply Z.ltb_ge; lia).
    replace (capi_outer pi (c_most s) x y kw (order_kwargs (c_scaling s)) match c_options s with None => [1;2;3]%Z | Some l => l end (degrees (c_max s)) 0 (vzeros 6))
      with (capi_outer pi (c_most s) x y kw (order_kwargs (c_scaling s)) [1;2;3]%Z (degrees (c_max s)) 0 (vzeros 6)).
    2:{ destruct Ho as [->| ->]; [reflexivity|]. symmetry. apply outer_rest. intros i Hi. unfold degrees in Hi. apply in_map_iff in Hi as [a [<- Ha]].
        apply in_seq in Ha. lia. }
    rewrite E. split; [|exact Hm']. rewrite Hw. cbn [length Nat.eqb]. rewrite dot6.
    assert (Er : w0 * V (mode_at (c_scaling s) 2) 2 1 + w1 * sel (c_max s) 3 (V (mode_at (c_scaling s) 3) 3 1) + w2 * sel (c_max s) 3 (V (mode_at (c_scaling s) 3) 3 2)
      + w3 * sel (c_max s) 4 (V (mode_at (c_scaling s) 4) 4 1) + w4 * sel (c_max s) 4 (V (mode_at (c_scaling s) 4) 4 2) + w5 * sel (c_max s) 4 (V (mode_at (c_scaling s) 4) 4 3) = r).
    { unfold sel, r, v. destruct (3 <=? c_max s)%Z, (4 <=? c_max s)%Z; ring. }
    rewrite Er. reflexivity.
  Qed.

  Lemma C103_l : forall s m0, inv m0 (c_most s) -> (2 <= c_max s <= 4)%Z -> length (c_weights s) = 6%nat -> c_options s = None ->
    exists v, forall k, snd (capi_fit pi (Nat.iter k (fun s' => fst (capi_fit pi s' x y kw)) s) x y kw) = Ok v.
  Proof.
    intros s m0 Hm Hd Hl Ho. destruct (c_weights s) as [|w0 [|w1 [|w2 [|w3 [|w4 [|w5 [|w6 w]]]]]]] eqn:Hw; try discriminate.
    set (r := fun d sc => w0 * V (mode_at sc 2) 2 1 + (if (3 <=? d)%Z then w1 * V (mode_at sc 3) 3 1 + w2 * V (mode_at sc 3) 3 2 else 0)
      + (if (4 <=? d)%Z then w3 * V (mode_at sc 4) 4 1 + w4 * V (mode_at sc 4) 4 2 + w5 * V (mode_at sc 4) 4 3 else 0)).
    exists (r (c_max s) (c_scaling s)).
    assert (G : forall k, let s' := Nat.iter k (fun s' => fst (capi_fit pi s' x y kw)) s in
      (exists m, inv m (c_most s')) /\ c_max s' = c_max s /\ c_weights s' = c_weights s /\ c_scaling s' = c_scaling s /\ c_options s' = None).
    { induction k as [|k IH]; cbv zeta in *; [cbn [Nat.iter nat_rect]; repeat split; auto; exists m0; exact Hm|].
      change (Nat.iter (S k) (fun s' => fst (capi_fit pi s' x y kw)) s) with (fst (capi_fit pi (Nat.iter k (fun s' => fst (capi_fit pi s' x y kw)) s) x y kw)).
      set (s1 := Nat.iter k (fun s' => fst (capi_fit pi s' x y kw)) s) in *. destruct IH as ([m Im] & I1 & I2 & I3 & I4).
      destruct (C62_gen_l s1 m w0 w1 w2 w3 w4 w5 [] Im) as [m' [ms [E Hm']]]; [lia|congruence|auto|].
      rewrite E. cbn [fst c_max c_weights c_scaling c_options c_most]. repeat split; auto. exists (mode_at (c_scaling s1) (c_max s1)). exact Hm'. }
    intros k. destruct (G k) as ([m Im] & I1 & I2 & I3 & I4). set (s1 := Nat.iter k (fun s' => fst (capi_fit pi s' x y kw)) s) in *.
    destruct (C62_gen_l s1 m w0 w1 w2 w3 w4 w5 [] Im) as [m' [ms [E Hm']]]; [lia|congruence|auto|].
    rewrite E. cbn [snd]. unfold r. rewrite I1, I3. reflexivity.
  Qed.
  Lemma C63_five_l : forall s m0 w, inv m0 (c_most s) -> (5 <= c_max s)%Z -> c_options s = None -> c_weights s = w ->
    snd (capi_fit pi s x y kw) = Err IndexError.
  Proof.
    intros [d w sc o m i mo] m0 w' Hm Hd Ho Hw; cbn [c_max c_weights c_options c_most c_scaling] in *. subst w' o. unfold capi_fit. cbn [c_max c_weights c_options c_most c_scaling].
    replace (d <? 2)%Z with false by (symmetry; apply Z.ltb_ge; lia).
    assert (E : degrees d = (2 :: 3 :: 4 :: 5 :: map (fun a => Z.of_nat a + 2)%Z (seq 4 (Z.to_nat (d - 5))))%Z).
    { unfold degrees. replace (Z.to_nat (d - 1)) with (4 + Z.to_nat (d - 5))%nat by lia. rewrite seq_app, map_app. reflexivity. }
    rewrite E. clear E. destruct sc; unfold order_kwargs; run; repeat (first [go_mode|go_fit]; run); reflexivity.
  Qed.

  (** other option lists *)
  Lemma C62_one_l : forall s m0 w0 w1 w2 w3 w4 w5, inv m0 (c_most s) -> (2 <= c_max s <= 4)%Z -> c_weights s = [w0;w1;w2;w3;w4;w5] ->
    c_options s = Some [1%Z] -> let v := fun i j => V (mode_at (c_scaling s) i) i j in
    snd (capi_fit pi s x y kw) = Ok (w0 * v 2%Z 1%Z + (if (3 <=? c_max s)%Z then w1 * v 3%Z 1%Z else 0) + (if (4 <=? c_max s)%Z then w3 * v 4%Z 1%Z else 0)).
  Proof.
    intros [d w sc o m i mo] m0 w0 w1 w2 w3 w4 w5 Hm Hd Hw Ho v; cbn [c_max c_weights c_options c_most c_scaling] in *. subst w o. unfold capi_fit. cbn [c_max c_weights c_options c_most c_scaling].
    replace (d <? 2)%Z with false by (symmetry; apply Z.ltb_ge; lia). subst v.
    assert (D : d = 2%Z \/ d = 3%Z \/ d = 4%Z) by lia.
    destruct D as [->|[->| ->]]; (change (degrees 2) with [2]%Z || change (degrees 3) with [2;3]%Z || change (degrees 4) with [2;3;4]%Z);
    destruct sc; unfold order_kwargs, mode_at; cbn [Z.eqb Pos.eqb Z.leb Z.compare Pos.compare Pos.compare_cont];
    run; repeat (first [go_mode|go_fit]; run); f_equal; unfold dot; cbn; rnum; ring.
  Qed.
  Lemma C62_two_l : forall s m0 w0 w1 w2 w3 w4 w5, inv m0 (c_most s) -> (2 <= c_max s <= 4)%Z -> c_weights s = [w0;w1;w2;w3;w4;w5] ->
    c_options s = Some [1%Z;2%Z] -> let v := fun i j => V (mode_at (c_scaling s) i) i j in
    snd (capi_fit pi s x y kw) = Ok (w0 * v 2%Z 1%Z + (if (3 <=? c_max s)%Z then w1 * v 3%Z 1%Z + w2 * v 3%Z 2%Z else 0) + (if (4 <=? c_max s)%Z then w3 * v 4%Z 1%Z + w4 * v 4%Z 2%Z else 0)).
  Proof.
    intros [d w sc o m i mo] m0 w0 w1 w2 w3 w4 w5 Hm Hd Hw Ho v; cbn [c_max c_weights c_options c_most c_scaling] in *. subst w o. unfold capi_fit. cbn [c_max c_weights c_options c_most c_scaling].
    replace (d <? 2)%Z with false by (symmetry; apply Z.ltb_ge; lia). subst v.
    assert (D : d = 2%Z \/ d = 3%Z \/ d = 4%Z) by lia.
    destruct D as [->|[->| ->]]; (change (degrees 2) with [2]%Z || change (degrees 3) with [2;3]%Z || change (degrees 4) with [2;3;4]%Z);
    destruct sc; unfold order_kwargs, mode_at; cbn [Z.eqb Pos.eqb Z.leb Z.compare Pos.compare Pos.compare_cont];
    run; repeat (first [go_mode|go_fit]; run); f_equal; unfold dot; cbn; rnum; ring.
  Qed.
  Lemma C62_second_l : forall s m0 w0 w1 w2 w3 w4 w5, inv m0 (c_most s) -> c_max s = 3%Z -> c_weights s = [w0;w1;w2;w3;w4;w5] ->
    (c_options s = Some [2]%Z -> snd (capi_fit pi s x y kw) = Ok (w1 * V (mode_at (c_scaling s) 2) 2%Z 2%Z + w2 * V (mode_at (c_scaling s) 3) 3%Z 2%Z)) /\
    (c_options s = Some [2;1]%Z -> snd (capi_fit pi s x y kw) = Ok (w1 * V (mode_at (c_scaling s) 3) 3%Z 1%Z + w2 * V (mode_at (c_scaling s) 3) 3%Z 2%Z)).
  Proof.
    intros [d w sc o m i mo] m0 w0 w1 w2 w3 w4 w5 Hm Hd Hw; cbn [c_max c_weights c_options c_most c_scaling] in *. subst w d. unfold capi_fit. cbn [c_max c_weights c_options c_most c_scaling].
    change (3 <? 2)%Z with false. change (degrees 3) with [2;3]%Z. split; intros ->;
    destruct sc; unfold order_kwargs, mode_at; cbn [Z.eqb Pos.eqb Z.leb Z.compare Pos.compare Pos.compare_cont];
    run; repeat (first [go_mode|go_fit]; run); f_equal; unfold dot; cbn; rnum; ring.
  Qed.
End Gen.

(** the constructor and the range of degrees *)
Section Degree.
  Context {A : Type} `{Num A} {St : Type} (pi : pindex A St).
  Lemma C63_init_l : forall m d w sc o, pi_new pi = Ok m ->
    (capi_init pi d w sc o = Err ValueError <-> (4 < d)%Z) /\
    ((d <= 4)%Z -> exists s, capi_init pi d w sc o = Ok s /\ c_max s = d /\ c_most s = m /\ c_weights s = w /\ c_scaling s = sc /\ c_options s = o).
  Proof.
    intros m d w sc o E. unfold capi_init. rewrite E. cbn [bind]. split.
    - destruct (Z.ltb_spec 4 d); split; intros; try lia; try reflexivity. discriminate.
    - intros Hd. replace (4 <? d)%Z with false by (symmetry; apply Z.ltb_ge; lia). eexists. split; [reflexivity|]. repeat split.
  Qed.
  Lemma C63_low_l : forall s x y kw, (c_max s < 2)%Z -> capi_fit pi s x y kw = (s, Err ValueError).
  Proof. intros s x y kw Hd. unfold capi_fit. replace (c_max s <? 2)%Z with true by (symmetry; apply Z.ltb_lt; lia). reflexivity. Qed.
End Degree.

(** dicomo as the projection index *)
Section Dicomo.
  Context (dc : dcor_env R).
  Definition dinv (m : string) (s : dstate R) : Prop := d_est s = "arithmetic"%string /\ d_mode s = m /\ d_center s = "mean"%string.

  Definition dval (x y : list R) (m : string) (i j : Z) : R :=
    if (m =? "com")%string then (if (i =? 2)%Z then covariance_of x y else comoment (Z.to_nat i - Z.to_nat j) (Z.to_nat j) x y)
    else if (m =? "cov")%string then covariance_of x y
    else if (m =? "cos")%string then std_comoment (3 - Z.to_nat j) (Z.to_nat j) x y
    else std_comoment (4 - Z.to_nat j) (Z.to_nat j) x y.

  Lemma dicomo_answers : forall est mode center xa x ya y kw, sample xa x -> sample ya y -> length y = length x -> x <> [] -> no_trimming kw ->
    biascorr kw = false -> dflt (k_std kw) true = true -> dflt (k_fisher kw) true = true ->
    answers (dicomo_index dc est mode center) dinv xa ya kw (dval x y).
  Proof.
    intros est mode center xa x ya y kw Hx Hy Hl Hne Ht Hb Hs Hf. split.
    - intros m s m' (H1 & H2 & H3). eexists. split; [reflexivity|]. split; [exact H1|]. split; [reflexivity|exact H3].
    - intros m s i j (H1 & H2 & H3) Hm Hi Hj. cbn [pi_fit dicomo_index].
      set (kw' := with_oyo kw ya i j).
      assert (Et : no_trimming kw') by exact Ht.
      assert (Ey : k_y kw' = Some ya) by reflexivity.
      assert (Eb : biascorr kw' = false) by exact Hb.
      destruct (C55_params_l dc s xa kw') as (P1 & P2 & P3).
      exists (fst (dicomo_fit dc s xa kw')). split.
      + assert (E : fit_result dc s xa kw' = Ok (dval x y m i j)).
        { cbn [In] in Hm. destruct Hm as [<-|[<-|[<-|[<-|[]]]]]; unfold dval; cbn [String.eqb Ascii.eqb Bool.eqb].
          - rewrite (fit_cov dc s xa x ya y kw') by (auto; split; auto). rewrite Eb. unfold bessel. rewrite Rmult_1_r. reflexivity.
          - rewrite (fit_cos dc s xa x ya y kw' "mean") by (auto; split; auto). f_equal. unfold cosd.
            rewrite Eb. change (k_std kw') with (k_std kw). rewrite Hs. cbn [k_option dflt kw' with_oyo String.eqb Ascii.eqb Bool.eqb andb].
            unfold bessel, std_comoment, sd. rewrite !Rmult_1_r, Rplus_0_r. unfold Rdiv. rewrite Rinv_mult. ring.
          - rewrite (fit_cok dc s xa x ya y kw' "mean") by (auto; split; auto). f_equal. unfold cosd.
            rewrite Eb. change (k_std kw') with (k_std kw). change (k_fisher kw') with (k_fisher kw). rewrite Hs, Hf. cbn [k_option dflt kw' with_oyo String.eqb Ascii.eqb Bool.eqb andb negb].
            unfold bessel, std_comoment, sd. rewrite !Rmult_1_r, Rplus_0_r. unfold Rdiv. rewrite Rinv_mult. ring.
          - rewrite (C102_com_l dc s xa x ya y kw' (Z.to_nat i) (Z.to_nat j)); auto; try lia; [|split; auto].
            f_equal. destruct (Z.eqb_spec i 2) as [->|Ni]; [reflexivity|]. replace (Z.to_nat i =? 2)%nat with false by (symmetry; apply Nat.eqb_neq; lia). reflexivity. }
        unfold fit_result in E. rewrite (surjective_pairing (dicomo_fit dc s xa kw')). cbn [fst]. rewrite E. reflexivity.
      + split; [congruence|]. split; [congruence|]. rewrite P3, H3. destruct (smem _ _); reflexivity.
  Qed.

  Lemma C62_dicomo_l : forall est mode center s xa x ya y kw w0 w1 w2 w3 w4 w5, sample xa x -> sample ya y -> length y = length x -> x <> [] ->
    no_trimming kw -> biascorr kw = false -> dflt (k_std kw) true = true -> dflt (k_fisher kw) true = true ->
    d_est (c_most s) = "arithmetic"%string -> d_center (c_most s) = "mean"%string ->
    c_options s = None -> (2 <= c_max s <= 4)%Z -> c_weights s = [w0;w1;w2;w3;w4;w5] ->
    let cm := if c_scaling s then std_comoment else comoment in
    snd (capi_fit (dicomo_index dc est mode center) s xa ya kw) =
      Ok (w0 * covariance_of x y + (if (3 <=? c_max s)%Z then w1 * cm 2%nat 1%nat x y + w2 * cm 1%nat 2%nat x y else 0)
          + (if (4 <=? c_max s)%Z then w3 * cm 3%nat 1%nat x y + w4 * cm 2%nat 2%nat x y + w5 * cm 1%nat 3%nat x y else 0)).
  Proof.
    intros est mode center s xa x ya y kw w0 w1 w2 w3 w4 w5 Hx Hy Hl Hne Ht Hb Hs Hf He Hc Ho Hd Hw cm.
    pose proof (dicomo_answers est mode center xa x ya y kw Hx Hy Hl Hne Ht Hb Hs Hf) as HA.
    destruct (C62_gen_l _ _ _ _ _ _ HA s (d_mode (c_most s)) w0 w1 w2 w3 w4 w5 []) as [m' [ms [E _]]]; auto; [split; auto|].
    rewrite E. cbn [snd]. unfold mode_at, cm. destruct (c_scaling s); reflexivity.
  Qed.
End Dicomo.

(** option 0 at degree 2: the value is stored in the last slot, moments[-1] *)
Lemma C62_zero_l : forall St (pi : pindex R St) s x y kw w0 w1 w2 w3 w4 w5 m1 m2 v, c_max s = 2%Z -> c_options s = Some [0]%Z -> c_weights s = [w0;w1;w2;w3;w4;w5] ->
  pi_mode pi (c_most s) (mode_at (c_scaling s) 2) = Ok m1 -> pi_fit pi m1 x y 2 0 kw = (m2, Ok v) -> snd (capi_fit pi s x y kw) = Ok (w5 * v).
Proof.
  intros St pi [d w sc o m i mo] x y kw w0 w1 w2 w3 w4 w5 m1 m2 v Hd Ho Hw H1 H2; cbn [c_max c_weights c_options c_most c_scaling] in *. subst w d o. unfold capi_fit.
  cbn [c_max c_weights c_options c_most c_scaling]. change (2 <? 2)%Z with false. change (degrees 2) with [2]%Z. cbn [capi_outer].
  assert (Hmo : nth_error (order_kwargs sc) (Z.to_nat (2 - 2)) = Some (mode_at sc 2)) by (destruct sc; reflexivity).
  rewrite Hmo, H1. change (Nat.min (Z.to_nat (2 - 1)) (length [0%Z])) with 1%nat. cbn [firstn capi_inner]. rewrite H2. cbn. f_equal. unfold dot. cbn. change (Pos.to_nat 5) with 5%nat. cbn. rnum. ring.
Qed.
