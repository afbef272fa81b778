(** Lemmas about sprm: the loop, inversion of a completed fit, case weights. *)

From Coq Require Import Reals String List Arith ZArith Bool Lia Lra Permutation.
Import ListNotations.
From Verif Require Import Num Err Vec VecR OrdR L_Mat S_Stats S_Weights L_Stats M_Utils M_Preproc M_Robcent M_Msupport M_Rm M_Plot M_Snipls S_Rm
  L_Lin L_Scaling L_Scaling2 L_Preproc L_Missing L_Msupport S_Regress L_Snipls L_Snipls2 L_Rm L_Rm2 M_Sprm S_Sprm.
Open Scope R_scope.

(* ------------------------------------------------------------------ *)
(** * The loop *)
Section Loop.
  Context {A : Type} `{Num A}.
  Variable env : sp_env A.
  Variable P : sp_par A.
  Variable f : mfun.
  Variable k : nat.
  Variable cuts : A * A * A.
  Variable Xs : list (list A).
  Variables ys : list A.

  Definition pass (st : @sp_state A) : res (sp_state * bool) :=
    bind (snipls_fit (re_prep (se_rm env)) (se_inv env) (s_eta P) k CMean SNone (row_scale (q_sw st) Xs) (vmul ys (q_sw st))) (fun m =>
    bind (sp_colret_of (s_columns P) m) (fun _ => sp_body env P f cuts (length Xs) ys st m)).
  Lemma sp_loop_S : forall fuel st, sp_loop env (S fuel) P f k cuts Xs ys st =
    if nltb (s_tol P) (q_diff st) && (q_loops st <? s_maxit P)%nat then
      match pass st with
      | Err e => ([(row_scale (q_sw st) Xs, vmul ys (q_sw st))], Some (Err e))
      | Ok (st', true) => ([(row_scale (q_sw st) Xs, vmul ys (q_sw st))], Some (Ok st'))
      | Ok (st', false) => let '(calls, r) := sp_loop env fuel P f k cuts Xs ys st' in ((row_scale (q_sw st) Xs, vmul ys (q_sw st)) :: calls, r)
      end
    else ([], Some (Ok st)).
  Proof. intros. reflexivity. Qed.

  (** what every pass leaves behind *)
  Definition sp_passed (st : @sp_state A) : Prop :=
    exists sw m T dt, q_fit st = Some m /\
      snipls_fit (re_prep (se_rm env)) (se_inv env) (s_eta P) k CMean SNone (row_scale sw Xs) (vmul ys sw) = Ok m /\
      T = map2 (fun a r => map (fun v => ndiv v a) r) sw (sn_T m) /\
      snd (sc_fit_transform (re_prep (se_rm env)) (new_scaler (s_centre P) (sp_tsc P) n0) (A2 T)) = Ok dt /\
      q_wye st = mweights f (cty (se_rm env) (sp_rm P)) (cby (se_rm env) (sp_rm P)) (cry (se_rm env) (sp_rm P)) (std_resid (vsub ys (sn_fitted m))) /\
      q_wte st = mweights f (fst (fst cuts)) (snd (fst cuts)) (snd cuts) (start_dx dt) /\
      q_w0 st = low (vmul (q_wye st) (q_wte st)) /\ q_we st = floor_w (vmul (q_wye st) (q_wte st)).
  Lemma body_inv : forall n st m st' brk, sp_body env P f cuts n ys st m = Ok (st', brk) ->
    exists T dt, q_fit st' = Some m /\ T = map2 (fun a r => map (fun v => ndiv v a) r) (q_sw st) (sn_T m) /\
      snd (sc_fit_transform (re_prep (se_rm env)) (new_scaler (s_centre P) (sp_tsc P) n0) (A2 T)) = Ok dt /\
      q_wye st' = mweights f (cty (se_rm env) (sp_rm P)) (cby (se_rm env) (sp_rm P)) (cry (se_rm env) (sp_rm P)) (std_resid (vsub ys (sn_fitted m))) /\
      q_wte st' = mweights f (fst (fst cuts)) (snd (fst cuts)) (snd cuts) (start_dx dt) /\
      q_w0 st' = low (vmul (q_wye st') (q_wte st')) /\ q_we st' = floor_w (vmul (q_wye st') (q_wte st')) /\
      (brk = false -> q_loops st' = S (q_loops st) /\ q_sw st' = map nsqrt (q_we st')) /\ (brk = true -> q_sw st' = q_sw st).
  Proof.
    intros n st m st' brk E. unfold sp_body in E.
    set (T := map2 _ (q_sw st) (sn_T m)) in E. destruct (snd (sc_fit_transform _ _ (A2 T))) as [dt|] eqn:Ed; [|discriminate].
    exists T, dt. destruct cuts as [[c b] q]. cbn [fst snd]. destruct (_ <=? _)%nat; apply Ok_inj in E; injection E as <- <-; cbn;
      do 8 (split; auto); discriminate.
  Qed.
  Lemma pass_inv : forall st st' brk, pass st = Ok (st', brk) -> sp_passed st' /\ (brk = false -> q_loops st' = S (q_loops st)) /\
    (length (q_sw st') = length (q_we st') \/ q_sw st' = q_sw st).
  Proof.
    intros st st' brk E. unfold pass in E. apply bind_Ok in E as (m & Em & E). apply bind_Ok in E as (cr & _ & E).
    apply body_inv in E as (T & dt & E1 & E2 & E3 & E4 & E5 & E6 & E7 & E8 & E9). split; [exists (q_sw st), m, T, dt; repeat split; auto|].
    split; [intros Hb; apply E8; auto|]. destruct brk; [right; auto|left]. destruct (E8 eq_refl) as [_ ->]. apply map_length.
  Qed.

  Lemma sp_loop_terminates : forall fuel st, (s_maxit P + 1 - q_loops st <= fuel)%nat -> (1 <= fuel)%nat ->
    snd (sp_loop env fuel P f k cuts Xs ys st) <> None /\
    (length (fst (sp_loop env fuel P f k cuts Xs ys st)) <= s_maxit P - q_loops st)%nat.
  Proof.
    induction fuel as [|j IH]; intros st Hf H1; [lia|]. rewrite sp_loop_S.
    destruct (nltb (s_tol P) (q_diff st)); cbn [andb]; [|cbn; split; [discriminate|lia]].
    destruct (Nat.ltb_spec (q_loops st) (s_maxit P)) as [Hl|Hl]; [|cbn; split; [discriminate|lia]].
    destruct (pass st) as [[st' []]|e] eqn:Ep; try (cbn; split; [discriminate|lia]).
    apply pass_inv in Ep as (_ & Ep & _). specialize (Ep eq_refl). destruct (IH st') as [Hs Hc]; [lia|lia|].
    destruct (sp_loop env j P f k cuts Xs ys st') as [calls r]. cbn in *. split; [exact Hs|lia].
  Qed.
  Lemma sp_loop_fuel : forall fuel fuel' st r calls, sp_loop env fuel P f k cuts Xs ys st = (calls, Some r) -> (fuel <= fuel')%nat ->
    sp_loop env fuel' P f k cuts Xs ys st = (calls, Some r).
  Proof.
    induction fuel as [|j IH]; intros fuel' st r calls E Hle; [discriminate|]. destruct fuel' as [|j']; [lia|]. rewrite sp_loop_S in *.
    destruct (_ && _); [|exact E]. destruct (pass st) as [[st' []]|e]; try exact E.
    destruct (sp_loop env j P f k cuts Xs ys st') as [cs r'] eqn:E'. injection E as <- ->. rewrite (IH j' st' r cs E') by lia. reflexivity.
  Qed.
  Lemma sp_loop_total : forall st, (1 <= q_loops st)%nat -> exists calls r, forall fuel, (S (s_maxit P) <= fuel)%nat ->
    sp_loop env fuel P f k cuts Xs ys st = (calls, Some r).
  Proof.
    intros st Hl. destruct (sp_loop_terminates (S (s_maxit P)) st) as [Hs _]; [lia|lia|].
    destruct (sp_loop env (S (s_maxit P)) P f k cuts Xs ys st) as [calls [r|]] eqn:E; [|cbn in Hs; congruence].
    exists calls, r. intros fuel Hf. eapply sp_loop_fuel; eauto.
  Qed.
  Lemma sp_loop_passed : forall fuel st st' calls, sp_loop env fuel P f k cuts Xs ys st = (calls, Some (Ok st')) ->
    (st' = st /\ calls = []) \/ sp_passed st'.
  Proof.
    induction fuel as [|j IH]; intros st st' calls E; [discriminate|]. rewrite sp_loop_S in E.
    destruct (_ && _); [|injection E as <- <-; left; auto]. destruct (pass st) as [[st1 []]|e] eqn:Ep; [| |discriminate].
    - injection E as <- <-. right. apply pass_inv in Ep. apply Ep.
    - destruct (sp_loop env j P f k cuts Xs ys st1) as [cs r'] eqn:E'. injection E as <- ->. apply pass_inv in Ep as [Ep _].
      apply IH in E' as [[-> _]|]; right; auto.
  Qed.
  Lemma sp_loop_none : forall fuel st, nltb (s_tol P) (q_diff st) && (q_loops st <? s_maxit P)%nat = false ->
    sp_loop env (S fuel) P f k cuts Xs ys st = ([], Some (Ok st)).
  Proof. intros fuel st E. rewrite sp_loop_S, E. reflexivity. Qed.
  (** an error of the loop is the error of a pass *)
  Lemma sp_loop_err : forall fuel st e calls, sp_loop env fuel P f k cuts Xs ys st = (calls, Some (Err e)) -> exists st', pass st' = Err e.
  Proof.
    induction fuel as [|j IH]; intros st e calls E; [discriminate|]. rewrite sp_loop_S in E.
    destruct (_ && _); [|discriminate]. destruct (pass st) as [[st1 []]|e'] eqn:Ep; [discriminate| |injection E as <- <-; eauto].
    destruct (sp_loop env j P f k cuts Xs ys st1) as [cs r'] eqn:E'. injection E as <- ->. eauto.
  Qed.
  Lemma sp_loop_entered : forall fuel st st' calls, nltb (s_tol P) (q_diff st) && (q_loops st <? s_maxit P)%nat = true ->
    sp_loop env (S fuel) P f k cuts Xs ys st = (calls, Some (Ok st')) -> sp_passed st'.
  Proof.
    intros fuel st st' calls Hc E. apply sp_loop_passed in E as E2. destruct E2 as [[-> ->]|]; auto.
    rewrite sp_loop_S, Hc in E. destruct (pass st) as [[st1 []]|e'] eqn:Ep; [discriminate| |discriminate].
    destruct (sp_loop env fuel P f k cuts Xs ys st1) as [cs r']. discriminate.
  Qed.
End Loop.

(* ------------------------------------------------------------------ *)
(** * Lengths *)
Section Lengths.
  Context {A : Type} `{Num A}.
  Lemma snipls_fit_rows : forall env inv eta k c s (X : list (list A)) y m, snipls_fit env inv eta k c s X y = Ok m ->
    length (sn_T m) = length X /\ length (sn_fitted m) = length X.
  Proof.
    intros env inv eta k c s X y m E. unfold snipls_fit in E. destruct (_ && _); [discriminate|]. destruct (negb _); [discriminate|].
    apply bind_Ok in E as ([[mX sX] X0] & _ & E). apply bind_Ok in E as ([[my sy] Y0] & _ & E). cbv zeta in E.
    apply bind_Ok in E as ([[B Rw] T] & ET & E). destruct (negb _); [discriminate|]. apply Ok_inj in E as <-. cbn [sn_T sn_fitted]. split.
    - destruct (snipls_loop _ _ _ _ _ _ _ _) as [|c0 l] in ET.
      + apply Ok_inj in ET. injection ET as _ _ <-. unfold of_cols. rewrite map_length, seq_length. reflexivity.
      + apply bind_Ok in ET as (PW & _ & ET). apply bind_Ok in ET as (G & _ & ET). apply Ok_inj in ET. injection ET as _ _ <-.
        unfold of_cols. rewrite map_length, seq_length. reflexivity.
    - unfold xw. rewrite !map_length. reflexivity.
  Qed.
  Lemma check_input_rows : forall (X : list (list A)), (2 <= length X)%nat -> check_input (A2 X) = X.
  Proof. intros X HX. unfold check_input. destruct (Nat.eqb_spec (length X) 1); [lia|]. reflexivity. Qed.
  Lemma snd_ft_rows : forall env (st : scaler A) X Y, (2 <= length X)%nat -> snd (sc_fit_transform env st (A2 X)) = Ok Y -> length Y = length X.
  Proof.
    intros env st X Y HX E. destruct (sc_fit_transform env st (A2 X)) as [st' r] eqn:E'. cbn in E. subst r.
    apply fit_transform_rows in E'. rewrite check_input_rows in E' by auto. auto.
  Qed.
  Lemma floor_length : forall w : list A, length (floor_w w) = length w.
  Proof. intros. apply set_idx_length. Qed.
  Lemma vmul_length : forall u v : list A, length (vmul u v) = Nat.min (length u) (length v).
  Proof. intros. apply map2_length. Qed.
  Lemma start_dx_length : forall X : list (list A), length (start_dx X) = length X.
  Proof. intros. unfold start_dx. rewrite !map_length. reflexivity. Qed.
  Lemma start_dy_length : forall P (y ys : list A), length ys = length y -> length (start_dy P y ys) = length y.
  Proof. intros P y ys E. unfold start_dy. destruct (r_centre P), (r_scale P); cbv zeta; rewrite map_length; auto. Qed.
  Lemma row_scale_length : forall u (X : list (list A)), length (row_scale u X) = Nat.min (length u) (length X).
  Proof. intros. apply map2_length. Qed.

  Variable env : sp_env A.
  Variable P : sp_par A.
  Variable f : mfun.
  Variable k : nat.
  Variable cuts : A * A * A.
  Variable Xs : list (list A).
  Variables ys : list A.
  Hypothesis Hn : (2 <= length Xs)%nat.
  Hypothesis Hy : length ys = length Xs.

  Definition lens_ok (st : @sp_state A) : Prop := length (q_wye st) = length Xs /\ length (q_wte st) = length Xs /\ length (q_we st) = length Xs.
  Lemma pass_lens : forall st st' brk, length (q_sw st) = length Xs -> pass env P f k cuts Xs ys st = Ok (st', brk) ->
    length (q_sw st') = length Xs /\ lens_ok st'.
  Proof.
    intros st st' brk Hs E. unfold pass in E. apply bind_Ok in E as (m & Em & E). apply bind_Ok in E as (cr & _ & E).
    apply snipls_fit_rows in Em as [HT Hf]. rewrite row_scale_length, Hs, Nat.min_id in HT, Hf.
    apply body_inv in E as (T & dt & E1 & E2 & E3 & E4 & E5 & E6 & E7 & E8 & E9).
    assert (HlT : length T = length Xs) by (rewrite E2, map2_length, HT, Hs; apply Nat.min_id).
    apply snd_ft_rows in E3; [|lia].
    assert (H1 : length (q_wye st') = length Xs) by (rewrite E4, mweights_length, std_resid_length; unfold vsub; rewrite map2_length, Hf, Hy; apply Nat.min_id).
    assert (H2 : length (q_wte st') = length Xs) by (rewrite E5, mweights_length, start_dx_length; lia).
    assert (H3 : length (q_we st') = length Xs) by (rewrite E7, floor_length, vmul_length, H1, H2; apply Nat.min_id).
    split; [|repeat split; auto]. destruct brk; [rewrite E9; auto|]. destruct (E8 eq_refl) as [_ ->]. rewrite map_length; auto.
  Qed.
  Lemma loop_lens : forall fuel st st' calls, length (q_sw st) = length Xs -> lens_ok st ->
    sp_loop env fuel P f k cuts Xs ys st = (calls, Some (Ok st')) -> lens_ok st' /\ length (q_sw st') = length Xs.
  Proof.
    induction fuel as [|j IH]; intros st st' calls Hs Hl E; [discriminate|]. rewrite sp_loop_S in E.
    destruct (_ && _); [|injection E as <- <-; auto]. destruct (pass env P f k cuts Xs ys st) as [[st1 []]|e] eqn:Ep; [| |discriminate].
    - injection E as <- <-. apply pass_lens in Ep; auto. tauto.
    - destruct (sp_loop env j P f k cuts Xs ys st1) as [cs r'] eqn:E'. injection E as <- ->. apply pass_lens in Ep as [H1 H2]; auto. eapply IH; eauto.
  Qed.
End Lengths.

(* ------------------------------------------------------------------ *)
(** * Inversion of a completed fit *)
Section Inv.
  Context {A : Type} `{Num A}.
  Variable env : sp_env A.

  Definition sp_start_state (P : sp_par A) (f : mfun) (c b q : A) (Us : list (list A)) (y ys : list A) : @sp_state A :=
    let wx := mweights f c b q (start_dx Us) in
    let wy := mweights f (cty (se_rm env) (sp_rm P)) (cby (se_rm env) (sp_rm P)) (cry (se_rm env) (sp_rm P)) (start_dy (sp_rm P) y ys) in
    mk_ss None wy wx (floor_w (vmul wx wy)) (low (vmul wx wy)) (map nsqrt (floor_w (vmul wx wy))) (nlit 1 100000) n1 1.

  Lemma estimate_inv : forall P f k keep p0 X Xs y ys mX sXf sX my sy calls m,
    sp_estimate env P f k keep p0 X Xs y ys mX sXf sX my sy = (calls, Ok m) ->
    exists Us rc c b q st, sp_start env P Xs = Ok (Us, rc) /\ sp_start_cuts env P rc = Ok (c, b, q) /\
      sp_loop env (S (s_maxit P)) P f k (sp_loop_cuts env P f k (c, b, q)) Xs ys (sp_start_state P f c b q Us y ys) = (calls, Some (Ok st)) /\
      sp_finish env P f k (sp_loop_cuts env P f k (c, b, q)) keep p0 X Xs y ys mX sXf sX my sy st = Ok m.
  Proof.
    intros P f k keep p0 X Xs y ys mX sXf sX my sy calls m E. unfold sp_estimate in E.
    destruct (sp_start env P Xs) as [[Us rc]|] eqn:E1; [|discriminate]. destruct (sp_start_cuts env P rc) as [[[c b] q]|] eqn:E2; [|discriminate].
    cbv zeta in E. match type of E with (let '(_, _) := ?L in _) = _ => destruct L as [cs r] eqn:EL end.
    destruct r as [[st|e]|]; try discriminate. injection E as -> Ef. exists Us, rc, c, b, q, st. repeat split; auto.
  Qed.

  (** the parameters after the replacement of scaleTau2 *)
  Definition tau_fix (P : sp_par A) (X : list (list A)) : sp_par A :=
    match s_scale P with STau2 => if existsb (fun v => neqb v n0) (mad X) then set_scale P SMad else P | _ => P end.

  Lemma run_inv : forall P df X y P' calls m, sprm_run env P df X y = (P', (calls, Ok m)) ->
    exists f k c1 c2 mX sX Xs my sy ys X' Xs' sX',
      let P2 := tau_fix (set_columns P c1) X in
      sp_check P (length X) (ncols X) = Ok (f, k) /\ sp_columns P df = Ok c1 /\ length y = length X /\
      ((length X =? 1)%nat && (2 <=? ncols X)%nat = false) /\
      sp_scaled env P2 X y = Ok (mX, sX, Xs, (my, sy, ys)) /\ sp_drop c1 (ncols X) sX = Ok c2 /\
      P' = set_columns P2 c2 /\ (k <= length (vars_to_keep (ncols X) sX))%nat /\
      ((zero_scale sX = [] /\ X' = X /\ Xs' = Xs /\ sX' = sX) \/
       (X' = map (sel (vars_to_keep (ncols X) sX)) X /\ Xs' = map (sel (vars_to_keep (ncols X) sX)) Xs /\ sX' = sel (vars_to_keep (ncols X) sX) sX)) /\
      sp_estimate env P' f k (vars_to_keep (ncols X) sX) (ncols X) X' Xs' y ys mX sX sX' my sy = (calls, Ok m).
  Proof.
    intros P df X y P' calls m E. unfold sprm_run in E.
    destruct (sp_check P (length X) (ncols X)) as [[f k]|] eqn:E1; [|discriminate].
    destruct (sp_columns P df) as [c1|] eqn:E2; [|discriminate].
    destruct (Nat.eqb_spec (length y) (length X)) as [Hl|]; [|discriminate]. cbn [negb] in E.
    destruct ((length X =? 1)%nat && (2 <=? ncols X)%nat) eqn:E3; [discriminate|]. cbv zeta in E.
    fold (tau_fix (set_columns P c1) X) in E.
    destruct (sp_scaled env (tau_fix (set_columns P c1) X) X y) as [[[[mX sX] Xs] [[my sy] ys]]|] eqn:E4; [|discriminate].
    destruct (sp_drop c1 (ncols X) sX) as [c2|] eqn:E5; [|discriminate].
    destruct (Nat.ltb_spec (length (vars_to_keep (ncols X) sX)) k) as [|Hk]; [discriminate|].
    destruct (zero_scale sX) as [|z zs] eqn:Ez; injection E as <- E.
    - exists f, k, c1, c2, mX, sX, Xs, my, sy, ys, X, Xs, sX. repeat split; auto.
    - exists f, k, c1, c2, mX, sX, Xs, my, sy, ys. do 3 eexists. repeat split; eauto.
  Qed.

  Lemma finish_inv : forall P f k cuts keep p0 X Xs y ys mX sXf sX my sy st m,
    sp_finish env P f k cuts keep p0 X Xs y ys mX sXf sX my sy st = Ok m ->
    exists fit, q_fit st = Some fit /\ length sX = ncols Xs /\
      let b := sn_coef fit in
      let bres := map2 (fun sx bj => nmul (ndiv (nth 0 sy n0) sx) bj) sX b in
      let ic := match s_centre P with CMean => vmean (vsub y (matvec X bres)) | CNone => n0 | _ => np_median (vsub y (matvec X bres)) end in
      let yfit := map (fun v => nadd v ic) (matvec X bres) in
      sp_p m = (if s_copy P then Some p0 else None) /\ sp_keep m = keep /\ sp_coef m = bres /\ sp_intercept m = ic /\
      sp_coef_scaled m = b /\ sp_fitted m = yfit /\ sp_resid m = vsub y yfit /\
      sp_R m = sn_R fit /\ sp_T m = matmul Xs (sn_R fit) /\
      sp_xcw m = set_idx (q_w0 st) n0 (q_wte st) /\ sp_ycw m = set_idx (q_w0 st) n0 (q_wye st) /\ sp_cw m = set_idx (q_w0 st) n0 (q_we st) /\
      sp_xloc m = mX /\ sp_xsca m = sXf /\ sp_yloc m = my /\ sp_ysca m = sy /\
      sp_fun m = f /\ (sp_ctx m, sp_cbx m, sp_crx m) = cuts /\ sp_tcentre m = s_centre P /\ sp_tscale m = sp_tsc P /\
      sp_colret_of (s_columns P) fit = Ok (sp_colret m).
  Proof.
    intros P f k cuts keep p0 X Xs y ys mX sXf sX my sy st m E. unfold sp_finish in E. destruct (q_fit st) as [fit|]; [|discriminate].
    exists fit. split; auto. destruct (snd (sc_fit_transform _ _ _)) as [Z|]; [|discriminate]. cbv zeta in E |- *.
    destruct (Nat.eqb_spec (length sX) (ncols Xs)) as [Hs|]; [|discriminate]. cbn [negb] in E. split; auto.
    apply bind_Ok in E as (cr & Ec & E). destruct cuts as [[cx bx] rx]. apply Ok_inj in E as <-. cbn. repeat split; auto.
  Qed.
End Inv.

(* ------------------------------------------------------------------ *)
(** * C47: case weights over the extended reals *)
Lemma scaled_rows : forall {A} `{Num A} (env : sp_env A) P X y mX sX Xs my sy ys, (2 <= length X)%nat -> length y = length X ->
  sp_scaled env P X y = Ok (mX, sX, Xs, (my, sy, ys)) -> length Xs = length X /\ length ys = length X.
Proof.
  intros A HA env P X y mX sX Xs my sy ys Hn Hy E. unfold sp_scaled in E.
  destruct (sc_fit_transform _ _ (A2 X)) as [st1 [Z|]] eqn:E1; [|discriminate].
  destruct (sc_fit_transform _ st1 (A1 y)) as [st2 [Ys|]] eqn:E2; [|discriminate].
  destruct (a_col_loc st1), (a_col_sca st1), (a_col_loc st2), (a_col_sca st2); try discriminate. apply Ok_inj in E. injection E as _ _ <- _ _ <-.
  apply fit_transform_rows in E1, E2. rewrite check_input_rows in E1 by auto. split; auto. rewrite col_length, E2.
  unfold check_input, ncols. cbn [length hd]. destruct (Nat.leb_spec 2 (length y)); [|lia]. cbn. rewrite map_length. auto.
Qed.
Lemma start_rows : forall {A} `{Num A} (env : sp_env A) P Xs Us rc, (2 <= length Xs)%nat ->
  (forall U S, se_svd env Xs = Ok (U, S) -> length U = length Xs) -> sp_start env P Xs = Ok (Us, rc) -> length Us = length Xs.
Proof.
  intros A HA env P Xs Us rc Hn HU E. unfold sp_start in E. destruct (s_pcapp P); [|apply Ok_inj in E; injection E as <- <-; auto].
  apply bind_Ok in E as ([U sv] & EU & E). apply HU in EU. apply bind_Ok in E as (r & _ & E).
  destruct (snd (sc_fit_transform _ _ _)) as [Z|] eqn:Ez; [|discriminate]. apply Ok_inj in E. injection E as <- <-.
  apply snd_ft_rows in Ez; rewrite map_length in *; lia.
Qed.


Lemma run_states : forall {A} `{Num A} (env : sp_env A) P df X y m, sprm_fit env P df X y = Ok m -> (2 <= length X)%nat -> svd_rows env ->
  exists P' Xs' ys cuts st, lens_ok Xs' st /\ length Xs' = length X /\ s_fun P' = s_fun P /\ s_p1 P' = s_p1 P /\ s_p2 P' = s_p2 P /\ s_p3 P' = s_p3 P /\
    length ys = length Xs' /\
    cuts = (sp_ctx m, sp_cbx m, sp_crx m) /\ exists k, sp_passed env P' (sp_fun m) k cuts Xs' ys st /\
    sp_xcw m = set_idx (q_w0 st) n0 (q_wte st) /\ sp_ycw m = set_idx (q_w0 st) n0 (q_wye st) /\ sp_cw m = set_idx (q_w0 st) n0 (q_we st).
Proof.
  intros A HA env P df X y m E Hn Hsvd. unfold sprm_fit in E.
  destruct (sprm_run env P df X y) as [P' [calls r]] eqn:ER. cbn in E. subst r.
  apply run_inv in ER as (f & k & c1 & c2 & mX & sX & Xs & my & sy & ys & X' & Xs' & sX' & ER). cbv zeta in ER.
  destruct ER as (_ & _ & Hly & _ & Esc & _ & EP & _ & HX' & Eest).
  destruct (scaled_rows env _ X y _ _ _ _ _ _ Hn Hly Esc) as [HlX Hlys].
  assert (HXs' : length Xs' = length X) by (destruct HX' as [(_ & _ & -> & _)|(_ & -> & _)]; rewrite ?map_length; auto).
  apply estimate_inv in Eest as (Us & rc & c & b & q & st & E1 & E2 & EL & EF).
  assert (HUs : length Us = length X) by (rewrite <- HXs'; eapply start_rows; eauto; try lia; intros U S; apply Hsvd).
  apply finish_inv in EF as (fit & Efit & _ & EF). cbv zeta in EF.
  destruct EF as (_ & _ & _ & _ & _ & _ & _ & _ & _ & Exw & Eyw & Ecw & _ & _ & _ & _ & Ef & Ecu & _).
  assert (Hst : lens_ok Xs' st).
  { apply (loop_lens env P' f k _ Xs' ys ltac:(lia) ltac:(lia) (S (s_maxit P')) _ st calls) in EL; [apply EL| |].
    - unfold sp_start_state. cbn [q_sw]. rewrite map_length, floor_length, vmul_length, !mweights_length, start_dx_length, start_dy_length; lia.
    - unfold lens_ok, sp_start_state. cbn [q_wye q_wte q_we]. rewrite floor_length, vmul_length, !mweights_length, start_dx_length, start_dy_length; lia. }
  exists P', Xs', ys, (sp_ctx m, sp_cbx m, sp_crx m), st. split; auto. split; auto.
  assert (HP : s_fun P' = s_fun P /\ s_p1 P' = s_p1 P /\ s_p2 P' = s_p2 P /\ s_p3 P' = s_p3 P).
  { rewrite EP. unfold tau_fix. destruct (s_scale _); try (repeat split; reflexivity). destruct (existsb _ _); repeat split; reflexivity. }
  destruct HP as (H1 & H2 & H3 & H4). do 4 (split; [assumption|]). split; [lia|]. split; [reflexivity|]. exists k. rewrite Ef, Ecu.
  apply sp_loop_passed in EL as [[-> _]|Hp]; [discriminate|]. auto.
Qed.

Lemma C47_l : forall (env : sp_env XR) (P : sp_par XR) df X y m,
  sprm_fit env P df X y = Ok m -> (2 <= length X)%nat -> svd_rows env ->
  finite_cutoffs (sp_fun m) (re_normppf (se_rm env) (s_p1 P)) (re_normppf (se_rm env) (s_p2 P)) (re_normppf (se_rm env) (s_p3 P)) ->
  finite_cutoffs (sp_fun m) (sp_ctx m) (sp_cbx m) (sp_crx m) ->
  length (sp_cw m) = length X /\ length (sp_xcw m) = length X /\ length (sp_ycw m) = length X /\
  forall i, (i < length X)%nat ->
    unit_or_nan (nth i (sp_xcw m) NaN) /\ unit_or_nan (nth i (sp_ycw m) NaN) /\ caseweight_ok (nth i (sp_cw m) NaN) /\
    nth i (sp_cw m) NaN = XRmul (nth i (sp_xcw m) NaN) (nth i (sp_ycw m) NaN).
Proof.
  intros env P df X y m E Hn Hsvd Hcy Hcx.
  apply run_states in E as (P' & Xs & ys & cuts & st & Hst & HlX & HP1 & HP2 & HP3 & HP4 & Hly & Ecu & k & Hp & Exw & Eyw & Ecw); auto.
  destruct Hst as (L1 & L2 & L3). destruct Hp as (sw & fit & T & dt & _ & _ & _ & _ & Ewye & Ewte & Ew0 & Ewe).
  rewrite Ecu in Ewte. cbn [fst snd] in Ewte. unfold cty, cby, cry, sp_rm in Ewye. cbn [r_p1 r_p2 r_p3] in Ewye. rewrite HP2, HP3, HP4 in Ewye.
  rewrite Exw, Eyw, Ecw, !set_idx_length. do 3 (split; [lia|]). intros i Hi.
  rewrite !set_idx_nth by lia. rewrite Ewe. unfold floor_w. rewrite set_idx_nth by (rewrite vmul_length; lia). rewrite Ew0.
  rewrite (low_spec _ i NaN) by (rewrite vmul_length; lia).
  assert (Hv : nth i (vmul (q_wye st) (q_wte st)) NaN = XRmul (nth i (q_wye st) NaN) (nth i (q_wte st) NaN)).
  { unfold vmul. rewrite (nth_map2 _ _ _ i NaN NaN NaN) by lia. reflexivity. }
  assert (Ux : unit_or_nan (nth i (q_wte st) NaN)).
  { pose proof (mweights_range _ _ _ _ (start_dx dt) Hcx) as HF. rewrite Forall_forall in HF. rewrite Ewte. apply HF. apply nth_In. rewrite <- Ewte. lia. }
  assert (Uy : unit_or_nan (nth i (q_wye st) NaN)).
  { pose proof (mweights_range _ _ _ _ (std_resid (vsub ys (sn_fitted fit))) Hcy) as HF. rewrite Forall_forall in HF. rewrite Ewye. apply HF. apply nth_In. rewrite <- Ewye. lia. }
  rewrite Hv. pose proof (unit_mul _ _ Uy Ux) as Up. rewrite wmin_XR.
  destruct (nltb (XRmul (nth i (q_wye st) NaN) (nth i (q_wte st) NaN)) (Fin (1 / 1000000))) eqn:Elt.
  - xnum. repeat split; try (apply unit_Fin; lra). { right; left; reflexivity. } cbn. f_equal. ring.
  - repeat split; auto.
    + destruct Up as [->|(r & Er & Hr)]; [left; reflexivity|]. rewrite Er in *. cbn in Elt. rcmp_all. right; right. exists r. split; auto; lra.
    + destruct Ux as [->|(x & -> & _)], Uy as [->|(z & -> & _)]; cbn; auto. f_equal. ring.
Qed.
