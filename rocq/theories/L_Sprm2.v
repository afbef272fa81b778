(** Lemmas about sprm, continued: validation, zero-scale variables, totality. *)

From Coq Require Import Reals String List Arith ZArith Bool Lia Lra Permutation.
Import ListNotations.
From Verif Require Import Num Err Vec VecR OrdR L_Mat S_Stats S_Weights L_Stats M_Utils M_Preproc M_Robcent M_Msupport M_Rm M_Plot M_Snipls S_Rm
  L_Lin L_Scaling L_Scaling2 L_Preproc L_Missing L_Msupport S_Regress L_Snipls L_Snipls2 L_Snipls3 L_Rm L_Rm2 M_Sprm S_Sprm L_Sprm.
Open Scope R_scope.

(* ------------------------------------------------------------------ *)
(** * Where MyException comes from *)
Definition no_my {B} (r : res B) : Prop := r <> Err MyException.
Lemma no_my_Ok : forall {B} (b : B), no_my (Ok b). Proof. intros B b E. discriminate. Qed.
Lemma no_my_bind : forall {B C} (x : res B) (g : B -> res C), no_my x -> (forall b, x = Ok b -> no_my (g b)) -> no_my (bind x g).
Proof. intros B C [b|e] g Hx Hg; cbn; auto. intros E. injection E as ->. apply Hx. reflexivity. Qed.
Lemma no_my_mapM : forall {B C} (g : B -> res C) l, (forall b, no_my (g b)) -> no_my (mapM g l).
Proof.
  intros B C g l Hg. induction l as [|b l IH]; [apply no_my_Ok|]. cbn [mapM]. apply no_my_bind; auto. intros c _. apply no_my_bind; auto. intros cs _. apply no_my_Ok.
Qed.
Definition builtin_c {A} (c : centre_opt A) : Prop := match c with CUser _ => False | _ => True end.
Definition builtin_s {A} (s : scale_opt A) : Prop := match s with SUser _ => False | _ => True end.
Section NoMy.
  Context {A : Type} `{Num A}.
  Lemma trim_no_my : forall t (l : list A), no_my (trim_mean1 t l).
  Proof. intros t l. unfold trim_mean1. destruct (_ <? _)%Z; [discriminate|apply no_my_Ok]. Qed.
  Lemma location_no_my : forall env c t (X : list (list A)), builtin_c c -> no_my (location env c t X).
  Proof.
    intros env c t X Hc. destruct c; try contradiction; try (apply no_my_Ok); [|discriminate].
    cbn. unfold mean. destruct (neqb _ _); [apply no_my_Ok|]. apply no_my_mapM. apply trim_no_my.
  Qed.
  Lemma scale_est_no_my : forall env s t (X : list (list A)), builtin_s s -> no_my (scale_est env s t X).
  Proof.
    intros env s t X Hc. destruct s; try contradiction; try (apply no_my_Ok); [|discriminate].
    cbn. unfold std. destruct (neqb _ _); [apply no_my_Ok|].
    apply no_my_bind; [apply no_my_mapM; apply trim_no_my|]. intros m _. apply no_my_bind; [apply no_my_mapM; apply trim_no_my|]. intros v _. apply no_my_Ok.
  Qed.
  Lemma scale_data_no_my : forall (X : list (list A)) m s, no_my (scale_data X m s).
  Proof.
    intros X m s. unfold scale_data. destruct (_ =? _)%nat.
    - destruct m; [discriminate|]. destruct (handle_zeros s); [discriminate|apply no_my_Ok].
    - apply no_my_bind.
      + destruct (_ =? _)%nat; [apply no_my_Ok|]. destruct m as [|m0 [|? ?]]; [discriminate|apply no_my_Ok|discriminate].
      + intros b _. destruct (_ =? _)%nat; [apply no_my_Ok|]. destruct (handle_zeros s) as [|m0 [|? ?]]; [discriminate|apply no_my_Ok|discriminate].
  Qed.
  Lemma ft_no_my : forall env (st : scaler A) x, builtin_c (sc_center st) -> builtin_s (sc_scale st) -> no_my (snd (sc_fit_transform env st x)).
  Proof.
    intros env st x Hc Hs. unfold sc_fit_transform, sc_fit. unfold check_trimming, raise_if. destruct (_ || _); [discriminate|].
    destruct (is_bad _ _); [discriminate|].
    pose proof (location_no_my env (sc_center st) (sc_trimming st) (check_input x) Hc) as H1.
    destruct (location env _ _ _) as [m|e]; [|cbn; intros E; injection E as ->; apply H1; reflexivity].
    pose proof (scale_est_no_my env (sc_scale st) (sc_trimming st) (check_input x) Hs) as H2.
    destruct (scale_est env _ _ _) as [s|e]; [|cbn; intros E; injection E as ->; apply H2; reflexivity].
    unfold sc_transform. cbn [a_center a_scale].
    pose proof (scale_data_no_my (check_input x) m s) as H3.
    destruct (scale_data _ _ _) as [Y|e]; [|cbn; intros E; injection E as ->; apply H3; reflexivity]. apply no_my_Ok.
  Qed.
  Lemma scaled_no_my : forall env c s (X : list (list A)), builtin_c c -> builtin_s s -> no_my (scaled env c s X).
  Proof.
    intros env c s X Hc Hs. unfold scaled. pose proof (ft_no_my env (new_scaler c s n0) (A2 X) Hc Hs) as H1.
    destruct (sc_fit_transform _ _ _) as [st [Z|e]]; [|cbn in H1; intros E; injection E as ->; apply H1; reflexivity].
    destruct (a_col_loc st), (a_col_sca st); discriminate.
  Qed.
  Lemma snipls_no_my : forall env inv eta k c s (X : list (list A)) y, builtin_c c -> builtin_s s -> (forall M, inv M <> Err MyException) ->
    no_my (snipls_fit env inv eta k c s X y).
  Proof.
    intros env inv eta k c s X y Hc Hs Hi. unfold snipls_fit. destruct (_ && _); [discriminate|]. destruct (negb _); [discriminate|].
    apply no_my_bind; [apply scaled_no_my; auto|]. intros [[mX sX] X0] _. apply no_my_bind; [apply scaled_no_my; auto|]. intros [[my sy] Y0] _.
    cbv zeta. apply no_my_bind.
    - destruct (snipls_loop _ _ _ _ _ _ _ _); [apply no_my_Ok|]. apply no_my_bind; [apply Hi|]. intros M _. apply no_my_bind; [apply Hi|]. intros M' _. apply no_my_Ok.
    - intros [[B Rw] T] _. destruct (negb _); [discriminate|apply no_my_Ok].
  Qed.
  Lemma take_names_no_my : forall idx l, no_my (take_names idx l).
  Proof. intros idx l. apply no_my_mapM. intros j. destruct (nth_error l j); [apply no_my_Ok|discriminate]. Qed.
  Lemma colret_no_my : forall c (m : snipls_model A), no_my (sp_colret_of c m).
  Proof.
    intros c m. unfold sp_colret_of. destruct (sn_colret m); [|apply no_my_Ok]. destruct c; [apply no_my_Ok|].
    apply no_my_bind; [apply take_names_no_my|]. intros; apply no_my_Ok.
  Qed.
  Lemma estimate_no_my : forall (env : sp_env A) P f k keep p0 X Xs y ys mX sXf sX my sy,
    builtin_c (s_centre P) -> builtin_s (s_scale P) -> (forall M, se_inv env M <> Err MyException) -> (forall M, se_svd env M <> Err MyException) ->
    no_my (snd (sp_estimate env P f k keep p0 X Xs y ys mX sXf sX my sy)).
  Proof.
    intros env P f k keep p0 X Xs y ys mX sXf sX my sy Hc Hs Hi Hv. unfold sp_estimate.
    assert (H1 : no_my (sp_start env P Xs)).
    { unfold sp_start. destruct (s_pcapp P); [|apply no_my_Ok]. apply no_my_bind; [apply Hv|]. intros [U sv] _.
      apply no_my_bind. { unfold relcomp. destruct (where_ _ _); [discriminate|apply no_my_Ok]. }
      intros rc _. pose proof (ft_no_my (re_prep (se_rm env)) (new_scaler (s_centre P) (s_scale P) n0) (A2 (map (firstn rc) U)) Hc Hs) as H1.
      destruct (snd _) as [Z|e]; [apply no_my_Ok|]. intros E. injection E as ->. apply H1; reflexivity. }
    destruct (sp_start env P Xs) as [[Us rc]|e]; [|cbn; intros E; injection E as ->; apply H1; reflexivity].
    assert (H2 : no_my (sp_start_cuts env P rc)).
    { unfold sp_start_cuts. destruct (s_specific P); [|apply no_my_Ok]. destruct rc; [apply no_my_Ok|discriminate]. }
    destruct (sp_start_cuts env P rc) as [[[c b] q]|e]; [|cbn; intros E; injection E as ->; apply H2; reflexivity].
    cbv zeta. match goal with |- context [sp_loop ?a ?b ?c ?d ?e ?f ?g ?h ?i] => destruct (sp_loop a b c d e f g h i) as [calls r] eqn:El end.
    cbn [snd]. destruct r as [[st|e]|]; [| |discriminate].
    - unfold sp_finish. destruct (q_fit st) as [m|]; [|destruct (q_w0 st); discriminate].
      pose proof (ft_no_my (re_prep (se_rm env)) (new_scaler (s_centre P) SNone n0) (A2 (row_scale (map nsqrt (q_sw st)) Xs)) Hc I) as H3.
      destruct (snd _) as [Z|e]; [|intros E; injection E as ->; apply H3; reflexivity]. cbv zeta. destruct (negb _); [discriminate|].
      apply no_my_bind; [apply colret_no_my|]. intros cr _. destruct (sp_loop_cuts _ _ _ _ _) as [[? ?] ?]. apply no_my_Ok.
    - apply sp_loop_err in El as [st' El]. intros E. injection E as ->. revert El. change (no_my (pass env P f k (sp_loop_cuts env P f k (c, b, q)) Xs ys st')).
      unfold pass. apply no_my_bind; [apply snipls_no_my; cbn; auto|]. intros m _. apply no_my_bind; [apply colret_no_my|]. intros cr _.
      unfold sp_body.
      assert (Hs' : builtin_s (sp_tsc P)) by (unfold sp_tsc; destruct (s_scale P); auto).
      match goal with |- context [snd (sc_fit_transform ?a ?b ?c)] => pose proof (ft_no_my a b c Hc Hs') as H3; destruct (snd (sc_fit_transform a b c)) as [Z|e] end;
        [|intros E; injection E as ->; apply H3; reflexivity].
      destruct (sp_loop_cuts _ _ _ _ _) as [[? ?] ?]. cbv zeta. destruct (_ <=? _)%nat; apply no_my_Ok.
  Qed.
End NoMy.
Lemma plain_builtin_c : forall c : centre_opt R, plain_centre c -> builtin_c c. Proof. intros c [->|[->| ->]]; exact I. Qed.
Lemma plain_builtin_s : forall s : scale_opt R, plain_scale s -> builtin_s s. Proof. intros c [->|[->| ->]]; exact I. Qed.

(* ------------------------------------------------------------------ *)
(** * Scaling and zero-scale variables for the plain options *)
Lemma scaled_plain : forall (env : sp_env R) P n p X y, is_matrix n p X -> (2 <= n)%nat -> (1 <= p)%nat -> length y = n ->
  plain_centre (s_centre P) -> plain_scale (s_scale P) ->
  exists mX sX Xs my sy ys, sp_scaled env P X y = Ok (mX, sX, Xs, (my, sy, ys)) /\ is_matrix n p Xs /\ length ys = n /\
    length mX = p /\ length sX = p /\ location (re_prep (se_rm env)) (s_centre P) 0 X = Ok mX /\ scale_est (re_prep (se_rm env)) (s_scale P) 0 X = Ok sX /\
    scale_data X mX sX = Ok Xs /\
    location (re_prep (se_rm env)) (s_centre P) 0 (as_column y) = Ok my /\ scale_est (re_prep (se_rm env)) (s_scale P) 0 (as_column y) = Ok sy /\
    exists Ys, scale_data (as_column y) my sy = Ok Ys /\ ys = col 0 Ys.
Proof.
  intros env P n p X y HX Hn Hp Hy Hc Hs.
  destruct (ft_plain (re_prep (se_rm env)) (new_scaler (s_centre P) (s_scale P) 0) n p (A2 X) X) as (st1 & Xs & mX & sX & E1 & W1 & L1 & S1 & HmX & HsX & C1 & D1 & T1); auto.
  { apply (check_input_id n p); auto. }
  destruct (ft_plain (re_prep (se_rm env)) st1 n 1 (A1 y) (as_column y)) as (st2 & Ys & my & sy & E2 & W2 & L2 & S2 & _ & _ & C2 & D2 & T2); auto.
  { apply check_A1; lia. } { rewrite <- Hy. apply as_column_wf. } { rewrite C1; auto. } { rewrite D1; auto. }
  exists mX, sX, Xs, my, sy, (col 0 Ys). split.
  { unfold sp_scaled. change (@n0 R Num_R) with 0. rewrite E1, E2, L1, S1, L2, S2. reflexivity. }
  split; auto. split; [rewrite col_length; apply (wf_length _ _ _ W2)|]. split; auto. split; auto.
  apply ft_inv in E1 as (m & s & F1 & F2 & _ & _ & F3 & F4 & F5 & _). cbn [new_scaler sc_center sc_scale sc_trimming] in F1, F2.
  rewrite (check_input_id n p) in F1, F2, F3 by auto. rewrite L1 in F4. rewrite S1 in F5. injection F4 as <-. injection F5 as <-. do 3 (split; auto).
  apply ft_inv in E2 as (m & s & F1' & F2' & _ & _ & F3' & F4 & F5 & _). rewrite check_A1 in F1', F2', F3' by lia.
  rewrite C1, T1 in F1'. rewrite D1, T1 in F2'. rewrite L2 in F4. rewrite S2 in F5. injection F4 as <-. injection F5 as <-. cbn in F1', F2'. repeat split; eauto.
Qed.
Lemma tau_plain : forall (P : sp_par R) X, plain_scale (s_scale P) -> tau_fix P X = P.
Proof. intros P X [Hs|[Hs|Hs]]; unfold tau_fix; rewrite Hs; reflexivity. Qed.

Definition big (v : R) : bool := if Rlt_dec v (1 / 100000) then false else true.
Lemma big_nltb : forall v, negb (nltb v (nlit 1 100000)) = big v.
Proof. intros v. unfold big, nlit. rnum. change (IZR 1 / IZR 100000) with (1 / 100000). destruct (Rlt_dec v (1 / 100000)) as [Hl|Hl]; [rewrite (proj2 (Rltb_true _ _) Hl)|rewrite (proj2 (Rltb_false _ _))]; auto. lra. Qed.
Lemma keep_eq : forall p (s : list R), length s = p -> vars_to_keep p s = nonzero_positions s.
Proof.
  intros p s Hl. unfold vars_to_keep, nonzero_positions. rewrite Hl. apply filter_ext_in. intros j Hj. apply in_seq in Hj.
  change (if Rlt_dec (nth j s 0) (1 / 100000) then false else true) with (big (nth j s 0)). rewrite <- big_nltb. f_equal. unfold zero_scale.
  destruct (nltb (nth j s 0) (nlit 1 100000)) eqn:E.
  - apply existsb_eqb_In. apply (where_in _ _ _ 0). split; [lia|auto].
  - destruct (existsb _ _) eqn:E2; auto. apply existsb_eqb_In in E2. apply (where_in _ _ _ 0) in E2 as [_ E2]. congruence.
Qed.
Lemma filter_map_comm : forall {B C} (g : C -> bool) (h : B -> C) l, filter g (map h l) = map h (filter (fun x => g (h x)) l).
Proof. intros B C g h l. induction l as [|b l IH]; [reflexivity|]. cbn. destruct (g (h b)); cbn; rewrite IH; reflexivity. Qed.
Lemma nth_seq_id : forall (s : list R), map (fun j => nth j s 0) (seq 0 (length s)) = s.
Proof. intros s. induction s as [|a s IH]; [reflexivity|]. cbn. f_equal. rewrite <- seq_shift, map_map. exact IH. Qed.
Lemma nonzero_count : forall s, length (nonzero_positions s) = nonzero_scales s.
Proof.
  intros s. unfold nonzero_positions, nonzero_scales.
  transitivity (length (filter (fun v => if Rlt_dec v (1 / 100000) then false else true) (map (fun j => nth j s 0) (seq 0 (length s))))).
  - rewrite filter_map_comm, map_length. reflexivity.
  - rewrite nth_seq_id. reflexivity.
Qed.
Lemma positions_in : forall s j, In j (nonzero_positions s) <-> (j < length s)%nat /\ 1 / 100000 <= nth j s 0.
Proof.
  intros s j. unfold nonzero_positions. rewrite filter_In, in_seq. split.
  - intros [Hj Hb]. split; [lia|]. destruct (Rlt_dec _ _); [discriminate|lra].
  - intros [Hj Hb]. split; [lia|]. destruct (Rlt_dec _ _); [lra|reflexivity].
Qed.
Lemma take_names_ok : forall idx l, (forall j, In j idx -> (j < length l)%nat) -> exists l', take_names idx l = Ok l'.
Proof.
  intros idx l. induction idx as [|j idx IH]; intros Hj; [exists []; reflexivity|]. destruct IH as [l' E]; [intros; apply Hj; right; auto|].
  unfold take_names in *. cbn [mapM]. destruct (nth_error l j) as [s|] eqn:En.
  - cbn [bind]. rewrite E. cbn. eauto.
  - apply nth_error_None in En. specialize (Hj j (or_introl eq_refl)). lia.
Qed.
Lemma drop_ok : forall (c : cols_opt) p (s : list R), length s = p -> (forall l, c = ColNames l -> (p <= length l)%nat) -> exists c', sp_drop c p s = Ok c'.
Proof.
  intros c p s Hs Hl. unfold sp_drop. destruct (zero_scale s) as [|z zs] eqn:Ez; [eauto|]. destruct c as [b|l]; [eauto|]. specialize (Hl l eq_refl).
  destruct (take_names_ok (z :: zs) l) as [l1 E1].
  { intros j Hj. rewrite <- Ez in Hj. apply (where_in _ _ _ 0) in Hj. lia. }
  rewrite E1. cbn [bind]. destruct (take_names_ok (vars_to_keep p s) l) as [l2 E2].
  { intros j Hj. unfold vars_to_keep in Hj. apply filter_In in Hj as [Hj _]. apply in_seq in Hj. lia. }
  rewrite E2. cbn. eauto.
Qed.

(* ------------------------------------------------------------------ *)
(** * C45 *)
Lemma sp_check_invalid : forall (P : sp_par R) n p,
  ~ (exists z, s_ncomp P = NInt z /\ (1 <= z <= Z.of_nat n)%Z /\ (z <= Z.of_nat p)%Z) \/
  s_eta_float P = false \/ ~ (0 <= s_eta P < 1) \/ invalid_rm (sp_rm P) -> sp_check P n p = Err MyException.
Proof.
  intros P n p Hi. unfold sp_check. destruct (s_ncomp P) as [z|a] eqn:Ez; auto.
  destruct (Z.ltb_spec (Z.of_nat n) z), (Z.ltb_spec (Z.of_nat p) z); cbn [orb]; auto. destruct (Z.leb_spec z 0); auto.
  destruct (s_eta_float P) eqn:Ef; cbn [negb]; auto. rnum. destruct (Rltb (s_eta P) 0) eqn:E1; auto. destruct (Rleb 1 (s_eta P)) eqn:E2; auto. cbn [orb]. rcmp_all.
  destruct Hi as [Hi|[Hi|[Hi|Hi]]]; [exfalso; apply Hi; exists z; split; auto; lia|discriminate|exfalso; apply Hi; lra|].
  rewrite (check_invalid _ Hi). reflexivity.
Qed.
Lemma sp_check_valid : forall (P : sp_par R) n p, 
  ~ (~ (exists z, s_ncomp P = NInt z /\ (1 <= z <= Z.of_nat n)%Z /\ (z <= Z.of_nat p)%Z) \/
  s_eta_float P = false \/ ~ (0 <= s_eta P < 1) \/ invalid_rm (sp_rm P)) ->
  exists f k, s_fun P = Some f /\ s_ncomp P = NInt (Z.of_nat k) /\ (1 <= k <= n)%nat /\ (k <= p)%nat /\ 0 <= s_eta P < 1 /\ sp_check P n p = Ok (f, k).
Proof.
  intros P n p Hv. assert (H1 := Classical_Prop.NNPP _ (fun H => Hv (or_introl H))). destruct H1 as (z & Ez & Hz1 & Hz2).
  assert (H2 : s_eta_float P = true) by (destruct (s_eta_float P); auto; exfalso; apply Hv; right; left; auto).
  assert (H3 := Classical_Prop.NNPP _ (fun H => Hv (or_intror (or_intror (or_introl H))))).
  destruct (check_valid (sp_rm P) (fun H => Hv (or_intror (or_intror (or_intror H))))) as (f & Hf & Hck).
  exists f, (Z.to_nat z). split; [exact Hf|]. split; [rewrite Z2Nat.id by lia; auto|]. split; [lia|]. split; [lia|]. split; auto.
  unfold sp_check. rewrite Ez. destruct (Z.ltb_spec (Z.of_nat n) z), (Z.ltb_spec (Z.of_nat p) z), (Z.leb_spec z 0); try lia. cbn [orb]. rewrite H2. cbn [negb].
  rnum. replace (Rltb (s_eta P) 0) with false by (symmetry; apply Rltb_false; lra). replace (Rleb 1 (s_eta P)) with false by (symmetry; apply Rleb_false; lra).
  cbn [orb]. rewrite Hck. reflexivity.
Qed.

(** all runs with valid parameters, plain options and matching data *)
Lemma run_plain : forall (env : sp_env R) P df n p X y, is_matrix n p X -> (2 <= n)%nat -> (1 <= p)%nat ->
  plain_centre (s_centre P) -> plain_scale (s_scale P) -> names_cover P df p -> ~ invalid_sp P df n p (length y) ->
  exists f k c1 c2 mX sX Xs my sy ys,
    s_fun P = Some f /\ s_ncomp P = NInt (Z.of_nat k) /\ (1 <= k <= n)%nat /\ 0 <= s_eta P < 1 /\ length y = n /\
    sp_columns P df = Ok c1 /\ sp_drop c1 p sX = Ok c2 /\
    sp_scaled env P X y = Ok (mX, sX, Xs, (my, sy, ys)) /\ is_matrix n p Xs /\ length ys = n /\ length mX = p /\ length sX = p /\
    location (re_prep (se_rm env)) (s_centre P) 0 X = Ok mX /\ scale_est (re_prep (se_rm env)) (s_scale P) 0 X = Ok sX /\ scale_data X mX sX = Ok Xs /\
    (location (re_prep (se_rm env)) (s_centre P) 0 (as_column y) = Ok my /\ scale_est (re_prep (se_rm env)) (s_scale P) 0 (as_column y) = Ok sy /\
     exists Ys, scale_data (as_column y) my sy = Ok Ys /\ ys = col 0 Ys) /\
    sprm_run env P df X y =
      (set_columns P c2,
       if (length (vars_to_keep p sX) <? k)%nat then ([], Err MyException)
       else match zero_scale sX with
            | [] => sp_estimate env (set_columns P c2) f k (vars_to_keep p sX) p X Xs y ys mX sX sX my sy
            | _ => sp_estimate env (set_columns P c2) f k (vars_to_keep p sX) p (map (sel (vars_to_keep p sX)) X) (map (sel (vars_to_keep p sX)) Xs) y ys
                     mX sX (sel (vars_to_keep p sX) sX) my sy
            end).
Proof.
  intros env P df n p X y HX Hn Hp Hc Hs [Hn1 Hn2] Hv. assert (HlX := wf_length _ _ _ HX). assert (Hnc : ncols X = p) by (apply (wf_ncols n p); auto; lia).
  destruct (sp_check_valid P n p) as (f & k & Hf & Hk & Hk1 & Hk2 & He & Hck).
  { intros H. apply Hv. unfold invalid_sp. tauto. }
  assert (Hy : length y = n).
  { destruct (Nat.eq_dec (length y) n); auto. exfalso. apply Hv. unfold invalid_sp. tauto. }
  assert (Hco : exists c1, sp_columns P df = Ok c1 /\ forall l, c1 = ColNames l -> (p <= length l)%nat).
  { unfold sp_columns. destruct (s_columns P) as [[]|l] eqn:Ec.
    - destruct df as [l|]; [exists (ColNames l); split; auto; intros l' E; injection E as <-; auto|]. exfalso. apply Hv. unfold invalid_sp. tauto.
    - eexists. split; [reflexivity|discriminate].
    - eexists. split; [reflexivity|]. intros l' E. injection E as <-. auto. }
  destruct Hco as (c1 & Hc1 & Hcl).
  destruct (scaled_plain env P n p X y) as (mX & sX & Xs & my & sy & ys & Esc & WX & Hys & HmX & HsX & Elo & Ese & Esd & Ey); auto.
  destruct (drop_ok c1 p sX HsX Hcl) as [c2 Hc2].
  exists f, k, c1, c2, mX, sX, Xs, my, sy, ys. do 16 (split; auto).
  unfold sprm_run. rewrite HlX, Hnc, Hck, Hc1.
  destruct (Nat.eqb_spec (length y) n); [|lia]. cbn [negb]. destruct (Nat.eqb_spec n 1); [lia|]. cbn [andb]. cbv zeta.
  fold (tau_fix (set_columns P c1) X). rewrite (tau_plain (set_columns P c1) X Hs).
  replace (sp_scaled env (set_columns P c1) X y) with (Ok (mX, sX, Xs, (my, sy, ys))) by (symmetry; exact Esc).
  rewrite Hc2. change (set_columns (set_columns P c1) c2) with (set_columns P c2). destruct (_ <? _)%nat; auto. destruct (zero_scale sX); reflexivity.
Qed.

Lemma C45_l : forall (env : sp_env R) P df n p X y, is_matrix n p X -> (2 <= n)%nat -> (1 <= p)%nat ->
  plain_centre (s_centre P) -> plain_scale (s_scale P) -> names_cover P df p -> quiet env ->
  (sprm_fit env P df X y = Err MyException <->
   invalid_sp P df n p (length y) \/
   exists st s z, sc_fit (re_prep (se_rm env)) (new_scaler (s_centre P) (s_scale P) 0) (A2 X) = (st, Ok tt) /\ a_col_sca st = Some s /\
     s_ncomp P = NInt z /\ (Z.of_nat (nonzero_scales s) < z)%Z).
Proof.
  intros env P df n p X y HX Hn Hp Hc Hs Hnm [Hq1 Hq2]. assert (HlX := wf_length _ _ _ HX). assert (Hnc : ncols X = p) by (apply (wf_ncols n p); auto; lia).
  destruct (Classical_Prop.classic (invalid_sp P df n p (length y))) as [Hi|Hv].
  - split; [auto|]. intros _. unfold sprm_fit, sprm_run. rewrite HlX, Hnc.
    destruct (Classical_Prop.classic (~ (exists z, s_ncomp P = NInt z /\ (1 <= z <= Z.of_nat n)%Z /\ (z <= Z.of_nat p)%Z) \/
      s_eta_float P = false \/ ~ (0 <= s_eta P < 1) \/ invalid_rm (sp_rm P))) as [H1|H1].
    + rewrite (sp_check_invalid P n p H1). reflexivity.
    + destruct (sp_check_valid P n p H1) as (f & k & _ & _ & _ & _ & _ & ->).
      unfold sp_columns. assert (H2 : (s_columns P = ColBool true /\ df = None) \/ length y <> n) by (unfold invalid_sp in Hi; tauto).
      destruct H2 as [[-> ->]|H2]; [reflexivity|].
      destruct (Nat.eqb_spec (length y) n); [contradiction|]. cbn [negb].
      destruct (s_columns P) as [[]|l]; try destruct df; reflexivity.
  - destruct (run_plain env P df n p X y) as (f & k & c1 & c2 & mX & sX & Xs & my & sy & ys & Hf & Hk & Hk1 & He & Hy & Hc1 & Hc2 & Esc & WX & Hys & HmX & HsX & Elo & Ese & Esd & _ & Er); auto.
    assert (Efit : exists st, sc_fit (re_prep (se_rm env)) (new_scaler (s_centre P) (s_scale P) 0) (A2 X) = (st, Ok tt) /\ a_col_sca st = Some sX).
    { eexists. split; [apply fit_ok_intro; cbn [new_scaler sc_center sc_scale sc_trimming]|]; try (rewrite (check_input_id n p) by auto; eauto).
      - apply check_trimming_R. lra.
      - destruct Hc as [->|[->| ->]], Hs as [->|[->| ->]]; reflexivity.
      - reflexivity. }
    unfold sprm_fit. rewrite Er. cbn [snd]. rewrite (keep_eq p sX HsX), nonzero_count. split.
    + intros E. right. destruct Efit as (st & E1 & E2). exists st, sX, (Z.of_nat k). do 3 (split; auto).
      destruct (Nat.ltb_spec (nonzero_scales sX) k); [lia|]. exfalso. revert E.
      destruct (zero_scale sX); apply estimate_no_my; auto using plain_builtin_c, plain_builtin_s.
    + intros [Hi|(st & s & z & E1 & E2 & E3 & E4)]; [contradiction|]. destruct Efit as (st' & E1' & E2'). rewrite E1' in E1. injection E1 as <-. rewrite E2' in E2. injection E2 as <-.
      rewrite Hk in E3. injection E3 as <-. destruct (Nat.ltb_spec (nonzero_scales sX) k); [reflexivity|lia].
Qed.
