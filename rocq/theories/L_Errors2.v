(** Lemmas for C180-C182: options of the generalised spatial signs that do
    not work, and arrays given as vectors to dicomo. *)

From Coq Require Import String Reals List Arith ZArith Bool Lia Lra.
Import ListNotations.
From Verif Require Import Num Err Vec VecR OrdR L_Mat L_Lin S_Stats S_Radial L_Stats M_Utils M_Preproc M_Robcent M_Gsspp
  L_Scaling L_Scaling2 L_Radial L_Preproc M_Dicomo S_Dicomo S_Dicomo2 S_Errors2 M_Rm M_Sprm M_Plot M_Plot2 M_Ppdire M_Sudire L_Dicomo L_Dicomo2 L_Dicomo5 L_Dicomo6 L_Dicomo8 L_Dicomo11.
Import List. Open Scope R_scope.

(** ** the centre 'None' *)
Lemma edist_origin : forall r, edist r (repeat 0 (length r)) = sqrt (sqlen r).
Proof.
  intros r. rewrite edist_vnorm, sqlen_dot. replace (vsub r (repeat 0 (length r))) with r; [apply norm_dot|].
  unfold vsub. induction r as [|a r IH]; [reflexivity|]. cbn [length repeat map2]. rewrite <- IH. rnum. rewrite Rminus_0_r. reflexivity.
Qed.

Lemma C180_none_l : forall (env : prep_env R) f n p X, is_matrix n p X -> (2 <= n)%nat -> (1 <= p)%nat ->
  documented_radial f -> (p <= n)%nat \/ f = SS ->
  gen_ss_pp env CNone (FStr f) (A2 X) = Err TypeError /\ gen_ss_pp env CNone (FCall f) (A2 X) = Err TypeError /\
  exists Z xi, snd (gss_fit_transform env (new_gss CNone (FStr f)) (A2 X)) = Ok Z /\ is_matrix n p Z /\ length xi = n /\
    (forall i j, (i < n)%nat -> (j < p)%nat -> cell Z i j = nth i xi 0 * cell X i j) /\
    radial_rule f n p (map (fun r => sqrt (sqlen r)) X) xi.
Proof.
  intros env f n p X Hw Hn Hp Hf Hpn. split; [reflexivity|]. split; [reflexivity|].
  assert (Hci : check_input (A2 X) = X) by (apply (check_input_id n p); auto).
  assert (Hnc : ncols X = p) by (apply (wf_ncols n p); auto; lia).
  set (m := repeat 0 p).
  assert (E : exists st, sc_fit env (new_scaler CNone SNone 0) (A2 X) = (st, Ok tt) /\ a_center st = Some m).
  { unfold sc_fit. rewrite Hci. cbn [new_scaler sc_trimming sc_center sc_scale is_bad location scale_est].
    assert (Et : check_trimming 0 = Ok tt).
    { apply check_trimming_R. lra. }
    rewrite Et. rewrite Hnc. eexists. split; [reflexivity|]. reflexivity. }
  destruct E as (st & E & Em).
  destruct (centre_only env CNone n p X m st Hw Hn Hp E Em (repeat_length _ _)) as [Ev Hcb].
  assert (Hl : length (map (fun r => edist r m) X) = n) by (rewrite map_length; apply (wf_length n p); auto).
  destruct (radial_documented f (map (fun r => edist r m) X) p n Hf Hl (edists_nonneg X m) Hp Hpn) as (xi & Ex & Hxl & Hr).
  assert (HwX : wf n p (map (fun r => vsub r m) X)).
  { apply (wf_map_rows n p); auto. intros r Hr'. rewrite vsub_length; unfold m; rewrite ?repeat_length; lia. }
  destruct (row_mul_cells n p _ xi HwX Hxl) as [HwZ HcZ].
  exists (row_mul (map (fun r => vsub r m) X) xi), xi. split; [|split; [exact HwZ|split; [exact Hxl|split]]].
  - unfold gss_fit_transform, gss_fit. cbn [new_gss g_fun g_center]. rewrite Hci, Hnc, (wf_length n p X Hw).
    change (@n0 R Num_R) with 0. rewrite Ev. cbn [bind]. rewrite norms_edist, Ex. cbn [bind]. reflexivity.
  - intros i j Hi Hj. rewrite cell_mget, HcZ by auto. rewrite (mget_map_rows n p) by auto. rewrite nth_vsub.
    + unfold m. rewrite nth_repeat. rewrite cell_mget. unfold mget. rnum. ring.
    + rewrite (wf_nth_row n p); unfold m; rewrite ?repeat_length; auto.
    + rewrite (wf_nth_row n p); auto.
  - replace (map (fun r => sqrt (sqlen r)) X) with (map (fun r => edist r m) X); auto.
    apply map_ext_in. intros r Hr'. unfold m. replace p with (length r); [apply edist_origin|].
    destruct Hw as [_ HF]. rewrite Forall_forall in HF. auto.
Qed.

(** ** the shape of the arrays of dicomo *)
Lemma acol_column : forall {A} `{Num A} (x : list A), acol (A2 (map (fun v => [v]) x)) = x.
Proof. intros A HA x. cbn [acol]. unfold col. rewrite map_map. cbn [nth]. apply map_id. Qed.

Lemma C181_x_l : forall {A} `{Num A} dc (s : dstate A) x kw, dicomo_fit dc s (A1 x) kw = dicomo_fit dc s (A2 (map (fun v => [v]) x)) kw.
Proof.
  intros A HA dc s x kw. unfold dicomo_fit, fit_arithmetic, fit_mdd, fit_fast, fit_distance.
  rewrite acol_column. cbn [acol alen arows]. rewrite map_length. reflexivity.
Qed.

Lemma C181_y_l : forall {A} `{Num A} dc (s : dstate A) x y kw, d_est s = "arithmetic"%string \/ d_est s = "distance"%string /\ d_mode s = "mdd"%string ->
  dicomo_fit dc s x (with_y kw (A1 y)) = dicomo_fit dc s x (with_y kw (A2 (map (fun v => [v]) y))).
Proof.
  intros A HA dc s x y kw He. destruct s as [e m c mo xm ym co]. cbn [d_est d_mode] in He.
  destruct He as [->|[-> ->]].
  - unfold dicomo_fit. cbn [d_est with_y k_trim k_bias k_alpha k_calc k_order k_option k_fisher k_std k_metric k_y].
    assert (E : forall s mode order opt, fit_arithmetic s mode order opt x (with_y kw (A1 y)) = fit_arithmetic s mode order opt x (with_y kw (A2 (map (fun v => [v]) y)))).
    { intros. unfold fit_arithmetic, get_y, step. cbn [with_y k_trim k_bias k_alpha k_calc k_order k_option k_fisher k_std k_metric k_y].
      assert (EL : alen (A2 (map (fun v => [v]) y)) = alen (A1 y)) by (cbn [alen]; apply map_length). rewrite acol_column. cbn [acol]. rewrite EL. reflexivity. }
    destruct (mode_of _ _) as [[mode order] setc]. destruct setc; cbn [with_center d_est]; cbn [String.eqb Ascii.eqb Bool.eqb]; rewrite E; reflexivity.
  - unfold dicomo_fit.
    assert (E : forall s, fit_mdd s "mdd" x (with_y kw (A1 y)) = fit_mdd s "mdd" x (with_y kw (A2 (map (fun v => [v]) y)))).
    { intros. assert (EL : alen (A2 (map (fun v => [v]) y)) = alen (A1 y)) by (cbn [alen]; apply map_length).
      unfold fit_mdd, get_y, step. cbn [with_y k_y k_trim k_bias k_metric]. rewrite EL.
      unfold difference_divergence. assert (Ef : flat (A2 (map (fun v => [v]) y)) = flat (A1 y)).
      { clear EL. cbn [flat]. induction y as [|a y IH]; [reflexivity|]. cbn [map concat app]. f_equal. exact IH. }
      rewrite Ef. reflexivity. }
    cbn -[fit_mdd with_y fit_tail dflt]. rewrite E. reflexivity.
Qed.

(** the general distance algorithm and a response given as a vector *)
Lemma C181_refuted_l : forall dc s kw n p X y, d_est s = "distance"%string -> d_center s = "mean"%string ->
  In (d_mode s) ["cov"; "corr"; "continuum"; "com"]%string -> no_trimming kw -> biascorr kw = false -> k_metric kw = None -> k_order kw = None ->
  naive_mode kw -> is_matrix n p X -> (0 < n)%nat -> length y = n -> k_y kw = Some (A1 y) ->
  fit_result dc s (A2 X) kw = Err ValueError.
Proof.
  intros dc s kw n p X y C1 C3 C2 Ht Hb Hm Ho Hnv HX Hn Hy Ey. apply is_matrix_wf in HX.
  destruct s as [e m c mo xm ym co]; cbn [d_est d_mode d_center] in C1, C2, C3. subst e c.
  assert (Hl : (length y =? 0)%nat = false) by (apply Nat.eqb_neq; lia).
  unfold fit_result, dicomo_fit. rewrite (no_trimming_t kw Ht), Ho.
  destruct C2 as [<-|[<-|[<-|[<-|[]]]]]; dsimp; cbn [alen]; rewrite (mat_ne n p X HX Hn), (naive_test kw Hnv); dsimp;
    unfold fit_distance; rewrite (no_trimming_t kw Ht), (bias_dflt kw Hb), Hm; dsimp; cbn [arows];
    rewrite (dmc_euclid n p X HX Hn); dsimp; rewrite ?distance_moment_2 by auto; dsimp;
    unfold get_y; rewrite Ey; dsimp; cbn [alen]; rewrite Hl, Hy, (wf_length n p X HX), Nat.eqb_refl; dsimp; reflexivity.
Qed.

(** ** themes that are too short *)
Section Theme.
  Context {A : Type} `{Num A}.
  Lemma pick_short : forall l i, (length l <= i)%nat -> M_Plot2.pick l i = Err IndexError.
  Proof. intros l i Hi. unfold M_Plot2.pick. apply nth_error_None in Hi. rewrite Hi. reflexivity. Qed.
  Lemma pick_any : forall l i, (exists c, M_Plot2.pick l i = Ok c) \/ M_Plot2.pick l i = Err IndexError.
  Proof. intros l i. unfold M_Plot2.pick. destruct (nth_error l i); eauto. Qed.

  Lemma two_colours : forall {B} t (k : string -> string -> res B), (length (th_colors t) < 2)%nat ->
    bind (color t 0) (fun a => bind (color t 1) (fun b => k a b)) = Err IndexError.
  Proof.
    intros B t k Ht. unfold color. destruct (pick_any (th_colors t) 0) as [[c E]|E]; rewrite E; [|reflexivity]. cbn [bind].
    rewrite (pick_short _ 1) by lia. reflexivity.
  Qed.
  Lemma scatter_short : forall t c k lg (xs ys : list A), (length (th_colors t) < 5)%nat -> scatter t c k lg xs ys = Err IndexError.
  Proof.
    intros t c k lg xs ys Ht. unfold scatter, color. destruct (pick_any (th_colors t) c) as [[co E]|E]; rewrite E; [|reflexivity]. cbn [bind].
    rewrite (pick_short _ 4) by lia. reflexivity.
  Qed.
  Lemma items_any : forall {B} (v : list B) idx, (exists l, items v idx = Ok l) \/ items v idx = Err IndexError.
  Proof.
    intros B v idx. unfold items. induction idx as [|i idx IH]; [left; eexists; reflexivity|]. cbn [mapM]. unfold item at 1 3.
    destruct (nth_error v i); [|right; reflexivity]. cbn [bind]. destruct IH as [[l E]|E]; rewrite E; cbn [bind]; eauto.
  Qed.
  Lemma scatter_at_short : forall t c k lg (xs ys : list A) idx, (length (th_colors t) < 5)%nat -> scatter_at t c k lg xs ys idx = Err IndexError.
  Proof.
    intros t c k lg xs ys idx Ht. unfold scatter_at. destruct (items_any xs idx) as [[l E]|E]; rewrite E; [|reflexivity]. cbn [bind].
    destruct (items_any ys idx) as [[l' E']|E']; rewrite E'; [|reflexivity]. cbn [bind]. apply scatter_short. auto.
  Qed.
  Lemma training_short : forall t lab (xs ys w : list A), (length (th_colors t) < 5)%nat -> training_marks t lab xs ys w = Err IndexError.
  Proof. intros. unfold training_marks. rewrite scatter_at_short by auto. reflexivity. Qed.

  Lemma C182_two_l : forall (spe : sp_env A) t m y ytruev Xn label comps names namesv onlyval mode entity cut columns legend v Xm,
    (length (th_colors t) < 2)%nat ->
    sprm_plot_yyp spe t m y ytruev Xn label names namesv onlyval = Err IndexError /\
    sprm_plot_projections spe t m Xn label comps names namesv onlyval = Err IndexError /\
    sprm_plot_caseweights spe t m Xn label names namesv onlyval mode = Err IndexError /\
    sprm_plot_coeffs t m entity cut columns = Err IndexError /\
    view_plot_yyp legend t v ytruev Xm label names namesv onlyval = Err IndexError /\
    view_plot_projections legend t v Xm label comps names namesv onlyval = Err IndexError.
  Proof.
    intros. repeat split; [unfold sprm_plot_yyp|unfold sprm_plot_projections|unfold sprm_plot_caseweights|unfold sprm_plot_coeffs|unfold view_plot_yyp|unfold view_plot_projections];
      apply two_colours; auto.
  Qed.

  Lemma tbind : forall {B} t (r : res B), (length (th_colors t) < 5)%nat -> r = Err IndexError ->
    bind (color t 0) (fun _ => bind (color t 1) (fun _ => r)) = Err IndexError.
  Proof.
    intros B t r Ht Hr. unfold color. destruct (pick_any (th_colors t) 0) as [[c E]|E]; rewrite E; [|reflexivity]. cbn [bind].
    destruct (pick_any (th_colors t) 1) as [[c' E']|E']; rewrite E'; [|reflexivity]. exact Hr.
  Qed.
  Lemma item_any : forall {B} (v : list B) i, (exists x, item v i = Ok x) \/ item v i = Err IndexError.
  Proof. intros B v i. unfold item. destruct (nth_error v i); eauto. Qed.
  Lemma column_any : forall (T : mat A) c, (exists x, column_at T c = Ok x) \/ column_at T c = Err IndexError.
  Proof. intros T c. unfold column_at. destruct (c <? ncols T)%nat; eauto. Qed.
  Lemma label0_any : forall l, (exists x, label0 l = Ok x) \/ label0 l = Err IndexError.
  Proof. intros [[|c s]|[|s l]]; cbn [label0]; eauto. Qed.

  Lemma C182_five_l : forall (spe : sp_env A) t m y ytruev Xn label comps names namesv legend v Xm lg y0 f,
    (length (th_colors t) < 5)%nat -> legend (label_default label) false = Ok lg -> v_y0 v = Some y0 -> v_fitted v = Some f ->
    sprm_plot_yyp spe t m (Some y) ytruev Xn label names namesv false = Err IndexError /\
    sprm_plot_projections spe t m Xn label comps names namesv false = Err IndexError /\
    view_plot_yyp legend t v ytruev Xm label names namesv false = Err IndexError /\
    view_plot_projections legend t v Xm label comps names namesv false = Err IndexError.
  Proof.
    intros spe t m y ytruev Xn label comps names namesv legend v Xm lg y0 f Ht El Ey Ef.
    split; [|split; [|split]]; [unfold sprm_plot_yyp|unfold sprm_plot_projections|unfold view_plot_yyp|unfold view_plot_projections]; cbv zeta; (apply tbind; [exact Ht|]).
    - destruct (label0_any (label_default label)) as [[l E]|E]; rewrite E; cbn [bind]; [|reflexivity]. rewrite training_short by auto. reflexivity.
    - destruct (label0_any (label_default label)) as [[l E]|E]; rewrite E; cbn [bind]; [|reflexivity].
      destruct (item_any comps 0) as [[c0 E0]|E0]; rewrite E0; cbn [bind]; [|reflexivity].
      destruct (item_any comps 1) as [[c1 E1]|E1]; rewrite E1; cbn [bind]; [|reflexivity].
      destruct (column_any (sp_T m) c0) as [[x0 E2]|E2]; rewrite E2; cbn [bind]; [|reflexivity].
      destruct (column_any (sp_T m) c1) as [[x1 E3]|E3]; rewrite E3; cbn [bind]; [|reflexivity]. rewrite training_short by auto. reflexivity.
    - rewrite Ey, Ef, El. cbn [bind]. rewrite scatter_short by auto. reflexivity.
    - rewrite El. cbn [bind]. unfold tcols at 1.
      destruct (item_any comps 0) as [[c0 E0]|E0]; rewrite E0; cbn [bind]; [|reflexivity].
      destruct (item_any comps 1) as [[c1 E1]|E1]; rewrite E1; cbn [bind]; [|reflexivity].
      destruct (column_any (v_T v) c0) as [[x0 E2]|E2]; rewrite E2; cbn [bind]; [|reflexivity].
      destruct (column_any (v_T v) c1) as [[x1 E3]|E3]; rewrite E3; cbn [bind]; [|reflexivity]. rewrite scatter_short by auto. reflexivity.
  Qed.

  (** no marker at all *)
  Lemma pick_colour_marker : forall t c lg (xs ys : list A), (5 <= length (th_colors t))%nat -> (c < length (th_colors t))%nat -> th_markers t = [] -> scatter t c 0 lg xs ys = Err IndexError.
  Proof.
    intros t c lg xs ys H5 Hc Hm. unfold scatter, color, marker. rewrite Hm.
    destruct (pick_any (th_colors t) c) as [[co E]|E]; rewrite E; [|reflexivity]. cbn [bind].
    destruct (pick_any (th_colors t) 4) as [[co' E']|E']; rewrite E'; reflexivity.
  Qed.
End Theme.
