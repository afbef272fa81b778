(** Property theorems C180-C182: options of the generalised spatial signs that do
    not work, arrays given as vectors to dicomo, themes of plots that are too
    short; and the values of max_degree (C63). *)

From Coq Require Import String Reals QArith List Arith ZArith Bool Lia Lra.
Import List. Import ListNotations.
From Verif Require Import Num Err Vec S_Stats S_Radial M_Utils M_Preproc M_Robcent M_Gsspp M_Dicomo S_Dicomo S_Errors2 M_Rm M_Sprm M_Ppdire M_Sudire M_Plot2 M_Params
  L_Mat L_Scaling L_Radial T_Scaling T_Dicomo T_Snipls T_Rm T_Sprm T_Plot L_Errors2.
Import List. Open Scope R_scope.

(* ------------------------------------------------------------------ *)
(** C180: the documented centre 'None' of gen_ss_pp is a TypeError for every data
    set; the class with the same options returns the signs of the data as they are *)
Theorem C180_none_refuted : forall (env : prep_env R) f n p X, is_matrix n p X -> (2 <= n)%nat -> (1 <= p)%nat ->
  documented_radial f -> (p <= n)%nat \/ f = SS ->
  gen_ss_pp env CNone (FStr f) (A2 X) = Err TypeError /\ gen_ss_pp env CNone (FCall f) (A2 X) = Err TypeError /\
  exists Z xi, snd (gss_fit_transform env (new_gss CNone (FStr f)) (A2 X)) = Ok Z /\ is_matrix n p Z /\ length xi = n /\
    (forall i j, (i < n)%nat -> (j < p)%nat -> cell Z i j = nth i xi 0 * cell X i j) /\
    radial_rule f n p (map (fun r => sqrt (sqlen r)) X) xi.
Proof. exact C180_none_l. Qed.
Print Assumptions C180_none_refuted.
(** a name that does not exist is a NameError, and the object is as before *)
Theorem C180_unknown_names : forall {A} `{Num A} (env : prep_env A) c f st x,
  gen_ss_pp env c FBadStr x = Err NameError /\ gen_ss_pp env CBad f x = Err NameError /\
  (g_fun st = FBadStr -> gss_fit env st x = (st, Err NameError) /\ gss_fit_transform env st x = (st, Err NameError)).
Proof.
  intros A HA env c f st x. split; [destruct c; reflexivity|]. split; [reflexivity|]. intros E.
  unfold gss_fit_transform, gss_fit. rewrite E. split; reflexivity.
Qed.
Print Assumptions C180_unknown_names.
Example C180_case : is_matrix 3 2 X3 /\ documented_radial (A:=R) Winsor /\ (2 <= 3)%nat.
Proof. split; [apply X3_matrix|]. split; [unfold documented_radial; auto|lia]. Qed.
(** norms 5, 10, 0: the cut-off is the third smallest *)
Example C180_caseQ : gen_ss_pp envQ CNone (FStr SS) (A2 [[3; 4]; [6; 8]; [0; 0]])%Q = Err TypeError /\
  snd (gss_fit_transform envQ (new_gss CNone (FStr SS)) (A2 [[3; 4]; [6; 8]; [0; 0]]%Q)) = Ok [[3#5; 4#5]; [3#5; 4#5]; [0; 0]]%Q.
Proof. split; vm_compute; reflexivity. Qed.

(* ------------------------------------------------------------------ *)
(** C181: vectors and arrays with one column *)
Theorem C181_first_sample : forall {A} `{Num A} dc (s : dstate A) x kw, dicomo_fit dc s (A1 x) kw = dicomo_fit dc s (one_column x) kw.
Proof. exact @C181_x_l. Qed.
Print Assumptions C181_first_sample.
Theorem C181_second_sample : forall {A} `{Num A} dc (s : dstate A) x y kw,
  d_est s = "arithmetic"%string \/ d_est s = "distance"%string /\ d_mode s = "mdd"%string ->
  dicomo_fit dc s x (with_y kw (A1 y)) = dicomo_fit dc s x (with_y kw (one_column y)).
Proof. exact @C181_y_l. Qed.
Print Assumptions C181_second_sample.
(** the general distance algorithm refuses every second sample that is a vector (with
    one column it gives the distance covariance and correlation: C57, C100) *)
Theorem C181_vector_refuted : forall dc s kw n p X y, d_est s = "distance"%string -> d_center s = "mean"%string ->
  In (d_mode s) ["cov"; "corr"; "continuum"; "com"]%string -> no_trimming kw -> biascorr kw = false -> k_metric kw = None -> k_order kw = None ->
  naive_mode kw -> is_matrix n p X -> (0 < n)%nat -> length y = n -> k_y kw = Some (A1 y) ->
  fit_result dc s (A2 X) kw = Err ValueError.
Proof. exact C181_refuted_l. Qed.
Print Assumptions C181_vector_refuted.
Example C181_case : exists v, fit_result dcE (@dst R "distance" "cov" "mean") (A2 X33) (with_y (kwn (A1 [1;2;4])) (one_column [1;2;4])) = Ok v /\
  fit_result dcE (@dst R "distance" "cov" "mean") (A2 X33) (kwn (A1 [1;2;4])) = Err ValueError.
Proof.
  destruct (C57_distance_covariance dcE) as (C & HC & _). eexists. split.
  - apply (HC _ _ 3%nat 2%nat 1%nat X33 [[1];[2];[4]]);
      [repeat split|left; reflexivity|reflexivity|reflexivity|exists "naive"%string; split; [reflexivity|discriminate]|apply X33_matrix|repeat constructor|lia|reflexivity].
  - apply (C181_vector_refuted dcE _ _ 3 2 X33 [1;2;4]); try reflexivity; try apply X33_matrix; try lia.
    + cbn. auto.
    + left. reflexivity.
    + exists "naive"%string. split; [reflexivity|discriminate].
Qed.

(* ------------------------------------------------------------------ *)
(** C182: a list of colours that is too short is an IndexError in every plot: with
    fewer than two colours whatever is plotted, with fewer than five when the
    training cases are shown *)
Theorem C182_two_colours : forall {A} `{Num A} (spe : sp_env A) t m y ytruev Xn label comps names namesv onlyval mode entity cut columns legend v Xm,
  (length (th_colors t) < 2)%nat ->
  sprm_plot_yyp spe t m y ytruev Xn label names namesv onlyval = Err IndexError /\
  sprm_plot_projections spe t m Xn label comps names namesv onlyval = Err IndexError /\
  sprm_plot_caseweights spe t m Xn label names namesv onlyval mode = Err IndexError /\
  sprm_plot_coeffs t m entity cut columns = Err IndexError /\
  view_plot_yyp legend t v ytruev Xm label names namesv onlyval = Err IndexError /\
  view_plot_projections legend t v Xm label comps names namesv onlyval = Err IndexError.
Proof. exact @C182_two_l. Qed.
Print Assumptions C182_two_colours.
Theorem C182_five_colours : forall {A} `{Num A} (spe : sp_env A) t m y ytruev Xn label comps names namesv legend v Xm lg y0 f,
  (length (th_colors t) < 5)%nat -> legend (label_default label) false = Ok lg -> v_y0 v = Some y0 -> v_fitted v = Some f ->
  sprm_plot_yyp spe t m (Some y) ytruev Xn label names namesv false = Err IndexError /\
  sprm_plot_projections spe t m Xn label comps names namesv false = Err IndexError /\
  view_plot_yyp legend t v ytruev Xm label names namesv false = Err IndexError /\
  view_plot_projections legend t v Xm label comps names namesv false = Err IndexError.
Proof. exact @C182_five_l. Qed.
Print Assumptions C182_five_colours.
Definition th4 : theme := mk_theme ["c0"; "c1"; "c2"; "c3"]%string ["o"; "d"; "v"]%string.
Example C182_case : exists m ms, mQ = Ok m /\ (length (th_colors th4) < 5)%nat /\
  sprm_plot_yyp (spQ 1) th4 m (Some (A1 yK)) None (A2 []) (LStr "case"%string) [] [] false = Err IndexError /\
  sprm_plot_yyp (spQ 1) th8 m (Some (A1 yK)) None (A2 []) (LStr "case"%string) [] [] false = Ok ms.
Proof. eexists. eexists. split; [vm_compute; reflexivity|]. split; [cbn; lia|]. split; vm_compute; reflexivity. Qed.

(* ------------------------------------------------------------------ *)
(** C63: what the constructor of capi accepts as max_degree; True and False count as
    1 and 0 (which fit refuses, C63_fit), text is a TypeError *)
Theorem C63_values : forall call args b most, bind_args Capi args = Ok b -> call (getattr "projection_index" b) (getattr "pi_arguments" b) = Ok most ->
  match getattr "max_degree" b with
  | WInt z => if Z_le_gt_dec z 4 then exists o, construct call Capi args = Ok o else construct call Capi args = Err ValueError
  | WBool _ => exists o, construct call Capi args = Ok o
  | _ => construct call Capi args = Err TypeError
  end.
Proof.
  intros call args b most Eb Em. unfold construct. rewrite Eb. cbn [bind]. rewrite Em. cbn [bind].
  destruct (getattr "max_degree" b); cbn [above_four bind]; try reflexivity; eauto.
  destruct (Z_le_gt_dec z 4) as [Hz|Hz].
  - destruct (Z.ltb_spec 4 z); [lia|]. eauto.
  - destruct (Z.ltb_spec 4 z); [|lia]. reflexivity.
Qed.
Print Assumptions C63_values.
Example C63_values_case : exists b o, bind_args Capi [("max_degree", WBool true)]%string = Ok b /\ getattr "max_degree" b = WBool true /\
  construct (fun _ _ => Ok WNone) Capi [("max_degree", WBool true)]%string = Ok o /\ construct (fun _ _ => Ok WNone) Capi [("max_degree", WStr "2")]%string = Err TypeError.
Proof. do 2 eexists. split; [reflexivity|]. split; [reflexivity|]. split; reflexivity. Qed.
