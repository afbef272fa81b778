(** Theorems on options and defaults (C15, C16, C160, C161) *)

From Coq Require Import String Reals List Arith ZArith Bool Lra Lia.
Import List. Import ListNotations.
From Verif Require Import Num Err Vec VecR S_Stats M_Utils M_Preproc M_Robcent M_Dicomo M_Sudire M_Params L_Mat L_Scaling L_Preproc S_Options L_Options.
Open Scope R_scope.

(* ------------------------------------------------------------------ *)
(** C15: a scaler with center='kstepLTS' makes at most five concentration steps
    from the spatial median; it stops earlier only after a step that moves no
    coordinate by more than 1e-10, and at the first such step *)
Theorem C15_scaler : forall (env : prep_env R) s t X n p st', is_matrix n p X -> (2 <= n)%nat -> (1 <= p)%nat -> length (l1median (env_l1opt env) X) = p ->
  sc_fit env (new_scaler CKstepLTS s t) (A2 X) = (st', Ok tt) ->
  let at_ i := Nat.iter i (lts_step X) (l1median (env_l1opt env) X) in
  exists k, (k <= 5)%nat /\ a_center st' = Some (at_ k) /\ (k = 5%nat \/ (0 < k)%nat /\ moved_at_most (1 / 10 ^ 10) p (at_ (k - 1)%nat) (at_ k)) /\
    forall i, (i + 1 < k)%nat -> ~ moved_at_most (1 / 10 ^ 10) p (at_ i) (at_ (i + 1)%nat).
Proof. exact C15_scaler_l. Qed.
Print Assumptions C15_scaler.
Example C15_scaler_case : exists st', sc_fit {| env_l1opt := fun _ m => m; env_es2 := 1 |} (new_scaler CKstepLTS SNone 0) (A2 [[0]; [1]; [2]; [5]]) = (st', Ok tt) /\
  is_matrix 4 1 [[0]; [1]; [2]; [5]] /\ length (l1median (fun _ m => m) [[0]; [1]; [2]; [5]]) = 1%nat.
Proof.
  destruct (check_trimming_R 0) as [_ HT]. assert (W : is_matrix 4 1 [[0]; [1]; [2]; [5]]) by (split; [reflexivity|repeat constructor]).
  eexists. split; [|split; [exact W|unfold l1median, median; rewrite manynan_R; reflexivity]]. apply fit_ok_intro; [reflexivity|reflexivity|apply HT; lra|reflexivity].
Qed.

(* ------------------------------------------------------------------ *)
(** C16: a scaler with scale='scaleTau2' stores the tau scale of a column with the
    constants 4.5 and 3, with the consistency correction and without that for finite
    samples *)
Theorem C16_scaler : forall (env : prep_env R) c t x st', (2 <= length x)%nat ->
  sc_fit env (new_scaler c STau2 t) (A2 (map (fun y => [y]) x)) = (st', Ok tt) ->
  exists s, a_scale st' = Some [s] /\ a_col_sca st' = Some [s] /\ tau_scale (INR (length x) * env_es2 env) (9 / 2) 3 x s.
Proof.
  intros env c t x st' Hn E. apply fit_ok_inv in E as (m & v & _ & Ev & _ & _ & ->). cbn [new_scaler sc_scale sc_trimming scale_est a_scale a_col_sca] in *.
  rewrite (check_input_id (length x) 1) in Ev by (first [assumption|split; [apply map_length|apply Forall_forall; intros r Hr; apply in_map_iff in Hr as (y & <- & _); reflexivity]]).
  apply Ok_inj in Ev. destruct (C16_single_column_l (env_es2 env) (9 / 2) 3 true false x) as (s & Es & Hs); [destruct x; [cbn in Hn; lia|discriminate]|lra|lra|].
  exists s. replace (nnat 3) with 3 in Ev by (rewrite (nnat_R 3); cbn; lra). change (nlit 9 2) with (9 / 2) in Ev. rewrite Es in Ev. subst v. repeat split; auto.
Qed.
Print Assumptions C16_scaler.
Example C16_scaler_case : exists st', sc_fit {| env_l1opt := fun _ m => m; env_es2 := 1 |} (new_scaler CMedian STau2 0) (A2 (map (fun y => [y]) [0; 1; 2; 5])) = (st', Ok tt) /\ (2 <= length [0; 1; 2; 5])%nat.
Proof. destruct (check_trimming_R 0) as [_ HT]. eexists. split; [|cbn; lia]. apply fit_ok_intro; [reflexivity|reflexivity|apply HT; lra|reflexivity]. Qed.

(* ------------------------------------------------------------------ *)
(** C160: an instance created with its required arguments only has the declared
    default parameters; capi loses one of them *)
Theorem C160_defaults : forall call c pi o, construct call c (match c with Ppdire => [("projection_index"%string, pi)] | _ => [] end) = Ok o -> c <> Capi ->
  get_params o = default_params c pi.
Proof. intros call c pi o E Hc. destruct c; [congruence| |]; cbn in E; injection E as <-; reflexivity. Qed.
Print Assumptions C160_defaults.
Theorem C160_centring_refuted : forall call pi o, construct call Capi [] = Ok o ->
  get_params o = map (fun kv => if String.eqb (fst kv) "centring" then (fst kv, WNone) else kv) (default_params Capi pi) /\ get_params o <> default_params Capi pi.
Proof. intros call pi o E. cbn in E. destruct (call _ _) as [v|]; [|discriminate]. injection E as <-. split; [reflexivity|discriminate]. Qed.
Print Assumptions C160_centring_refuted.
Example C160_case : exists o1 o2 o3, construct (fun _ _ => Ok (WObj 3)) Capi [] = Ok o1 /\ construct (fun _ _ => Ok (WObj 3)) Sudire [] = Ok o2 /\
  construct (fun _ _ => Ok (WObj 3)) Ppdire [("projection_index"%string, WClass 0)] = Ok o3.
Proof. do 3 eexists. repeat split; reflexivity. Qed.

(* ------------------------------------------------------------------ *)
(** C161: sudire accepts the mean and the median as centres and no others, and
    creates the object as asked *)
Theorem C161_centre : forall (prm : sparams R) start cons args d,
  (sp_center prm = CMean \/ sp_center prm = CMedian -> exists st, sd_init prm start cons args d = Ok st /\
     ss_prm st = prm /\ ss_X0 st = None /\ ss_start st = start /\ ss_cons st = cons /\ ss_args st = args /\ ss_dict st = d) /\
  (sp_center prm <> CMean -> sp_center prm <> CMedian -> sd_init prm start cons args d = Err ValueError).
Proof. intros prm start cons args d. unfold sd_init. destruct (sp_center prm); split; try (intros [E|E]; discriminate); try (intros H1 H2; congruence); intros; eexists; repeat split. Qed.
Print Assumptions C161_centre.
Example C161_case : exists prm1 prm2 : sparams R, sp_center prm1 = CMedian /\ sp_center prm2 = CL1median /\ sd_init prm2 None None None [] = Err ValueError.
Proof.
  exists (mk_sp MSir 1 0 CMedian true true false false 2 true true true), (mk_sp MSir 1 0 CL1median true true false false 2 true true true).
  repeat split.
Qed.
