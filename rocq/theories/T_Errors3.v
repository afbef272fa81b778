(** Theorems on responses of another length (C185, C144) and on the tick labels of
    truncated coefficient plots (C87) *)

From Coq Require Import String Reals QArith List Arith ZArith Bool Lia Lra Permutation Sorted.
Import List. Import ListNotations.
From Verif Require Import Num Err Vec VecR S_Stats M_Utils M_Preproc M_Robcent M_Dicomo M_Rm M_Snipls M_Sprm M_Plot M_Ppdire M_SdrUtils M_Sudire M_Plot2 S_Plot S_Errors3 S_Sudire
  L_Mat L_SdrEx L_Errors3 T_Sudire T_Plot.
Import List. Open Scope R_scope.

(* ------------------------------------------------------------------ *)
(** C185: data that are accepted with some response are refused with a response
    of another length.  (A single response value is broadcast by numpy in PHD and
    is not modelled.) *)
Theorem C185_slices : forall {A} `{Num A} eigh (X : list (list A)) y y' n_slices d continuous continuous' center scale, (0 < n_slices)%nat -> length y <> length X ->
  ((exists B, SIR eigh X y' n_slices d continuous' center scale = Ok B) -> SIR eigh X y n_slices d continuous center scale = Err IndexError) /\
  ((exists B, SAVE eigh X y' n_slices d continuous' center scale = Ok B) -> SAVE eigh X y n_slices d continuous center scale = Err IndexError) /\
  ((exists B, DR eigh X y' n_slices d continuous' center scale = Ok B) -> DR eigh X y n_slices d continuous center scale = Err IndexError).
Proof.
  intros A HA eigh X y y' k d ct ct' c s Hk HL. split; [|split]; intros [B E]; [eapply SIR_refused|eapply SAVE_refused|eapply DR_refused]; eauto.
Qed.
Print Assumptions C185_slices.
Theorem C185_moments : forall {A} `{Num A} eigh (X : list (list A)) y y' d center scale, length y <> length X -> length y <> 1%nat ->
  ((exists B, PHD eigh X y' d center scale = Ok B) -> PHD eigh X y d center scale = Err ValueError) /\
  ((exists B, IHT eigh X y' d center scale = Ok B) -> IHT eigh X y d center scale = Err ValueError).
Proof. intros A HA eigh X y y' d c s HL _. split; intros [B E]; [eapply PHD_refused|eapply IHT_refused]; eauto. Qed.
Print Assumptions C185_moments.
Example C185_case : (length [1; 2; 3] <> length X7 /\ exists B, SIR eigh2 X7 y7 3 1 false true true = Ok B) /\ exists B, PHD eigh2 X7 y7 1 false false = Ok B.
Proof. destruct C75_case as (_ & _ & E & _ & _ & F). split; [split; [cbn; lia|exact E]|exact F]. Qed.

(* ------------------------------------------------------------------ *)
(** C144: a number of true responses other than the number of new cases *)
Theorem C144_lengths : forall {A} `{Num A} t (v : view A) yv Xn yp s names namesv, full_theme t -> Xn <> [] -> v_predict v Xn = Ok yp -> length (flat yv) <> length yp ->
  view_plot_yyp sudire_legend t v (Some yv) Xn (LStr s) names namesv true = Err ValueError /\
  view_plot_yyp ppdire_legend t v (Some yv) Xn (LStr s) names namesv true = Err ValueError.
Proof.
  intros A HA t v yv Xn yp s names namesv Ht HX EP HL.
  assert (EL : exists s', label_default (LStr s) = LStr s') by (unfold label_default; destruct (label_len (LStr s) =? 0)%nat; eauto). destruct EL as [s' EL].
  split; (eapply yyp_lengths; eauto; rewrite EL; reflexivity).
Qed.
Print Assumptions C144_lengths.
Example C144_lengths_case :
  let v := mk_view (A := Q) None None [] (fun Xn => Ok (map (fun _ => 0%Q) Xn)) (fun _ => Ok (T2 [])) in
  full_theme th8 /\ v_predict v [[1]; [2]]%Q = Ok [0; 0]%Q /\ length (flat (A1 [1; 2; 3]%Q)) <> length [0; 0]%Q.
Proof. cbn. repeat split; cbn; lia. Qed.

(* ------------------------------------------------------------------ *)
(** C87: the labels of a truncated plot are neither the numbers of the largest and
    smallest coefficients nor of the first and last variables: they are the ranks
    of the coefficients of the first and the last variables. *)
Theorem C87_ranks : forall left (b : list R) j, NoDup b -> (2 * left <= length b)%nat ->
  In j (snd (coeff_bars left b)) <-> exists i, at_the_ends left (length b) i /\ rank b i = j.
Proof. exact labels_l. Qed.
Print Assumptions C87_ranks.
Example C87_ranks_case : snd (coeff_bars 1 [3; 1; 2; 5]%Q) = [2; 3]%nat /\ at_the_ends 1 4 0 /\ at_the_ends 1 4 3 /\ rank [3; 1; 2; 5] 0 = 2%nat /\ NoDup [3; 1; 2; 5].
Proof.
  split; [vm_compute; reflexivity|]. split; [left; lia|]. split; [right; lia|]. split.
  - unfold rank. cbn [nth filter]. repeat (destruct (Rlt_dec _ _); try (exfalso; lra)). reflexivity.
  - repeat constructor; cbn; intros HI; repeat (destruct HI as [HI|HI]; [lra|]); exact HI.
Qed.
