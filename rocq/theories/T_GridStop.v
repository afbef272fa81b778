(** Property theorem C206: when the refinement of the grid optimiser ends. *)
From Coq Require Import Reals List Arith ZArith Bool Lia Lra.
Import ListNotations.
From Verif Require Import Num Err Vec M_Utils M_Dicomo M_Ppdire S_Stats S_Regress S_Ppdire L_Grid L_Grid2 L_Grid3 L_PpTot T_Ppdire S_GridStop L_GridStop.
Open Scope R_scope.

Theorem C206_grid : forall most g g2 n p Z, grid_args g g2 -> is_matrix n p Z -> (0 < n)%nat -> (3 <= p)%nat -> good_ndir (ga_ndir g) ->
  (forall w o, length w = p -> sqlen w = 1 -> objective_at most g Z w o -> -999 <= o /\ o <> 0) ->
  forall maxiter w o, grid_search trigR most g g2 maxiter Z p = Ok (w, o) -> grid_stopping most g g2 Z p maxiter w o.
Proof. intros most g g2 n p Z HG HZ Hn Hp Hd Hb maxiter w o E. exact (grid_stop_l most g g2 n p Z HG HZ Hn Hb maxiter w o Hp Hd E). Qed.
Print Assumptions C206_grid.

(** Without a bound on the index the search may not be refined at all: if the first
    sweep ends at an objective within 0.1 of -1000, no pass is made and -1000 is
    reported whatever the index is. *)
Theorem C206_near_refuted : forall most g g2 n p Z, grid_args g g2 -> is_matrix n p Z -> (0 < n)%nat -> (3 <= p)%nat -> good_ndir (ga_ndir g) ->
  forall maxiter w o z w1 o1, grid_search trigR most g g2 maxiter Z p = Ok (w, o) -> first_sweep trigR most g Z p = Ok (z, w1) ->
  objective_at most g Z w1 o1 -> Rabs (o1 + 1000) <= 1 / 10 -> w = w1 /\ o = -1000.
Proof. exact near_l. Qed.
Print Assumptions C206_near_refuted.

(** searches that meet the hypotheses: an index of values 1 and 2, and an index
    that is -999.95 everywhere, for which -1000 is reported *)
Example C206_case : grid_stopping spike (gS AmTuple) (gS AmArray) I3 3 100000 [0; 0; -1] 1.
Proof.
  destruct C65_case as [Hg E]. refine (C206_grid spike (gS AmTuple) (gS AmArray) 3 3 I3 gS_args I3_matrix _ _ Hg _ 100000%Z [0; 0; -1] 1 E); [lia|lia|].
  intros w o _ _ (u & Eu & ->). cbn [gS ga_square]. unfold spike in Eu. destruct (list_eq_dec _ _ _) in Eu; apply Ok_inj in Eu as <-; lra.
Qed.
Definition low_index (v : arr R) (kw : dkw R) : res R := Ok (- 99995 / 100).
Example C206_near_case : exists w, grid_search trigR low_index (gS AmTuple) (gS AmArray) 100 I3 3 = Ok (w, -1000).
Proof.
  assert (H0 : (0 < ga_ndir (gS AmTuple))%nat) by (cbn [gS ga_ndir]; lia).
  assert (HT : exists w o, grid_search trigR low_index (gS AmTuple) (gS AmArray) 100 I3 3 = Ok (w, o) /\ length w = 3%nat).
  { apply (grid_total low_index (gS AmTuple) (gS AmArray) 3 3 I3 gS_args I3_matrix ltac:(lia) H0); [| |lia|lia]; intros v _; exists (- 99995 / 100); reflexivity. }
  destruct HT as (w & o & E & _).
  exists w. rewrite E. do 2 f_equal.
  destruct (search_swept _ _ _ _ _ _ _ E) as (z & w1 & E1).
  apply (C206_near_refuted low_index (gS AmTuple) (gS AmArray) 3 3 I3 gS_args I3_matrix) with (maxiter := 100%Z) (w := w) (z := z) (w1 := w1) (o1 := - 99995 / 100); [lia|lia| |exact E|exact E1| |].
  - apply C65_case.
  - exists (- 99995 / 100). split; reflexivity.
  - replace (- 99995 / 100 + 1000) with (5 / 100) by lra. rewrite Rabs_right; lra.
Qed.
