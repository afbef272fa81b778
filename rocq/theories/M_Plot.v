(** Model of the data handling in plot/sprm_plot.py (and the same loops in
    plot/ppdire_plot.py and plot/sudire_plot.py).  Drawing itself (matplotlib)
    is not modelled: a plot is the list of marks handed to matplotlib. *)

From Coq Require Import List Arith ZArith Bool.
Import ListNotations.
From Verif Require Import Num Err Vec.

Section Plot.
  Context {A : Type} `{Num A}.
  Open Scope num_scope.

  (** sprm_plot.py:97-99, 120-122, 221-223, 241-243 *)
  Definition regular_cases (w : vec A) : list nat := where_ (fun v => v =?! n1) w.
  Definition moderate_outliers (w : vec A) : list nat := where_ (fun v => (n0 <?! v) && (v <?! n1)) w.
  Definition harsh_outliers (w : vec A) : list nat := where_ (fun v => v =?! n0) w.

  (** sprm_plot.py:139-145, 258-264 (ppdire_plot.py and sudire_plot.py have the
      same loop): [for i in range(0,len(names)-1): annotate(names[i], point[i])] *)
  Definition annotations {N P : Type} (names : list N) (points : list P) : list (N * P) :=
    combine (firstn (length names - 1) names) points.

  (** :319, 326-329 training-set annotations of plot_caseweights: the label of
      case [i] is put at abscissa [name_indices[i+1] = i+2]; the bar of case [i]
      stands at [name_indices[i] = i+1] *)
  Definition bar_position (i : nat) : nat := i + 1.
  Definition caseweight_labels {N : Type} (names : list N) : list (N * nat) :=
    map (fun x => (fst x, snd x + 2)%nat) (combine (firstn (length names - 1) names) (seq 0 (length names - 1))).

  (** np.argsort: indices in increasing order of value (stable) *)
  Fixpoint insert_key (k : A * nat) (l : list (A * nat)) : list (A * nat) :=
    match l with
    | [] => [k]
    | h :: t => if fst k <=?! fst h then k :: l else h :: insert_key k t
    end.
  Definition argsort (v : vec A) : list nat :=
    map snd (fold_right insert_key [] (combine v (seq 0 (length v)))).
  (** np.argsort(np.argsort(v)) *)
  Definition argsort2 (v : vec A) : list nat :=
    let a := argsort v in
    map (fun i => match where_ (Nat.eqb i) a with j :: _ => j | [] => O end) (seq 0 (length v)).
  (** np.union1d of two integer arrays: sorted distinct values *)
  Fixpoint insert_nat (x : nat) (l : list nat) : list nat :=
    match l with
    | [] => [x]
    | h :: t => if (x <? h)%nat then x :: l else if (x =? h)%nat then l else h :: insert_nat x t
    end.
  Definition union1d (a b : list nat) : list nat := fold_right insert_nat [] (a ++ b).

  (** :170-184 plot_coeffs with [truncation > 0] and default labels (variable
      numbers); [left] is the value of np.ceil(p*(truncation/2)).  Returns the
      bars and their tick labels. *)
  Definition coeff_bars (left : nat) (b : vec A) : vec A * list nat :=
    let p := length b in
    let right := (p - left)%nat in
    let ind_sort := argsort2 b in
    let b_sort := sort b in
    let sel := union1d (seq 0 left) (seq right (p - right)) in
    (map (fun i => nth i b_sort n0) sel,
     union1d (firstn left ind_sort) (skipn right ind_sort)).
End Plot.
