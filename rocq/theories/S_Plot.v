(** Specifications for C139-C146: what the plots show. *)

From Coq Require Import String Reals List Arith.
Import List. Import ListNotations.
From Verif Require Import Num Err Vec M_Msupport M_Sprm M_Plot2.
Open Scope R_scope. Open Scope string_scope.

(** the points of a plot, each with colour and marker; its notes; its legends *)
Definition points_of {A} (marks : list (mark A)) : list (string * string * (A * A)) :=
  flat_map (fun m => match m with Points c k _ pts => map (fun p => (c, k, p)) pts | _ => [] end) marks.
Definition notes_of {A} (marks : list (mark A)) : list (string * (A * A)) :=
  flat_map (fun m => match m with Note s p => [(s, p)] | _ => [] end) marks.
Definition legends_of {A} (marks : list (mark A)) : list plabel :=
  flat_map (fun m => match m with Points _ _ l _ => [l] | Bars _ l _ => [l] | _ => [] end) marks.
(** the bars that are drawn: colour, position, height; the notes at bars *)
Definition bars_of {A} (marks : list (mark A)) : list (string * nat * A) :=
  flat_map (fun m => match m with Bars c _ bs => flat_map (fun b => match snd b with Some h => [(c, fst b, h)] | None => [] end) bs | _ => [] end) marks.
Definition bar_notes_of {A} (marks : list (mark A)) : list (string * nat * A) :=
  flat_map (fun m => match m with NoteBar s pos h => [(s, pos, h)] | _ => [] end) marks.
(** eight colours and three markers, as documented *)
Definition full_theme (t : theme) : Prop := (8 <= length (th_colors t))%nat /\ (3 <= length (th_markers t))%nat.
(** colour and marker of a case by its weight: regular cases (weight 1), moderate
    outliers (between 0 and 1), harsh outliers (weight 0); a case without a weight
    is not shown *)
Definition shown_as (t : theme) (test : bool) (w : XR) : option (string * string) :=
  let c i := nth i (th_colors t) "" in let k i := nth i (th_markers t) "" in
  match w with
  | Fin r =>
      if Req_EM_T r 1 then Some (c (if test then 5%nat else 2%nat), k 0%nat)
      else if Req_EM_T r 0 then Some (c (if test then 7%nat else 6%nat), k 2%nat)
      else if Rlt_dec 0 r then if Rlt_dec r 1 then Some (c (if test then 5%nat else 2%nat), k 1%nat) else None else None
  | _ => None
  end.
(** every case at (x, y) *)
Definition cases_shown (t : theme) (test : bool) (xs ys w : list XR) : list (string * string * (XR * XR)) :=
  flat_map (fun i => match shown_as t test (nth i w NaN) with Some (c, k) => [(c, k, (nth i xs NaN, nth i ys NaN))] | None => [] end) (seq 0 (length w)).
(** every case but the last has its name beside it (C86) *)
Definition names_shown {A} (names : list string) (xs ys : list A) : list (string * (A * A)) :=
  combine (firstn (length names - 1) names) (combine xs ys).
(** weights as bars at consecutive positions *)
Definition weight_bars {A} (colour : string) (from : nat) (w : list A) : list (string * nat * A) :=
  map (fun ih => (colour, fst ih, snd ih)) (combine (seq from (length w)) w).
(** what is left of a label in the legends of sprm plots *)
Definition short_label (l : plabel) : string :=
  match l with
  | LStr EmptyString | LList [] => "n"
  | LStr (String c _) => String c EmptyString
  | LList (s :: _) => s
  end.
(** a label as documented: a string, possibly empty *)
Definition full_label (s : string) : string := match s with EmptyString => "none" | _ => s end.
(** an inverse has as many columns as the matrix *)
Definition inverse_cols {A} (env : M_Sprm.sp_env A) : Prop :=
  forall M Mi, M_Sprm.se_inv env M = Ok Mi -> length (hd [] Mi) = length (hd [] M).
(** names beside bars: name i at position [i + shift + 1], at the height of case i *)
Definition bar_names {A} (names : list string) (shift : nat) (w : list A) : list (string * nat * A) :=
  map (fun nh => (fst (fst nh), snd (fst nh), snd nh)) (combine (combine (firstn (length names - 1) names) (seq (S shift) (length names - 1))) w).
(** every case as a point of the same colour and marker *)
Definition plain_points {A} (t : theme) (test : bool) (xs ys : list A) : list (string * string * (A * A)) :=
  map (fun p => (nth (if test then 5%nat else 2%nat) (th_colors t) "", nth 0 (th_markers t) "", p)) (combine xs ys).
(** rows of a cross-validation table with a finite score *)
Definition finite_score (r : XR * nat * XR) : bool := match snd r with Fin _ => true | _ => false end.
Definition result_rows (params : list (XR * nat)) (scores : list XR) : list (XR * nat * XR) :=
  map (fun ps => (fst (fst ps), snd (fst ps), snd ps)) (combine params scores).
(** the plots of successive calls on one object *)
Fixpoint contours {A} `{Num A} (table : option (list (A * nat * A))) (calls : list (list (A * nat) * list A)) : list (contour A) :=
  match calls with
  | [] => []
  | c :: calls => let '(tb, k) := eta_ncomp_contour table c in k :: contours tb calls
  end.
