(** Model of the plotting methods, plot/sprm_plot.py, plot/sudire_plot.py and
    plot/ppdire_plot.py: the marks handed to matplotlib, and the exceptions raised
    before the plot is shown.  Matplotlib itself, figure sizes, titles and the
    legend position are not modelled. *)

From Coq Require Import String List Arith Bool.
Import List. Import ListNotations.
From Verif Require Import Num Err Vec M_Utils M_Preproc M_Robcent M_Dicomo M_Rm M_Sprm M_Msupport M_Plot M_Ppdire M_Sudire.
Open Scope string_scope.

(** a [label] argument: documented as a string; a list of strings is indexed in
    the same way *)
Inductive plabel : Type := LStr (s : string) | LList (l : list string).
Definition label_len (l : plabel) : nat := match l with LStr s => String.length s | LList l => length l end.
(** sprm_plot.py:81-82 (and the same lines elsewhere): if len(label)==0: label = 'none' *)
Definition label_default (l : plabel) : plabel := if (label_len l =? 0)%nat then LStr "none" else l.
(** label[0]: the first character of a string *)
Definition label0 (l : plabel) : res string :=
  match l with
  | LStr (String c _) => Ok (String c EmptyString)
  | LList (s :: _) => Ok s
  | _ => Err IndexError
  end.

(** what a plot shows.  [Points]: colour, marker, legend, points.  [Bars]: colour,
    legend, positions with heights (None: NaN, no bar).  [Note], [NoteBar]:
    annotations.  [Diagonal]: the line y = x. *)
Inductive mark (A : Type) : Type :=
| Points (colour marker : string) (legend : plabel) (pts : list (A * A))
| Bars (colour : string) (legend : plabel) (bars : list (nat * option A))
| Note (name : string) (at_ : A * A)
| NoteBar (name : string) (pos : nat) (height : A)
| Diagonal (colour : string).
Arguments Points {A}. Arguments Bars {A}. Arguments Note {A}. Arguments NoteBar {A}. Arguments Diagonal {A}.

Record theme : Type := mk_theme { th_colors : list string; th_markers : list string }.
Definition pick (l : list string) (i : nat) : res string := match nth_error l i with Some s => Ok s | None => Err IndexError end.
Definition color (t : theme) (i : nat) : res string := pick (th_colors t) i.
Definition marker (t : theme) (i : nat) : res string := pick (th_markers t) i.

Section Plot2.
  Context {A : Type} `{Num A}.
  Open Scope num_scope.

  (** v[i], v[idx] *)
  Definition item {B} (v : list B) (i : nat) : res B := match nth_error v i with Some x => Ok x | None => Err IndexError end.
  Definition items {B} (v : list B) (idx : list nat) : res (list B) := mapM (item v) idx.
  (** ax1.scatter(x, y, c=colors[c], label=legend, edgecolors=colors[4], marker=markers[k]):
      ValueError if x and y differ in size *)
  Definition scatter (t : theme) (c k : nat) (legend : plabel) (xs ys : list A) : res (list (mark A)) :=
    bind (color t c) (fun co => bind (color t 4) (fun _ => bind (marker t k) (fun mk =>
    if (length xs =? length ys)%nat then Ok [Points co mk legend (combine xs ys)] else Err ValueError))).
  (** the same for the cases [idx] *)
  Definition scatter_at (t : theme) (c k : nat) (legend : plabel) (xs ys : list A) (idx : list nat) : res (list (mark A)) :=
    bind (items xs idx) (fun x => bind (items ys idx) (fun y => scatter t c k legend x y)).
  (** the training cases: regular ones always (even if there are none), moderate
      and harsh outliers if there are any (sprm_plot.py:94-107, 218-231) *)
  Definition training_marks (t : theme) (lab : string) (xs ys w : list A) : res (list (mark A)) :=
    bind (scatter_at t 2 0 (LStr (lab ++ " Training Regular")) xs ys (regular_cases w)) (fun a =>
    bind (match moderate_outliers w with [] => Ok [] | idx => scatter_at t 2 1 (LStr (lab ++ " Training Moderate")) xs ys idx end) (fun b =>
    bind (match harsh_outliers w with [] => Ok [] | idx => scatter_at t 6 2 (LStr (lab ++ " Training Harsh")) xs ys idx end) (fun c =>
    Ok (a ++ b ++ c)%list))).
  (** the test cases, each group if it is not empty (:117-131, 238-252) *)
  Definition test_marks (t : theme) (lab : string) (xs ys w : list A) : res (list (mark A)) :=
    bind (match regular_cases w with [] => Ok [] | idx => scatter_at t 5 0 (LStr (lab ++ " Test Regular")) xs ys idx end) (fun a =>
    bind (match moderate_outliers w with [] => Ok [] | idx => scatter_at t 5 1 (LStr (lab ++ " Test Moderate")) xs ys idx end) (fun b =>
    bind (match harsh_outliers w with [] => Ok [] | idx => scatter_at t 7 2 (LStr (lab ++ " Test Harsh")) xs ys idx end) (fun c =>
    Ok (a ++ b ++ c)%list))).
  (** for i in range(0,len(names)-1): annotate(names[i], (xs[i], ys[i])) (:137-143) *)
  Definition notes (names : list string) (xs ys : list A) : res (list (mark A)) :=
    mapM (fun ni => bind (item xs (snd ni)) (fun x => bind (item ys (snd ni)) (fun y => Ok (Note (fst ni) (x, y)))))
      (combine (firstn (length names - 1) names) (seq 0 (length names - 1))).
  (** a column of a score matrix: T[:, c] *)
  Definition column_at (T : mat A) (c : nat) : res (list A) := if (c <? ncols T)%nat then Ok (col c T) else Err IndexError.

  (** a fitted sprm object: the copied response (self.y; None if copy=False) and
      the fitted attributes *)
  Variable spe : sp_env A.
  (** sprm_plot.py:64-146 plot_yyp; [ytruev] None is the default, a list without
      attribute shape; [Xn] with no rows is the default *)
  Definition sprm_plot_yyp (t : theme) (m : sp_model A) (y : option (arr A)) (ytruev : option (arr A)) (Xn : arr A) (label : plabel)
      (names namesv : list string) (onlyval : bool) : res (list (mark A)) :=
    let label := label_default label in
    bind (color t 0) (fun _ => bind (color t 1) (fun _ =>
    bind (if onlyval then Ok [] else
          match y with
          | None => Err AttributeError
          | Some y => bind (label0 label) (fun lab => training_marks t lab (flat y) (sp_fitted m) (sp_cw m))
          end) (fun train =>
    bind (if (alen Xn =? 0)%nat then Ok [] else
          match ytruev with
          | None => Err AttributeError
          | Some yv => bind (sprm_predict m Xn) (fun yp => bind (sprm_weightnewx spe m Xn) (fun wv =>
                       bind (label0 label) (fun lab => test_marks t lab (flat yv) yp wv)))
          end) (fun test =>
    bind (color t 3) (fun dc =>
    bind (match names, onlyval, y with _ :: _, false, Some y => notes names (flat y) (sp_fitted m) | _, _, _ => Ok [] end) (fun nt =>
    bind (if (length namesv <=? 1)%nat then Ok [] else
          match ytruev with
          | None => Err IndexError
          | Some yv => if (alen yv =? 0)%nat then Err IndexError
                       else if (alen Xn =? 0)%nat then Err UnboundLocalError
                       else bind (sprm_predict m Xn) (fun yp => notes namesv (flat yv) yp)
          end) (fun nv =>
    Ok (train ++ test ++ Diagonal dc :: nt ++ nv)%list))))))).
  (** :198-265 plot_projections; [comps] non-negative column numbers.  (numpy's
      treatment of an out-of-range column for an empty selection of rows is taken
      as IndexError.) *)
  Definition sprm_plot_projections (t : theme) (m : sp_model A) (Xn : arr A) (label : plabel) (comps : list nat)
      (names namesv : list string) (onlyval : bool) : res (list (mark A)) :=
    let label := label_default label in
    bind (color t 0) (fun _ => bind (color t 1) (fun _ =>
    bind (if onlyval then Ok [] else
          bind (label0 label) (fun lab => bind (item comps 0) (fun c0 => bind (item comps 1) (fun c1 =>
          bind (column_at (sp_T m) c0) (fun xs => bind (column_at (sp_T m) c1) (fun ys => training_marks t lab xs ys (sp_cw m))))))) (fun train =>
    bind (if (alen Xn =? 0)%nat then Ok [] else
          bind (sprm_transform m Xn) (fun Tv => bind (label0 label) (fun lab => bind (sprm_weightnewx spe m Xn) (fun wv =>
          match (regular_cases wv ++ moderate_outliers wv ++ harsh_outliers wv)%list with
          | [] => Ok []
          | _ => bind (item comps 0) (fun c0 => bind (item comps 1) (fun c1 =>
                 bind (column_at Tv c0) (fun xs => bind (column_at Tv c1) (fun ys => test_marks t lab xs ys wv))))
          end)))) (fun test =>
    bind (match names, onlyval with
          | _ :: _ :: _, false => bind (item comps 0) (fun c0 => bind (item comps 1) (fun c1 =>
                 bind (column_at (sp_T m) c0) (fun xs => bind (column_at (sp_T m) c1) (fun ys => notes names xs ys))))
          | _, _ => Ok []
          end) (fun nt =>
    bind (if (length namesv <=? 1)%nat then Ok []
          else if (alen Xn =? 0)%nat then Err UnboundLocalError
          else bind (sprm_transform m Xn) (fun Tv => bind (item comps 0) (fun c0 => bind (item comps 1) (fun c1 =>
               bind (column_at Tv c0) (fun xs => bind (column_at Tv c1) (fun ys => notes namesv xs ys)))))) (fun nv =>
    Ok (train ++ test ++ nt ++ nv)%list)))))).
  (** :267-339 plot_caseweights: the bar of training case i stands at i+1, that of
      test case i at len(wc)+i+1; the note of training case i at
      name_indices[i+1], that of test case i at name_indices[len(wc)+i].  An
      unknown mode leaves [wc] unbound, which is noticed after weightnewx. *)
  Definition mode_weights (m : sp_model A) (mode : string) : option (list A) :=
    if mode =? "overall" then Some (sp_cw m) else if mode =? "x" then Some (sp_xcw m) else if mode =? "y" then Some (sp_ycw m) else None.
  Definition bar_notes (names : list string) (shift total : nat) (ws : list A) : res (list (mark A)) :=
    mapM (fun ni => bind (item (seq 1 total) (snd ni + shift)) (fun pos => bind (item ws (snd ni)) (fun h => Ok (NoteBar (fst ni) pos h))))
      (combine (firstn (length names - 1) names) (seq 0 (length names - 1))).
  Definition sprm_plot_caseweights (t : theme) (m : sp_model A) (Xn : arr A) (label : plabel)
      (names namesv : list string) (onlyval : bool) (mode : string) : res (list (mark A)) :=
    let label := label_default label in
    bind (color t 0) (fun _ => bind (color t 1) (fun _ =>
    let wco := if onlyval then Some [] else mode_weights m mode in
    bind (if onlyval then Ok "" else label0 label) (fun lab =>
    bind (if (alen Xn =? 0)%nat then Ok [] else bind (sprm_weightnewx spe m Xn) (fun wv => bind (label0 label) (fun _ => Ok wv))) (fun wv =>
    match wco with
    | None => Err UnboundLocalError
    | Some wc =>
        let total := (length wc + length wv)%nat in
        bind (match wc with [] => Ok [] | _ => bind (color t 2) (fun co =>
                Ok [Bars co (LStr (lab ++ " Training")) (combine (seq 1 total) (map Some wc ++ repeat None (length wv)))]) end) (fun b1 =>
        bind (match wv with [] => Ok [] | _ => bind (label0 label) (fun lv => bind (color t 5) (fun co =>
                Ok [Bars co (LStr (lv ++ " Test")) (combine (seq 1 total) (repeat None (length wc) ++ map Some wv))])) end) (fun b2 =>
        bind (if onlyval then Ok [] else bar_notes names 1 total wc) (fun nt =>
        bind (bar_notes namesv (length wc) total wv) (fun nv =>
        Ok (b1 ++ b2 ++ nt ++ nv)%list))))
    end)))).

  (** plot_coeffs (:148-195): bars and their tick labels.  [entity] is the plotted
      attribute, flattened; [cut] is np.ceil(p*(truncation/2)) if truncation > 0
      (at most p for a truncation below 1, as documented).
      A list or tuple of names cannot be indexed by an array (TypeError). *)
  Inductive pcols : Type := NoCols | ListCols (l : list string) | ArrayCols (l : list string).
  Inductive tick : Type := TNum (i : nat) | TName (s : string).
  (** np.union1d of names: sorted distinct strings *)
  Fixpoint insert_str (x : string) (l : list string) : list string :=
    match l with
    | [] => [x]
    | h :: r => match String.compare x h with Lt => x :: l | Eq => l | Gt => h :: insert_str x r end
    end.
  Definition union_str (a b : list string) : list string := fold_right insert_str [] (a ++ b)%list.
  Definition sprm_plot_coeffs (t : theme) (m : sp_model A) (entity : list A) (cut : option nat) (columns : pcols) : res (list (A * tick)) :=
    bind (color t 0) (fun _ => bind (color t 1) (fun _ =>
    let p := length (sp_keep m) in
    bind (match columns with
          | ListCols (_ :: _) => Err TypeError
          | ArrayCols ((_ :: _) as l) => bind (items l (sp_keep m)) (fun l => Ok (Some l))
          | _ => Ok None
          end) (fun xp =>
    bind (color t 2) (fun _ => bind (color t 4) (fun _ =>
    match cut with
    | None =>
        let xs := match xp with Some l => map TName l | None => map TNum (seq 0 p) end in
        if (length entity =? length xs)%nat then Ok (combine entity xs)
        else match entity, xs with
             | [b], _ => Ok (map (fun x => (b, x)) xs)
             | _, [x] => Ok (map (fun b => (b, x)) entity)
             | _, _ => Err ValueError
             end
    | Some cut =>
        let right := (p - cut)%nat in
        let ind_sort := argsort2 entity in
        bind (items (sort entity) (union1d (seq 0 cut) (seq right (p - right)))) (fun bars =>
        let sel1 := firstn cut ind_sort in let sel2 := skipn right (firstn p ind_sort) in
        bind (match xp with
              | Some l => bind (items l sel1) (fun a => bind (items l sel2) (fun b => Ok (map TName (union_str a b))))
              | None => bind (items (seq 0 p) sel1) (fun a => bind (items (seq 0 p) sel2) (fun b => Ok (map TNum (union1d a b))))
              end) (fun labels =>
        if (length bars =? length labels)%nat then Ok (combine bars labels) else Err ValueError))
    end))))).

  (** sudire_plot.py and ppdire_plot.py.  A fitted object: the copied response y0
      (None if copy=False or in one-block mode), the fitted values (for ppdire None
      in one-block mode), scores, predict, transform; [legend] is the label handed
      to matplotlib, for training (false) and test cases (true): sudire hands over
      the label itself, ppdire label + ' Training', label + ' Test', a TypeError
      for lists. *)
  Record view : Type := mk_view {
    v_y0 : option (list A); v_fitted : option (list A); v_T : mat A;
    v_predict : mat A -> res (list A); v_transform : mat A -> res (tout A) }.
  (** a fitted sudire object (its ols_obj_.fittedvalues) and a fitted ppdire
      object (fitted_) *)
  Definition sudire_view (y0 : option (list A)) (m : smodel A) : view :=
    mk_view y0 (Some (sm_fitted m)) (sm_T m) (sd_predict m) (fun Xn => bind (sd_transform m Xn) (fun T => Ok (T2 T))).
  Definition ppdire_view (y0 : option (list A)) (m : pp_model A) : view :=
    mk_view y0 (match pm_y m with Some ym => Some (ym_fitted ym) | None => None end) (pm_T m) (pp_predict m) (pp_transform m).
  (** Tv[:,components[0]], Tv[:,components[1]] as handed to scatter, which
      flattens.  Of a three-dimensional array these are rows of its layers. *)
  Definition tcols (comps : list nat) (Tv : tout A) : res (list A * list A) :=
    bind (item comps 0) (fun c0 => bind (item comps 1) (fun c1 =>
    match Tv with
    | T2 T => bind (column_at T c0) (fun xs => bind (column_at T c1) (fun ys => Ok (xs, ys)))
    | T3 Ts => let d := length (hd [] Ts) in
               if (c0 <? d)%nat && (c1 <? d)%nat
               then Ok (concat (map (fun S => nth c0 S []) Ts), concat (map (fun S => nth c1 S []) Ts))
               else Err IndexError
    end)).
  Definition sudire_legend (l : plabel) (test : bool) : res plabel := Ok l.
  Definition ppdire_legend (l : plabel) (test : bool) : res plabel :=
    match l with LStr s => Ok (LStr (s ++ (if test then " Test" else " Training"))) | LList _ => Err TypeError end.
  (** sudire_plot.py:40-103, ppdire_plot.py:40-103 plot_yyp *)
  Definition view_plot_yyp (legend : plabel -> bool -> res plabel) (t : theme) (v : view) (ytruev : option (arr A)) (Xn : mat A) (label : plabel)
      (names namesv : list string) (onlyval : bool) : res (list (mark A)) :=
    let label := label_default label in
    bind (color t 0) (fun _ => bind (color t 1) (fun _ =>
    bind (if onlyval then Ok [] else
          match v_y0 v, v_fitted v with
          | Some y, Some f => bind (legend label false) (fun lg => scatter t 2 0 lg y f)
          | _, _ => Err AttributeError
          end) (fun train =>
    bind (if (length Xn =? 0)%nat then Ok [] else
          match ytruev with
          | None => Err AttributeError
          | Some yv => bind (v_predict v Xn) (fun yp => bind (legend label true) (fun lg => scatter t 5 0 lg (flat yv) yp))
          end) (fun test =>
    bind (color t 3) (fun dc =>
    bind (match names, onlyval, v_y0 v, v_fitted v with _ :: _, false, Some y, Some f => notes names y f | _, _, _, _ => Ok [] end) (fun nt =>
    bind (if (length namesv <=? 1)%nat then Ok [] else
          match ytruev with
          | None => Err IndexError
          | Some yv => if (alen yv =? 0)%nat then Err IndexError
                       else if (length Xn =? 0)%nat then Err UnboundLocalError
                       else bind (v_predict v Xn) (fun yp => notes namesv (flat yv) yp)
          end) (fun nv =>
    Ok (train ++ test ++ Diagonal dc :: nt ++ nv)%list))))))).
  (** sudire_plot.py:105-152, ppdire_plot.py:105-157 plot_projections.  (Notes at
      array-valued coordinates fail inside matplotlib; the kind of the exception is
      not modelled.) *)
  Definition view_plot_projections (legend : plabel -> bool -> res plabel) (t : theme) (v : view) (Xn : mat A) (label : plabel) (comps : list nat)
      (names namesv : list string) (onlyval : bool) : res (list (mark A)) :=
    let label := label_default label in
    bind (color t 0) (fun _ => bind (color t 1) (fun _ =>
    bind (if onlyval then Ok [] else
          bind (legend label false) (fun lg => bind (tcols comps (T2 (v_T v))) (fun '(xs, ys) => scatter t 2 0 lg xs ys))) (fun train =>
    bind (if (length Xn =? 0)%nat then Ok [] else
          bind (v_transform v Xn) (fun Tv => bind (legend label true) (fun lg => bind (tcols comps Tv) (fun '(xs, ys) => scatter t 5 0 lg xs ys)))) (fun test =>
    bind (match names, onlyval with _ :: _ :: _, false => bind (tcols comps (T2 (v_T v))) (fun '(xs, ys) => notes names xs ys) | _, _ => Ok [] end) (fun nt =>
    bind (if (length namesv <=? 1)%nat then Ok []
          else if (length Xn =? 0)%nat then Err UnboundLocalError
          else bind (v_transform v Xn) (fun Tv => match Tv with T2 _ => bind (tcols comps Tv) (fun '(xs, ys) => notes namesv xs ys) | T3 _ => Err TypeError end)) (fun nv =>
    Ok (train ++ test ++ nt ++ nv)%list)))))).

  (** sprm_plot_cv.eta_ncomp_contour (sprm_plot.py:363-387).  The state is the
      attribute cv_score_table_, [results] the cross-validation results at the time
      of the call.  np.isfinite x is x - x == x - x. *)
  Inductive contour : Type := Contour (rows : list (A * nat * A)) | Insufficient.
  Definition isfinite (x : A) : bool := (x -! x) =?! (x -! x).
  Definition draw_contour (table : list (A * nat * A)) : contour :=
    let valid := filter (fun r => isfinite (snd r)) table in
    if (3 <=? length valid)%nat then Contour valid else Insufficient.
  Definition eta_ncomp_contour (table : option (list (A * nat * A))) (results : list (A * nat) * list A) : option (list (A * nat * A)) * contour :=
    let tb := match table with Some tb => tb | None => M_Msupport.cv_score_table (fst results) (snd results) end in
    (Some tb, draw_contour tb).
End Plot2.
Arguments tick : clear implicits. Arguments view : clear implicits. Arguments contour : clear implicits.
