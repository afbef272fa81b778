(** Plots: lemmas for C139-C145. *)

From Coq Require Import String Reals List Arith Bool Lia Lra Permutation.
Import List. Import ListNotations.
From Verif Require Import Num Err Vec VecR M_Utils M_Preproc M_Robcent M_Dicomo M_Rm M_Sprm M_Msupport M_Plot M_Plot2 S_Plot L_Mat L_Msupport L_Missing L_Sprm L_Sprm4.
Import List. Open Scope R_scope. Open Scope string_scope.

(** ** selections *)
Lemma where_filter : forall {B} (f : B -> bool) (l : list B) d, where_ f l = filter (fun i => f (nth i l d)) (seq 0 (length l)).
Proof.
  intros B f l d. unfold where_. assert (H : forall l k, where_from f k l = filter (fun i => f (nth (i - k) l d)) (seq k (length l))).
  { clear l. induction l as [|x l IH]; intros k; [reflexivity|].
    assert (E : filter (fun i => f (nth (i - k) (x :: l) d)) (seq (S k) (length l)) = filter (fun i => f (nth (i - S k) l d)) (seq (S k) (length l))).
    { apply filter_ext_in. intros i Hi. apply in_seq in Hi. replace (i - k)%nat with (S (i - S k)) by lia. reflexivity. }
    change (seq k (length (x :: l))) with (k :: seq (S k) (length l)).
    change (where_from f k (x :: l)) with (if f x then k :: where_from f (S k) l else where_from f (S k) l). rewrite IH, <- E.
    cbn [filter]. replace (nth (k - k) (x :: l) d) with x by (rewrite Nat.sub_diag; reflexivity). destruct (f x); reflexivity. }
  rewrite H. apply filter_ext. intros i. rewrite Nat.sub_0_r. reflexivity.
Qed.
Lemma item_nth : forall {B} (v : list B) i d, (i < length v)%nat -> item v i = Ok (nth i v d).
Proof. intros B v i d Hi. unfold item. rewrite (nth_error_nth' v d Hi). reflexivity. Qed.
Lemma items_nth : forall {B} (v : list B) idx d, Forall (fun i => (i < length v)%nat) idx -> items v idx = Ok (map (fun i => nth i v d) idx).
Proof.
  intros B v idx d HF. unfold items. apply mapM_Ok. intros i Hi. rewrite Forall_forall in HF. apply item_nth. auto.
Qed.
Lemma combine_maps : forall {B C D} (f : B -> C) (g : B -> D) l, combine (map f l) (map g l) = map (fun i => (f i, g i)) l.
Proof. intros B C D f g l. induction l as [|x l IH]; cbn; congruence. Qed.
Lemma three_groups : forall {B C} (p1 p2 p3 : B -> bool) (g1 g2 g3 : B -> C) (h : B -> list C) l,
  (forall i, In i l -> h i = if p1 i then [g1 i] else if p2 i then [g2 i] else if p3 i then [g3 i] else []) ->
  (forall i, In i l -> p1 i = true -> p2 i = false /\ p3 i = false) -> (forall i, In i l -> p2 i = true -> p3 i = false) ->
  Permutation (map g1 (filter p1 l) ++ map g2 (filter p2 l) ++ map g3 (filter p3 l))%list (flat_map h l).
Proof.
  intros B C p1 p2 p3 g1 g2 g3 h l. induction l as [|x l IH]; intros Hh H12 H23; [constructor|].
  cbn [flat_map filter]. rewrite (Hh x) by (left; auto). specialize (IH (fun i Hi => Hh i (or_intror Hi)) (fun i Hi => H12 i (or_intror Hi)) (fun i Hi => H23 i (or_intror Hi))).
  specialize (H12 x (or_introl eq_refl)). specialize (H23 x (or_introl eq_refl)).
  destruct (p1 x) eqn:E1.
  - destruct (H12 eq_refl) as [-> ->]. cbn. constructor. exact IH.
  - destruct (p2 x) eqn:E2.
    + rewrite (H23 eq_refl). cbn. etransitivity; [symmetry; apply Permutation_middle|]. constructor. exact IH.
    + destruct (p3 x) eqn:E3; [|exact IH]. cbn. rewrite app_assoc. etransitivity; [symmetry; apply Permutation_middle|]. constructor. rewrite <- app_assoc. exact IH.
Qed.

(** ** scatter plots *)
Lemma color_ok : forall t i, full_theme t -> (i < 8)%nat -> color t i = Ok (nth i (th_colors t) "").
Proof. intros t i [H _] Hi. unfold color, M_Plot2.pick. rewrite (nth_error_nth' (th_colors t) "") by lia. reflexivity. Qed.
Lemma marker_ok : forall t i, full_theme t -> (i < 3)%nat -> marker t i = Ok (nth i (th_markers t) "").
Proof. intros t i [_ H] Hi. unfold marker, M_Plot2.pick. rewrite (nth_error_nth' (th_markers t) "") by lia. reflexivity. Qed.
Lemma scatter_ok : forall {A} t c k lg (xs ys : list A), full_theme t -> (c < 8)%nat -> (k < 3)%nat -> length xs = length ys ->
  scatter t c k lg xs ys = Ok [Points (nth c (th_colors t) "") (nth k (th_markers t) "") lg (combine xs ys)].
Proof. intros A t c k lg xs ys Ht Hc Hk Hl. unfold scatter. rewrite !color_ok, marker_ok by (auto; lia). cbn [bind]. rewrite Hl, Nat.eqb_refl. reflexivity. Qed.
Lemma scatter_at_ok : forall {A} t c k lg (xs ys : list A) idx d, full_theme t -> (c < 8)%nat -> (k < 3)%nat ->
  Forall (fun i => (i < length xs)%nat) idx -> Forall (fun i => (i < length ys)%nat) idx ->
  scatter_at t c k lg xs ys idx = Ok [Points (nth c (th_colors t) "") (nth k (th_markers t) "") lg (map (fun i => (nth i xs d, nth i ys d)) idx)].
Proof.
  intros A t c k lg xs ys idx d Ht Hc Hk Hx Hy. unfold scatter_at. rewrite (items_nth xs idx d), (items_nth ys idx d) by auto. cbn [bind].
  rewrite scatter_ok by (auto; rewrite !map_length; reflexivity). rewrite combine_maps. reflexivity.
Qed.
Definition pdot {A} (t : theme) (c k : nat) (xs ys : list A) (d : A) (i : nat) : string * string * (A * A) := (nth c (th_colors t) "", nth k (th_markers t) "", (nth i xs d, nth i ys d)).
Lemma points_app : forall {A} (a b : list (mark A)), points_of (a ++ b)%list = (points_of a ++ points_of b)%list.
Proof. intros. apply flat_map_app. Qed.
Lemma notes_app : forall {A} (a b : list (mark A)), notes_of (a ++ b)%list = (notes_of a ++ notes_of b)%list.
Proof. intros. apply flat_map_app. Qed.
Lemma legends_app : forall {A} (a b : list (mark A)), legends_of (a ++ b)%list = (legends_of a ++ legends_of b)%list.
Proof. intros. apply flat_map_app. Qed.

Definition in_range {A} (l : list A) (idx : list nat) : Prop := Forall (fun i => (i < length l)%nat) idx.
Lemma group_points : forall {A} t c k lg (xs ys : list A) idx d, full_theme t -> (c < 8)%nat -> (k < 3)%nat -> in_range xs idx -> in_range ys idx ->
  exists ms, match idx with [] => Ok [] | i :: r => scatter_at t c k lg xs ys (i :: r) end = Ok ms /\ points_of ms = map (pdot t c k xs ys d) idx /\ notes_of ms = [] /\
    forall l, In l (legends_of ms) -> l = lg.
Proof.
  intros A t c k lg xs ys idx d Ht Hc Hk Hx Hy. destruct idx as [|i idx]; [exists []; repeat split; intros l []|].
  eexists. split; [apply (scatter_at_ok t c k lg xs ys (i :: idx) d); auto|]. cbn [points_of notes_of legends_of flat_map app]. rewrite app_nil_r, map_map. split; [reflexivity|]. split; [reflexivity|].
  intros l [<-|[]]. reflexivity.
Qed.

Definition is_reg (w : XR) : bool := neqb w n1.
Definition is_mod (w : XR) : bool := nltb n0 w && nltb w n1.
Definition is_harsh (w : XR) : bool := neqb w n0.
Lemma weight_class : forall t test w,
  shown_as t test w = if is_reg w then Some (nth (if test then 5%nat else 2%nat) (th_colors t) "", nth 0 (th_markers t) "")
    else if is_mod w then Some (nth (if test then 5%nat else 2%nat) (th_colors t) "", nth 1 (th_markers t) "")
    else if is_harsh w then Some (nth (if test then 7%nat else 6%nat) (th_colors t) "", nth 2 (th_markers t) "") else None.
Proof.
  intros t test w. unfold shown_as, is_reg, is_mod, is_harsh. destruct w as [r| | |]; try reflexivity. xnum. cbn.
  destruct (Req_EM_T r 1) as [->|H1]. { replace (Reqb 1 1) with true by (symmetry; apply Reqb_refl). reflexivity. }
  replace (Reqb r 1) with false by (symmetry; apply Reqb_false; auto).
  destruct (Req_EM_T r 0) as [->|H0]. { replace (Reqb 0 0) with true by (symmetry; apply Reqb_refl). replace (Rltb 0 0) with false by (symmetry; apply Rltb_false; lra). reflexivity. }
  replace (Reqb r 0) with false by (symmetry; apply Reqb_false; auto).
  destruct (Rlt_dec 0 r); [replace (Rltb 0 r) with true by (symmetry; apply Rltb_true; auto)|replace (Rltb 0 r) with false by (symmetry; apply Rltb_false; lra); reflexivity].
  destruct (Rlt_dec r 1); [replace (Rltb r 1) with true by (symmetry; apply Rltb_true; auto)|replace (Rltb r 1) with false by (symmetry; apply Rltb_false; lra)]; reflexivity.
Qed.
Lemma class_excl : forall w, (is_reg w = true -> is_mod w = false /\ is_harsh w = false) /\ (is_mod w = true -> is_harsh w = false).
Proof.
  intros [r| | |]; unfold is_reg, is_mod, is_harsh; xnum; cbn; try (split; [discriminate|]; discriminate); try (split; intros; auto; discriminate).
  split.
  - intros E. apply Reqb_true in E. subst r. replace (Rltb 1 1) with false by (symmetry; apply Rltb_false; lra). rewrite andb_false_r. split; [reflexivity|]. apply Reqb_false. lra.
  - intros E. apply andb_prop in E as [E _]. apply Rltb_true in E. apply Reqb_false. lra.
Qed.
Lemma groups_shown : forall t (test : bool) (xs ys w : list XR),
  Permutation (map (pdot t (if test then 5 else 2)%nat 0%nat xs ys NaN) (regular_cases w) ++ map (pdot t (if test then 5 else 2)%nat 1%nat xs ys NaN) (moderate_outliers w) ++
               map (pdot t (if test then 7 else 6)%nat 2%nat xs ys NaN) (harsh_outliers w))%list (cases_shown t test xs ys w).
Proof.
  intros t test xs ys w. unfold regular_cases, moderate_outliers, harsh_outliers, cases_shown. rewrite !(where_filter _ w NaN).
  apply three_groups; intros i _.
  - rewrite weight_class. fold (is_reg (nth i w NaN)) (is_mod (nth i w NaN)) (is_harsh (nth i w NaN)). unfold is_reg, is_mod, is_harsh. destruct (neqb (nth i w NaN) n1), (nltb n0 (nth i w NaN) && nltb (nth i w NaN) n1), (neqb (nth i w NaN) n0); reflexivity.
  - intros E. apply (proj1 (class_excl (nth i w NaN))) in E. exact E.
  - intros E. apply (proj2 (class_excl (nth i w NaN))) in E. exact E.
Qed.
Lemma where_range : forall {B C} (f : B -> bool) (w : list B) (xs : list C), length xs = length w -> in_range xs (where_ f w).
Proof.
  intros B C f w xs E. apply Forall_forall. intros i Hi. destruct w as [|d w]; [destruct Hi|]. apply (where_in f (d :: w) i d) in Hi as [Hi _]. lia.
Qed.
Lemma training_ok : forall t lab (xs ys w : list XR), full_theme t -> length xs = length w -> length ys = length w ->
  exists ms, training_marks t lab xs ys w = Ok ms /\ Permutation (points_of ms) (cases_shown t false xs ys w) /\ notes_of ms = [] /\
    forall l, In l (legends_of ms) -> exists s, l = LStr (lab ++ " Training" ++ s).
Proof.
  intros t lab xs ys w Ht Hx Hy. unfold training_marks.
  rewrite (scatter_at_ok t 2 0 _ xs ys (regular_cases w) NaN Ht ltac:(lia) ltac:(lia)) by (apply where_range; auto). cbn [bind].
  destruct (group_points t 2 1 (LStr (lab ++ " Training Moderate")) xs ys (moderate_outliers w) NaN Ht ltac:(lia) ltac:(lia)) as (b & Eb & Pb & Nb & Lb); [apply where_range; auto|apply where_range; auto|]. rewrite Eb. cbn [bind].
  destruct (group_points t 6 2 (LStr (lab ++ " Training Harsh")) xs ys (harsh_outliers w) NaN Ht ltac:(lia) ltac:(lia)) as (c & Ec & Pc & Nc & Lc); [apply where_range; auto|apply where_range; auto|]. rewrite Ec. cbn [bind].
  eexists. split; [reflexivity|]. rewrite !points_app, !notes_app, !legends_app, Pb, Pc, Nb, Nc. cbn [points_of notes_of legends_of flat_map app]. rewrite app_nil_r, map_map. split; [|split; [reflexivity|]].
  - apply (groups_shown t false).
  - intros l [<-|Hl]; [exists " Regular"; reflexivity|]. apply in_app_or in Hl as [Hl|Hl]; [apply Lb in Hl as ->; exists " Moderate"; reflexivity|apply Lc in Hl as ->; exists " Harsh"; reflexivity].
Qed.
Lemma test_ok : forall t lab (xs ys w : list XR), full_theme t -> length xs = length w -> length ys = length w ->
  exists ms, test_marks t lab xs ys w = Ok ms /\ Permutation (points_of ms) (cases_shown t true xs ys w) /\ notes_of ms = [] /\
    forall l, In l (legends_of ms) -> exists s, l = LStr (lab ++ " Test" ++ s).
Proof.
  intros t lab xs ys w Ht Hx Hy. unfold test_marks.
  destruct (group_points t 5 0 (LStr (lab ++ " Test Regular")) xs ys (regular_cases w) NaN Ht ltac:(lia) ltac:(lia)) as (a & Ea & Pa & Na & La); [apply where_range; auto|apply where_range; auto|]. rewrite Ea. cbn [bind].
  destruct (group_points t 5 1 (LStr (lab ++ " Test Moderate")) xs ys (moderate_outliers w) NaN Ht ltac:(lia) ltac:(lia)) as (b & Eb & Pb & Nb & Lb); [apply where_range; auto|apply where_range; auto|]. rewrite Eb. cbn [bind].
  destruct (group_points t 7 2 (LStr (lab ++ " Test Harsh")) xs ys (harsh_outliers w) NaN Ht ltac:(lia) ltac:(lia)) as (c & Ec & Pc & Nc & Lc); [apply where_range; auto|apply where_range; auto|]. rewrite Ec. cbn [bind].
  eexists. split; [reflexivity|]. rewrite !points_app, !notes_app, !legends_app, Pa, Pb, Pc, Na, Nb, Nc. split; [|split; [reflexivity|]].
  - apply (groups_shown t true).
  - intros l Hl. apply in_app_or in Hl as [Hl|Hl]; [apply La in Hl as ->; exists " Regular"; reflexivity|]. apply in_app_or in Hl as [Hl|Hl]; [apply Lb in Hl as ->; exists " Moderate"; reflexivity|apply Lc in Hl as ->; exists " Harsh"; reflexivity].
Qed.
(** ** notes *)
Lemma notes_ok : forall {A} (names : list string) (xs ys : list A) n, length xs = n -> length ys = n -> (length names <= S n)%nat ->
  exists ms, notes names xs ys = Ok ms /\ notes_of ms = names_shown names xs ys /\ points_of ms = [] /\ legends_of ms = [].
Proof.
  intros A names xs ys n Hx Hy Hn. unfold notes, names_shown. set (k := (length names - 1)%nat). assert (Hk : length (firstn k names) = k) by (rewrite firstn_length; lia).
  assert (Hkn : (k <= n)%nat) by lia. revert Hk. generalize (firstn k names) as l. generalize k, Hkn. clear k Hkn names Hn. intros k Hkn l Hl.
  assert (G : forall l xs' ys' s, length xs' = length ys' -> (length l <= length xs')%nat -> (forall j, nth_error xs (s + j) = nth_error xs' j) -> (forall j, nth_error ys (s + j) = nth_error ys' j) ->
    exists ms, mapM (fun ni => bind (item xs (snd ni)) (fun x => bind (item ys (snd ni)) (fun y => Ok (Note (fst ni) (x, y))))) (combine l (seq s (length l))) = Ok ms /\
      notes_of ms = combine l (combine xs' ys') /\ points_of ms = [] /\ legends_of ms = []).
  { clear l Hl k Hkn. induction l as [|a l IH]; intros xs' ys' s Hxy Hll Ex Ey; [exists []; repeat split|].
    destruct xs' as [|x xs']; [cbn in Hll; lia|]. destruct ys' as [|y ys']; [discriminate|]. cbn in Hxy, Hll.
    destruct (IH xs' ys' (S s)) as (ms & Em & En & Ep & El); [lia|lia|intros j; replace (S s + j)%nat with (s + S j)%nat by lia; apply (Ex (S j))|intros j; replace (S s + j)%nat with (s + S j)%nat by lia; apply (Ey (S j))|].
    assert (E1 : item xs s = Ok x) by (unfold item; replace s with (s + 0)%nat by lia; rewrite Ex; reflexivity).
    assert (E2 : item ys s = Ok y) by (unfold item; replace s with (s + 0)%nat by lia; rewrite Ey; reflexivity).
    cbn [length seq combine mapM fst snd]. rewrite E1. cbn [bind]. rewrite E2. cbn [bind]. rewrite Em. cbn [bind].
    eexists. split; [reflexivity|]. cbn [notes_of points_of legends_of flat_map app]. fold (notes_of ms) (points_of ms) (legends_of ms). rewrite En. auto. }
  subst k. apply (G l xs ys 0%nat); auto; lia.
Qed.
