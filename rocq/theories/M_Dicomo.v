(** Model of src/direpack/dicomo/_dicomo_utils.py and src/direpack/dicomo/dicomo.py *)

From Coq Require Import String List Arith ZArith Bool.
Import ListNotations.
From Verif Require Import Num Err Vec M_Utils M_Preproc.

(** parameters and attributes of a dicomo object (dicomo.py:68-84; the
    attributes are the ones fit assigns) *)
Record dstate (A : Type) : Type := mk_dstate {
  d_est : string; d_mode : string; d_center : string;
  d_moment : option A; d_xmom : option A; d_ymom : option A; d_como : option A
}.
Arguments mk_dstate {A}. Arguments d_est {A}. Arguments d_mode {A}. Arguments d_center {A}.
Arguments d_moment {A}. Arguments d_xmom {A}. Arguments d_ymom {A}. Arguments d_como {A}.

(** keyword arguments of fit (dicomo.py:114-142, 185-205); [None] is "not in
    kwargs".  dmetric is the distance itself (the default is [euclid]);
    order and option are natural numbers with option <= order. *)
Record dkw (A : Type) : Type := mk_dkw {
  k_y : option (arr A); k_trim : option A; k_bias : option bool; k_alpha : option A;
  k_calc : option string; k_order : option nat; k_option : option nat;
  k_fisher : option bool; k_std : option bool; k_metric : option (list A -> list A -> A)
}.
Arguments mk_dkw {A}. Arguments k_y {A}. Arguments k_trim {A}. Arguments k_bias {A}. Arguments k_alpha {A}.
Arguments k_calc {A}. Arguments k_order {A}. Arguments k_option {A}. Arguments k_fisher {A}. Arguments k_std {A}. Arguments k_metric {A}.

(** fit() without keyword arguments *)
Definition kw0 {A} : dkw A := mk_dkw None None None None None None None None None None.

(** the routines of the dcor package used by the fast path:
    distance_covariance_sqr and u_distance_covariance_sqr *)
Record dcor_env (A : Type) : Type := mk_dcor { dc_v : arr A -> arr A -> res A; dc_u : arr A -> arr A -> res A }.
Arguments mk_dcor {A}. Arguments dc_v {A}. Arguments dc_u {A}.

(** [kwargs.get(k)] with a default *)
Definition dflt {B} (o : option B) (d : B) : B := match o with Some b => b | None => d end.

(** [v in [..]] *)
Definition smem (s : string) (l : list string) : bool := existsb (String.eqb s) l.

Section Dicomo.
  Context {A : Type} `{Num A}.
  Open Scope num_scope.

  (** Python's round (and np.round): nearest integer, ties to even *)
  Definition nround (x : A) : Z :=
    let h := x +! nlit 1 2 in
    let f := nfloor h in
    if (nZ f =?! h) && Z.odd f then (f - 1)%Z else f.

  (** _dicomo_utils.py:15-31 trim_mean, of one column *)
  Definition dtrim_mean (t : A) (v : list A) : res A :=
    if t =?! n0 then Ok (vmean v) else trim_mean1 t v.

  (** _dicomo_utils.py:33-46 trimvar, of one column *)
  Definition trimvar (t : A) (v : list A) : res A :=
    bind (trim_mean1 t v) (fun m => trim_mean1 t (map (fun x => nsqr (x -! m)) v)).

  (** the location estimator fit selects (dicomo.py:219-222) applied as
      locest(v, trimming): np.median takes trimming as its axis, so any value
      but 0 is a TypeError *)
  Definition locest (median : bool) (t : A) (v : list A) : res A :=
    if median then (if t =?! n0 then Ok (vmedian v) else Err TypeError) else dtrim_mean t v.

  (** np.prod(ntrim - np.arange(max(1,order-2),order)) (_dicomo_utils.py:101) *)
  Definition fs_prod (ntrim : Z) (order : nat) : Z :=
    fold_right Z.mul 1%Z (map (fun i => (ntrim - Z.of_nat i)%Z) (seq (Nat.max 1 (order - 2)) (order - Nat.max 1 (order - 2)))).

  (** ntrim = round(n * (1-trimming)) (dicomo.py:208, _dicomo_utils.py:99) *)
  Definition ntrim_of (n : nat) (t : A) : Z := nround (nnat n *! (n1 -! t)).

  (** _dicomo_utils.py:51-117 trim_mom for samples [x], [y] (one column each;
      for several columns the code returns the value of the first).
      [median] is locest == np.median. *)
  Definition trim_mom (x y : list A) (median : bool) (order : nat) (t : A) (option : nat) (fscorr : bool) : res A :=
    match order with
    | O => Err AttributeError                                (* como = 0 has no .shape (:69, :109) *)
    | S O => locest median t x                               (* :71 *)
    | _ =>
      let s2 := if (2 <? order)%nat then option else 1%nat in
      let s1 := if (2 <? order)%nat then (order - option)%nat else 1%nat in
      if median then
        (* :80-90: trimming = 0; absolute deviations and power 1/order when x is y *)
        let same := forallb (fun b => b) (map2 neqb x y) in
        let w := fun a => if same then nabs a else a in
        let mx := vmedian x in
        let my := vmedian y in
        let prod := map2 (fun a b => npow (w (a -! mx)) s1 *! npow (w (b -! my)) s2) x y in
        let pw := if same then map (fun z => npowr z (nlit 1 (Pos.of_nat order))) prod else prod in
        let factor := if same && (order =? 2)%nat then nlit 14826 10000 else n1 in
        Ok (vmedian pw *! factor)
      else
        (* :91-103 *)
        let nt := ntrim_of (length x) t in
        let factor := if fscorr then nZ nt /! nZ (fs_prod nt order) else n1 in
        bind (dtrim_mean t x) (fun mx =>
        bind (dtrim_mean t y) (fun my =>
        bind (dtrim_mean t (map2 (fun a b => npow (a -! mx) s1 *! npow (b -! my) s2) x y)) (fun m =>
        Ok (m *! factor))))
    end.

  (** ** distances *)
  (** scipy's euclidean metric *)
  Definition euclid (u v : list A) : A := vnorm (vsub u v).

  (** squareform(pdist(X, metric)): computed for i < j, mirrored, zero diagonal *)
  Definition dist_matrix (metric : list A -> list A -> A) (X : list (list A)) : list (list A) :=
    let n := length X in
    map (fun i => map (fun j =>
      if (i <? j)%nat then metric (nth i X []) (nth j X [])
      else if (j <? i)%nat then metric (nth j X []) (nth i X []) else n0) (seq 0 n)) (seq 0 n).

  (** out - mu_rows - mu_cols + mu, then a zero diagonal when biascorr
      (_dicomo_utils.py:175-182) *)
  Definition center_cells (a : list (list A)) (rows cls : list A) (mu : A) (biascorr : bool) : list (list A) :=
    let dim := length a in
    map (fun i => map (fun j =>
      if biascorr && (i =? j)%nat then n0
      else ((mget a i j -! nth i rows n0) -! nth j cls n0) +! mu) (seq 0 dim)) (seq 0 dim).

  (** _dicomo_utils.py:119-184 double_center_flex of a square matrix; returns
      the centred matrix and n1 *)
  Definition double_center_flex (a : list (list A)) (center : string) (t : A) (biascorr : bool)
    : res (list (list A) * Z) :=
    let dim := length a in
    if (center =? "mean")%string then
      bind (dtrim_mean t (concat a)) (fun mu0 =>
      let nn := if biascorr then ntrim_of dim t else Z.of_nat dim in
      let mu := if biascorr then mu0 *! (nZ (nn * nn) /! nZ ((nn - 1) * (nn - 2))) else mu0 in
      bind (mapM (fun j => dtrim_mean t (col j a)) (seq 0 dim)) (fun cls0 =>
      bind (mapM (dtrim_mean t) a) (fun rows0 =>
      let f := nZ nn /! nZ (nn - 2) in
      let cls := if biascorr then map (fun c => c *! f) cls0 else cls0 in
      let rows := if biascorr then map (fun c => c *! f) rows0 else rows0 in
      Ok (center_cells a rows cls mu biascorr, nn))))
    else if (center =? "median")%string then
      Ok (center_cells a (map vmedian a) (map (fun j => vmedian (col j a)) (seq 0 dim)) (vmedian (concat a)) biascorr,
          Z.of_nat dim)
    else Err ValueError.

  (** _dicomo_utils.py:187-225 distance_matrix_centered *)
  Definition distance_matrix_centered (metric : list A -> list A -> A) (X : list (list A))
    (center : string) (t : A) (biascorr : bool) : res (list (list A) * Z) :=
    double_center_flex (dist_matrix metric X) center t biascorr.

  (** [dm *= dm] repeated (_dicomo_utils.py:301-308) *)
  Definition msquare (X : list (list A)) : list (list A) := map (map nsqr) X.

  (** _dicomo_utils.py:228-319 distance_moment.  The two arguments are arrays
      updated in place; [alias] says they are the same object.  Returns the
      arrays as they are afterwards and the moment. *)
  Definition distance_moment (alias : bool) (dmx dmy : list (list A)) (nn : Z) (center : string) (t : A)
    (biascorr : bool) (order option : nat) : res (list (list A) * list (list A) * A) :=
    let s2 := if (2 <? order)%nat then option else 1%nat in
    let s1 := if (2 <? order)%nat then (order - option)%nat else 1%nat in
    if negb (length dmx =? length dmy)%nat then Err ValueError else
    let m1 := if t =?! n0 then Z.of_nat (length dmx) else nn in
    let corr := if biascorr then nZ (m1 * m1) /! nZ (m1 * (m1 - 3)) else n1 in
    (* :299-308 *)
    let dmx1 := Nat.iter (s1 - 1) msquare dmx in
    let dmy0 := if alias then dmx1 else dmy in
    let dmy1 := Nat.iter (s2 - 1) msquare dmy0 in
    let dmx2 := if alias then dmy1 else dmx1 in
    let prod := concat (map2 vmul dmx2 dmy1) in
    if (center =? "mean")%string then
      bind (dtrim_mean t prod) (fun m =>
      if (order =? 0)%nat then Err ZeroDivisionError else
      let r := npowr (nabs (m *! corr)) (nlit 1 (Pos.of_nat order)) in
      Ok (dmx2, dmy1, if Nat.even order then r else nopp r))
    else if (center =? "median")%string then Ok (dmx2, dmy1, vmedian prod)
    else Err UnboundLocalError.

  (** the trimming of D_inner and U_inner (_dicomo_utils.py:382-394, 409-421):
      the products, partially sorted, without int(trimming*nx^2) at both ends *)
  Definition inner_slice (X Y : list (list A)) (t : A) : list A :=
    let nx := length X in
    let lo := Z.to_nat (nfloor (t *! nnat (nx * nx))) in
    let prod := concat (map2 vmul X Y) in
    if t =?! n0 then prod else firstn (nx * nx - lo - lo) (skipn lo (sort prod)).

  (** _dicomo_utils.py:398-422 D_inner *)
  Definition D_inner (X Y : list (list A)) (t : A) : res A :=
    if negb (length X =? length Y)%nat then Err MyException else
    let r := inner_slice X Y t in
    let n := nsqrt (nnat (length r)) in
    Ok ((n1 /! (n *! n)) *! vsum r).

  (** _dicomo_utils.py:371-395 U_inner *)
  Definition U_inner (X Y : list (list A)) (t : A) : res A :=
    if negb (length X =? length Y)%nat then Err MyException else
    let r := inner_slice X Y t in
    let n := nsqrt (nnat (length r)) in
    Ok ((n1 /! (n *! (n -! nnat 3))) *! vsum r).

  (** Y.reshape(-1,1): row-major flattening *)
  Definition flat (y : arr A) : list A := match y with A1 v => v | A2 Y => concat Y end.

  (** _dicomo_utils.py:322-368 difference_divergence; dmetric is never passed
      by fit, so both distances are euclidean *)
  Definition difference_divergence (X : list (list A)) (y : arr A) (center : string) (t : A) (biascorr : bool) : res A :=
    bind (distance_matrix_centered euclid X center t biascorr) (fun ra =>
    let dy := map (map (fun d => nlit 1 2 *! nsqr d)) (dist_matrix euclid (map (fun v => [v]) (flat y))) in
    bind (double_center_flex dy center t biascorr) (fun rb =>
    if biascorr then U_inner (fst ra) (fst rb) t else D_inner (fst ra) (fst rb) t)).

  (** the rows of X_dist (_dicomo_utils.py:448-457): distances from row i to
      every row; for p = 1 the code leaves them as a column *)
  Definition mddm_dist (X : list (list A)) (i : nat) : list A :=
    map (fun r => vnorm (vsub r (nth i X []))) X.

  (** _dicomo_utils.py:424-464 MDDM.  X and Y with different numbers of rows
      are a ValueError (one-row broadcasting is left out). *)
  Definition MDDM (X Y : list (list A)) : res (list (list A)) :=
    let n := length X in
    let q := ncols Y in
    let p := ncols X in
    if negb (length Y =? n)%nat then Err ValueError else
    let ym := map vmean (cols Y) in
    let Yc := map (fun r => vsub r ym) Y in
    (* p == 1: X_dist is n x 1, and matmul with the n x q matrix needs n == 1 *)
    if (p =? 1)%nat && negb (n <=? 1)%nat then Err ValueError else
    let step M i := madd M (outer (nth i Yc []) (tmatvec Yc (mddm_dist X i))) in
    let M := fold_left step (seq 0 n) (repeat (vzeros q) q) in
    Ok (map (map (fun v => nopp v /! nnat (n * n))) M).

  (** ** the class *)
  Definition li_est : list string := ["arithmetic"; "distance"; "sign"; "entropy"]%string.
  Definition li_mo : list string :=
    ["mom"; "var"; "std"; "skew"; "kurt"; "com"; "cov"; "cok"; "cos"; "corr"; "continuum"; "M3"; "mdd"; "ballcov"]%string.
  Definition li_center : list string := ["mean"; "median"]%string.

  (** dicomo.py:68-84 __init__ (the message printed for ballcov is left out) *)
  Definition dicomo_init (est mode center : string) : res (dstate A) :=
    if negb (smem mode li_mo) then Err MyException
    else if negb (smem est li_est) then Err MyException
    else if negb (smem center li_center) then Err MyException
    else if (est =? "arithmetic")%string && smem mode ["mdd"; "mdc"]%string then Err MyException
    else Ok (mk_dstate est mode center None None None None).

  (** set_params of scikit-learn's BaseEstimator: one setattr per pair, in
      order, ValueError at the first unknown name; no validation *)
  Definition set_param1 (s : dstate A) (k v : string) : res (dstate A) :=
    if (k =? "est")%string then Ok (mk_dstate v (d_mode s) (d_center s) (d_moment s) (d_xmom s) (d_ymom s) (d_como s))
    else if (k =? "mode")%string then Ok (mk_dstate (d_est s) v (d_center s) (d_moment s) (d_xmom s) (d_ymom s) (d_como s))
    else if (k =? "center")%string then Ok (mk_dstate (d_est s) (d_mode s) v (d_moment s) (d_xmom s) (d_ymom s) (d_como s))
    else Err ValueError.

  Definition with_center (s : dstate A) (c : string) : dstate A :=
    mk_dstate (d_est s) (d_mode s) c (d_moment s) (d_xmom s) (d_ymom s) (d_como s).
  Definition with_moment (s : dstate A) (v : A) : dstate A :=
    mk_dstate (d_est s) (d_mode s) (d_center s) (Some v) (d_xmom s) (d_ymom s) (d_como s).
  Definition with_xmom (s : dstate A) (v : A) : dstate A :=
    mk_dstate (d_est s) (d_mode s) (d_center s) (d_moment s) (Some v) (d_ymom s) (d_como s).
  Definition with_ymom (s : dstate A) (v : A) : dstate A :=
    mk_dstate (d_est s) (d_mode s) (d_center s) (d_moment s) (d_xmom s) (Some v) (d_como s).
  Definition with_como (s : dstate A) (v : A) : dstate A :=
    mk_dstate (d_est s) (d_mode s) (d_center s) (d_moment s) (d_xmom s) (d_ymom s) (Some v).

  (** a statement that may raise, in a method that has already changed self *)
  Definition step {B C} (s : dstate A) (r : res B) (k : B -> dstate A * res C) : dstate A * res C :=
    match r with Ok b => k b | Err e => (s, Err e) end.

  (** the locals of fit used after the estimation part *)
  Record dlocals := mk_dl { l_mode : string; l_x : option A; l_y : option A; l_c : option A;
                            l_x2 : option A; l_y2 : option A }.

  (** reading a local that may never have been assigned *)
  Definition local {B} (o : option B) : res B := match o with Some b => Ok b | None => Err UnboundLocalError end.

  (** dicomo.py:137-188: local mode, order, and whether self.center is set to 'mean' *)
  Definition mode_of (m : string) (order : nat) : string * nat * bool :=
    if (m =? "var")%string then ("mom"%string, 2%nat, false)
    else if (m =? "cov")%string then ("com"%string, 2%nat, false)
    else if (m =? "std")%string then ("mom"%string, 2%nat, true)
    else if (m =? "skew")%string then ("mom"%string, 3%nat, true)
    else if (m =? "kurt")%string then ("mom"%string, 4%nat, true)
    else if (m =? "cos")%string then ("com"%string, 3%nat, true)
    else if (m =? "M3")%string then ("com"%string, 3%nat, true)
    else if (m =? "cok")%string then ("com"%string, 4%nat, true)
    else (m, order, false).

  (** xmom / x2mom**num_power (dicomo.py:239, 390) for std, skew, kurt *)
  Definition div_power (m : string) (xmom x2mom : A) : A :=
    if (m =? "std")%string then xmom /! nsqrt x2mom
    else if (m =? "skew")%string then xmom /! npowr x2mom (nlit 3 2)
    else xmom /! npow x2mom 2.

  (** the shape of the arrays: number of samples; the first column; the rows *)
  Definition alen (x : arr A) : nat := match x with A1 v => length v | A2 X => length X end.
  Definition acol (x : arr A) : list A := match x with A1 v => v | A2 X => col 0 X end.
  (** x after dicomo.py:210-211 *)
  Definition arows (x : arr A) : list (list A) := match x with A1 v => map (fun a => [a]) v | A2 X => X end.
  (** pdist of an array: a 1-d array is a ValueError *)
  Definition prows (y : arr A) : res (list (list A)) := match y with A1 _ => Err ValueError | A2 Y => Ok Y end.

  (** 'y' in kwargs (dicomo.py:252-258) *)
  Definition get_y (kw : dkw A) : res (arr A) := match k_y kw with Some y => Ok y | None => Err MyException end.

  (** dicomo.py:226-298: est == 'arithmetic' *)
  Definition fit_arithmetic (s : dstate A) (mode : string) (order opt : nat) (x : arr A) (kw : dkw A)
    : dstate A * res dlocals :=
    let t := dflt (k_trim kw) n0 in
    let bc := dflt (k_bias kw) false in
    let fisher := dflt (k_fisher kw) true in
    let nt := ntrim_of (alen x) t in
    let med := (d_center s =? "median")%string in
    let sm := d_mode s in
    let xs := acol x in
    let ismom := (mode =? "mom")%string in
    let iscom := (mode =? "com")%string in
    (* :229-249 *)
    let part1 : dstate A * res (option A) :=
      if iscom then (s, Ok None) else
      step s (trim_mom xs xs med order t opt bc) (fun xmom0 =>
      let s1 := with_xmom s xmom0 in
      if smem sm ["std"; "skew"; "kurt"]%string then
        step s1 (trim_mom xs xs med 2 t opt false) (fun x2mom =>
        let xm := div_power sm xmom0 x2mom in
        let xm :=
          if bc then
            if (sm =? "skew")%string then (xm *! nZ ((nt - 1) * (nt - 1))) /! nsqrt (nZ (nt * nt - nt))
            else if (sm =? "kurt")%string then
              let k := (xm *! nZ nt -! xm /! nZ nt) -! nZ (3 * ((nt - 1) * (nt - 1))) /! nZ ((nt - 2) * (nt - 3)) in
              if negb fisher then k +! nnat 3 else k
            else xm
          else xm in
        ((if ismom then with_moment s1 xm else s1), Ok (Some xm)))
      else ((if ismom then with_moment s1 xmom0 else s1), Ok (Some xmom0))) in
    match part1 with
    | (s1, Err e) => (s1, Err e)
    | (s1, Ok xm) =>
      if ismom then (s1, Ok (mk_dl mode xm None None None None)) else
      (* :252-298 *)
      step s1 (get_y kw) (fun y =>
      if (alen y =? 0)%nat then (s1, Err MyException) else
      if negb (alen y =? alen x)%nat then (s1, Err MyException) else
      let ys := acol y in
      step s1 (trim_mom xs ys med order t opt bc) (fun c0 =>
      let s2 := with_como s1 c0 in
      let c1 := if bc && (2 <? order)%nat then c0 *! nZ nt else c0 in
      let s3 := if iscom then with_moment s2 c1 else s2 in
      let co := smem sm ["cok"; "cos"]%string in
      step s3 (if co then bind (trim_mom xs xs med 2 t opt bc) (fun a =>
                          bind (trim_mom ys ys med 2 t opt bc) (fun b => Ok (Some (nsqrt a), Some (nsqrt b))))
               else Ok (None, None)) (fun sds =>
      let c2 := if (sm =? "cok")%string && bc
                then (c1 -! c1 /! nZ (nt * nt)) -! nZ (3 * ((nt - 1) * (nt - 1))) /! nZ ((nt - 2) * (nt - 3)) else c1 in
      if smem mode ["corr"; "continuum"]%string then
        step s3 (trim_mom ys ys med order t opt bc) (fun ym =>
        (with_ymom s3 ym, Ok (mk_dl mode xm (Some ym) (Some c2) (fst sds) (snd sds))))
      else (s3, Ok (mk_dl mode xm None (Some c2) (fst sds) (snd sds))))))
    end.

  (** dicomo.py:310-338: distance modes ballcov, mdd, mdc *)
  Definition fit_mdd (s : dstate A) (mode : string) (x : arr A) (kw : dkw A) : dstate A * res dlocals :=
    let t := dflt (k_trim kw) n0 in
    let bc := dflt (k_bias kw) false in
    step s (get_y kw) (fun y =>
    if (alen y =? 0)%nat then (s, Err MyException) else
    if negb (alen y =? alen x)%nat then (s, Err MyException) else
    if (mode =? "ballcov")%string then
      step s (bind (prows y) (fun Y => distance_matrix_centered (dflt (k_metric kw) euclid) Y (d_center s) t bc))
        (fun _ => (s, Err NameError))                               (* the Ball package is not imported *)
    else
      step s (difference_divergence (arows x) y (d_center s) t bc) (fun dd =>
      let como := nsqrt dd in
      let s1 := with_como s como in
      if (mode =? "mdd")%string then (with_moment s1 como, Ok (mk_dl mode None None (Some como) None None))
      else step s1 (difference_divergence (arows x) (A2 (arows x)) (d_center s) t bc) (fun xm =>
           step s1 (bind (prows y) (fun Y => difference_divergence Y y (d_center s) t bc)) (fun ym =>
           (with_ymom (with_xmom s1 xm) ym, Ok (mk_dl "corr" (Some xm) (Some ym) (Some como) None None)))))).

  (** dicomo.py:343-369: the fast path *)
  Definition fit_fast (dc : dcor_env A) (s : dstate A) (mode : string) (x : arr A) (kw : dkw A)
    : dstate A * res dlocals :=
    let bc := dflt (k_bias kw) false in
    let f a b := if bc then dc_u dc a b else dc_v dc a b in
    let xa := A2 (arows x) in
    let ismom := (mode =? "mom")%string in
    let iscom := (mode =? "com")%string in
    let part1 : dstate A * res (option A) :=
      if iscom then (s, Ok None) else
      step s (f xa xa) (fun v => (with_moment s (nsqrt v), Ok (Some (nsqrt v)))) in
    match part1 with
    | (s1, Err e) => (s1, Err e)
    | (s1, Ok xm) =>
      if ismom then (s1, Ok (mk_dl mode xm None None None None)) else
      step s1 (get_y kw) (fun y =>
      step s1 (f xa y) (fun v =>
      let como := nsqrt v in
      if iscom then (with_moment (with_como s1 como) como, Ok (mk_dl mode xm None (Some como) None None))
      else if smem mode ["corr"; "continuum"; "cos"; "cok"]%string then
        step s1 (f y y) (fun w => (with_ymom s1 (nsqrt w), Ok (mk_dl mode xm (Some (nsqrt w)) (Some como) None None)))
      else (s1, Ok (mk_dl mode xm None (Some como) None None))))
    end.

  (** dicomo.py:373-426: the general distance path.  dmx and dmy are arrays
      that distance_moment may overwrite. *)
  Definition fit_distance (s : dstate A) (mode : string) (order opt : nat) (x : arr A) (kw : dkw A)
    : dstate A * res dlocals :=
    let t := dflt (k_trim kw) n0 in
    let bc := dflt (k_bias kw) false in
    let metric := dflt (k_metric kw) euclid in
    let c := d_center s in
    let sm := d_mode s in
    let ismom := (mode =? "mom")%string in
    let iscom := (mode =? "com")%string in
    step s (distance_matrix_centered metric (arows x) c t bc) (fun rx =>
    let '(dmx0, m1) := rx in
    let part1 : dstate A * res (list (list A) * option A) :=
      if iscom then (s, Ok (dmx0, None)) else
      step s (distance_moment true dmx0 dmx0 m1 c t bc order opt) (fun r =>
      let '(dmx1, _, xmom) := r in
      let s1 := with_xmom s xmom in
      if smem sm ["std"; "skew"; "kurt"]%string then
        step s1 (distance_moment true dmx1 dmx1 m1 c t bc 2 opt) (fun r2 =>
        let '(dmx2, _, x2mom) := r2 in
        let xm := div_power sm xmom x2mom in
        ((if ismom then with_moment s1 xm else s1), Ok (dmx2, Some xm)))
      else ((if ismom then with_moment s1 xmom else s1), Ok (dmx1, Some xmom))) in
    match part1 with
    | (s1, Err e) => (s1, Err e)
    | (s1, Ok (dmx, xm)) =>
      if ismom then (s1, Ok (mk_dl mode xm None None None None)) else
      step s1 (get_y kw) (fun y =>
      let ny := alen y in
      if (ny =? 0)%nat then (s1, Err MyException) else
      if negb (ny =? alen x)%nat then (s1, Err MyException) else
      step s1 (bind (prows y) (fun Y => distance_matrix_centered metric Y c t bc)) (fun ry =>
      let dmy0 := fst ry in
      step s1 (distance_moment false dmx dmy0 (Z.of_nat ny) c t bc order opt) (fun r =>
      let '(dmx1, dmy1, como) := r in
      let s2 := with_como s1 como in
      let s3 := if iscom then with_moment s2 como else s2 in
      step s3 (if smem sm ["cok"; "cos"]%string then
                 bind (distance_moment true dmx1 dmx1 (Z.of_nat ny) c t bc 2 opt) (fun a =>
                 bind (distance_moment true dmy1 dmy1 (Z.of_nat ny) c t bc 2 opt) (fun b =>
                 Ok (Some (nsqrt (snd a)), Some (nsqrt (snd b)))))
               else Ok (None, None)) (fun sds =>
      if smem mode ["corr"; "continuum"; "cok"; "cos"]%string then
        step s3 (distance_moment true dmy1 dmy1 (Z.of_nat (alen x)) c t bc order opt) (fun ry2 =>
        let ym := snd ry2 in
        (with_ymom s3 ym, Ok (mk_dl mode xm (Some ym) (Some como) (fst sds) (snd sds))))
      else (s3, Ok (mk_dl mode xm None (Some como) (fst sds) (snd sds)))))))
    end).

  (** dicomo.py:428-447: the last part of fit *)
  Definition fit_tail (s : dstate A) (l : dlocals) (order opt : nat) (alpha : A) (fisher standardized : bool)
    : dstate A * res A :=
    let sm := d_mode s in
    let fin (s' : dstate A) : dstate A * res A :=
      match d_moment s' with Some v => (s', Ok v) | None => (s', Err AttributeError) end in
    let cokpart (s' : dstate A) : dstate A * res A :=
      if smem sm ["cok"; "cos"]%string && standardized then
        step s' (bind (local (l_c l)) (fun c => bind (local (l_x2 l)) (fun a => bind (local (l_y2 l)) (fun b => Ok (c, a, b)))))
          (fun cab => let '(c, a, b) := cab in
          let v := (c /! npow a (order - opt)) /! npow b opt in
          let v := if (sm =? "cok")%string && negb fisher then v +! nnat 3 else v in
          fin (with_moment s' v))
      else fin s' in
    if (l_mode l =? "corr")%string then
      step s (bind (local (l_c l)) (fun c => bind (local (l_x l)) (fun a => bind (local (l_y l)) (fun b => Ok (c, a, b)))))
        (fun cab => let '(c, a, b) := cab in
        cokpart (with_moment s (c /! (nsqrt a *! nsqrt b))))
    else if (l_mode l =? "continuum")%string then
      step s (bind (local (l_c l)) (fun c => bind (local (l_x l)) (fun a => Ok (c, a))))
        (fun ca => let '(c, a) := ca in
        cokpart (with_moment s (c *! (c *! npowr (nsqrt a) (alpha -! n1)))))
    else cokpart s.

  (** dicomo.py:88-448 fit.  Returns self afterwards and the returned value or
      the exception. *)
  Definition dicomo_fit (dc : dcor_env A) (s : dstate A) (x : arr A) (kw : dkw A) : dstate A * res A :=
    let t := dflt (k_trim kw) n0 in
    let '(mode, order, setc) := mode_of (d_mode s) (dflt (k_order kw) 2%nat) in
    let s0 := if setc then with_center s "mean" else s in
    let opt := if (2 <? order)%nat then dflt (k_option kw) 1%nat else 0%nat in
    let alpha := if (mode =? "corr")%string then n1 else dflt (k_alpha kw) n1 in
    if (alen x =? 0)%nat then (s0, Err MyException) else
    let '(s1, r) :=
      if (d_est s0 =? "arithmetic")%string then fit_arithmetic s0 mode order opt x kw
      else if (d_est s0 =? "distance")%string then
        if smem mode ["ballcov"; "mdd"; "mdc"]%string then fit_mdd s0 mode x kw
        else if (dflt (k_calc kw) "fast" =? "fast")%string && (d_center s0 =? "mean")%string && (t =?! n0) && (order =? 2)%nat
        then fit_fast dc s0 mode x kw
        else fit_distance s0 mode order opt x kw
      else (s0, Ok (mk_dl mode None None None None None)) in
    match r with
    | Err e => (s1, Err e)
    | Ok l => fit_tail s1 l order opt alpha (dflt (k_fisher kw) true) (dflt (k_std kw) true)
    end.
End Dicomo.
