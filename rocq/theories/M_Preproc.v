(** Model of src/direpack/preprocessing/_preproc_utilities.py *)

From Coq Require Import List Arith ZArith Bool.
Import ListNotations.
From Verif Require Import Num Err Vec M_Utils.

Section Preproc.
  Context {A : Type} `{Num A}.
  Open Scope num_scope.

  (** :19-35 [_handle_zeros_in_scale] for an array: exact zeros become one. *)
  Definition handle_zeros (s : vec A) : vec A :=
    map (fun x => if x =?! n0 then n1 else x) s.

  (** :38-41 [_check_trimming] *)
  Definition check_trimming (t : A) : res unit :=
    raise_if ((nlit 99 100 <?! t) || (t <?! n0)) ValueError.

  (** row-wise broadcasting [X op m] of an n x p matrix with a vector of
      length p *)
  Definition rows_op (f : A -> A -> A) (X : mat A) (m : vec A) : mat A :=
    map (fun r => map2 f r m) X.

  (** :57-69 [median]: column-wise, nan-aware if any entry is NaN *)
  Definition median (X : mat A) : vec A :=
    if manynan X then map nanmedian (cols X) else map vmedian (cols X).

  (** :44-54 [mad], default c = 0.6744897501960817 *)
  Definition mad_c : A := nlit 6744897501960817 10000000000000000.
  Definition mad_with (c : A) (X : mat A) : vec A :=
    map (fun m => m /! c)
        (median (map (map nabs) (rows_op nsub X (median X)))).
  Definition mad (X : mat A) : vec A := mad_with mad_c X.

  (** :72-86 [mean].  With trimming the column-wise scipy trim_mean is taken
      (NaN with trimming is not modelled). *)
  Definition mean (X : mat A) (trimming : A) : res (vec A) :=
    if trimming =?! n0
    then Ok (if manynan X then map nanmean (cols X) else map vmean (cols X))
    else mapM (trim_mean1 trimming) (cols X).

  (** :89-106 [std].  [np.power(v, 0.5)] is modelled by [nsqrt]. *)
  Definition std (X : mat A) (trimming : A) : res (vec A) :=
    if trimming =?! n0
    then Ok (map nsqrt (if manynan X then map nanvar (cols X) else map vvar (cols X)))
    else bind (mapM (trim_mean1 trimming) (cols X)) (fun m =>
         bind (mapM (trim_mean1 trimming)
                    (cols (map (map nsqr) (rows_op nsub X m)))) (fun var =>
         Ok (map nsqrt var))).

  (** :109-117 [_euclidnorm] *)
  Definition euclidnorm (x : vec A) : A :=
    if vanynan x then nsqrt (nansum (map nsqr x)) else nsqrt (vsum (map nsqr x)).

  (** :120-126 [_diffmat_objective] *)
  Definition diffmat (a : vec A) (X : mat A) : mat A := rows_op nsub X a.

  (** :129-141 [_l1m_objective] *)
  Definition l1m_objective (a : vec A) (X : mat A) : A :=
    let d := map euclidnorm (diffmat a X) in
    if manynan X then nansum d else vsum d.

  (** :144-157 [_l1m_jacobian] *)
  Definition l1m_jacobian (a : vec A) (X : mat A) : vec A :=
    let dX := diffmat a X in
    let dists := handle_zeros (map euclidnorm dX) in
    let dX' := map2 (fun r d => map (fun x => x /! d) r) dX dists in
    if manynan X then map (fun c => nopp (nansum c)) (cols dX')
    else map (fun c => nopp (vsum c)) (cols dX').

  Section L1.
    (** scipy.optimize.minimize on [l1m_objective] started at the second
        argument (:160-176); oracle. *)
    Variable l1opt : mat A -> vec A -> vec A.

    (** :179-199 [l1median]; the keyword [x0] (given by the caller or not).  If
        [x0] is passed, the local variable of that name is never assigned, so
        line 199 raises for p >= 2. *)
    Definition l1median_kw (x0_given : bool) (X : mat A) : res (vec A) :=
      if (ncols X <? 2)%nat then Ok (median X)
      else if x0_given then Err UnboundLocalError
      else Ok (l1opt X (median X)).
    Definition l1median (X : mat A) : vec A :=
      if (ncols X <? 2)%nat then median X else l1opt X (median X).

    (** :202-232 [kstepLTS].  One iteration of the while loop: distances
        (222-225), cut-off (226), subset (227), mean of the subset (228). *)
    Definition lts_dists (X : mat A) (m : vec A) : vec A :=
      if manynan X
      then map (fun r => nansum (map nsqr (vsub r m))) X
      else map (fun r => vsum (map nsqr (vsub r m))) X.
    Definition lts_subset (X : mat A) (m : vec A) : mat A :=
      let d := lts_dists X m in
      let n := length X in
      let cutdist := nth ((n + 1) / 2 - 1) (sort d) n0 in
      map fst (filter (fun rd => snd rd <=?! cutdist) (combine X d)).
    Definition lts_step (X : mat A) (m1 : vec A) : vec A :=
      let S := lts_subset X m1 in
      if manynan S then map nanmean (cols S) else map vmean (cols S).
    (** the loop with [fuel] iterations left (maxit - iteration); returns the
        final [m2] and the number of iterations made *)
    Fixpoint lts_loop (fuel : nat) (tol : A) (X : mat A) (m : vec A) : vec A * nat :=
      match fuel with
      | O => (m, O)
      | S f =>
          let m2 := lts_step X m in
          if tol <?! vmaxl (map nabs (vsub m m2))
          then let '(r, k) := lts_loop f tol X m2 in (r, S k)
          else (m2, 1%nat)
      end.
    Definition kstepLTS (maxit : nat) (tol : A) (X : mat A) : vec A :=
      fst (lts_loop maxit tol X (l1median X)).
  End L1.

  (** :235-290 [scaleTau2].  [es2] stands for [Es2 c2], a constant computed
      from the normal distribution; [finite] is [consistency == "finiteSample"],
      [consistency] its truth value. *)
  Definition msum (X : mat A) : A := vsum (map vsum X).
  Definition mnansum (X : mat A) : A := vsum (map nansum X).
  Definition scaleTau2 (es2 c1 c2 : A) (consistency finite : bool) (x0 : mat A) : vec A :=
    let n := length x0 in
    let summ := if manynan x0 then mnansum else msum in
    let medx := median x0 in
    let xc := map (map nabs) (rows_op nsub x0 medx) in
    let sigma0 := median xc in
    let x1 :=
      if n0 <?! c1 then
        let xc' := rows_op ndiv xc (map (fun s => s *! c1) sigma0) in
        let w := map (map (fun u => let w := n1 -! nsqr u in
                                    nsqr ((nabs w +! w) /! nnat 2))) xc' in
        let mu := summ (map2 vmul x0 w) /! summ w in
        map (map (fun v => v -! mu)) x0
      else rows_op nsub x0 medx in
    let x2 := rows_op ndiv x1 sigma0 in
    let rho := map (map nsqr) x2 in
    let c22 := nsqr c2 in
    let rho' := map (fun r => if existsb (fun v => c22 <?! v) r
                              then map (fun _ => c22) r else r) rho in
    let nEs2 := if consistency
                then (if finite then (nnat n -! nnat 2) *! es2 else nnat n *! es2)
                else nnat n in
    map (fun s => s *! nsqrt (summ rho' /! nEs2)) sigma0.

  (** :293-314 [scale_data] for a two-dimensional X.  A centre or scale vector
      of length one broadcasts; any other length than p is a ValueError
      ([ravel()[0]] of an empty array is an IndexError). *)
  Definition scale_data (X : mat A) (m s : vec A) : res (mat A) :=
    let p := ncols X in
    let s := handle_zeros s in
    if (p =? 1)%nat then
      match m, s with
      | m0 :: _, s0 :: _ => Ok (map (map (fun x => (x -! m0) /! s0)) X)
      | _, _ => Err IndexError
      end
    else
      let bc (f : A -> A -> A) (Y : mat A) (v : vec A) : res (mat A) :=
        if (length v =? p)%nat then Ok (rows_op f Y v)
        else match v with
             | [v0] => Ok (map (map (fun x => f x v0)) Y)
             | _ => Err ValueError
             end in
      bind (bc nsub X m) (fun Xm => bc ndiv Xm s).

  (** :317-352 [wrap_univ].  [wrap1] is the transformation of one standardised
      value (339-348): middle region, high region, otherwise unchanged.  In
      line 346 [np.abs(x)/x] is the sign of x. *)
  Definition wrap_b : A := nlit 3 2.
  Definition wrap_c : A := nnat 4.
  Definition wrap_q1 : A := nlit 1540793 1000000.
  Definition wrap_q2 : A := nlit 8622731 10000000.
  Definition wrap1 (x : A) : A :=
    let ax := nabs x in
    if (ax <?! wrap_c) && (wrap_b <=?! ax)
    then wrap_q1 *! ntanh (wrap_q2 *! (wrap_c -! ax)) *! ax /! x
    else if wrap_c <=?! ax then n0 else x.

  (** [scale=True] (333-336): location and scale are recomputed from the data,
      whatever was passed in; otherwise (338) the data are used as they are and
      missing [locX]/[scaleX] ([None]) fail in line 350. *)
  Definition wrap_univ (scale : bool) (locX scaleX : option A) (dd : vec A) : res (vec A) :=
    if scale then
      let D := map (fun x => [x]) dd in
      let loc := nth 0 (median D) n0 in
      let sca := nth 0 (mad D) n0 in
      Ok (map (fun x => wrap1 ((x -! loc) /! sca) *! sca +! loc) dd)
    else
      match locX, scaleX with
      | Some l, Some s => Ok (map (fun x => wrap1 x *! s +! l) dd)
      | _, _ => Err TypeError
      end.

  (** :355-368 [wrap]; indexing [locX[i]] beyond its length is an IndexError *)
  Definition wrap (X : mat A) (locX scaleX : vec A) : res (mat A) :=
    bind (mapM (fun i =>
            match nth_error locX i, nth_error scaleX i with
            | Some l, Some s => wrap_univ true (Some l) (Some s) (col i X)
            | _, _ => Err IndexError
            end) (seq 0 (ncols X)))
         (fun cs => Ok (transpose cs)).
End Preproc.
