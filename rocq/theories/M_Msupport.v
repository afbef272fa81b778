(** Model of src/direpack/sprm/_m_support_functions.py, of
    cross_validation/_cv_support_functions.py and of the start of sprm.fit that
    picks the number of starting components. *)

From Coq Require Import List Arith ZArith Bool.
Import ListNotations.
From Verif Require Import Num Err Vec.

Section Msupport.
  Context {A : Type} `{Num A}.
  Open Scope num_scope.

  (** [x[np.where(mask(x))[0]] = f(x[np.where(mask(x))[0]])]: an in-place masked
      update; mask and right-hand side read the current contents of [x] at the
      same position. *)
  Definition upd (mask : A -> bool) (f : A -> A) (x : vec A) : vec A :=
    map (fun v => if mask v then f v else v) x.

  (** _m_support_functions.py:13-14 [Fair] *)
  Definition Fair (x : vec A) (c : A) : vec A :=
    map (fun v => n1 /! nsqr (n1 +! nabs (v /! (c *! nnat 2)))) x.

  (** :17-20 [Huber]; the array is overwritten twice *)
  Definition Huber (x : vec A) (c : A) : vec A :=
    let x1 := upd (fun v => v <=?! c) (fun _ => n1) x in
    upd (fun v => c <?! v) (fun v => c /! nabs v) x1.

  (** :23-34 [Hampel]; [wx] is [x] itself (line 24), so each of the four
      assignments sees the result of the previous one *)
  Definition Hampel (x : vec A) (c b r : A) : vec A :=
    let x1 := upd (fun v => v <=?! c) (fun _ => n1) x in
    let x2 := upd (fun v => (c <?! v) && (v <=?! b)) (fun v => c /! nabs v) x1 in
    let x3 := upd (fun v => (b <?! v) && (v <=?! r))
                  (fun v => (c *! (r -! v)) /! ((r -! b) *! nabs v)) x2 in
    upd (fun v => r <?! v) (fun _ => n0) x3.

  (** the weighting functions selectable by the parameter [fun] *)
  Inductive mfun : Type := MFair | MHuber | MHampel.
  Definition mweights (f : mfun) (c b r : A) (x : vec A) : vec A :=
    match f with
    | MFair => Fair x c
    | MHuber => Huber x c
    | MHampel => Hampel x c b r
    end.

  (** :37-43 [brokenstick]: [np.triu(ones) @ (1/r) / n] *)
  Definition triu_ones (n : nat) : mat A :=
    map (fun i => map (fun j => if (i <=? j)%nat then n1 else n0) (seq 0 n)) (seq 0 n).
  Definition brokenstick (n : nat) : vec A :=
    map (fun q => q /! nnat n)
        (matvec (triu_ones n) (map (fun r => n1 /! nnat r) (seq 1 n))).

  (** sprm/sprm.py:262-265: [spc] are the proportions of variance; the result is
      [max(np.where(spc - brokenstick(k) <= 0)[0][0], 1)].  An empty [where] is
      an IndexError.  ([spc] has length min(p,n), the argument of brokenstick.) *)
  Definition relcomp (spc : vec A) : res nat :=
    match where_ (fun v => v <=?! n0) (vsub spc (brokenstick (length spc))) with
    | [] => Err IndexError
    | j :: _ => Ok (Nat.max j 1)
    end.

  (** cross_validation/_cv_support_functions.py:33-57 [robust_loss] with the
      default loss (sklearn's weighted mean squared error: an oracle-free
      average with weights).  The residuals are passed to the weighting
      function with their sign. *)
  Definition weighted_mse (y yp w : vec A) : A :=
    vsum (map2 nmul (map nsqr (vsub y yp)) w) /! vsum w.
  Definition robust_loss (f : mfun) (c b r : A) (y yp : vec A) : A :=
    weighted_mse y yp (mweights f c b r (vsub y yp)).

  (** _cv_support_functions.py:20-31 [cv_score_table]: one row per parameter
      setting *)
  Definition cv_score_table {S : Type} (params : list (A * nat)) (scores : list S)
    : list (A * nat * S) :=
    map2 (fun p s => (fst p, snd p, s)) params scores.
End Msupport.
