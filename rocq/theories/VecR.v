(** Lemmas about vectors, sums and dot products over the reals. *)

From Coq Require Import Reals List Arith ZArith Bool Lia Lra Permutation.
Import ListNotations.
From Verif Require Import Num Err Vec.
Open Scope R_scope.

(* ------------------------------------------------------------------ *)
(** * map2 *)

Lemma map2_length : forall {B C D} (f : B -> C -> D) u v,
  length (map2 f u v) = Nat.min (length u) (length v).
Proof. intros B C D f u; induction u as [|x u IH]; intros [|y v]; cbn; auto. Qed.

Lemma map2_length_eq : forall {B C D} (f : B -> C -> D) u v,
  length u = length v -> length (map2 f u v) = length u.
Proof. intros B C D f u v Hl; rewrite map2_length, <- Hl, Nat.min_id; reflexivity. Qed.

Lemma nth_map2 : forall {B C D} (f : B -> C -> D) u v i db dc dd,
  (i < length u)%nat -> (i < length v)%nat ->
  nth i (map2 f u v) dd = f (nth i u db) (nth i v dc).
Proof.
  intros B C D f u; induction u as [|x u IH]; intros [|y v] [|i] db dc dd Hu Hv;
    cbn in *; try lia; auto.
  apply IH; lia.
Qed.

Lemma map2_map_l : forall {B B' C D} (f : B' -> C -> D) (g : B -> B') u v,
  map2 f (map g u) v = map2 (fun x y => f (g x) y) u v.
Proof. intros B B' C D f g u; induction u as [|x u IH]; intros [|y v]; cbn; auto; rewrite IH; reflexivity. Qed.

Lemma map2_map_r : forall {B C C' D} (f : B -> C' -> D) (g : C -> C') u v,
  map2 f u (map g v) = map2 (fun x y => f x (g y)) u v.
Proof. intros B C C' D f g u; induction u as [|x u IH]; intros [|y v]; cbn; auto; rewrite IH; reflexivity. Qed.

Lemma map_map2 : forall {B C D E} (g : D -> E) (f : B -> C -> D) u v,
  map g (map2 f u v) = map2 (fun x y => g (f x y)) u v.
Proof. intros B C D E g f u; induction u as [|x u IH]; intros [|y v]; cbn; auto; rewrite IH; reflexivity. Qed.

Lemma map2_same : forall {B D} (f : B -> B -> D) u, map2 f u u = map (fun x => f x x) u.
Proof. intros B D f u; induction u as [|x u IH]; cbn; auto; rewrite IH; reflexivity. Qed.

Lemma map2_ext : forall {B C D} (f g : B -> C -> D) u v,
  (forall x y, f x y = g x y) -> map2 f u v = map2 g u v.
Proof. intros B C D f g u; induction u as [|x u IH]; intros [|y v] Hfg; cbn; auto; rewrite Hfg, IH by auto; reflexivity. Qed.

Lemma map2_comm : forall {B D} (f : B -> B -> D) u v,
  (forall x y, f x y = f y x) -> map2 f u v = map2 f v u.
Proof. intros B D f u; induction u as [|x u IH]; intros [|y v] Hf; cbn; auto; rewrite Hf, IH by auto; reflexivity. Qed.

Lemma map2_flip : forall {B C D} (f : B -> C -> D) u v,
  map2 f u v = map2 (fun y x => f x y) v u.
Proof. intros B C D f u; induction u as [|x u IH]; intros [|y v]; cbn; auto; rewrite IH; reflexivity. Qed.

Lemma list_ext : forall {B} (l l' : list B) d,
  length l = length l' -> (forall i, (i < length l)%nat -> nth i l d = nth i l' d) -> l = l'.
Proof.
  intros B l; induction l as [|x l IH]; intros [|y l'] d Hl Hn; cbn in *; try discriminate; auto.
  f_equal; [apply (Hn 0%nat); lia|].
  apply (IH l' d); [lia|]. intros i Hi; apply (Hn (S i)); lia.
Qed.

Lemma nth_map_lt : forall {B C} (f : B -> C) l i db dc,
  (i < length l)%nat -> nth i (map f l) dc = f (nth i l db).
Proof. intros B C f l; induction l as [|x l IH]; intros [|i] db dc Hi; cbn in *; try lia; auto; apply IH; lia. Qed.

Lemma map_nth_seq : forall {B} (l : list B) d,
  map (fun i => nth i l d) (seq 0 (length l)) = l.
Proof.
  intros B l d; induction l as [|x l IH]; cbn; auto.
  f_equal. rewrite <- seq_shift, map_map. exact IH.
Qed.

(* ------------------------------------------------------------------ *)
(** * Sums *)

Lemma vsum_nil : vsum (A:=R) [] = 0. Proof. reflexivity. Qed.
Lemma vsum_cons : forall (x : R) l, vsum (x :: l) = x + vsum l. Proof. reflexivity. Qed.

Lemma vsum_app : forall (l l' : list R), vsum (l ++ l') = vsum l + vsum l'.
Proof. intros l l'; induction l as [|x l IH]; cbn [app]; rewrite ?vsum_cons, ?vsum_nil, ?IH; lra. Qed.

Lemma vsum_perm : forall (l l' : list R), Permutation l l' -> vsum l = vsum l'.
Proof. intros l l' Hp; induction Hp; rewrite ?vsum_cons in *; lra. Qed.

Lemma vsum_rev : forall l : list R, vsum (rev l) = vsum l.
Proof. intros; apply vsum_perm, Permutation_sym, Permutation_rev. Qed.

Lemma vsum_map_plus : forall {B} (f g : B -> R) l,
  vsum (map (fun x => f x + g x) l) = vsum (map f l) + vsum (map g l).
Proof. intros B f g l; induction l as [|x l IH]; cbn [map]; rewrite ?vsum_cons, ?vsum_nil, ?IH; lra. Qed.

Lemma vsum_map_minus : forall {B} (f g : B -> R) l,
  vsum (map (fun x => f x - g x) l) = vsum (map f l) - vsum (map g l).
Proof. intros B f g l; induction l as [|x l IH]; cbn [map]; rewrite ?vsum_cons, ?vsum_nil, ?IH; lra. Qed.

Lemma vsum_map_scal : forall {B} (a : R) (f : B -> R) l,
  vsum (map (fun x => a * f x) l) = a * vsum (map f l).
Proof. intros B a f l; induction l as [|x l IH]; cbn [map]; rewrite ?vsum_cons, ?vsum_nil, ?IH; lra. Qed.

Lemma vsum_map_scal_r : forall {B} (a : R) (f : B -> R) l,
  vsum (map (fun x => f x * a) l) = vsum (map f l) * a.
Proof. intros B a f l; induction l as [|x l IH]; cbn [map]; rewrite ?vsum_cons, ?vsum_nil, ?IH; lra. Qed.

Lemma vsum_map_div : forall {B} (a : R) (f : B -> R) l,
  vsum (map (fun x => f x / a) l) = vsum (map f l) / a.
Proof. intros; unfold Rdiv; apply vsum_map_scal_r. Qed.

Lemma vsum_map_const : forall {B} (a : R) (l : list B),
  vsum (map (fun _ => a) l) = INR (length l) * a.
Proof.
  intros B a l; induction l as [|x l IH]; cbn [map length]; [rewrite vsum_nil; cbn; lra|].
  rewrite vsum_cons, IH, S_INR; lra.
Qed.

Lemma vsum_repeat : forall (a : R) k, vsum (repeat a k) = INR k * a.
Proof.
  intros a k; induction k as [|k IH]; cbn [repeat]; [rewrite vsum_nil; cbn; lra|].
  rewrite vsum_cons, IH, S_INR; lra.
Qed.

Lemma vsum_map_ext : forall {B} (f g : B -> R) l,
  (forall x, In x l -> f x = g x) -> vsum (map f l) = vsum (map g l).
Proof. intros B f g l Hfg; f_equal; apply map_ext_in, Hfg. Qed.

Lemma vsum_nonneg : forall l : list R, Forall (fun x => 0 <= x) l -> 0 <= vsum l.
Proof. intros l Hl; induction Hl; rewrite ?vsum_cons, ?vsum_nil; lra. Qed.

Lemma vsum_map_nonneg : forall {B} (f : B -> R) l, (forall x, In x l -> 0 <= f x) -> 0 <= vsum (map f l).
Proof. intros B f l Hf; apply vsum_nonneg, Forall_forall. intros y Hy; apply in_map_iff in Hy as [x [<- Hx]]; auto. Qed.

Lemma vsum_le : forall {B} (f g : B -> R) l,
  (forall x, In x l -> f x <= g x) -> vsum (map f l) <= vsum (map g l).
Proof.
  intros B f g l; induction l as [|x l IH]; intros Hfg; cbn [map]; rewrite ?vsum_cons, ?vsum_nil; [lra|].
  assert (f x <= g x) by (apply Hfg; left; auto).
  assert (vsum (map f l) <= vsum (map g l)) by (apply IH; intros; apply Hfg; right; auto). lra.
Qed.

Lemma vsum_zero : forall l : list R, (forall x, In x l -> x = 0) -> vsum l = 0.
Proof.
  intros l; induction l as [|x l IH]; intros Hl; [reflexivity|].
  rewrite vsum_cons, (Hl x), IH by (try (left; reflexivity); intros; apply Hl; right; auto). lra.
Qed.

Lemma vsum_nonneg_zero : forall l : list R,
  Forall (fun x => 0 <= x) l -> vsum l = 0 -> Forall (fun x => x = 0) l.
Proof.
  intros l Hl; induction Hl as [|x l Hx Hl IH]; intros Hs; [constructor|].
  rewrite vsum_cons in Hs. pose proof (vsum_nonneg l Hl). constructor; [lra|apply IH; lra].
Qed.

Lemma vsum_in_le : forall (l : list R) x,
  Forall (fun x => 0 <= x) l -> In x l -> x <= vsum l.
Proof.
  intros l x Hl; induction Hl as [|y l Hy Hl IH]; intros Hin; [destruct Hin|].
  rewrite vsum_cons. pose proof (vsum_nonneg l Hl).
  destruct Hin as [<-|Hin]; [lra|]. specialize (IH Hin); lra.
Qed.

(** finite sums indexed by naturals *)
Definition sumn (n : nat) (f : nat -> R) : R := vsum (map f (seq 0 n)).

Lemma sumn_0 : forall f, sumn 0 f = 0. Proof. reflexivity. Qed.
Lemma sumn_S : forall n f, sumn (S n) f = sumn n f + f n.
Proof. intros; unfold sumn; rewrite seq_S, map_app, vsum_app; cbn [map plus]; rewrite vsum_cons, vsum_nil; lra. Qed.
Lemma sumn_ext : forall n f g, (forall i, (i < n)%nat -> f i = g i) -> sumn n f = sumn n g.
Proof. intros n f g Hfg; apply vsum_map_ext; intros i Hi; apply in_seq in Hi; apply Hfg; lia. Qed.
Lemma sumn_plus : forall n f g, sumn n (fun i => f i + g i) = sumn n f + sumn n g.
Proof. intros; apply vsum_map_plus. Qed.
Lemma sumn_minus : forall n f g, sumn n (fun i => f i - g i) = sumn n f - sumn n g.
Proof. intros; apply vsum_map_minus. Qed.
Lemma sumn_scal : forall n a f, sumn n (fun i => a * f i) = a * sumn n f.
Proof. intros; apply vsum_map_scal. Qed.
Lemma sumn_scal_r : forall n a f, sumn n (fun i => f i * a) = sumn n f * a.
Proof. intros; apply vsum_map_scal_r. Qed.
Lemma sumn_const : forall n a, sumn n (fun _ => a) = INR n * a.
Proof. intros; unfold sumn; rewrite vsum_map_const, seq_length; reflexivity. Qed.
Lemma sumn_zero : forall n f, (forall i, (i < n)%nat -> f i = 0) -> sumn n f = 0.
Proof. intros n f Hf; rewrite (sumn_ext n f (fun _ => 0)) by auto; rewrite sumn_const; lra. Qed.
Lemma sumn_nonneg : forall n f, (forall i, (i < n)%nat -> 0 <= f i) -> 0 <= sumn n f.
Proof. intros n f Hf; apply vsum_map_nonneg; intros i Hi; apply in_seq in Hi; apply Hf; lia. Qed.
Lemma sumn_le : forall n f g, (forall i, (i < n)%nat -> f i <= g i) -> sumn n f <= sumn n g.
Proof. intros n f g Hf; apply vsum_le; intros i Hi; apply in_seq in Hi; apply Hf; lia. Qed.
Lemma sumn_exchange : forall n m (f : nat -> nat -> R),
  sumn n (fun i => sumn m (fun j => f i j)) = sumn m (fun j => sumn n (fun i => f i j)).
Proof.
  intros n m f; induction n as [|n IH].
  - rewrite sumn_0. symmetry; apply sumn_zero; intros; apply sumn_0.
  - rewrite sumn_S, IH, <- sumn_plus. apply sumn_ext; intros; rewrite sumn_S; reflexivity.
Qed.
Lemma sumn_delta : forall n k (f : nat -> R),
  (k < n)%nat -> sumn n (fun i => if Nat.eqb i k then f i else 0) = f k.
Proof.
  intros n k f; induction n as [|n IH]; intros Hk; [lia|].
  rewrite sumn_S. destruct (Nat.eq_dec n k) as [->|Hne].
  - rewrite Nat.eqb_refl, sumn_zero; [lra|]. intros i Hi. destruct (Nat.eqb_spec i k); [lia|reflexivity].
  - rewrite IH by lia. destruct (Nat.eqb_spec n k); [congruence|lra].
Qed.
Lemma vsum_sumn : forall l : list R, vsum l = sumn (length l) (fun i => nth i l 0).
Proof. intros l; unfold sumn; rewrite map_nth_seq; reflexivity. Qed.
Lemma vsum_map_sumn : forall {B} (f : B -> R) l d,
  vsum (map f l) = sumn (length l) (fun i => f (nth i l d)).
Proof.
  intros B f l d. rewrite vsum_sumn, map_length. apply sumn_ext; intros i Hi.
  apply nth_map_lt; assumption.
Qed.

Lemma vsum_exchange : forall {B C} (f : B -> C -> R) l m,
  vsum (map (fun x => vsum (map (fun y => f x y) m)) l) =
  vsum (map (fun y => vsum (map (fun x => f x y) l)) m).
Proof.
  intros B C f l m; induction l as [|x l IH]; cbn [map].
  - rewrite vsum_nil. symmetry. apply vsum_zero. intros z Hz. apply in_map_iff in Hz as [y [<- _]]. reflexivity.
  - rewrite vsum_cons, IH, <- vsum_map_plus. apply vsum_map_ext; intros; rewrite vsum_cons; reflexivity.
Qed.

(* ------------------------------------------------------------------ *)
(** * Dot products *)

Lemma dot_cons : forall (x y : R) u v, dot (x :: u) (y :: v) = x * y + dot u v.
Proof. reflexivity. Qed.
Lemma dot_nil_l : forall v : list R, dot [] v = 0. Proof. reflexivity. Qed.
Lemma dot_nil_r : forall v : list R, dot v [] = 0. Proof. intros [|x v]; reflexivity. Qed.

Lemma dot_comm : forall u v : list R, dot u v = dot v u.
Proof. intros u v; unfold dot; f_equal; apply map2_comm; intros; rnum; lra. Qed.

Lemma vadd_length : forall u v : list R, length u = length v -> length (vadd u v) = length u.
Proof. intros; apply map2_length_eq; assumption. Qed.
Lemma vsub_length : forall u v : list R, length u = length v -> length (vsub u v) = length u.
Proof. intros; apply map2_length_eq; assumption. Qed.
Lemma vscale_length : forall a (u : list R), length (vscale a u) = length u.
Proof. intros; apply map_length. Qed.

Lemma dot_vadd_l : forall u v w : list R, length u = length v ->
  dot (vadd u v) w = dot u w + dot v w.
Proof.
  intros u; induction u as [|x u IH]; intros [|y v] w Hl; try discriminate; cbn in Hl.
  - rewrite !dot_nil_l; lra.
  - destruct w as [|z w]; [rewrite !dot_nil_r; lra|].
    change (vadd (x :: u) (y :: v)) with ((x + y) :: vadd u v). rewrite !dot_cons, IH by lia; lra.
Qed.
Lemma dot_vsub_l : forall u v w : list R, length u = length v ->
  dot (vsub u v) w = dot u w - dot v w.
Proof.
  intros u; induction u as [|x u IH]; intros [|y v] w Hl; try discriminate; cbn in Hl.
  - rewrite !dot_nil_l; lra.
  - destruct w as [|z w]; [rewrite !dot_nil_r; lra|].
    change (vsub (x :: u) (y :: v)) with ((x - y) :: vsub u v). rewrite !dot_cons, IH by lia; lra.
Qed.
Lemma dot_vscale_l : forall a (u w : list R), dot (vscale a u) w = a * dot u w.
Proof.
  intros a u; induction u as [|x u IH]; intros [|z w].
  - cbn; lra.
  - cbn; lra.
  - rewrite !dot_nil_r; lra.
  - change (vscale a (x :: u)) with ((a * x) :: vscale a u). rewrite !dot_cons, IH; lra.
Qed.
Lemma dot_vadd_r : forall u v w : list R, length u = length v ->
  dot w (vadd u v) = dot w u + dot w v.
Proof. intros; rewrite !(dot_comm w); apply dot_vadd_l; assumption. Qed.
Lemma dot_vsub_r : forall u v w : list R, length u = length v ->
  dot w (vsub u v) = dot w u - dot w v.
Proof. intros; rewrite !(dot_comm w); apply dot_vsub_l; assumption. Qed.
Lemma dot_vscale_r : forall a (u w : list R), dot w (vscale a u) = a * dot w u.
Proof. intros; rewrite !(dot_comm w); apply dot_vscale_l. Qed.

Lemma dot_self_sqnorm : forall u : list R, dot u u = vsqnorm u.
Proof. intros u; unfold dot, vsqnorm; rewrite map2_same; reflexivity. Qed.
Lemma sqnorm_nonneg : forall u : list R, 0 <= vsqnorm u.
Proof. intros u; apply vsum_map_nonneg; intros x _; unfold nsqr; rnum; nra. Qed.
Lemma dot_self_nonneg : forall u : list R, 0 <= dot u u.
Proof. intros; rewrite dot_self_sqnorm; apply sqnorm_nonneg. Qed.
Lemma dot_self_zero : forall u : list R, dot u u = 0 -> Forall (fun x => x = 0) u.
Proof.
  intros u; rewrite dot_self_sqnorm; intros Hs.
  assert (HF : Forall (fun x => x = 0) (map nsqr u)).
  { apply vsum_nonneg_zero; [|exact Hs]. apply Forall_forall; intros y Hy.
    apply in_map_iff in Hy as [x [<- _]]; unfold nsqr; rnum; nra. }
  rewrite Forall_forall in *. intros x Hx.
  pose proof (HF _ (in_map nsqr u x Hx)) as E; unfold nsqr in E; rnum; nra.
Qed.
Lemma sqnorm_zero_vec : forall u : list R, Forall (fun x => x = 0) u -> vsqnorm u = 0.
Proof.
  intros u Hu. apply vsum_zero. intros y Hy. apply in_map_iff in Hy as [x [<- Hx]].
  rewrite Forall_forall in Hu. unfold nsqr; rnum. rewrite (Hu x Hx); lra.
Qed.
Lemma dot_zero_l : forall u v : list R, Forall (fun x => x = 0) u -> dot u v = 0.
Proof.
  intros u v Hu; revert v; induction Hu as [|x u Hx Hu IH]; intros [|y v]; try reflexivity.
  rewrite dot_cons, IH, Hx; lra.
Qed.

Lemma dot_sumn : forall (u v : list R) n, length u = n -> length v = n ->
  dot u v = sumn n (fun i => nth i u 0 * nth i v 0).
Proof.
  intros u v n Hu Hv. unfold dot. rewrite vsum_sumn, map2_length, Hu, Hv, Nat.min_id.
  apply sumn_ext; intros i Hi. rewrite (nth_map2 _ _ _ _ 0 0) by lia. reflexivity.
Qed.

Lemma dot_map_l : forall {B} (f : B -> R) (l : list B) v,
  dot (map f l) v = vsum (map2 (fun x y => f x * y) l v).
Proof. intros; unfold dot; rewrite map2_map_l; reflexivity. Qed.

(** Cauchy-Schwarz *)
Lemma cauchy_schwarz_sq : forall u v : list R, length u = length v ->
  (dot u v) * (dot u v) <= dot u u * dot v v.
Proof.
  intros u v Hl.
  set (a := dot u u). set (b := dot u v). set (c := dot v v).
  pose proof (dot_self_nonneg u) as Ha. pose proof (dot_self_nonneg v) as Hc.
  fold a in Ha; fold c in Hc.
  assert (Hq : 0 <= dot (vsub (vscale c u) (vscale b v)) (vsub (vscale c u) (vscale b v))) by apply dot_self_nonneg.
  rewrite dot_vsub_l, !dot_vsub_r in Hq by (rewrite !vscale_length; auto).
  rewrite !dot_vscale_l, !dot_vscale_r in Hq.
  rewrite (dot_comm v u) in Hq. fold a b c in Hq.
  destruct (Req_dec c 0) as [Hc0|Hc0].
  - assert (Hv : Forall (fun x => x = 0) v) by (apply dot_self_zero; exact Hc0).
    assert (Hb0 : b = 0) by (unfold b; rewrite dot_comm; apply dot_zero_l; assumption).
    rewrite Hb0, Hc0; lra.
  - assert (0 < c) by lra.
    assert (0 <= c * (a * c - b * b)) by nra.
    assert (0 <= a * c - b * b).
    { apply Rmult_le_reg_l with c; lra. }
    lra.
Qed.

Lemma norm_dot : forall u : list R, vnorm u = sqrt (dot u u).
Proof. intros; rewrite dot_self_sqnorm; reflexivity. Qed.

Lemma norm_nonneg : forall u : list R, 0 <= vnorm u.
Proof. intros; apply sqrt_pos. Qed.
Lemma norm_sq : forall u : list R, vnorm u * vnorm u = dot u u.
Proof. intros; rewrite norm_dot; apply sqrt_sqrt, dot_self_nonneg. Qed.

Lemma cauchy_schwarz : forall u v : list R, length u = length v ->
  Rabs (dot u v) <= vnorm u * vnorm v.
Proof.
  intros u v Hl. rewrite !norm_dot, <- sqrt_mult by apply dot_self_nonneg.
  rewrite <- sqrt_Rsqr_abs. apply sqrt_le_1_alt. unfold Rsqr. apply cauchy_schwarz_sq, Hl.
Qed.

Lemma norm_vscale : forall a (u : list R), vnorm (vscale a u) = Rabs a * vnorm u.
Proof.
  intros a u. rewrite !norm_dot, dot_vscale_l, dot_vscale_r, <- Rmult_assoc.
  rewrite sqrt_mult by (try apply dot_self_nonneg; nra).
  f_equal. replace (a * a) with (Rsqr a) by reflexivity. apply sqrt_Rsqr_abs.
Qed.

(* ------------------------------------------------------------------ *)
(** * Means *)

Lemma vmean_R : forall l : list R, vmean l = vsum l / INR (length l).
Proof. intros; unfold vmean; rewrite nnat_R; reflexivity. Qed.

Lemma INR_len_neq0 : forall {B} (l : list B), l <> [] -> INR (length l) <> 0.
Proof. intros B [|x l] Hl; [congruence|]. apply not_0_INR; cbn; lia. Qed.
Lemma INR_len_pos : forall {B} (l : list B), l <> [] -> 0 < INR (length l).
Proof. intros B [|x l] Hl; [congruence|]. apply lt_0_INR; cbn; lia. Qed.

Lemma vmean_sum : forall l : list R, l <> [] -> vsum l = INR (length l) * vmean l.
Proof. intros l Hl; rewrite vmean_R; field; apply INR_len_neq0, Hl. Qed.

Lemma vmean_affine : forall a b (l : list R), l <> [] ->
  vmean (map (fun x => a * x + b) l) = a * vmean l + b.
Proof.
  intros a b l Hl. rewrite !vmean_R, map_length.
  rewrite vsum_map_plus, vsum_map_scal, vsum_map_const, map_id.
  field; apply INR_len_neq0, Hl.
Qed.

Lemma vmean_perm : forall l l' : list R, Permutation l l' -> vmean l = vmean l'.
Proof. intros l l' Hp; rewrite !vmean_R, (vsum_perm _ _ Hp), (Permutation_length Hp); reflexivity. Qed.

Lemma vvar_R : forall l : list R,
  vvar l = vmean (map (fun x => (x - vmean l) * (x - vmean l)) l).
Proof. reflexivity. Qed.

Lemma vvar_perm : forall l l' : list R, Permutation l l' -> vvar l = vvar l'.
Proof.
  intros l l' Hp. unfold vvar. rewrite (vmean_perm _ _ Hp). apply vmean_perm, Permutation_map, Hp.
Qed.

Lemma vvar_nonneg : forall l : list R, 0 <= vvar l.
Proof.
  intros [|x l]; [rewrite vvar_R, vmean_R; cbn [map length]; rewrite vsum_nil; unfold Rdiv; rewrite Rmult_0_l; lra|].
  rewrite vvar_R, vmean_R. apply Rmult_le_pos.
  - apply vsum_map_nonneg; intros; apply Rle_0_sqr.
  - left; apply Rinv_0_lt_compat, INR_len_pos. discriminate.
Qed.

Lemma vvar_affine : forall a b (l : list R), l <> [] ->
  vvar (map (fun x => a * x + b) l) = a * a * vvar l.
Proof.
  intros a b l Hl. rewrite !vvar_R, vmean_affine by exact Hl. rewrite !vmean_R, !map_length, map_map.
  rewrite (vsum_map_ext _ (fun x => (a * a) * ((x - vsum l / INR (length l)) * (x - vsum l / INR (length l))))).
  - rewrite vsum_map_scal. unfold Rdiv; ring.
  - intros x _; ring.
Qed.

Lemma vvar_zero_const : forall l : list R, vvar l = 0 -> Forall (fun x => x = vmean l) l.
Proof.
  intros l Hv. destruct l as [|x0 l0] eqn:El; [constructor|].
  rewrite <- El in *. assert (Hne : l <> []) by (rewrite El; discriminate).
  rewrite vvar_R, vmean_R, map_length in Hv.
  assert (Hs : vsum (map (fun x => (x - vmean l) * (x - vmean l)) l) = 0).
  { pose proof (INR_len_pos l Hne).
    apply (f_equal (fun z => z * INR (length l))) in Hv. field_simplify in Hv; lra. }
  apply vsum_nonneg_zero in Hs.
  - rewrite Forall_forall in *. intros x Hx.
    assert ((x - vmean l) * (x - vmean l) = 0).
    { apply Hs. apply (in_map (fun x => (x - vmean l) * (x - vmean l))). exact Hx. }
    nra.
  - apply Forall_forall. intros y Hy; apply in_map_iff in Hy as [x [<- _]]; apply Rle_0_sqr.
Qed.

Lemma vmean_bounds : forall (l : list R) a b, l <> [] -> Forall (fun x => a <= x <= b) l -> a <= vmean l <= b.
Proof.
  intros l a b Hne Hl. rewrite Forall_forall in Hl. rewrite vmean_R. pose proof (INR_len_pos l Hne) as Hn.
  assert (Ha : vsum (map (fun _ => a) l) <= vsum (map (fun x => x) l)) by (apply vsum_le; intros x Hx; apply Hl; auto).
  assert (Hb : vsum (map (fun x => x) l) <= vsum (map (fun _ => b) l)) by (apply vsum_le; intros x Hx; apply Hl; auto).
  rewrite map_id, vsum_map_const in *.
  split.
  - apply Rmult_le_reg_r with (INR (length l)); [lra|]. field_simplify; lra.
  - apply Rmult_le_reg_r with (INR (length l)); [lra|]. field_simplify; lra.
Qed.
