(** Lemmas about the parameter interface *)

From Coq Require Import String Ascii List Arith ZArith Bool Lia Permutation.
Import List. Import ListNotations.
From Verif Require Import Err Vec M_Params S_Params.
Open Scope string_scope.

(** ** dictionaries *)
Lemma aget_aset : forall k v k' d, aget k (aset k' v d) = if k =? k' then Some v else aget k d.
Proof.
  intros k v k' d. induction d as [|[k2 v2] d IH]; cbn; [reflexivity|]. destruct (k' =? k2) eqn:E2; cbn.
  - apply String.eqb_eq in E2. subst k2. destruct (k =? k'); reflexivity.
  - rewrite IH. destruct (k =? k2) eqn:E1; [|reflexivity]. apply String.eqb_eq in E1. subst k2. destruct (k =? k') eqn:E3; [|reflexivity].
    apply String.eqb_eq in E3. subst. rewrite String.eqb_refl in E2. discriminate.
Qed.
Lemma getattr_aset : forall k v k' d, getattr k (aset k' v d) = if k =? k' then v else getattr k d.
Proof. intros. unfold getattr. rewrite aget_aset. destruct (k =? k'); reflexivity. Qed.
Lemma mem_keys : forall k (d : attrs), existsb (fun kv => k =? fst kv) d = true <-> In k (map fst d).
Proof.
  intros k d. rewrite existsb_exists, in_map_iff. split; intros [[k' v] [H1 H2]]; exists (k', v); cbn in *; split; auto.
  - symmetry. apply String.eqb_eq. auto.
  - subst. apply String.eqb_refl.
Qed.
Lemma keys_aset : forall k v d, In k (map fst d) -> map fst (aset k v d) = map fst d.
Proof.
  intros k v d. induction d as [|[k' v'] d IH]; cbn; [intros []|]. intros H. destruct (k =? k') eqn:E; cbn; [reflexivity|]. f_equal. apply IH. destruct H as [->|H]; [rewrite String.eqb_refl in E; discriminate|auto].
Qed.
Lemma aget_map : forall (f : string -> val) l k, aget k (map (fun x => (x, f x)) l) = if existsb (String.eqb k) l then Some (f k) else None.
Proof.
  intros f l k. induction l as [|x l IH]; cbn; [reflexivity|]. destruct (k =? x) eqn:E; cbn; [apply String.eqb_eq in E; subst; reflexivity|exact IH].
Qed.
Lemma aget_in : forall k d, In k (map fst d) <-> exists v, aget k d = Some v.
Proof.
  intros k d. induction d as [|[k' v'] d IH]; cbn; [split; [intros []|intros [v E]; discriminate]|]. destruct (k =? k') eqn:E.
  - apply String.eqb_eq in E. subst. split; eauto.
  - apply String.eqb_neq in E. rewrite <- IH. split; [intros [->|H]; [congruence|auto]|auto].
Qed.
Lemma aget_not : forall k d, ~ In k (map fst d) <-> aget k d = None.
Proof. intros k d. rewrite aget_in. destruct (aget k d); split; auto; intros; [exfalso; eauto|discriminate|intros [v E]; discriminate]. Qed.
Lemma aget_app : forall k d e, aget k (d ++ e)%list = match aget k d with Some v => Some v | None => aget k e end.
Proof. intros k d e. induction d as [|[k' v'] d IH]; cbn; [reflexivity|]. destruct (k =? k'); auto. Qed.

(** ** names *)
Lemma insert_in : forall s l x, In x (insert_name s l) <-> x = s \/ In x l.
Proof. intros s l x. induction l as [|t l IH]; cbn; [intuition|]. destruct (String.leb s t); cbn; [intuition|]. rewrite IH. intuition. Qed.
Lemma sort_in : forall l x, In x (sort_names l) <-> In x l.
Proof. induction l as [|s l IH]; intros x; cbn; [tauto|]. rewrite insert_in, IH. intuition. Qed.
Lemma names_in : forall c k, In k (param_names c) <-> In k (map fst (signature c)).
Proof. intros. apply sort_in. Qed.
Lemma existsb_in : forall k l, existsb (String.eqb k) l = true <-> In k l.
Proof. intros. rewrite existsb_exists. split; [intros [x [H1 H2]]; apply String.eqb_eq in H2; subst; auto|intros H; exists k; split; auto; apply String.eqb_refl]. Qed.
Lemma params_keys : forall o, map fst (get_params o) = param_names (po_cls o).
Proof. intros o. unfold get_params. rewrite map_map. apply map_id. Qed.
Lemma get_params_get : forall o k, In k (map fst (signature (po_cls o))) -> aget k (get_params o) = Some (getattr k (po_attrs o)).
Proof. intros o k H. unfold get_params. rewrite aget_map. apply names_in, existsb_in in H. rewrite H. reflexivity. Qed.
Lemma get_params_none : forall o k, ~ In k (map fst (signature (po_cls o))) -> aget k (get_params o) = None.
Proof.
  intros o k H. unfold get_params. rewrite aget_map. destruct (existsb (String.eqb k) (param_names (po_cls o))) eqn:E; [|reflexivity]. apply existsb_in, names_in in E. contradiction.
Qed.

(** ** partition *)
Lemma partition_eq : forall a s', partition2 (String a s') = match s' with
      | String b s'' => if (a =? "_")%char && (b =? "_")%char then ("", true, s'')
                        else let '(k, d, r) := partition2 s' in (String a k, d, r)
      | EmptyString => (String a s', false, "")
      end.
Proof. reflexivity. Qed.
Lemma partition_true : forall s k r, partition2 s = (k, true, r) -> s = k ++ "__" ++ r.
Proof.
  induction s as [|a s IH]; intros k r E; [discriminate|]. rewrite partition_eq in E. destruct s as [|b s]; [discriminate|].
  destruct ((a =? "_")%char && (b =? "_")%char) eqn:EU.
  - apply andb_true_iff in EU as [E1 E2]. apply Ascii.eqb_eq in E1, E2. subst. injection E as <- <-. reflexivity.
  - destruct (partition2 (String b s)) as [[k1 d1] r1] eqn:EP. injection E as <- -> <-. rewrite (IH _ _ eq_refl). reflexivity.
Qed.
Lemma partition_false : forall s k r, partition2 s = (k, false, r) -> k = s /\ r = "".
Proof.
  induction s as [|a s IH]; intros k r E; [injection E as <- <-; auto|]. rewrite partition_eq in E. destruct s as [|b s]; [injection E as <- <-; auto|].
  destruct ((a =? "_")%char && (b =? "_")%char) eqn:EU; [discriminate|].
  destruct (partition2 (String b s)) as [[k1 d1] r1] eqn:EP. injection E as <- -> <-. destruct (IH _ _ eq_refl) as [-> ->]. auto.
Qed.
Lemma partition_name : forall c k, In k (map fst (signature c)) -> partition2 k = (k, false, "").
Proof. intros c k H. destruct c; cbn in H; repeat (destruct H as [<-|H]; [reflexivity|]); destruct H. Qed.
Lemma partition_nested : forall c k s, In k (map fst (signature c)) -> partition2 (k ++ "__" ++ s) = (k, true, s).
Proof. intros c k s H. destruct c; cbn in H; repeat (destruct H as [<-|H]; [reflexivity|]); destruct H. Qed.
Lemma length_append : forall a b, String.length (a ++ b) = (String.length a + String.length b)%nat.
Proof. induction a as [|c a IH]; intros b; cbn; [reflexivity|]. rewrite IH. reflexivity. Qed.

(** ** heaps *)
Lemma hset_length : forall h a o, length (hset h a o) = length h.
Proof. induction h as [|x h IH]; intros [|a] o; cbn; auto. Qed.
Lemma nth_hset : forall h a o b, (a < length h)%nat -> nth_error (hset h a o) b = if (b =? a)%nat then Some o else nth_error h b.
Proof.
  induction h as [|x h IH]; intros a o b Ha; [cbn in Ha; lia|]. destruct a as [|a]; destruct b as [|b]; cbn; auto. apply IH. cbn in Ha. lia.
Qed.
Lemma set_attr_at : forall h a o k v b, nth_error h a = Some o -> nth_error (set_attr h a k v) b = if (b =? a)%nat then Some (mk_pobj (po_cls o) (aset k v (po_attrs o))) else nth_error h b.
Proof. intros h a o k v b E. unfold set_attr. rewrite E. apply nth_hset. apply nth_error_Some. congruence. Qed.
Lemma set_attr_length : forall h a k v, length (set_attr h a k v) = length h.
Proof. intros. unfold set_attr. destruct (nth_error h a); [apply hset_length|reflexivity]. Qed.

(** ** the first loop *)
(** the plain assignments among the parameters, in order *)
Definition plain_of (params : attrs) : attrs := filter (fun kv => negb (snd (fst (partition2 (fst kv))))) params.
Definition aset_all (ps d : attrs) : attrs := fold_left (fun d kv => aset (fst kv) (snd kv) d) ps d.
Definition nset_all (ps : attrs) (d : nested) : nested :=
  fold_left (fun d kv => let '(k, _, s) := partition2 (fst kv) in nset k s (snd kv) d) ps d.
Definition nested_of (params : attrs) : attrs := filter (fun kv => snd (fst (partition2 (fst kv)))) params.
Definition prefix_of (s : string) : string := fst (fst (partition2 s)).

Lemma aset_twice_hset : forall h a o1 o2, (a < length h)%nat -> hset (hset h a o1) a o2 = hset h a o2.
Proof. induction h as [|x h IH]; intros [|a] o1 o2 H; cbn in *; try lia; auto. rewrite IH; auto; lia. Qed.
Lemma hset_same : forall h a o, nth_error h a = Some o -> hset h a o = h.
Proof. induction h as [|x h IH]; intros [|a] o E; cbn in *; try discriminate; [injection E as <-; auto|]. rewrite IH; auto. Qed.

Lemma loop_ok : forall params h a o valid nest, nth_error h a = Some o -> Forall (fun kv => In (prefix_of (fst kv)) (map fst valid)) params ->
  sp_loop h a valid nest params = (hset h a (mk_pobj (po_cls o) (aset_all (plain_of params) (po_attrs o))), Ok (aset_all (plain_of params) valid, nset_all (nested_of params) nest)).
Proof.
  induction params as [|[key v] params IH]; intros h a o valid nest Ea F.
  - cbn. rewrite hset_same; [reflexivity|]. rewrite Ea. destruct o; reflexivity.
  - inversion F as [|? ? F1 F2]; subst. cbn [sp_loop]. unfold prefix_of in F1. cbn [fst] in F1. unfold plain_of, nested_of. cbn [filter fst]. destruct (partition2 key) as [[k d] sub] eqn:EP. cbn [fst snd] in *.
    pose proof F1 as F1'. apply mem_keys in F1'. rewrite F1'. destruct d; cbn [negb].
    + rewrite (IH h a o) by auto. cbn [nset_all fold_left fst snd]. rewrite EP. reflexivity.
    + destruct (partition_false _ _ _ EP) as [-> _]. rewrite (IH _ a (mk_pobj (po_cls o) (aset key v (po_attrs o)))); [|rewrite (set_attr_at h a o) by auto; rewrite Nat.eqb_refl; reflexivity|].
      * cbn [po_cls po_attrs aset_all fold_left fst snd]. unfold set_attr. rewrite Ea, aset_twice_hset by (apply nth_error_Some; congruence). reflexivity.
      * rewrite keys_aset by auto. exact F2.
Qed.
Lemma loop_bad : forall pre key v post h a o valid nest, nth_error h a = Some o -> Forall (fun kv => In (prefix_of (fst kv)) (map fst valid)) pre -> ~ In (prefix_of key) (map fst valid) ->
  sp_loop h a valid nest (pre ++ (key, v) :: post)%list = (hset h a (mk_pobj (po_cls o) (aset_all (plain_of pre) (po_attrs o))), Err ValueError).
Proof.
  induction pre as [|[key1 v1] pre IH]; intros key v post h a o valid nest Ea F HN.
  - cbn [app sp_loop]. unfold prefix_of in HN. destruct (partition2 key) as [[k d] sub]. cbn [fst] in HN. destruct (existsb _ valid) eqn:E; [apply mem_keys in E; contradiction|].
    cbn. rewrite hset_same; [reflexivity|]. rewrite Ea. destruct o; reflexivity.
  - inversion F as [|? ? F1 F2]; subst. cbn [app sp_loop]. unfold prefix_of in F1. cbn [fst] in F1. unfold plain_of. cbn [filter fst]. destruct (partition2 key1) as [[k d] sub] eqn:EP. cbn [fst snd] in *.
    pose proof F1 as F1'. apply mem_keys in F1'. rewrite F1'. destruct d; cbn [negb].
    + rewrite (IH _ _ _ h a o) by auto. reflexivity.
    + destruct (partition_false _ _ _ EP) as [-> _]. rewrite (IH _ _ _ _ a (mk_pobj (po_cls o) (aset key1 v1 (po_attrs o)))); [|rewrite (set_attr_at h a o) by auto; rewrite Nat.eqb_refl; reflexivity| |].
      * cbn [po_cls po_attrs aset_all fold_left fst snd]. unfold set_attr. rewrite Ea, aset_twice_hset by (apply nth_error_Some; congruence). reflexivity.
      * rewrite keys_aset by auto. exact F2.
      * rewrite keys_aset by auto. exact HN.
Qed.

Lemma aset_all_get : forall ps k d, NoDup (map fst ps) -> aget k (aset_all ps d) = match aget k ps with Some v => Some v | None => aget k d end.
Proof.
  unfold aset_all. induction ps as [|[k' v'] ps IH]; intros k d ND; cbn; [reflexivity|]. inversion ND as [|? ? N1 N2]; subst. rewrite IH by auto. rewrite aget_aset. destruct (k =? k') eqn:E; [|reflexivity].
  apply String.eqb_eq in E. subst. apply aget_not in N1. rewrite N1. reflexivity.
Qed.
Lemma plain_in : forall params k v, In (k, v) (plain_of params) <-> In (k, v) params /\ snd (fst (partition2 k)) = false.
Proof. intros. unfold plain_of. rewrite filter_In. cbn. rewrite negb_true_iff. tauto. Qed.
Lemma filter_nodup : forall (q : string * val -> bool) ps, NoDup (map fst ps) -> NoDup (map fst (filter q ps)).
Proof.
  intros q ps. induction ps as [|x ps IH]; cbn; intros ND; [constructor|]. inversion ND as [|? ? N1 N2]; subst. destruct (q x); [|auto]. cbn. constructor; [|auto].
  intros H. apply N1. apply in_map_iff in H as [y [E H]]. apply filter_In in H as [H _]. apply in_map_iff. eauto.
Qed.
Lemma aget_filter : forall (q : string -> bool) ps k, aget k (filter (fun kv => q (fst kv)) ps) = if q k then aget k ps else None.
Proof.
  intros q ps k. induction ps as [|[k' v'] ps IH]; cbn; [destruct (q k); reflexivity|]. destruct (q k') eqn:E; cbn.
  - destruct (k =? k') eqn:E2; [apply String.eqb_eq in E2; subst; rewrite E; reflexivity|exact IH].
  - rewrite IH. destruct (k =? k') eqn:E2; [apply String.eqb_eq in E2; subst; rewrite E; reflexivity|reflexivity].
Qed.
Lemma plain_get : forall params k, snd (fst (partition2 k)) = false -> aget k (plain_of params) = aget k params.
Proof. intros params k H. unfold plain_of. rewrite (aget_filter (fun s => negb (snd (fst (partition2 s))))). rewrite H. reflexivity. Qed.
Lemma plain_get_nested : forall params k, snd (fst (partition2 k)) = true -> aget k (plain_of params) = None.
Proof. intros params k H. unfold plain_of. rewrite (aget_filter (fun s => negb (snd (fst (partition2 s))))). rewrite H. reflexivity. Qed.

(** ** fuel *)
Lemma nset_keys_len : forall k s v d (m : nat), (String.length s < m)%nat -> Forall (fun ke : string * attrs => (max_len (snd ke) < m)%nat) d -> Forall (fun ke : string * attrs => (max_len (snd ke) < m)%nat) (nset k s v d).
Proof.
  intros k s v d m Hs. assert (HA : forall e, (max_len e < m)%nat -> (max_len (aset s v e) < m)%nat).
  { induction e as [|[k1 v1] e IH]; cbn; [lia|]. intros H. destruct (s =? k1); cbn; [lia|]. fold (max_len e) in H. fold (max_len (aset s v e)). lia. }
  induction d as [|[k' e] d IH]; intros F; cbn.
  - constructor; [cbn; lia|constructor].
  - inversion F; subst. destruct (k =? k'); constructor; auto. apply HA. auto.
Qed.
Lemma loop_len : forall params h a valid nest h' valid' nest' (m : nat), (max_len params <= m)%nat -> Forall (fun ke : string * attrs => (max_len (snd ke) < m)%nat) nest ->
  sp_loop h a valid nest params = (h', Ok (valid', nest')) -> Forall (fun ke : string * attrs => (max_len (snd ke) < m)%nat) nest'.
Proof.
  induction params as [|[key v] params IH]; intros h a valid nest h' valid' nest' m Hm F E.
  - cbn in E. injection E as _ _ <-. exact F.
  - cbn [sp_loop] in E. cbn [max_len fold_right fst] in Hm. fold (max_len params) in Hm. destruct (partition2 key) as [[k d] sub] eqn:EP. destruct (existsb _ valid); [|discriminate]. destruct d.
    + eapply IH; [|apply nset_keys_len|exact E]; auto; [lia|]. apply partition_true in EP. subst key. rewrite !length_append in Hm. cbn [String.length] in Hm. lia.
    + eapply IH; [|exact F|exact E]. lia.
Qed.
Lemma set_params_fuel : forall f1 f2 params h a, (max_len params <= f1)%nat -> (max_len params <= f2)%nat -> set_params_f f1 h a params = set_params_f f2 h a params.
Proof.
  induction f1 as [|f1 IH]; intros f2 params h a H1 H2; destruct params as [|kv params]; try (destruct f2; reflexivity).
  - assert (HG : forall f, set_params_f f h a (kv :: params) = set_params_f 0 h a (kv :: params)); [|rewrite (HG f2); reflexivity]. intros f. destruct f; [reflexivity|].
    cbn [set_params_f]. destruct (nth_error h a) as [o|]; [|reflexivity]. destruct (sp_loop h a (get_params o) [] (kv :: params)) as [h1 [[valid nest]|e]] eqn:EL; [|reflexivity].
    pose proof (loop_len _ _ _ _ _ _ _ _ 0%nat H1 (Forall_nil _) EL) as F. destruct nest as [|ke nest]; [reflexivity|]. inversion F. lia.
  - destruct f2 as [|f2].
    + cbn [set_params_f]. destruct (nth_error h a) as [o|]; [|reflexivity]. destruct (sp_loop h a (get_params o) [] (kv :: params)) as [h1 [[valid nest]|e]] eqn:EL; [|reflexivity].
      pose proof (loop_len _ _ _ _ _ _ _ _ 0%nat H2 (Forall_nil _) EL) as F. destruct nest as [|ke nest]; [reflexivity|]. inversion F. lia.
    + cbn [set_params_f]. destruct (nth_error h a) as [o|]; [|reflexivity]. destruct (sp_loop h a (get_params o) [] (kv :: params)) as [h1 [[valid nest]|e]] eqn:EL; [|reflexivity].
      pose proof (loop_len _ _ _ _ _ _ _ _ (S f1) H1 (Forall_nil _) EL) as F1. pose proof (loop_len _ _ _ _ _ _ _ _ (S f2) H2 (Forall_nil _) EL) as F2. clear EL.
      revert h1 F1 F2. induction nest as [|[k sub] nest IHn]; intros h1 F1 F2; [reflexivity|]. inversion F1; inversion F2; subst. destruct (getattr k valid); try reflexivity.
      rewrite (IH f2) by (cbn [snd] in *; lia). destruct (set_params_f f2 h1 a0 sub) as [h2 [u|e]]; [|reflexivity]. apply IHn; auto.
Qed.

(** ** set_params *)
(** the second loop *)
Fixpoint sp_go (fuel : nat) (valid : attrs) (l : nested) (h : heap) : heap * res unit :=
  match l with
  | [] => (h, Ok tt)
  | (k, sub) :: l' =>
      match getattr k valid with
      | WObj a' => match fuel with
                   | O => (h, Err OverflowError)
                   | S fuel' => match set_params_f fuel' h a' sub with (h', Ok _) => sp_go fuel valid l' h' | (h', Err e) => (h', Err e) end
                   end
      | WClass _ => (h, Err TypeError)
      | _ => (h, Err AttributeError)
      end
  end.
Lemma set_params_eq : forall fuel h a params, params <> [] -> set_params_f fuel h a params =
  match nth_error h a with
  | None => (h, Err AttributeError)
  | Some o => match sp_loop h a (get_params o) [] params with (h1, Err e) => (h1, Err e) | (h1, Ok (valid, nest)) => sp_go fuel valid nest h1 end
  end.
Proof.
  intros fuel h a params HP. destruct params as [|kv params]; [congruence|].
  destruct fuel; cbn [set_params_f]; (destruct (nth_error h a) as [o|]; [|reflexivity]); destruct (sp_loop h a (get_params o) [] (kv :: params)) as [h1 [[valid nest]|e]]; try reflexivity;
    revert h1; induction nest as [|[k sub] nest IH]; intros h1; try reflexivity; cbn; destruct (getattr k valid); try reflexivity.
  destruct (set_params_f fuel h1 a0 sub) as [h2 [u|e]]; [apply IH|reflexivity].
Qed.
Lemma all_plain : forall params, Forall (fun kv => snd (fst (partition2 (fst kv))) = false) params -> plain_of params = params /\ nested_of params = [].
Proof.
  unfold plain_of, nested_of. induction params as [|[k v] params IH]; intros F; [auto|]. inversion F; subst. cbn [filter fst] in *. rewrite H1. cbn. destruct IH as [E1 E2]; auto. rewrite E1, E2. auto.
Qed.
Lemma hset_other : forall h a o b, b <> a -> nth_error (hset h a o) b = nth_error h b.
Proof. induction h as [|x h IH]; intros [|a] o [|b] H; cbn; auto; try congruence. Qed.

Lemma set_flat : forall h a o params, nth_error h a = Some o -> NoDup (map fst params) -> (forall k, In k (map fst params) -> In k (names_of o)) ->
  exists h' o', set_params h a params = (h', Ok tt) /\ length h' = length h /\ (forall b, b <> a -> nth_error h' b = nth_error h b) /\
    nth_error h' a = Some o' /\ po_cls o' = po_cls o /\
    (forall k, In k (names_of o) -> aget k (get_params o') = match aget k params with Some v => Some v | None => aget k (get_params o) end) /\
    (forall k, ~ In k (map fst params) -> aget k (po_attrs o') = aget k (po_attrs o)).
Proof.
  intros h a o params Ea ND HI. unfold set_params. set (o' := mk_pobj (po_cls o) (aset_all params (po_attrs o))).
  assert (HP : Forall (fun kv => snd (fst (partition2 (fst kv))) = false /\ In (prefix_of (fst kv)) (map fst (get_params o))) params).
  { apply Forall_forall. intros [k v] Hk. cbn [fst]. assert (HN : In k (names_of o)) by (apply HI; apply in_map_iff; exists (k, v); auto). unfold prefix_of. rewrite (partition_name _ _ HN). cbn. split; [auto|].
    rewrite params_keys. apply names_in. exact HN. }
  destruct (all_plain params) as [E1 E2]; [eapply Forall_impl; [|exact HP]; cbn; tauto|].
  assert (ES : set_params_f (max_len params) h a params = (hset h a o', Ok tt)).
  { destruct params as [|kv ps]; [cbn [max_len fold_right set_params_f]; rewrite hset_same; [reflexivity|]; rewrite Ea; unfold o'; cbn; destruct o; reflexivity|].
    rewrite set_params_eq by discriminate. rewrite Ea, (loop_ok _ h a o) by (first [exact Ea | eapply Forall_impl; [|exact HP]; cbn; tauto]). rewrite E1, E2. reflexivity. }
  exists (hset h a o'), o'. split; [exact ES|]. split; [apply hset_length|]. split; [intros b Hb; apply hset_other; auto|].
  split; [rewrite nth_hset by (apply nth_error_Some; congruence); rewrite Nat.eqb_refl; reflexivity|]. split; [reflexivity|].
  assert (HG : forall k, aget k (po_attrs o') = match aget k params with Some v => Some v | None => aget k (po_attrs o) end) by (intros k; apply aset_all_get; auto).
  split.
  - intros k Hk. rewrite !get_params_get by auto. unfold getattr. rewrite HG. destruct (aget k params); reflexivity.
  - intros k Hk. rewrite HG. apply aget_not in Hk. rewrite Hk. reflexivity.
Qed.
(** an unknown name: the preceding plain ones have been set, nothing else *)
Lemma set_unknown : forall h a o pre key v post, nth_error h a = Some o -> NoDup (map fst pre) ->
  (forall k, In k (map fst pre) -> In k (names_of o)) ->
  (forall k, In k (names_of o) -> key <> k /\ forall s, key <> k ++ "__" ++ s) ->
  exists h' o', set_params h a (pre ++ (key, v) :: post)%list = (h', Err ValueError) /\ (forall b, b <> a -> nth_error h' b = nth_error h b) /\
    nth_error h' a = Some o' /\ po_cls o' = po_cls o /\
    (forall k, In k (names_of o) -> aget k (get_params o') = match aget k pre with Some v => Some v | None => aget k (get_params o) end).
Proof.
  intros h a o pre key v post Ea ND HI HK. set (o' := mk_pobj (po_cls o) (aset_all pre (po_attrs o))).
  assert (HP : Forall (fun kv => snd (fst (partition2 (fst kv))) = false /\ In (prefix_of (fst kv)) (map fst (get_params o))) pre).
  { apply Forall_forall. intros [k w] Hk. cbn [fst]. assert (HN : In k (names_of o)) by (apply HI; apply in_map_iff; exists (k, w); auto). unfold prefix_of. rewrite (partition_name _ _ HN). cbn. split; [auto|].
    rewrite params_keys. apply names_in. exact HN. }
  destruct (all_plain pre) as [E1 E2]; [eapply Forall_impl; [|exact HP]; cbn; tauto|].
  assert (HB : ~ In (prefix_of key) (map fst (get_params o))).
  { rewrite params_keys. intros H. apply names_in in H. destruct (HK _ H) as [K1 K2]. unfold prefix_of in *. destruct (partition2 key) as [[k d] s] eqn:EP. cbn in *. destruct d.
    - apply partition_true in EP. apply (K2 s). exact EP.
    - destruct (partition_false _ _ _ EP) as [-> _]. congruence. }
  exists (hset h a o'), o'. split.
  { unfold set_params. rewrite set_params_eq by (destruct pre; discriminate). rewrite Ea, (loop_bad pre key v post h a o) by (first [exact Ea | exact HB | eapply Forall_impl; [|exact HP]; cbn; tauto]). rewrite E1. reflexivity. }
  split; [intros b Hb; apply hset_other; auto|].
  split; [rewrite nth_hset by (apply nth_error_Some; congruence); rewrite Nat.eqb_refl; reflexivity|]. split; [reflexivity|].
  intros k Hk. rewrite !get_params_get by auto. unfold getattr, o'. cbn [po_attrs]. rewrite aset_all_get by auto. destruct (aget k pre); reflexivity.
Qed.

(** one nested object *)
Definition strip (kv : string * val) : string * val := (snd (partition2 (fst kv)), snd kv).
Lemma nset_all_one : forall k ps e, Forall (fun kv => partition2 (fst kv) = (k, true, snd (partition2 (fst kv)))) ps ->
  nset_all ps [(k, e)] = [(k, aset_all (map strip ps) e)].
Proof.
  intros k. unfold nset_all, aset_all. induction ps as [|[key v] ps IH]; intros e F; [reflexivity|]. inversion F as [|? ? F1 F2]; subst. cbn [fold_left map strip fst snd] in *. rewrite F1. cbn [nset snd]. rewrite String.eqb_refl. apply IH. exact F2.
Qed.
Lemma aset_all_keys : forall ps d, (forall k, In k (map fst (aset_all ps d)) <-> In k (map fst ps) \/ In k (map fst d)) /\ (NoDup (map fst d) -> NoDup (map fst (aset_all ps d))).
Proof.
  assert (H1 : forall k v d x, In x (map fst (aset k v d)) <-> x = k \/ In x (map fst d)).
  { intros k v d x. induction d as [|[k' v'] d IH]; cbn; [intuition|]. destruct (k =? k') eqn:E; cbn; [apply String.eqb_eq in E; subst; intuition|rewrite IH; intuition]. }
  assert (H2 : forall k v d, NoDup (map fst d) -> NoDup (map fst (aset k v d))).
  { intros k v d. induction d as [|[k' v'] d IH]; cbn; intros ND; [repeat constructor; auto|]. inversion ND as [|? ? N1 N2]; subst. destruct (k =? k') eqn:E; cbn; constructor; auto.
    rewrite H1. intros [->|H]; [rewrite String.eqb_refl in E; discriminate|auto]. }
  unfold aset_all. induction ps as [|[k v] ps IH]; intros d; cbn; [intuition|]. destruct (IH (aset k v d)) as [I1 I2]. split; [intros x; rewrite I1, H1; intuition|auto].
Qed.
Lemma set_mixed : forall h a o a' o' k params, nth_error h a = Some o -> nth_error h a' = Some o' -> a <> a' -> In k (names_of o) -> getattr k (po_attrs o) = WObj a' ->
  NoDup (map fst params) -> aget k params = None -> (forall key, In key (map fst params) -> In key (names_of o) \/ exists s, In s (names_of o') /\ key = k ++ "__" ++ s) ->
  exists h1 o1 o1', set_params h a params = (h1, Ok tt) /\ nth_error h1 a = Some o1 /\ nth_error h1 a' = Some o1' /\ po_cls o1 = po_cls o /\ po_cls o1' = po_cls o' /\
    (forall b, b <> a -> b <> a' -> nth_error h1 b = nth_error h b) /\
    (forall n, In n (names_of o) -> aget n (get_params o1) = match aget n params with Some v => Some v | None => aget n (get_params o) end) /\
    (forall n, In n (names_of o') -> aget n (get_params o1') = match aget (k ++ "__" ++ n) params with Some v => Some v | None => aget n (get_params o') end).
Proof.
  intros h a o a' o' k params Ea Ea' Hne Hk Hat ND Hk0 HK.
  assert (HC : params = [] \/ params <> []) by (destruct params; [left; auto|right; discriminate]). destruct HC as [->|HNE].
  { exists h, o, o'. repeat split; auto. }
  set (o1 := mk_pobj (po_cls o) (aset_all (plain_of params) (po_attrs o))). set (subs := map strip (nested_of params)).
  assert (HPre : Forall (fun kv => In (prefix_of (fst kv)) (map fst (get_params o))) params).
  { apply Forall_forall. intros [key v] Hin. cbn [fst]. rewrite params_keys. apply names_in. destruct (HK key) as [H|[s [_ ->]]]; [apply in_map_iff; exists (key, v); auto| |]; unfold prefix_of.
    - rewrite (partition_name _ _ H). exact H.
    - rewrite (partition_nested _ _ s Hk). exact Hk. }
  assert (HN : Forall (fun kv => partition2 (fst kv) = (k, true, snd (partition2 (fst kv)))) (nested_of params)).
  { apply Forall_forall. intros [key v] Hin. unfold nested_of in Hin. apply filter_In in Hin as [Hin Hd]. cbn [fst] in *. destruct (HK key) as [H|[s [_ ->]]]; [apply in_map_iff; exists (key, v); auto| |].
    - rewrite (partition_name _ _ H) in Hd. discriminate.
    - rewrite (partition_nested _ _ s Hk). reflexivity. }
  assert (HSub : forall n, aget n (aset_all subs []) = aget (k ++ "__" ++ n) params).
  { assert (HH : forall ps, Forall (fun kv => partition2 (fst kv) = (k, true, snd (partition2 (fst kv)))) ps -> forall n, aget n (map strip ps) = aget (k ++ "__" ++ n) ps).
    { induction ps as [|[key v] ps IH]; intros F n; [reflexivity|]. inversion F as [|? ? F1 F2]; subst. cbn [map strip aget fst snd] in *. destruct (partition2 key) as [[k1 d] s] eqn:EP. cbn [snd] in *. injection F1 as -> ->.
      pose proof (partition_true _ _ _ EP) as ->. rewrite (IH F2). destruct (n =? s) eqn:E1; [apply String.eqb_eq in E1; subst; rewrite String.eqb_refl; reflexivity|].
      destruct (k ++ "__" ++ n =? k ++ "__" ++ s) eqn:E2; [|reflexivity]. apply String.eqb_eq in E2. exfalso. rewrite <- E2, (partition_nested _ _ n Hk) in EP. injection EP as ->. rewrite String.eqb_refl in E1. discriminate. }
    intros n. rewrite aset_all_get.
    - unfold subs. rewrite (HH _ HN). unfold nested_of. rewrite (aget_filter (fun s => snd (fst (partition2 s)))), (partition_nested _ _ n Hk). cbn [fst snd]. destruct (aget (k ++ "__" ++ n) params); reflexivity.
    - assert (HNN : forall ps, Forall (fun kv => partition2 (fst kv) = (k, true, snd (partition2 (fst kv)))) ps -> NoDup (map fst ps) -> NoDup (map fst (map strip ps))); [|apply HNN; [exact HN|apply filter_nodup; auto]].
      clear - Hk. induction ps as [|[key v] ps IH]; intros F ND; cbn; [constructor|]. inversion F as [|? ? F1 F2]; subst. inversion ND as [|? ? N1 N2]; subst. constructor; [|auto].
      intros H. apply N1. cbn [fst]. rewrite map_map in H. apply in_map_iff in H as [[key2 v2] [E2 H]]. cbn in E2. rewrite Forall_forall in F2. specialize (F2 _ H). cbn [fst] in *.
      apply in_map_iff. exists (key2, v2). split; [|auto]. cbn. rewrite F1 in E2. rewrite F2 in E2. cbn in E2.
      rewrite (partition_true _ _ _ F1), (partition_true _ _ _ F2). rewrite E2. reflexivity. }
  assert (Vk : getattr k (aset_all (plain_of params) (get_params o)) = WObj a').
  { unfold getattr. rewrite aset_all_get by (apply filter_nodup; auto). rewrite plain_get by (rewrite (partition_name _ _ Hk); reflexivity). rewrite Hk0, get_params_get by auto. rewrite Hat. reflexivity. }
  set (h0 := hset h a o1).
  assert (E0 : nth_error h0 a' = Some o') by (unfold h0; rewrite hset_other by auto; auto).
  destruct (set_flat h0 a' o' (aset_all subs []) E0) as [h1 [o1' [ES [_ [EO [E1' [EC [EG _]]]]]]]].
  { apply aset_all_keys. constructor. }
  { intros n Hn. apply aget_in in Hn as [v Hn]. rewrite HSub in Hn. assert (Hin : In (k ++ "__" ++ n) (map fst params)) by (apply aget_in; eauto).
    destruct (HK _ Hin) as [H|[s [Hs E]]].
    - pose proof (partition_name _ _ H) as EP. rewrite (partition_nested _ _ n Hk) in EP. discriminate.
    - pose proof (partition_nested _ _ n Hk) as EP. rewrite E, (partition_nested _ _ s Hk) in EP. injection EP as ->. exact Hs. }
  assert (E1 : nth_error h0 a = Some o1) by (unfold h0; rewrite nth_hset by (apply nth_error_Some; congruence); rewrite Nat.eqb_refl; reflexivity).
  assert (GO : forall n, In n (names_of o) -> aget n (get_params o1) = match aget n params with Some v => Some v | None => aget n (get_params o) end).
  { intros n Hn. rewrite !get_params_get by auto. unfold getattr, o1. cbn [po_attrs]. rewrite aset_all_get by (apply filter_nodup; auto). rewrite plain_get by (rewrite (partition_name _ _ Hn); reflexivity).
    destruct (aget n params); reflexivity. }
  assert (ESub : set_params h a params = sp_go (max_len params) (aset_all (plain_of params) (get_params o)) (nset_all (nested_of params) []) h0).
  { unfold set_params. rewrite set_params_eq by auto. rewrite Ea, (loop_ok params h a o) by auto. reflexivity. }
  assert (HL : Forall (fun ke : string * attrs => (max_len (snd ke) < max_len params)%nat) (nset_all (nested_of params) [])).
  { eapply (loop_len params h a (get_params o) [] _ _ _ (max_len params)); [lia|constructor|apply (loop_ok params h a o); auto]. }
  exists h1, o1, o1'. split; [|split; [rewrite (EO a) by auto; exact E1|]; split; [exact E1'|]; split; [reflexivity|]; split; [exact EC|]; split; [|split; [exact GO|]]].
  - rewrite ESub. unfold subs in ES. destruct (nested_of params) as [|kv l] eqn:EN.
    + cbn in ES. injection ES as <-. reflexivity.
    + inversion HN as [|? ? F1 F2]; subst. assert (EA : nset_all (kv :: l) [] = [(k, aset_all (map strip (kv :: l)) [])]).
      { unfold nset_all. cbn [fold_left]. destruct kv as [key v]. cbn [fst snd] in *. rewrite F1. cbn [nset]. fold (nset_all l [(k, [(snd (partition2 key), v)])]). rewrite nset_all_one by auto. reflexivity. }
      rewrite EA in HL |- *. inversion HL as [|? ? L1 _]; subst. cbn [snd] in L1. cbn [sp_go]. rewrite Vk. destruct (max_len params) as [|f] eqn:EM; [lia|].
      assert (HF : set_params_f f h0 a' (aset_all (map strip (kv :: l)) []) = (h1, Ok tt)) by (rewrite <- ES; apply set_params_fuel; [apply Nat.lt_succ_r; exact L1|apply le_n]). rewrite HF. reflexivity.
  - intros b Hb Hb'. rewrite (EO b Hb'). unfold h0. apply hset_other. auto.
  - intros n Hn. rewrite (EG n Hn), HSub. reflexivity.
Qed.

(** ** what set_params leaves alone *)
Lemma kept_refl : forall h, kept h h. Proof. intros h. split; [auto|]. intros b o E. exists o. auto. Qed.
Lemma kept_trans : forall h1 h2 h3, kept h1 h2 -> kept h2 h3 -> kept h1 h3.
Proof.
  intros h1 h2 h3 [L1 H1] [L2 H2]. split; [congruence|]. intros b o E. destruct (H1 b o E) as [o' [E' [C' K']]]. destruct (H2 b o' E') as [o2 [E2 [C2 K2]]]. exists o2. split; [auto|]. split; [congruence|].
  intros k Hk. rewrite K2, K'; auto. unfold names_of in *. rewrite C'. auto.
Qed.
Lemma kept_set : forall h a o k v, nth_error h a = Some o -> In k (names_of o) -> kept h (set_attr h a k v).
Proof.
  intros h a o k v Ea Hk. split; [apply set_attr_length|]. intros b o1 Eb. rewrite (set_attr_at h a o) by auto. destruct (b =? a)%nat eqn:E; [|exists o1; auto].
  apply Nat.eqb_eq in E. subst b. assert (o1 = o) by congruence. subst. eexists. split; [reflexivity|]. split; [reflexivity|]. intros k' Hk'. cbn [po_attrs]. rewrite aget_aset. destruct (k' =? k) eqn:E; [|reflexivity].
  apply String.eqb_eq in E. subst. contradiction.
Qed.
Lemma loop_kept : forall params h a o valid nest h' r, nth_error h a = Some o -> (forall k, In k (map fst valid) -> In k (names_of o)) -> sp_loop h a valid nest params = (h', r) -> kept h h'.
Proof.
  induction params as [|[key v] params IH]; intros h a o valid nest h' r Ea HV E; cbn [sp_loop] in E; [injection E as <- _; apply kept_refl|].
  destruct (partition2 key) as [[k d] sub]. destruct (existsb _ valid) eqn:EX; [|injection E as <- _; apply kept_refl]. apply mem_keys in EX. destruct d; [eapply IH; eauto|].
  apply (kept_trans _ (set_attr h a k v)); [apply (kept_set h a o); auto|]. eapply (IH _ a); [rewrite (set_attr_at h a o) by auto; rewrite Nat.eqb_refl; reflexivity| |exact E].
  intros k' Hk'. rewrite keys_aset in Hk' by auto. exact (HV k' Hk').
Qed.
Lemma set_params_kept_f : forall fuel h a params h' r, set_params_f fuel h a params = (h', r) -> kept h h'.
Proof.
  induction fuel as [|fuel IH]; intros h a params h' r E.
  - destruct params as [|kv ps]; [cbn in E; injection E as <- _; apply kept_refl|]. rewrite set_params_eq in E by discriminate. destruct (nth_error h a) as [o|] eqn:Ea; [|injection E as <- _; apply kept_refl].
    destruct (sp_loop h a (get_params o) [] (kv :: ps)) as [h1 [[valid nest]|e]] eqn:EL; [|injection E as <- _; eapply loop_kept; eauto; intros k Hk; rewrite params_keys in Hk; apply names_in; auto].
    assert (K : kept h h1) by (eapply loop_kept; eauto; intros k Hk; rewrite params_keys in Hk; apply names_in; auto).
    destruct nest as [|[k sub] nest]; cbn in E; [injection E as <- _; exact K|]. destruct (getattr k valid); injection E as <- _; exact K.
  - destruct params as [|kv ps]; [cbn in E; injection E as <- _; apply kept_refl|]. rewrite set_params_eq in E by discriminate. destruct (nth_error h a) as [o|] eqn:Ea; [|injection E as <- _; apply kept_refl].
    destruct (sp_loop h a (get_params o) [] (kv :: ps)) as [h1 [[valid nest]|e]] eqn:EL; [|injection E as <- _; eapply loop_kept; eauto; intros k Hk; rewrite params_keys in Hk; apply names_in; auto].
    assert (K : kept h h1) by (eapply loop_kept; eauto; intros k Hk; rewrite params_keys in Hk; apply names_in; auto).
    apply (kept_trans _ h1); [exact K|]. clear EL K Ea. revert h1 E. induction nest as [|[k sub] nest IHn]; intros h1 E; cbn [sp_go] in E; [injection E as <- _; apply kept_refl|].
    destruct (getattr k valid); try (injection E as <- _; apply kept_refl). destruct (set_params_f fuel h1 a0 sub) as [h2 [u|e]] eqn:E2; [|injection E as <- _; eapply IH; eauto].
    apply (kept_trans _ h2); [eapply IH; eauto|apply IHn; exact E].
Qed.
Lemma set_params_kept : forall h a params h' r, set_params h a params = (h', r) -> kept h h'.
Proof. intros. eapply set_params_kept_f; eauto. Qed.
(** the exceptions *)
Lemma loop_exn : forall params h a valid nest h' e, sp_loop h a valid nest params = (h', Err e) -> e = ValueError.
Proof.
  induction params as [|[key v] params IH]; intros h a valid nest h' e E; cbn [sp_loop] in E; [discriminate|]. destruct (partition2 key) as [[k d] sub]. destruct (existsb _ valid); [|injection E as _ <-; auto].
  destruct d; eapply IH; eauto.
Qed.
Lemma set_params_exn_f : forall fuel h a params h' e, (max_len params <= fuel)%nat -> set_params_f fuel h a params = (h', Err e) -> e = ValueError \/ e = AttributeError \/ e = TypeError.
Proof.
  induction fuel as [|fuel IH]; intros h a params h' e HL E; (destruct params as [|kv ps]; [discriminate|]); rewrite set_params_eq in E by discriminate;
    (destruct (nth_error h a) as [o|]; [|injection E as _ <-; auto]); destruct (sp_loop h a (get_params o) [] (kv :: ps)) as [h1 [[valid nest]|e1]] eqn:EL;
    try (injection E as _ <-; apply loop_exn in EL; auto).
  - pose proof (loop_len _ _ _ _ _ _ _ _ 0%nat HL (Forall_nil _) EL) as F. destruct nest as [|ke nest]; [discriminate|]. inversion F. lia.
  - pose proof (loop_len _ _ _ _ _ _ _ _ (S fuel) HL (Forall_nil _) EL) as F. clear EL. revert h1 E. induction nest as [|[k sub] nest IHn]; intros h1 E; cbn [sp_go] in E; [discriminate|].
    inversion F as [|? ? F1 F2]; subst. destruct (getattr k valid); try (injection E as _ <-; auto). destruct (set_params_f fuel h1 a0 sub) as [h2 [u|e2]] eqn:E2; [apply (IHn F2 h2 E)|].
    injection E as _ <-. eapply IH; [|exact E2]. cbn [snd] in F1. lia.
Qed.
Lemma set_params_exn : forall h a params h' e, set_params h a params = (h', Err e) -> e = ValueError \/ e = AttributeError \/ e = TypeError.
Proof. intros h a params h' e E. eapply set_params_exn_f; [|exact E]. apply le_n. Qed.

(** ** get_params(deep=True) *)
Lemma fold_err : forall (f : res attrs -> string -> res attrs) l e, (forall k, f (Err e) k = Err e) -> fold_left f l (Err e) = Err e.
Proof. intros f l e H. induction l as [|k l IH]; cbn; [auto|]. rewrite H. exact IH. Qed.
Definition deep_step (h : heap) (o : pobj) (acc : res attrs) (k : string) : res attrs :=
    bind acc (fun out =>
    let v := getattr k (po_attrs o) in
    bind (match v with
          | WObj a => match nth_error h a with
                      | Some o' => Ok (aupdate out (map (fun kv => (k ++ "__" ++ fst kv, snd kv)) (get_params o')))
                      | None => Ok out
                      end
          | WClass _ => Err TypeError
          | _ => Ok out
          end) (fun out' => Ok (aset k v out'))).
Lemma deep_class : forall h o k c, In k (names_of o) -> getattr k (po_attrs o) = WClass c -> get_params_deep h o = Err TypeError.
Proof.
  intros h o k c Hk E. unfold names_of in Hk. apply names_in in Hk. unfold get_params_deep. change (fold_left (deep_step h o) (param_names (po_cls o)) (Ok []) = Err TypeError).
  assert (HG : forall l d, In k l -> fold_left (deep_step h o) l (Ok d) = Err TypeError); [|apply HG; exact Hk].
  induction l as [|x l IH]; intros d Hin; [destruct Hin|]. cbn [fold_left].
  assert (HA : (exists d', deep_step h o (Ok d) x = Ok d') \/ deep_step h o (Ok d) x = Err TypeError).
  { unfold deep_step. cbn [bind]. cbv zeta. destruct (getattr x (po_attrs o)); cbn [bind]; eauto. destruct (nth_error h a); cbn [bind]; eauto. }
  destruct HA as [[d' HA]|HA]; [|rewrite HA; apply fold_err; reflexivity].
  destruct Hin as [->|Hin]; [|rewrite HA; apply IH; auto]. unfold deep_step in HA. cbn [bind] in HA. cbv zeta in HA. rewrite E in HA. discriminate.
Qed.

(** ** constructors *)
Lemma bind_args_get : forall c args b, bind_args c args = Ok b -> (forall k, In k (map fst args) -> In k (map fst (signature c))) /\ map fst b = map fst (signature c) /\
  forall k d, In (k, d) (signature c) -> NoDup (map fst (signature c)) -> aget k b = match aget k args with Some v => Some v | None => d end.
Proof.
  intros c args b E. unfold bind_args in E. destruct (forallb _ args) eqn:EF; [|discriminate]. split.
  { intros k Hk. apply in_map_iff in Hk as [kv [<- Hk]]. rewrite forallb_forall in EF. specialize (EF _ Hk). apply existsb_exists in EF as [s [Hs Es]]. apply String.eqb_eq in Es. rewrite Es. apply in_map. exact Hs. }
  clear EF. revert b E. generalize (signature c). induction l as [|[k0 d0] l IH]; intros b E.
  - cbn in E. injection E as <-. split; [reflexivity|]. intros k d [].
  - cbn [mapM fst snd] in E. destruct (match aget k0 args with Some v => Ok (k0, v) | None => match d0 with Some v => Ok (k0, v) | None => Err TypeError end end) as [kv|e] eqn:E1; [|discriminate]. cbn [bind] in E.
    destruct (mapM _ l) as [b'|e] eqn:E2; [|discriminate]. cbn [bind] in E. injection E as <-. destruct (IH _ eq_refl) as [I1 I2].
    assert (HK : kv = (k0, match aget k0 args with Some v => v | None => match d0 with Some v => v | None => WNone end end) /\ aget k0 [kv] = match aget k0 args with Some v => Some v | None => d0 end).
    { destruct (aget k0 args); [injection E1 as <-|destruct d0; [injection E1 as <-|discriminate]]; cbn; rewrite String.eqb_refl; auto. }
    destruct HK as [K1 K2]. split; [rewrite K1; cbn; rewrite I1; reflexivity|]. intros k d Hin ND. inversion ND as [|? ? N1 N2]; subst. cbn in K2. rewrite String.eqb_refl in K2. cbn [aget].
    destruct (k =? k0) eqn:EK.
    + apply String.eqb_eq in EK. subst k0. destruct Hin as [Hin|Hin]; [injection Hin as ->; exact K2|]. exfalso. apply N1. apply in_map_iff. exists (k, d). auto.
    + destruct Hin as [Hin|Hin]; [injection Hin as -> ->; rewrite String.eqb_refl in EK; discriminate|]. apply I2; auto.
Qed.
Lemma signature_nodup : forall c, NoDup (map fst (signature c)).
Proof.
  intros c. assert (H : forall l : list string, (fix nd l := match l with [] => true | x :: l' => negb (existsb (String.eqb x) l') && nd l' end) l = true -> NoDup l).
  { induction l as [|x l IH]; intros E; [constructor|]. apply andb_true_iff in E as [E1 E2]. constructor; [|auto]. intros HI. apply negb_true_iff in E1. apply existsb_in in HI. congruence. }
  apply H. destruct c; vm_compute; reflexivity.
Qed.
Lemma given_get : forall c args b k, bind_args c args = Ok b -> In k (map fst (signature c)) -> getattr k b = given c args k.
Proof.
  intros c args b k E Hk. destruct (bind_args_get _ _ _ E) as [_ [_ HG]]. apply in_map_iff in Hk as [[k' d] [Ek Hk]]. cbn in Ek. subst k'. unfold getattr, given. rewrite (HG k d Hk (signature_nodup c)).
  destruct (aget k args); [reflexivity|]. assert (HA : forall l, NoDup (map fst l) -> In (k, d) l -> aget k (map (fun s : string * option val => (fst s, match snd s with Some v => v | None => WNone end)) l) = Some (match d with Some v => v | None => WNone end)).
  { induction l as [|[k1 d1] l IH]; intros ND Hin; [destruct Hin|]. inversion ND as [|? ? N1 N2]; subst. cbn. destruct (k =? k1) eqn:EK.
    - apply String.eqb_eq in EK. subst k1. destruct Hin as [Hin|Hin]; [injection Hin as ->; reflexivity|]. exfalso. apply N1. apply in_map_iff. exists (k, d). auto.
    - destruct Hin as [Hin|Hin]; [injection Hin as -> ->; rewrite String.eqb_refl in EK; discriminate|auto]. }
  rewrite (HA _ (signature_nodup c) Hk). destruct d; reflexivity.
Qed.
Lemma construct_get : forall call c args o, construct call c args = Ok o -> po_cls o = c /\
  forall k, In k (names_of o) -> aget k (get_params o) = Some (if match c with Capi => k =? "centring" | _ => false end then WNone else given c args k).
Proof.
  intros call c args o E. unfold construct in E. destruct (bind_args c args) as [b|e] eqn:EB; [|discriminate]. cbn [bind] in E. destruct c.
  - cbv zeta in E. destruct (call _ _) as [most|e]; [|discriminate]. cbn [bind] in E. destruct (above_four _) as [big|e]; [|discriminate]. cbn [bind] in E. destruct big; [discriminate|]. injection E as <-. split; [reflexivity|].
    intros k Hk. rewrite get_params_get by auto. f_equal. pose proof (given_get _ _ _ k EB Hk) as HG. cbn in Hk. unfold getattr at 1. cbn [po_attrs].
    repeat (destruct Hk as [<-|Hk]; [cbn [aget String.eqb Ascii.eqb Bool.eqb]; try reflexivity; exact HG|]). destruct Hk.
  - destruct (centres_ok _); [|discriminate]. injection E as <-. split; [reflexivity|]. intros k Hk. rewrite get_params_get by auto. f_equal. rewrite <- (given_get _ _ _ k EB Hk). cbn [po_attrs]. unfold getattr. rewrite aget_app.
    assert (HI : In k (map fst b)) by (rewrite (proj1 (proj2 (bind_args_get _ _ _ EB))); exact Hk). apply aget_in in HI as [v ->]. reflexivity.
  - destruct (centres_ok _); [|discriminate]. destruct (methods_ok _); [|discriminate]. injection E as <-. split; [reflexivity|]. intros k Hk. rewrite get_params_get by auto. f_equal. rewrite <- (given_get _ _ _ k EB Hk). cbn [po_attrs]. unfold getattr. rewrite aget_app.
    assert (HI : In k (map fst b)) by (rewrite (proj1 (proj2 (bind_args_get _ _ _ EB))); exact Hk). apply aget_in in HI as [v ->]. reflexivity.
Qed.
(** construction from get_params *)
Lemma bind_full : forall c (f : string -> val), exists b, bind_args c (map (fun k => (k, f k)) (param_names c)) = Ok b /\ forall k, In k (map fst (signature c)) -> getattr k b = f k.
Proof.
  intros c f. set (args := map (fun k => (k, f k)) (param_names c)).
  assert (HA : forall k, In k (map fst (signature c)) -> aget k args = Some (f k)) by (intros k Hk; unfold args; rewrite aget_map; apply names_in, existsb_in in Hk; rewrite Hk; reflexivity).
  assert (HE : exists b, bind_args c args = Ok b).
  { unfold bind_args. replace (forallb _ args) with true.
    - assert (HM : forall l, (forall k, In k (map fst l) -> In k (map fst (signature c))) -> exists b, mapM (fun s : string * option val => match aget (fst s) args with Some v => Ok (fst s, v) | None => match snd s with Some v => Ok (fst s, v) | None => Err TypeError end end) l = Ok b).
      { induction l as [|[k d] l IH]; intros HL; [eexists; reflexivity|]. cbn [mapM fst]. rewrite HA by (apply HL; left; reflexivity). cbn [bind]. destruct IH as [b ->]; [intros; apply HL; right; auto|]. cbn. eauto. }
      apply HM. auto.
    - symmetry. apply forallb_forall. intros [k v] Hk. unfold args in Hk. apply in_map_iff in Hk as [k' [E Hk]]. injection E as <- <-. apply existsb_exists. apply names_in in Hk. apply in_map_iff in Hk as [s [Es Hs]]. exists s. split; [auto|]. cbn. rewrite Es. apply String.eqb_refl. }
  destruct HE as [b EB]. exists b. split; [auto|]. intros k Hk. rewrite (given_get _ _ _ _ EB Hk). unfold given. rewrite HA by auto. reflexivity.
Qed.
Lemma rebuild : forall call c args o, construct call c args = Ok o -> exists o', construct call c (get_params o) = Ok o' /\ get_params o' = get_params o.
Proof.
  intros call c args o E. destruct (construct_get _ _ _ _ E) as [EC EG].
  destruct (bind_full c (fun k => getattr k (po_attrs o))) as [b [EB HB]].
  assert (EA : map (fun k => (k, getattr k (po_attrs o))) (param_names c) = get_params o) by (unfold get_params; rewrite EC; reflexivity). rewrite EA in EB.
  assert (HV : forall k, In k (map fst (signature c)) -> (match c with Capi => k =? "centring" | _ => false end) = false -> getattr k b = given c args k).
  { intros k Hk Hn. rewrite (HB k Hk). rewrite <- EC in Hk. specialize (EG k Hk). rewrite get_params_get in EG by exact Hk. injection EG as ->. rewrite Hn. reflexivity. }
  assert (HS : exists o', construct call c (get_params o) = Ok o').
  { unfold construct in E |- *. rewrite EB. cbn [bind]. destruct (bind_args c args) as [b0|e] eqn:EB0; [|discriminate]. cbn [bind] in E.
    assert (HV' : forall k, In k (map fst (signature c)) -> (match c with Capi => k =? "centring" | _ => false end) = false -> getattr k b = getattr k b0) by (intros k Hk Hn; rewrite (HV k Hk Hn); symmetry; apply given_get; auto).
    destruct c.
    - cbv zeta in *. rewrite (HV' "projection_index") by (cbn; auto 10). rewrite (HV' "pi_arguments") by (cbn; auto 10). rewrite (HV' "max_degree") by (cbn; auto 10).
      destruct (call _ _); [|discriminate]. cbn [bind] in *. destruct (above_four _); [|discriminate]. cbn [bind] in *. destruct a0; [discriminate|]. eauto.
    - rewrite (HV' "center") by (cbn; auto 25). destruct (centres_ok _); [eauto|discriminate].
    - rewrite (HV' "center") by (cbn; auto 25). rewrite (HV' "sudiremeth") by (cbn; auto 25). destruct (centres_ok _); [|discriminate]. destruct (methods_ok _); [eauto|discriminate]. }
  destruct HS as [o' EO]. exists o'. split; [exact EO|]. destruct (construct_get _ _ _ _ EO) as [EC' EG'].
  unfold get_params at 1. rewrite EC'. rewrite <- EA. apply map_ext_in. intros k Hk. f_equal. apply names_in in Hk.
  assert (Hk' : In k (names_of o')) by (unfold names_of; rewrite EC'; exact Hk). assert (Hk0 : In k (names_of o)) by (unfold names_of; rewrite EC; exact Hk).
  pose proof (EG' k Hk') as G1. rewrite get_params_get in G1 by exact Hk'. injection G1 as ->. pose proof (EG k Hk0) as G2. rewrite get_params_get in G2 by exact Hk0. injection G2 as G2.
  destruct (match c with Capi => k =? "centring" | _ => false end) eqn:EN; [symmetry; exact G2|]. unfold given at 1. rewrite get_params_get by exact Hk0. reflexivity.
Qed.
(** values the constructor refuses *)
Lemma construct_refuses : forall call args, (forall z, given Capi args "max_degree" = WInt z -> (4 < z)%Z -> exists e, construct call Capi args = Err e) /\
  (forall c, c <> Capi -> centres_ok (given c args "center") = false -> exists e, construct call c args = Err e) /\
  (methods_ok (given Sudire args "sudiremeth") = false -> exists e, construct call Sudire args = Err e).
Proof.
  intros call args. split; [|split].
  - intros z Ez Hz. unfold construct. destruct (bind_args Capi args) as [b|e] eqn:EB; [|cbn; eauto]. cbn [bind]. cbv zeta. destruct (call _ _) as [most|e]; [|cbn; eauto]. cbn [bind].
    rewrite (given_get _ _ _ "max_degree" EB) by (cbn; auto). rewrite Ez. cbn [above_four bind]. apply Z.ltb_lt in Hz. rewrite Hz. eauto.
  - intros c Hc HO. unfold construct. destruct (bind_args c args) as [b|e] eqn:EB; [|cbn; eauto]. cbn [bind]. destruct c; [congruence| |].
    + rewrite (given_get _ _ _ "center" EB) by (cbn; auto 25). rewrite HO. eauto.
    + rewrite (given_get _ _ _ "center" EB) by (cbn; auto 25). rewrite HO. eauto.
  - intros HO. unfold construct. destruct (bind_args Sudire args) as [b|e] eqn:EB; [|cbn; eauto]. cbn [bind]. rewrite (given_get _ _ _ "sudiremeth" EB) by (cbn; auto 25). rewrite HO. destruct (centres_ok _); eauto.
Qed.
Lemma val_eqb_str_spec : forall v s, val_eqb_str v s = true <-> v = WStr s.
Proof. intros v s. destruct v; cbn; split; intros E; try discriminate; [apply String.eqb_eq in E; subst; reflexivity|injection E as <-; apply String.eqb_refl]. Qed.
Lemma existsb_str : forall v l, existsb (val_eqb_str v) l = true <-> exists s, v = WStr s /\ In s l.
Proof.
  intros v l. rewrite existsb_exists. split; [intros (s & Hs & E)|intros (s & E & Hs)]; exists s; [split; [apply val_eqb_str_spec, E|exact Hs]|split; [exact Hs|apply val_eqb_str_spec, E]].
Qed.
Lemma centres_spec : forall v, centres_ok v = true <-> documented_centre v.
Proof.
  intros v. unfold centres_ok. rewrite existsb_str. split.
  - intros (s & -> & Hs). cbn in Hs. destruct Hs as [<-|[<-|[]]]; [left|right]; reflexivity.
  - intros [->| ->]; eexists; (split; [reflexivity|cbn; auto]).
Qed.
Lemma methods_spec : forall v, methods_ok v = true <-> documented_method v.
Proof.
  intros v. unfold methods_ok. rewrite orb_true_iff, existsb_str. split.
  - intros [H|H]; [left; exact H|]. right. destruct v; try discriminate; eauto.
  - intros [H|[[k ->]|[k ->]]]; [left; exact H|right; reflexivity|right; reflexivity].
Qed.
(** set_params accepts them *)
Lemma set_unchecked : forall call h a o k v, nth_error h a = Some o ->
  match po_cls o with
  | Capi => k = "max_degree" /\ exists z, v = WInt z /\ (4 < z)%Z
  | Ppdire => k = "center" /\ ~ documented_centre v
  | Sudire => (k = "center" /\ ~ documented_centre v) \/ (k = "sudiremeth" /\ ~ documented_method v)
  end ->
  exists h' o', set_params h a [(k, v)] = (h', Ok tt) /\ nth_error h' a = Some o' /\ aget k (get_params o') = Some v /\ exists e, construct call (po_cls o') (get_params o') = Err e.
Proof.
  intros call h a o k v Ea HV.
  assert (HC : ~ documented_centre v -> centres_ok v = false) by (intros H; apply not_true_iff_false; rewrite centres_spec; exact H).
  assert (HM : ~ documented_method v -> methods_ok v = false) by (intros H; apply not_true_iff_false; rewrite methods_spec; exact H).
  assert (Hk : In k (names_of o)) by (unfold names_of; destruct (po_cls o); cbn; [destruct HV as [-> _]; auto|destruct HV as [-> _]; auto 25|destruct HV as [[-> _]|[-> _]]; auto 25]).
  destruct (set_flat h a o [(k, v)] Ea) as [h' [o' [ES [_ [_ [Ea' [EC [EG _]]]]]]]]; [repeat constructor; auto|intros k' [<-|[]]; exact Hk|].
  exists h', o'. split; [exact ES|]. split; [exact Ea'|]. pose proof (EG k Hk) as G. cbn [aget] in G. rewrite String.eqb_refl in G. split; [exact G|].
  destruct (construct_refuses call (get_params o')) as [R1 [R2 R3]]. assert (HGv : forall c, given c (get_params o') k = v) by (intros c; unfold given; rewrite G; reflexivity). rewrite EC. destruct (po_cls o).
  - destruct HV as [-> [z [-> Hz]]]. apply (R1 z); auto.
  - destruct HV as [-> HV]. apply R2; [discriminate|]. rewrite HGv. auto.
  - destruct HV as [[-> HV]|[-> HV]]; [apply R2; [discriminate|]; rewrite HGv; auto|apply R3; rewrite HGv; auto].
Qed.
(** ** get_params(deep=True) without classes *)
Lemma aupdate_get : forall e d key, NoDup (map fst e) -> aget key (aupdate d e) = match aget key e with Some v => Some v | None => aget key d end.
Proof.
  induction e as [|[k v] e IH]; intros d key ND; [reflexivity|]. inversion ND as [|? ? N1 N2]; subst. cbn [aupdate aget]. rewrite (IH _ key N2). rewrite aget_aset. destruct (key =? k) eqn:E; [|reflexivity].
  apply String.eqb_eq in E. subst k. destruct (aget key e) as [w|] eqn:EG; [|reflexivity]. exfalso. apply N1. clear - EG. induction e as [|[k' v'] e IH]; [discriminate|]. cbn in EG. destruct (key =? k') eqn:E; [apply String.eqb_eq in E; subst; left; reflexivity|right; auto].
Qed.
Lemma append_inj : forall k s t, k ++ s = k ++ t -> s = t.
Proof. induction k as [|c k IH]; intros s t E; [exact E|]. cbn in E. injection E as E. auto. Qed.
Lemma eqb_prefix : forall k s t, (k ++ "__" ++ s =? k ++ "__" ++ t) = (s =? t).
Proof. intros k s t. destruct (s =? t) eqn:E; [apply String.eqb_eq in E; subst; apply String.eqb_refl|]. apply String.eqb_neq in E. apply String.eqb_neq. intros H. apply E. apply append_inj in H. apply (append_inj "__"). exact H. Qed.
Lemma aget_prefix : forall k n ps, aget (k ++ "__" ++ n) (map (fun kv : string * val => (k ++ "__" ++ fst kv, snd kv)) ps) = aget n ps.
Proof. intros k n ps. induction ps as [|[s v] ps IH]; [reflexivity|]. cbn [map aget fst snd]. rewrite eqb_prefix, IH. reflexivity. Qed.
Lemma aget_prefix_none : forall c k key ps, In k (map fst (signature c)) -> fst (partition2 key) <> (k, true) -> aget key (map (fun kv : string * val => (k ++ "__" ++ fst kv, snd kv)) ps) = None.
Proof.
  intros c k key ps Hk H. induction ps as [|[s v] ps IH]; [reflexivity|]. cbn [map aget fst snd]. destruct (key =? k ++ "__" ++ s) eqn:E; [|exact IH]. apply String.eqb_eq in E. subst key. rewrite (partition_nested _ _ _ Hk) in H. exfalso. apply H. reflexivity.
Qed.
Lemma params_nodup : forall o, NoDup (map fst (get_params o)).
Proof.
  intros o. assert (H : forall l : list string, (fix nd l := match l with [] => true | x :: l' => negb (existsb (String.eqb x) l') && nd l' end) l = true -> NoDup l).
  { induction l as [|x l IH]; intros E; [constructor|]. apply andb_true_iff in E as [E1 E2]. constructor; [|auto]. intros HI. apply negb_true_iff in E1. apply existsb_in in HI. congruence. }
  apply H. unfold get_params. rewrite map_map. destruct (po_cls o); vm_compute; reflexivity.
Qed.
Lemma deep_ok : forall h o, (forall k, In k (names_of o) -> forall c, getattr k (po_attrs o) <> WClass c) ->
  exists d, get_params_deep h o = Ok d /\ (forall k, In k (names_of o) -> aget k d = aget k (get_params o)) /\
    (forall k a o' n, In k (names_of o) -> getattr k (po_attrs o) = WObj a -> nth_error h a = Some o' -> In n (names_of o') -> aget (k ++ "__" ++ n) d = aget n (get_params o')).
Proof.
  intros h o HC. unfold get_params_deep. change (exists d, fold_left (deep_step h o) (param_names (po_cls o)) (Ok []) = Ok d /\
    (forall k, In k (names_of o) -> aget k d = aget k (get_params o)) /\
    (forall k a o' n, In k (names_of o) -> getattr k (po_attrs o) = WObj a -> nth_error h a = Some o' -> In n (names_of o') -> aget (k ++ "__" ++ n) d = aget n (get_params o'))).
  set (P := fun k d => aget k d = Some (getattr k (po_attrs o)) /\ forall a o' n, getattr k (po_attrs o) = WObj a -> nth_error h a = Some o' -> In n (names_of o') -> aget (k ++ "__" ++ n) d = aget n (get_params o')).
  assert (HS : forall x d, In x (names_of o) -> exists d', deep_step h o (Ok d) x = Ok d' /\ P x d' /\ forall k, In k (names_of o) -> P k d -> P k d').
  { intros x d Hx. assert (EX : exists d1, deep_step h o (Ok d) x = Ok (aset x (getattr x (po_attrs o)) d1) /\
      (forall a o' n, getattr x (po_attrs o) = WObj a -> nth_error h a = Some o' -> In n (names_of o') -> aget (x ++ "__" ++ n) d1 = aget n (get_params o')) /\
      (forall key, fst (partition2 key) <> (x, true) -> aget key d1 = aget key d)).
    { unfold deep_step. cbn [bind]. cbv zeta. destruct (getattr x (po_attrs o)) eqn:EV; try (exists d; split; [reflexivity|]; split; [discriminate|reflexivity]).
      - exfalso. exact (HC x Hx _ EV).
      - destruct (nth_error h a) as [o1|] eqn:Ea.
        + eexists. split; [cbn [bind]; reflexivity|]. assert (ND : NoDup (map fst (map (fun kv : string * val => (x ++ "__" ++ fst kv, snd kv)) (get_params o1)))).
          { pose proof (params_nodup o1) as N. revert N. generalize (get_params o1). induction a0 as [|[s v] l IH]; intros N; [constructor|]. inversion N as [|? ? N1 N2]; subst. cbn. constructor; [|auto]. intros HI. apply N1. apply in_map_iff in HI as [kv [E HI]]. apply in_map_iff in HI as [kv' [<- HI]]. cbn in E. apply append_inj in E. apply (append_inj "__") in E. rewrite <- E. apply in_map. exact HI. }
          split.
          * intros a' o' n Ea' En Hn. injection Ea' as <-. rewrite Ea in En. injection En as <-. rewrite aupdate_get by exact ND. rewrite aget_prefix. rewrite get_params_get by exact Hn. reflexivity.
          * intros key Hkey. rewrite aupdate_get by exact ND. rewrite (aget_prefix_none (po_cls o)); auto.
        + exists d. split; [reflexivity|]. split; [|reflexivity]. intros a' o' n Ea' En. injection Ea' as <-. congruence. }
    destruct EX as [d1 [E1 [E2 E3]]]. exists (aset x (getattr x (po_attrs o)) d1). split; [exact E1|].
    assert (HNE : forall k n, (k ++ "__" ++ n =? x) = false). { intros k n. apply String.eqb_neq. intros E. pose proof (partition_name _ _ Hx) as EP. rewrite <- E in EP. clear - EP. assert (HX : forall k, snd (fst (partition2 (k ++ "__" ++ n))) = true).
      { clear. induction k as [|c k IH]; [reflexivity|]. change (String c k ++ "__" ++ n) with (String c (k ++ "__" ++ n)). rewrite partition_eq. destruct (k ++ "__" ++ n) as [|b s] eqn:EK; [destruct k; discriminate|]. destruct ((c =? "_")%char && (b =? "_")%char); [reflexivity|]. destruct (partition2 (String b s)) as [[k1 d1] r1]. exact IH. }
      specialize (HX k). rewrite EP in HX. discriminate. }
    split.
    - split; [rewrite aget_aset, String.eqb_refl; reflexivity|]. intros a o' n Ea En Hn. rewrite aget_aset, HNE. eapply E2; eauto.
    - intros k Hk [P1 P2]. destruct (k =? x) eqn:EK.
      + apply String.eqb_eq in EK. subst k. split; [rewrite aget_aset, String.eqb_refl; reflexivity|]. intros a o' n Ea En Hn. rewrite aget_aset, HNE. eapply E2; eauto.
      + split; [rewrite aget_aset, EK, E3; [exact P1|]; rewrite (partition_name _ _ Hk); discriminate|]. intros a o' n Ea En Hn. rewrite aget_aset, HNE, E3; [eapply P2; eauto|].
        rewrite (partition_nested _ _ _ Hk). apply String.eqb_neq in EK. cbn. congruence. }
  assert (HF : forall l d, (forall k, In k l -> In k (names_of o)) -> exists d', fold_left (deep_step h o) l (Ok d) = Ok d' /\ (forall k, In k l -> P k d') /\ forall k, In k (names_of o) -> P k d -> P k d').
  { induction l as [|x l IH]; intros d Hl; [exists d; split; [reflexivity|]; split; [intros k []|auto]|]. destruct (HS x d (Hl x (or_introl eq_refl))) as [d1 [E1 [P1 P2]]]. destruct (IH d1) as [d2 [E2 [P3 P4]]]; [intros; apply Hl; right; auto|].
    exists d2. cbn [fold_left]. rewrite E1. split; [exact E2|]. split; [|auto]. intros k [<-|Hk]; [|auto]. apply P4; [apply Hl; left; reflexivity|exact P1]. }
  destruct (HF (param_names (po_cls o)) [] (fun k Hk => proj1 (names_in _ _) Hk)) as [d [E [P1 _]]]. exists d. split; [exact E|]. split.
  - intros k Hk. rewrite get_params_get by exact Hk. apply P1. apply names_in. exact Hk.
  - intros k a o' n Hk. apply (P1 k). apply names_in. exact Hk.
Qed.
