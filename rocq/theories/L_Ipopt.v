(** Lemmas for the interior-point wrapper (C80-C83). *)

From Coq Require Import String Reals List Arith ZArith QArith Bool Lia Lra.
Import ListNotations.
From Verif Require Import Num Err Vec VecR L_Mat L_Lin S_Stats M_Ipopt S_Ipopt.
Import List.
Open Scope R_scope.

(** ** dictionaries *)
Lemma key_eqb_eq : forall a b, key_eqb a b = true <-> a = b.
Proof.
  intros [s|s|j] [t|t|k]; cbn; split; intros E; try discriminate; try (injection E as ->).
  - apply String.eqb_eq in E as ->; auto.
  - apply String.eqb_refl.
  - apply String.eqb_eq in E as ->; auto.
  - apply String.eqb_refl.
  - apply Nat.eqb_eq in E as ->; auto.
  - apply Nat.eqb_refl.
Qed.
Lemma key_eqb_refl : forall a, key_eqb a a = true. Proof. intros a; apply key_eqb_eq; auto. Qed.
Lemma key_eqb_neq : forall a b, key_eqb a b = false <-> a <> b.
Proof. intros a b; split; intros E; [intros ->; rewrite key_eqb_refl in E; discriminate|destruct (key_eqb a b) eqn:F; auto; apply key_eqb_eq in F; contradiction]. Qed.
Lemma dget_dset : forall k k' v d, dget k (dset k' v d) = if key_eqb k k' then Some v else dget k d.
Proof.
  intros k k' v d; induction d as [|[k0 v0] d IH]; cbn [dset dget]; [destruct (key_eqb k k'); auto|].
  destruct (key_eqb k' k0) eqn:E; cbn [dget].
  - apply key_eqb_eq in E as ->. destruct (key_eqb k k0) eqn:F; auto.
  - destruct (key_eqb k k0) eqn:F; [|exact IH]. apply key_eqb_eq in F as ->.
    apply key_eqb_neq in E. destruct (key_eqb k0 k') eqn:G; auto. apply key_eqb_eq in G; congruence.
Qed.
Lemma dget_dpop : forall k k' d, dget k (dpop k' d) = if key_eqb k k' then None else dget k d.
Proof.
  intros k k' d; induction d as [|[k0 v0] d IH]; cbn [dpop filter dget fst]; [destruct (key_eqb k k'); auto|].
  destruct (key_eqb k' k0) eqn:E; cbn [negb].
  - apply key_eqb_eq in E as ->. fold (dpop k0 d). rewrite IH. destruct (key_eqb k k0) eqn:F; auto.
  - cbn [dget]. fold (dpop k' d). rewrite IH. destruct (key_eqb k k0) eqn:F; auto. apply key_eqb_eq in F as ->.
    apply key_eqb_neq in E. destruct (key_eqb k0 k') eqn:G; auto. apply key_eqb_eq in G; congruence.
Qed.
Lemma dmem_dget : forall k d, dmem k d = match dget k d with Some _ => true | None => false end.
Proof. intros k d; induction d as [|[k0 v0] d IH]; cbn; auto. destruct (key_eqb k k0); auto. Qed.
Lemma dget_In : forall k d, dget k d <> None <-> In k (map fst d).
Proof.
  intros k d; induction d as [|[k0 v0] d IH]; cbn [dget map In fst]; [split; [congruence|intros []]|].
  destruct (key_eqb k k0) eqn:E; [apply key_eqb_eq in E as ->; split; [auto|discriminate]|].
  apply key_eqb_neq in E. rewrite IH. split; [auto|intros [->|]; [congruence|auto]].
Qed.
Lemma dget_set_default : forall k k' v d, dget k (set_default k' v d) =
  if key_eqb k k' then match dget k d with Some w => Some w | None => Some v end else dget k d.
Proof.
  intros k k' v d. unfold set_default. rewrite dmem_dget. destruct (dget k' d) eqn:E.
  - destruct (key_eqb k k') eqn:F; auto. apply key_eqb_eq in F as ->. rewrite E; auto.
  - rewrite dget_dset. destruct (key_eqb k k') eqn:F; auto. apply key_eqb_eq in F as ->. rewrite E; auto.
Qed.
Lemma dget_replace : forall k o n d, o <> n -> dget k (replace_option d o n) =
  match dget o d, dget n d with
  | Some v, None => if key_eqb k n then Some v else if key_eqb k o then None else dget k d
  | _, _ => dget k d
  end.
Proof.
  intros k o n d Hon. unfold replace_option. destruct (dget o d) eqn:E; auto. rewrite dmem_dget. destruct (dget n d) eqn:F; auto.
  rewrite dget_dset, dget_dpop. auto.
Qed.

(** ** conversion to bytes *)
Lemma convert_key_get : forall d k x, dget x (convert_key d k) =
  match k with
  | KStr s => match dget (KStr s) d with
              | Some v => if key_eqb x (KBytes s) then Some v else if key_eqb x (KStr s) then None else dget x d
              | None => dget x d
              end
  | _ => dget x d
  end.
Proof.
  intros d [s|s|j] x; cbn [convert_key]; auto. destruct (dget (KStr s) d) eqn:E; auto.
  rewrite dget_dpop, dget_dset. destruct (key_eqb x (KStr s)) eqn:F; auto. apply key_eqb_eq in F as ->. cbn. auto.
Qed.
Lemma convert_fold : forall ks d s, NoDup ks ->
  dget (KStr s) (fold_left convert_key ks d) = (if in_dec (fun a b => match key_eqb a b as c return key_eqb a b = c -> {a = b} + {a <> b} with true => fun E => left (proj1 (key_eqb_eq a b) E) | false => fun E => right (proj1 (key_eqb_neq a b) E) end eq_refl) (KStr s) ks then None else dget (KStr s) d) /\
  dget (KBytes s) (fold_left convert_key ks d) =
    (if in_dec (fun a b => match key_eqb a b as c return key_eqb a b = c -> {a = b} + {a <> b} with true => fun E => left (proj1 (key_eqb_eq a b) E) | false => fun E => right (proj1 (key_eqb_neq a b) E) end eq_refl) (KStr s) ks
     then match dget (KStr s) d with Some v => Some v | None => dget (KBytes s) d end else dget (KBytes s) d) /\
  forall j, dget (KOther j) (fold_left convert_key ks d) = dget (KOther j) d.
Proof.
  induction ks as [|k ks IH]; intros d s ND; cbn [fold_left].
  - destruct (in_dec _ (KStr s) []) as [[]|_]; auto.
  - inversion ND as [|? ? Hk ND']; subst. destruct (IH (convert_key d k) s ND') as (E1 & E2 & E3). rewrite E1, E2. clear E1 E2.
    split; [|split; [|intros j; rewrite E3, convert_key_get; destruct k as [t|t|t]; auto; destruct (dget (KStr t) d); auto; cbn; auto]].
    + destruct (in_dec _ (KStr s) (k :: ks)) as [Hin|Hin]; destruct (in_dec _ (KStr s) ks) as [Hin'|Hin']; auto.
      * destruct Hin as [->|Hin]; [|contradiction]. rewrite convert_key_get. destruct (dget (KStr s) d) eqn:E; auto.
        cbn. rewrite String.eqb_refl. auto.
      * exfalso. apply Hin. right; auto.
      * rewrite convert_key_get. destruct k as [t|t|t]; auto. destruct (dget (KStr t) d) eqn:E; auto. cbn.
        destruct (s =? t)%string eqn:F; auto. apply String.eqb_eq in F as ->. exfalso. apply Hin; left; auto.
    + destruct (in_dec _ (KStr s) (k :: ks)) as [Hin|Hin]; destruct (in_dec _ (KStr s) ks) as [Hin'|Hin']; auto.
      * rewrite !convert_key_get. destruct k as [t|t|t]; auto. assert (s <> t) by (intros ->; contradiction).
        assert (F : (s =? t)%string = false) by (apply String.eqb_neq; auto).
        destruct (dget (KStr t) d); auto. cbn. rewrite F. auto.
      * destruct Hin as [->|Hin]; [|contradiction]. rewrite convert_key_get. destruct (dget (KStr s) d) eqn:E; auto.
        cbn. rewrite String.eqb_refl. auto.
      * exfalso. apply Hin. right; auto.
      * rewrite convert_key_get. destruct k as [t|t|t]; auto. destruct (dget (KStr t) d) eqn:E; auto. cbn.
        destruct (s =? t)%string eqn:F; auto. apply String.eqb_eq in F as ->. exfalso. apply Hin; left; auto.
Qed.
Lemma convert_get : forall d s, keys_distinct d ->
  dget (KStr s) (convert_to_bytes d) = None /\ dget (KBytes s) (convert_to_bytes d) = user_option d s /\
  forall j, dget (KOther j) (convert_to_bytes d) = dget (KOther j) d.
Proof.
  intros d s ND. destruct (convert_fold (map fst d) d s ND) as (E1 & E2 & E3). unfold convert_to_bytes. rewrite E1, E2. unfold user_option.
  destruct (in_dec _ (KStr s) (map fst d)) as [Hin|Hin]; auto.
  assert (E : dget (KStr s) d = None). { destruct (dget (KStr s) d) eqn:F; auto. exfalso. apply Hin. apply dget_In. congruence. }
  rewrite E; auto.
Qed.
Lemma convert_id : forall ks d, (forall s, ~ In (KStr s) ks) -> fold_left convert_key ks d = d.
Proof.
  induction ks as [|k ks IH]; intros d Hk; auto. cbn [fold_left]. destruct k as [s|s|j]; [exfalso; apply (Hk s); left; auto| |];
  cbn [convert_key]; apply IH; intros s' Hs; apply (Hk s'); right; auto.
Qed.
Lemma C81_idempotent_l : forall d, keys_distinct d -> convert_to_bytes (convert_to_bytes d) = convert_to_bytes d.
Proof.
  intros d ND. unfold convert_to_bytes at 1. apply convert_id. intros s Hs. apply dget_In in Hs.
  destruct (convert_get d s ND) as (E & _). congruence.
Qed.
Lemma C81_values_l : forall d, keys_distinct d ->
  (forall s, dget (KBytes s) (convert_to_bytes d) = user_option d s) /\ (forall s, dget (KStr s) (convert_to_bytes d) = None) /\
  (forall j, dget (KOther j) (convert_to_bytes d) = dget (KOther j) d).
Proof. intros d ND. repeat split; intros; apply convert_get; auto; exact ""%string. Qed.

(** the options the solver receives *)
Lemma solver_get : forall tol d s, keys_distinct d ->
  dget (KBytes s) (solver_options tol d) =
  if (s =? "print_level")%string then
    match user_option d "print_level" with Some v => Some v | None =>
      match user_option d "disp" with Some v => Some v | None => Some (VInt 0) end end
  else if (s =? "disp")%string then match user_option d "print_level" with Some _ => user_option d "disp" | None => None end
  else if (s =? "max_iter")%string then
    match user_option d "max_iter" with Some v => Some v | None => user_option d "maxiter" end
  else if (s =? "maxiter")%string then match user_option d "max_iter" with Some _ => user_option d "maxiter" | None => None end
  else match user_option d s with Some v => Some v | None =>
    if (s =? "tol")%string then Some (if truthy tol then tol else VFloat (1 # 100000000))
    else if (s =? "mu_strategy")%string then Some (VBytes "adaptive")
    else if (s =? "hessian_approximation")%string then Some (VBytes "limited-memory")
    else None end.
Proof.
  intros tol d s ND. assert (EB : forall t, dget (KBytes t) (convert_to_bytes d) = user_option d t) by (intros t; apply convert_get; auto).
  unfold solver_options. rewrite !dget_set_default. rewrite !dget_replace by discriminate. rewrite !EB. cbn [key_eqb].
  destruct (s =? "print_level")%string eqn:E1.
  { apply String.eqb_eq in E1 as ->. cbn. destruct (user_option d "disp"), (user_option d "print_level"), (user_option d "maxiter"), (user_option d "max_iter"); cbn; auto. }
  destruct (s =? "disp")%string eqn:E2.
  { apply String.eqb_eq in E2 as ->. cbn. destruct (user_option d "disp"), (user_option d "print_level"), (user_option d "maxiter"), (user_option d "max_iter"); cbn; auto. }
  destruct (s =? "max_iter")%string eqn:E3.
  { apply String.eqb_eq in E3 as ->. cbn. destruct (user_option d "disp"), (user_option d "print_level"), (user_option d "maxiter"), (user_option d "max_iter"); cbn; auto. }
  destruct (s =? "maxiter")%string eqn:E4.
  { apply String.eqb_eq in E4 as ->. cbn. destruct (user_option d "disp"), (user_option d "print_level"), (user_option d "maxiter"), (user_option d "max_iter"); cbn; auto. }
  assert (Eq : match user_option d "maxiter", user_option d "max_iter" with
               | Some v, None => user_option d s | _, _ => user_option d s end = user_option d s)
    by (destruct (user_option d "maxiter"), (user_option d "max_iter"); auto).
  destruct (user_option d "disp"), (user_option d "print_level"), (user_option d "maxiter"), (user_option d "max_iter"); cbn [key_eqb];
  destruct (s =? "tol")%string eqn:E5; try (apply String.eqb_eq in E5 as ->; cbn; destruct (user_option d "tol"); reflexivity);
  destruct (s =? "mu_strategy")%string eqn:E6; try (apply String.eqb_eq in E6 as ->; cbn; destruct (user_option d "mu_strategy"); reflexivity);
  destruct (s =? "hessian_approximation")%string eqn:E7; try (apply String.eqb_eq in E7 as ->; cbn; destruct (user_option d "hessian_approximation"); reflexivity);
  destruct (user_option d s); reflexivity.
Qed.
Lemma dset_keys : forall k v d x, In x (map fst (dset k v d)) <-> x = k \/ In x (map fst d).
Proof.
  intros k v d x; induction d as [|[k0 v0] d IH]; cbn [dset map fst In]; [intuition congruence|].
  destruct (key_eqb k k0) eqn:E; cbn [map fst In]; [apply key_eqb_eq in E as ->; intuition congruence|]. rewrite IH. intuition congruence.
Qed.
Lemma dset_distinct : forall k v d, keys_distinct d -> keys_distinct (dset k v d).
Proof.
  intros k v d. unfold keys_distinct. induction d as [|[k0 v0] d IH]; intros ND; cbn [dset map fst]; [constructor; [intros []|constructor]|].
  inversion ND as [|? ? Hk ND']; subst. cbn [fst] in Hk. destruct (key_eqb k k0) eqn:E; cbn [map fst]; [constructor; auto|].
  constructor; [|apply IH; exact ND']. intros Hin. apply dset_keys in Hin as [->|Hin]; [rewrite key_eqb_refl in E; discriminate|contradiction].
Qed.
Lemma dpop_distinct : forall k d, keys_distinct d -> keys_distinct (dpop k d).
Proof.
  intros k d. unfold keys_distinct, dpop. induction d as [|[k0 v0] d IH]; intros ND; cbn [filter map fst]; [constructor|].
  inversion ND as [|? ? Hk ND']; subst. destruct (negb (key_eqb k k0)); [|apply IH; exact ND']. cbn [map fst]. constructor; [|apply IH; exact ND'].
  intros Hin. apply Hk. apply in_map_iff in Hin as (kv & <- & Hin). apply filter_In in Hin as [Hin _]. apply in_map. exact Hin.
Qed.
Lemma replace_distinct : forall o n d, keys_distinct d -> keys_distinct (replace_option d o n).
Proof. intros o n d ND. unfold replace_option. destruct (dget o d); auto. destruct (dmem n d); auto. apply dset_distinct, dpop_distinct; auto. Qed.
Lemma convert_distinct : forall d, keys_distinct d -> keys_distinct (convert_to_bytes d).
Proof.
  intros d ND. unfold convert_to_bytes. generalize (map fst d) as ks. intros ks. revert d ND. induction ks as [|k ks IH]; intros d ND; auto.
  cbn [fold_left]. apply IH. destruct k as [s|s|j]; auto. cbn [convert_key]. destruct (dget (KStr s) d); auto. apply dpop_distinct, dset_distinct; auto.
Qed.
Lemma set_default_distinct : forall k v d, keys_distinct d -> keys_distinct (set_default k v d).
Proof. intros k v d ND. unfold set_default. destruct (dmem k d); auto. apply dset_distinct; auto. Qed.
Lemma solver_distinct : forall tol d, keys_distinct d -> keys_distinct (solver_options tol d).
Proof. intros tol d ND. unfold solver_options. repeat apply set_default_distinct. repeat apply replace_distinct. apply convert_distinct; auto. Qed.
Lemma solver_str : forall tol d s, keys_distinct d -> dget (KStr s) (solver_options tol d) = None.
Proof.
  intros tol d s ND. unfold solver_options. rewrite !dget_set_default. cbn [key_eqb]. rewrite !dget_replace by discriminate.
  destruct (convert_get d s ND) as (E & _). rewrite E. cbn [key_eqb].
  destruct (dget (KBytes "disp") (convert_to_bytes d)), (dget (KBytes "print_level") (convert_to_bytes d)),
    (dget (KBytes "maxiter") (convert_to_bytes d)), (dget (KBytes "max_iter") (convert_to_bytes d)); cbn; auto.
Qed.
Lemma solver_user : forall tol d s, keys_distinct d -> user_option (solver_options tol d) s = dget (KBytes s) (solver_options tol d).
Proof. intros tol d s ND. unfold user_option at 1. rewrite (solver_str tol d s ND). reflexivity. Qed.

(** calling twice *)
Lemma sticky_tol : forall tol1 tol2 d, keys_distinct d -> user_option d "tol" = None ->
  dget (KBytes "tol") (solver_options tol2 (solver_options tol1 d)) = Some (if truthy tol1 then tol1 else VFloat (1 # 100000000)) /\
  dget (KBytes "tol") (solver_options tol2 d) = Some (if truthy tol2 then tol2 else VFloat (1 # 100000000)).
Proof.
  intros tol1 tol2 d ND E. rewrite (solver_get tol2 (solver_options tol1 d)) by (apply solver_distinct; auto).
  rewrite (solver_get tol2 d) by auto. cbn [String.eqb Ascii.eqb Bool.eqb]. rewrite E. rewrite solver_user by auto. rewrite (solver_get tol1 d) by auto. cbn [String.eqb Ascii.eqb Bool.eqb]. rewrite E. split; reflexivity.
Qed.
(** the options of a repeated call are those of the first *)
Lemma solver_twice : forall tol1 tol2 d s, keys_distinct d ->
  dget (KBytes s) (solver_options tol2 (solver_options tol1 d)) = dget (KBytes s) (solver_options tol1 d).
Proof.
  intros tol1 tol2 d s ND. rewrite (solver_get tol2 (solver_options tol1 d)) by (apply solver_distinct; auto).
  rewrite !solver_user by auto.
  assert (E1 : exists v, dget (KBytes "print_level") (solver_options tol1 d) = Some v).
  { rewrite (solver_get tol1 d) by auto. cbn [String.eqb Ascii.eqb Bool.eqb]. destruct (user_option d "print_level"); [eauto|]. destruct (user_option d "disp"); eauto. }
  assert (E2 : exists v, dget (KBytes "tol") (solver_options tol1 d) = Some v).
  { rewrite (solver_get tol1 d) by auto. cbn [String.eqb Ascii.eqb Bool.eqb]. destruct (user_option d "tol"); eauto. }
  assert (E3 : exists v, dget (KBytes "mu_strategy") (solver_options tol1 d) = Some v).
  { rewrite (solver_get tol1 d) by auto. cbn [String.eqb Ascii.eqb Bool.eqb]. destruct (user_option d "mu_strategy"); eauto. }
  assert (E4 : exists v, dget (KBytes "hessian_approximation") (solver_options tol1 d) = Some v).
  { rewrite (solver_get tol1 d) by auto. cbn [String.eqb Ascii.eqb Bool.eqb]. destruct (user_option d "hessian_approximation"); eauto. }
  assert (E5 : dget (KBytes "max_iter") (solver_options tol1 d) = None -> dget (KBytes "maxiter") (solver_options tol1 d) = None).
  { rewrite !(solver_get tol1 d) by auto. cbn [String.eqb Ascii.eqb Bool.eqb]. destruct (user_option d "max_iter"); [discriminate|auto]. }
  destruct E1 as [v1 E1], E2 as [v2 E2], E3 as [v3 E3], E4 as [v4 E4]. rewrite E1.
  destruct (s =? "print_level")%string eqn:F1; [apply String.eqb_eq in F1 as ->; auto|].
  destruct (s =? "disp")%string eqn:F2; [apply String.eqb_eq in F2 as ->; auto|].
  destruct (s =? "max_iter")%string eqn:F3.
  { apply String.eqb_eq in F3 as ->. destruct (dget (KBytes "max_iter") (solver_options tol1 d)) eqn:G; auto. }
  destruct (s =? "maxiter")%string eqn:F4.
  { apply String.eqb_eq in F4 as ->. destruct (dget (KBytes "max_iter") (solver_options tol1 d)) eqn:G; auto. rewrite E5; auto. }
  destruct (s =? "tol")%string eqn:F5; [apply String.eqb_eq in F5 as ->; rewrite E2; auto|].
  destruct (s =? "mu_strategy")%string eqn:F6; [apply String.eqb_eq in F6 as ->; rewrite E3; auto|].
  destruct (s =? "hessian_approximation")%string eqn:F7; [apply String.eqb_eq in F7 as ->; rewrite E4; auto|].
  destruct (dget (KBytes s) (solver_options tol1 d)); auto.
Qed.

(** ** value caches *)
Section Cache.
  Context {Ar : Type}.
  Variable f : list R -> Ar -> list R.
  Variable a : Ar.
  Definition sound (c : vcache (A := R)) : Prop := forall x v, In (x, v) c -> v = f x a.
  Lemma veqb_eq : forall u v : list R, veqb u v = true <-> u = v.
  Proof.
    induction u as [|x u IH]; intros [|y v]; cbn [veqb]; try (split; [discriminate|discriminate]); [split; auto|].
    rewrite andb_true_iff, IH. rnum. unfold Reqb. destruct (Req_EM_T x y); split; intros E; try (destruct E; discriminate);
    [destruct E as [_ ->]; subst; auto|injection E as -> ->; auto|injection E as -> ->; congruence].
  Qed.
  Lemma cached_call_sound : forall c x, sound c -> sound (fst (cached_call f c x a)) /\ snd (cached_call f c x a) = f x a.
  Proof.
    intros c x Hc. unfold cached_call. destruct (find _ c) as [[k v]|] eqn:E; cbn [fst snd].
    - apply find_some in E as [Hin E]. cbn [fst] in E. apply veqb_eq in E as ->. split; [exact Hc|apply (Hc x v Hin)].
    - split; auto. intros y v Hin. apply in_app_or in Hin as [Hin|[Hin|[]]]; [apply Hc; auto|]. injection Hin as <- <-; auto.
  Qed.
  Lemma cached_calls_sound : forall xs c, sound c -> sound (fst (cached_calls f c xs a)) /\ snd (cached_calls f c xs a) = map (fun x => f x a) xs.
  Proof.
    induction xs as [|x xs IH]; intros c Hc; cbn [cached_calls]; [auto|].
    destruct (cached_call_sound c x Hc) as [H1 H2]. destruct (cached_call f c x a) as [c1 v] eqn:E1. cbn [fst snd] in H1, H2. subst v.
    destruct (IH c1 H1) as [H3 H4]. destruct (cached_calls f c1 xs a) as [c2 vs] eqn:E2. cbn [fst snd] in *. subst vs. split; auto.
  Qed.
  Lemma sound_nil : sound []. Proof. intros x v []. Qed.
  Lemma jac_forward_eq : forall eps c x, sound c -> sound (fst (jac_forward f eps c x a)) /\
    snd (jac_forward f eps c x a) =
      (let n := length x in let r0 := f (vadd x (vzeros n)) a in
       transposed (length r0) (map (fun i => map (fun d => d / eps) (vsub (f (vadd x (unit_step n i eps)) a) r0)) (seq 0 n))).
  Proof.
    intros eps c x Hc. unfold jac_forward.
    destruct (cached_calls_sound (vadd x (vzeros (length x)) :: map (fun i => vadd x (unit_step (length x) i eps)) (seq 0 (length x))) c Hc) as [H1 H2].
    destruct (cached_calls f c _ a) as [c' rs] eqn:E. cbn [fst snd] in *. subst rs. split; auto.
    cbn [map nth]. f_equal. apply map_ext_in. intros i Hi. apply in_seq in Hi. rewrite map_map.
    rewrite nth_map_lt with (db := 0%nat) by (rewrite seq_length; lia). rewrite seq_nth by lia. reflexivity.
  Qed.
  Lemma jac_central_eq : forall eps c x, sound c -> (0 < length x)%nat -> sound (fst (jac_central f eps c x a)) /\
    snd (jac_central f eps c x a) =
      (let n := length x in
       transposed (length (f (vadd x (unit_step n 0 (- eps))) a))
         (map (fun i => map (fun d => d / (2 * eps)) (vsub (f (vadd x (unit_step n i eps)) a) (f (vadd x (unit_step n i (- eps))) a))) (seq 0 n))).
  Proof.
    intros eps c x Hc Hn. unfold jac_central. set (n := length x) in *.
    destruct (cached_calls_sound (map (fun i => vadd x (unit_step n i (nopp eps))) (seq 0 n) ++ map (fun i => vadd x (unit_step n i eps)) (seq 0 n)) c Hc) as [H1 H2].
    destruct (cached_calls f c _ a) as [c' rs] eqn:E. cbn [fst snd] in *. subst rs. split; auto.
    rewrite map_app, !map_map.
    assert (EL : forall i, (i < n)%nat -> nth i (map (fun k => f (vadd x (unit_step n k (nopp eps))) a) (seq 0 n) ++ map (fun k => f (vadd x (unit_step n k eps)) a) (seq 0 n)) [] = f (vadd x (unit_step n i (- eps))) a).
    { intros i Hi. rewrite app_nth1 by (rewrite map_length, seq_length; auto). rewrite nth_map_lt with (db := 0%nat) by (rewrite seq_length; lia). rewrite seq_nth by lia. reflexivity. }
    assert (ER : forall i, (i < n)%nat -> nth (n + i) (map (fun k => f (vadd x (unit_step n k (nopp eps))) a) (seq 0 n) ++ map (fun k => f (vadd x (unit_step n k eps)) a) (seq 0 n)) [] = f (vadd x (unit_step n i eps)) a).
    { intros i Hi. rewrite app_nth2 by (rewrite map_length, seq_length; lia). rewrite map_length, seq_length. replace (n + i - n)%nat with i by lia.
      rewrite nth_map_lt with (db := 0%nat) by (rewrite seq_length; lia). rewrite seq_nth by lia. reflexivity. }
    rewrite (EL 0%nat) by auto. f_equal. apply map_ext_in. intros i Hi. apply in_seq in Hi. rewrite ER, EL by lia.
    apply map_ext. intros d. rnum. f_equal. f_equal. rewrite nnat_R. cbn. lra.
  Qed.
End Cache.
