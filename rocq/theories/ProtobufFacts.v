(** * Facts about the protobuf conversion *)
From Verif Require Export Protobuf.
Local Open Scope Z_scope.

(** ** Specification *)
(** No two entries of any map have the same key: what every Go map satisfies. *)
Definition keys_shape {A} (k : pkind A) : Prop :=
  match k with KObject (Some o) => NoDup (map fst (po_fields o)) | _ => True end.
Fixpoint keys_ok (v : pval) : Prop := match v with PVal k _ => keys_shape k ∧ kind_each keys_ok k end.
Definition keys_ok_obj (o : pobj pval) : Prop := NoDup (map fst (po_fields o)) ∧ obj_all keys_ok o.
Definition keys_ok_wrapper (m : pwrapper) : Prop :=
  match mw_log m with Some (Some l) => opt_all keys_ok_obj (lg_object l) | _ => True end.

(** A value without a kind, a nil value or a typed nil array or object, here or
    anywhere inside. *)
Inductive bad_value : option pval → Prop :=
| bad_nil : bad_value None
| bad_kind u : bad_value (Some (PVal KNil u))
| bad_arr_nil u : bad_value (Some (PVal (KArray None) u))
| bad_obj_nil u : bad_value (Some (PVal (KObject None) u))
| bad_arr items ua u x : x ∈ items → bad_value x → bad_value (Some (PVal (KArray (Some (mkPArr items ua))) u))
| bad_obj fs uo u k x : (k, x) ∈ fs → bad_value x → bad_value (Some (PVal (KObject (Some (mkPObj fs uo))) u)).

(** Values that come back as they were: no nil anywhere, no nil slice or map and no
    dot in a field name. *)
Fixpoint plain (t : tree) : Prop :=
  match t with
  | TNil | TNilArr | TNilObj => False
  | TArr l => (fix go l := match l with [] => True | t :: l' => plain t ∧ go l' end) l
  | TObj m => (fix go (m : list (string * tree)) :=
                 match m with [] => True | (k, t) :: m' => (c_dot ∉ list_ascii_of_string k) ∧ plain t ∧ go m' end) m
  | _ => True
  end.
Lemma plain_arr l : plain (TArr l) ↔ Forall plain l.
Proof. simpl. induction l as [|t l IH]; [by split|]. rewrite Forall_cons, IH. done. Qed.
Lemma plain_obj m : plain (TObj m) ↔ Forall (λ kv, (c_dot ∉ list_ascii_of_string kv.1) ∧ plain kv.2) m.
Proof. simpl. induction m as [|[k t] m IH]; [by split|]. rewrite Forall_cons, IH. simpl. tauto. Qed.

(** What Put(EscapeKey(k), v) does to an event: the name without backslashes is set,
    if anything is left of it. *)
Definition put_field (acc : gomap tree) (kv : string * tree) : gomap tree :=
  let k := drop_backslashes kv.1 in if String.eqb k "" then acc else mset k kv.2 acc.

(** ** Proofs *)
Lemma plain_no_nil t : plain t → no_nil_tree t.
Proof.
  induction t as [| | | | | | | | |l IH| |m IH] using tree_ind'; try done.
  - rewrite plain_arr, no_nil_arr. intros H. rewrite Forall_forall in *. auto.
  - rewrite plain_obj, no_nil_obj. intros H. rewrite Forall_forall in *. intros kv Hin.
    apply IH; [done|]. by apply H.
Qed.
Lemma EscapeKey_id k : c_dot ∉ list_ascii_of_string k → EscapeKey k = k.
Proof.
  rewrite EscapeKey_replace. induction k as [|c k IH]; simpl; [done|]. intros H.
  apply not_elem_of_cons in H as [Hc Hk]. destruct (Ascii.eqb_spec c c_dot); [by subst|]. f_equal. auto.
Qed.
Lemma plain_returned t : tsorted t → plain t → returned t = t.
Proof.
  induction t as [| | | | | | | | |l IH| |m IH] using tree_ind'; try done.
  - rewrite plain_arr, tsorted_arr. intros Hs Hp. simpl. f_equal.
    rewrite <- (map_id l) at 2. apply map_ext_in. intros t Ht. apply elem_of_list_In in Ht.
    rewrite Forall_forall in *. auto.
  - rewrite plain_obj, tsorted_obj. intros [Hm Hs] Hp. simpl. f_equal.
    assert (map (λ kv : string * tree, (EscapeKey kv.1, returned kv.2)) m = m) as ->.
    { rewrite <- (map_id m) at 2. apply map_ext_in. intros [k t] Ht. apply elem_of_list_In in Ht.
      rewrite Forall_forall in *. specialize (IH _ Ht). specialize (Hs _ Ht). specialize (Hp _ Ht).
      simpl in *. destruct Hp as [Hd Hp]. by rewrite EscapeKey_id, IH. }
    by apply mof_list_sorted.
Qed.

Lemma rep_tsorted h :
  (∀ op t fp, rep h op t fp → tsorted t) ∧
  (∀ ops ts fps, rep_list h ops ts fps → Forall tsorted ts) ∧
  (∀ gm m fps, rep_assoc h gm m fps → map fst gm = map fst m ∧ Forall (λ kv, tsorted kv.2) m).
Proof.
  apply rep_mutind; try done.
  - intros p v t Hp Hs. unfold scalar_tree in Hs. destruct (v_obj v); [done|].
    repeat match type of Hs with (if ?b then _ else _) = _ => destruct b; [by simplify_eq|] end. done.
  - intros. by apply tsorted_arr.
  - intros p v r gm m fps Hp Ht Ho Hr Hs Ha [Hk Hf]. apply tsorted_obj. split; [|done].
    clear -Hk Hs. revert m Hk. induction gm as [|[k x] gm IH]; intros [|[k' x'] m] Hk; simpl in *; try done.
    injection Hk as -> Hk. destruct Hs as [Hall Hs]. split; [|auto].
    clear -Hall Hk. revert gm Hk Hall. induction m as [|[k2 x2] m IH]; intros [|[k3 x3] gm] Hk Hall; simpl in *; try done.
    injection Hk as -> Hk. apply Forall_cons in Hall as [? ?]. constructor; eauto.
  - intros. by constructor.
  - intros k op gm t m fp fps _ Ht _ [Hk Hf]. simpl. rewrite Hk. split; [done|]. by constructor.
Qed.

(** *** Order of entries *)
Lemma mof_list_permutation {A} (l l' : list (string * A)) :
  NoDup (map fst l) → Permutation l l' → mof_list l = mof_list l'.
Proof.
  intros Hnd Hp. apply gomap_ext; [apply msorted_mof_list..|]. intros k.
  assert (NoDup (map fst l')) as Hnd' by (by rewrite <- Hp).
  rewrite !mget_mof_list by done. clear -Hnd Hp.
  induction Hp as [|[k1 x1] l l' Hp IH|[k1 x1] [k2 x2] l|l l2 l3 H1 IH1 H2 IH2]; simpl in *.
  - done.
  - apply NoDup_cons in Hnd as [_ Hnd]. by rewrite IH.
  - apply NoDup_cons in Hnd as [Hn Hnd].
    destruct (String.eqb_spec k k1), (String.eqb_spec k k2); subst; try done.
    exfalso. apply Hn. left.
  - rewrite IH1 by done. apply IH2. by rewrite <- H1.
Qed.

Lemma omapM_perm {A B} (f : A → Outcome B) l l' r :
  Permutation l l' → omapM f l = Ok r → ∃ r', omapM f l' = Ok r' ∧ Permutation r r'.
Proof.
  intros Hp. revert r. induction Hp as [|x l l' Hp IH|x y l|l l2 l3 H1 IH1 H2 IH2]; intros r H.
  - exists r. simpl in H. by simplify_eq.
  - simpl in *. destruct (f x) as [y|]; [|done]. simpl in *. destruct (omapM f l) as [ys|]; [|done].
    simpl in *. simplify_eq. destruct (IH _ eq_refl) as (r' & -> & Hr). simpl. exists (y :: r'). split; [done|]. by constructor.
  - simpl in *. destruct (f x) as [a|]; [|by destruct (f y)]. destruct (f y) as [b|]; [|done]. simpl in *.
    destruct (omapM f l) as [ys|]; [|done]. simpl in *. simplify_eq. exists (a :: b :: ys). split; [done|]. constructor.
  - destruct (IH1 _ H) as (r1 & E1 & P1). destruct (IH2 _ E1) as (r2 & E2 & P2). exists r2. split; [done|].
    by etransitivity.
Qed.

Lemma omapM_Forall2 {A B} (f : A → Outcome B) l r :
  omapM f l = Ok r ↔ Forall2 (λ x y, f x = Ok y) l r.
Proof.
  revert r. induction l as [|x l IH]; intros r; simpl.
  - split; [intros; simplify_eq; constructor|inversion 1; done].
  - split.
    + destruct (f x) as [y|] eqn:E; simpl; [|done]. destruct (omapM f l) as [ys|] eqn:E2; simpl; [|done].
      intros; simplify_eq. constructor; [done|]. by apply IH.
    + inversion 1 as [|? y ? ys Hy Hys]; subst. rewrite Hy. simpl. apply IH in Hys. by rewrite Hys.
Qed.

Lemma mget_lookup_split {A} k (l : list (string * A)) x :
  mget k l = Some x → ∃ l1 l2, l = l1 ++ (k, x) :: l2.
Proof.
  induction l as [|[k' x'] l IH]; simpl; [done|].
  destruct (String.eqb_spec k k') as [->|]; intros H.
  - simplify_eq. by exists [], l.
  - destruct (IH H) as (l1 & l2 & ->). by exists ((k', x') :: l1), l2.
Qed.
Lemma mget_app {A} k (l1 l2 : list (string * A)) :
  mget k (l1 ++ l2) = match mget k l1 with Some x => Some x | None => mget k l2 end.
Proof. induction l1 as [|[k' x'] l IH]; simpl; [done|]. by destruct (String.eqb k k'). Qed.

(** Two maps with related values: one is a reordering of the other. *)
Lemma fields_reorder {A} (R : A → A → Prop) fs fs' :
  NoDup (map fst fs) → NoDup (map fst fs') →
  (∀ key, osame (osame R) (mget key fs) (mget key fs')) →
  ∃ fs2, Permutation fs2 fs' ∧ Forall2 (λ kv kv' : string * option A, kv.1 = kv'.1 ∧ osame R kv.2 kv'.2) fs fs2.
Proof.
  revert fs'. induction fs as [|[k x] fs IH]; intros fs' Hn Hn' Hs.
  - exists []. split; [|constructor]. destruct fs' as [|[k' x'] fs']; [done|]. exfalso.
    specialize (Hs k'). simpl in Hs. rewrite String.eqb_refl in Hs. inversion Hs.
  - simpl in Hn. apply NoDup_cons in Hn as [Hk Hn].
    pose proof (Hs k) as Hsk. simpl in Hsk. rewrite String.eqb_refl in Hsk.
    inversion Hsk as [|? y Hxy Hx Hy]; subst. symmetry in Hy.
    destruct (mget_lookup_split _ _ _ Hy) as (l1 & l2 & ->).
    rewrite map_app in Hn'. simpl in Hn'.
    assert (k ∉ map fst l1 ∧ k ∉ map fst l2 ∧ NoDup (map fst (l1 ++ l2))) as (H1 & H2 & Hn2).
    { rewrite map_app. apply NoDup_app in Hn' as (Ha & Hb & Hc). apply NoDup_cons in Hc as [Hc Hd].
      split_and!; [|done|].
      - intros Hin. apply (Hb _ Hin). left.
      - apply NoDup_app. split_and!; [done| |done]. intros z Hz Hz2. apply (Hb _ Hz). by right. }
    destruct (IH (l1 ++ l2)) as (fs2 & Hp & Hf); [done|done| |].
    + intros key. specialize (Hs key). rewrite mget_app in Hs. rewrite mget_app. simpl in Hs.
      destruct (String.eqb_spec key k) as [Hek|Hek]; [rewrite Hek; clear Hs|done].
      assert (∀ l : list (string * option A), k ∉ map fst l → mget k l = None) as Hnone.
      { intros l Hl. apply mget_None_In. intros Hin. apply Hl. by apply elem_of_list_In. }
      rewrite !Hnone by done. constructor.
    + exists ((k, y) :: fs2). split; [|by constructor].
      rewrite Hp. by apply Permutation_middle.
Qed.

Lemma to_value_same v : ∀ v' t, keys_ok v → keys_ok v' → psame v v' →
  to_value v = Ok t → to_value v' = Ok t.
Proof.
  induction v as [k u IH] using pval_ind'. intros v' t Hw Hw' Hs.
  inversion Hs as [? k' ? Hk]; subst. clear Hs. destruct Hw as [Hsh Hw]. destruct Hw' as [Hsh' Hw'].
  rewrite kind_each_all in Hw, Hw'. cbn [to_value].
  set (to' := λ x : option pval, match x with Some v => to_value v | None => Panic end).
  assert (∀ x y t, opt_all (λ v, ∀ v' t, keys_ok v → keys_ok v' → psame v v' → to_value v = Ok t → to_value v' = Ok t) x →
            opt_all keys_ok x → opt_all keys_ok y → osame psame x y → to' x = Ok t → to' y = Ok t) as Hto.
  { intros x y t0 HI Hx Hy Hxy. destruct Hxy; simpl in *; [done|]. eauto. }
  inversion Hk as [? Hl|a a' [Ha Hu]|o o' [Ho Hu]]; subst; [done| |].
  - destruct a as [items ua], a' as [items' ua']. simpl in *. fold to'.
    destruct (omapM to' items) as [l|] eqn:E; simpl; [|done]. intros [= <-].
    enough (omapM to' items' = Ok l) as -> by done. apply omapM_Forall2. apply omapM_Forall2 in E.
    clear Hk Hu. revert items' Ha Hw'. induction E as [|x y items l Hxy E IHE]; intros items' Ha Hw'.
    + inversion Ha. constructor.
    + inversion Ha as [|? x' ? items2 Hxx Ha2]; subst. apply Forall_cons in IH as [IHx IH].
      apply Forall_cons in Hw as [Hwx Hw]. apply Forall_cons in Hw' as [Hwx' Hw'].
      constructor; [by eapply Hto|]. by apply IHE.
  - destruct o as [fs uo], o' as [fs' uo']. simpl in *.
    destruct (fields_reorder psame fs fs' Hsh Hsh' Ho) as (fs2 & Hp & Hf).
    set (g := λ kv : string * option pval, match kv with (k, x) => obind (to' x) (λ t, Ok (EscapeKey k, t)) end).
    change (obind (omapM g fs) (λ l, Ok (TObj (mof_list l))) = Ok t →
            obind (omapM g fs') (λ l, Ok (TObj (mof_list l))) = Ok t).
    destruct (omapM g fs) as [l|] eqn:E; simpl; [|done]. intros [= <-].
    assert (omapM g fs2 = Ok l) as E2.
    { apply omapM_Forall2. apply omapM_Forall2 in E.
      assert (Forall (λ kv, opt_all keys_ok kv.2) fs2) as Hw2 by (by rewrite Hp).
      clear -IH Hw Hw2 Hf E Hto. revert l E.
      induction Hf as [|[k x] [k2 x2] fs fs2 [Hk Hx] Hf IHf]; intros l E; inversion E as [|? y ? l2 Hy E2]; subst; [constructor|].
      apply Forall_cons in IH as [IHx IH]. apply Forall_cons in Hw as [Hwx Hw]. apply Forall_cons in Hw2 as [Hwx2 Hw2].
      simpl in *. subst k2. constructor; [|by apply IHf].
      simpl in *. destruct (to' x) as [t|] eqn:Et; [|done]. by rewrite (Hto _ _ _ IHx Hwx Hwx2 Hx Et). }
    destruct (omapM_perm g fs2 fs' l Hp E2) as (l' & -> & Hpl). simpl. do 2 f_equal. symmetry.
    apply mof_list_permutation; [|done].
    (* keys *)
    apply omapM_Forall2 in E. clear -E Hsh. 
    assert (map fst l = map EscapeKey (map fst fs)) as ->.
    { induction E as [|[k x] [k2 y] fs l Hxy E IHE]; simpl; [done|]. rewrite IHE.
      - simpl in Hxy. destruct (to' x); [|done]. simpl in Hxy. by simplify_eq.
      - simpl in Hsh. by apply NoDup_cons in Hsh as [_ ?]. }
    apply NoDup_fmap_2; [|done]. intros a b. apply EscapeKey_inj.
Qed.

(** *** Panics *)
Lemma to_value_bad v : to_value v = Panic ↔ bad_value (Some v).
Proof.
  induction v as [k u IH] using pval_ind'.
  set (to' := λ x : option pval, match x with Some v => to_value v | None => Panic end).
  assert (∀ x, opt_all (λ v, to_value v = Panic ↔ bad_value (Some v)) x → to' x = Panic ↔ bad_value x) as Hto.
  { intros [v|] H; [done|]. split; [constructor|done]. }
  destruct k as [|z|[[items ua]|]|b|bits|z|[[fields uo]|]|s|z|z]; cbn [to_value to_kind];
    try (by (split; [done|inversion 1])); try (by (split; [intros _; constructor|])); fold to'.
  - simpl in IH. transitivity (omapM to' items = Panic).
    { destruct (omapM to' items); simpl; split; done. }
    rewrite omapM_panic. split.
    + intros (x & Hx & Hp). eapply bad_arr; [done|]. apply Hto; [|done]. rewrite Forall_forall in IH. auto.
    + inversion 1; subst. eexists. split; [done|]. apply Hto; [|done]. rewrite Forall_forall in IH. auto.
  - simpl in IH. 
    set (g := λ kv : string * option pval, match kv with (k, x) => obind (to' x) (λ t, Ok (EscapeKey k, t)) end).
    transitivity (omapM g fields = Panic).
    { change (obind (omapM g fields) (λ l, Ok (TObj (mof_list l))) = Panic ↔ omapM g fields = Panic).
      destruct (omapM g fields); simpl; split; done. }
    rewrite omapM_panic. split.
    + intros ([k x] & Hx & Hp). eapply bad_obj; [done|]. rewrite Forall_forall in IH. apply Hto; [by apply (IH _ Hx)|].
      simpl in Hp. by destruct (to' x).
    + inversion 1; subst. eexists. split; [done|]. simpl. rewrite Forall_forall in IH.
      rewrite (proj2 (Hto x ltac:(by apply (IH (k, x))))); done.
Qed.
Lemma toEventValue_bad x : toEventValue x = Panic ↔ bad_value x.
Proof. destruct x as [v|]; [apply to_value_bad|]. split; [constructor|done]. Qed.

(** *** ToLogEvent *)
Lemma to_value_tree v t : to_value v = Ok t → tsorted t ∧ t ≠ TNil.
Proof.
  revert t. induction v as [k u IH] using pval_ind'. intros t.
  set (to' := λ x : option pval, match x with Some v => to_value v | None => Panic end).
  destruct k as [|z|[[items ua]|]|b|bits|z|[[fields uo]|]|s|z|z]; cbn [to_value to_kind]; fold to';
    try (intros; by simplify_eq).
  - destruct (omapM to' items) as [l|] eqn:E; simpl; [|done]. intros [= <-]. split; [|done].
    apply tsorted_arr. apply omapM_Forall2 in E. simpl in IH. induction E as [|[v|] y items l Hx E IHE]; [constructor| |done].
    apply Forall_cons in IH as [? IH]. constructor; [|auto]. simpl in *. naive_solver.
  - set (g := λ kv : string * option pval, match kv with (k, x) => obind (to' x) (λ t, Ok (EscapeKey k, t)) end).
    change (obind (omapM g fields) (λ l, Ok (TObj (mof_list l))) = Ok t → tsorted t ∧ t ≠ TNil).
    destruct (omapM g fields) as [l|] eqn:E; simpl; [|done]. intros [= <-]. split; [|done].
    apply tsorted_obj. split; [apply msorted_mof_list|].
    apply omapM_Forall2 in E. simpl in IH.
    assert (Forall (λ kv, tsorted kv.2) l) as Hl.
    { induction E as [|[k [v|]] [k2 y] fs l Hx E IHE]; [constructor| |done].
      apply Forall_cons in IH as [? IH]. constructor; [|auto]. simpl in *.
      destruct (to_value v) as [t|] eqn:Et; [|done]. simpl in Hx. simplify_eq. simpl. naive_solver. }
    clear -Hl. apply Forall_forall. intros [k t] Hin.
    apply elem_of_list_In, (mget_In _ _ _ (msorted_mof_list l)) in Hin. simpl.
    revert Hin. unfold mof_list. 
    assert (∀ m, (∀ k t, mget k m = Some t → tsorted t) → mget k (fold_left (λ m kv, mset kv.1 kv.2 m) l m) = Some t → tsorted t) as H.
    { revert Hl. clear. induction l as [|[k1 t1] l IH]; intros Hl m Hm; simpl; [by apply Hm|].
      apply Forall_cons in Hl as [H1 Hl]. apply IH; [done|]. intros k2 t2. simpl. rewrite mget_mset.
      case_match; [intros; simplify_eq; done|apply Hm]. }
    apply H. done.
Qed.

Lemma put_escaped_ref h e m fp k t :
  ev_rep h e m fp → tsorted t → t ≠ TNil →
  ∃ out fp', exec h e (OPut (EscapeKey k) t) = Ok out ∧ ev_rep (o_heap out) (o_event out) (put_field m (k, t)) fp'.
Proof.
  intros Hev Hs Hn. pose proof (exec_ref h e m fp (OPut (EscapeKey k) t) Hev Hs) as H.
  cbn [sexec] in H. rewrite keyToPath_EscapeKey in H. unfold put_field. cbn [fst snd].
  destruct (String.eqb_spec (drop_backslashes k) "") as [E|E].
  - cbn [spec_put] in H. destruct H as (out & fp' & He & _ & Hev'). eauto.
  - unfold spec_put in H. cbn [tget tput] in H.
    change (negb true) with false in H.
    destruct (mget (drop_backslashes k) m) as [told|]; [destruct told|];
      destruct t; try done; rewrite ?andb_false_r in H; destruct H as (out & fp' & He & _ & Hev'); eauto.
Qed.

Lemma put_all_ref fs : ∀ ts h e m fp, ev_rep h e m fp →
  Forall2 (λ kv t, toEventValue kv.2 = Ok t) fs ts →
  ∃ h' e' fp', put_all h e fs = Ok (h', e') ∧ ev_rep h' e' (fold_left put_field (zip (map fst fs) ts) m) fp'.
Proof.
  induction fs as [|[k x] fs IH]; intros ts h e m fp Hev Hf; inversion Hf as [|? t ? ts' Ht Hf']; subst.
  - exists h, e, fp. done.
  - cbn [put_all map zip zip_with fold_left fst]. simpl in Ht. rewrite Ht. cbn [obind].
    assert (tsorted t ∧ t ≠ TNil) as [Hs Hn].
    { destruct x as [v|]; [|done]. by apply (to_value_tree v). }
    destruct (put_escaped_ref h e m fp k t Hev Hs Hn) as (out & fp1 & -> & Hev1). cbn [obind].
    apply (IH _ _ _ _ _ Hev1 Hf').
Qed.

Lemma put_all_panic fs : ∀ h e m fp, ev_rep h e m fp →
  put_all h e fs = Panic ↔ ∃ k x, (k, x) ∈ fs ∧ bad_value x.
Proof.
  induction fs as [|[k x] fs IH]; intros h e m fp Hev; cbn [put_all].
  - split; [done|]. intros (? & ? & H & _). by apply elem_of_nil in H.
  - destruct (toEventValue x) as [t|] eqn:E; cbn [obind].
    + assert (tsorted t ∧ t ≠ TNil) as [Hs Hn].
      { destruct x as [v|]; [|done]. by apply (to_value_tree v). }
      destruct (put_escaped_ref h e m fp k t Hev Hs Hn) as (out & fp1 & -> & Hev1). cbn [obind].
      rewrite (IH _ _ _ _ Hev1). split.
      * intros (k' & x' & Hin & Hb). exists k', x'. split; [by right|done].
      * intros (k' & x' & Hin & Hb). apply elem_of_cons in Hin as [Heq|Hin]; [|by exists k', x'].
        simplify_eq. apply toEventValue_bad in Hb. congruence.
    + split; [|done]. intros _. exists k, x. split; [left|]. by apply toEventValue_bad.
Qed.
