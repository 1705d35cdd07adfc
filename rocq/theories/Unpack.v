(** * Values in configurations: pkg/config/config.go, EventValue.Unpack. *)
From Verif Require Export MapIface.
Local Open Scope Z_scope.

(** ** The model *)
(** Writing the location of an event value. *)
Definition overwrite (h : heap) (p : ptr) (v : Value) : heap := mkHeap (<[p := v]> (hvals h)) (hmaps h).
(** config.go:27-34 Unpack of the location [p]: the error returned, if any.  What
    ReflectValue makes is a tree laid out afresh ([event.NullValue], which only is copied
    here, too); its root is copied. *)
Definition Unpack (lower : string → string) (h : heap) (p : ptr) (x : gval) : Outcome (heap * option rerr) :=
  match ReflectValue lower x with
  | RPanic => Panic
  | RErr e => Ok (h, Some e)
  | RVal t =>
      match alloc_tree h t with
      | (h1, Some q) => match hvals h1 !! q with Some v => Ok (overwrite h1 p v, None) | None => Panic end
      | (h1, None) => Panic (* a nil pointer is dereferenced *)
      end
  end.

(** ** Specification: data as a configuration gives it *)
(** Maps of names to data and lists of data, of type map[string]interface{} and
    []interface{}; the entries of a map in the order in which they are visited. *)
Inductive data : Type :=
| DNull | DBool (b : bool) | DInt (z : Z) | DUint (z : Z) | DFloat (bits : Z) | DStr (s : string) | DTime (ns : Z)
| DList (l : list data) | DMap (kvs : list (string * data)).
(** As a Go value. *)
Definition t_any : tdesc := mkT "interface {}" false None None.
Definition t_basic (name : string) : tdesc := mkT name true None None.
Fixpoint as_go (d : data) : gval :=
  GIface t_any
    match d with
    | DNull => None
    | DBool b => Some (GBool (t_basic "bool") b)
    | DInt z => Some (GInt (t_basic "int64") z)
    | DUint z => Some (GUint (t_basic "uint64") z)
    | DFloat b => Some (GFloat (t_basic "float64") b)
    | DStr s => Some (GString (t_basic "string") s)
    | DTime ns => Some (GTime (t_basic "time.Time") ns)
    | DList l => Some (GSlice (mkT "[]interface {}" false None None) (map as_go l))
    | DMap kvs => Some (GMap (t_basic "map[string]interface {}") (map (λ kv, (kv.1, as_go kv.2)) kvs))
    end.
(** No map has two entries of one name. *)
Inductive proper : data → Prop :=
| pr_scalar d : (∀ l, d ≠ DList l) → (∀ kvs, d ≠ DMap kvs) → proper d
| pr_list l : Forall proper l → proper (DList l)
| pr_map kvs : NoDup (map fst kvs) → Forall (λ kv, proper kv.2) kvs → proper (DMap kvs).
(** A name with a backslash before every dot. *)
Inductive escaped : string → string → Prop :=
| ec_end : escaped "" ""
| ec_dot s s' : escaped s s' → escaped (String "." s) (String "\" (String "." s'))
| ec_char c s s' : c ≠ "."%char → escaped s s' → escaped (String c s) (String c s').
(** The content of the event value is that of the data, but for the names. *)
Inductive content : data → tree → Prop :=
| ct_null : content DNull TNull
| ct_bool b : content (DBool b) (TBool b)
| ct_int z : content (DInt z) (TInt z)
| ct_uint z : content (DUint z) (TUint z)
| ct_float b : content (DFloat b) (TFloat b)
| ct_str s : content (DStr s) (TStr s)
| ct_time ns : content (DTime ns) (TTime ns)
| ct_list l ts : Forall2 content l ts → content (DList l) (TArr ts)
| ct_map kvs kts m : Forall2 (λ kv kt, escaped kv.1 kt.1 ∧ content kv.2 kt.2) kvs kts →
    msorted m → m ≡ₚ kts → content (DMap kvs) (TObj m).
Definition dot_free (s : string) : Prop := "."%char ∉ list_ascii_of_string s.

(** ** Proofs *)
Lemma escaped_iff s s' : escaped s s' ↔ s' = EscapeKey s.
Proof.
  rewrite EscapeKey_replace. split.
  - induction 1 as [|s s' _ IH|c s s' Hc _ IH]; [done|cbn; by rewrite IH|]. cbn [replace_dots]. unfold c_dot.
    rewrite (proj2 (Ascii.eqb_neq _ _) Hc). by rewrite IH.
  - intros ->. induction s as [|c s IH]; [constructor|]. cbn [replace_dots]. unfold c_dot. destruct (Ascii.eqb_spec c ".") as [->|Hc]; by constructor.
Qed.
Lemma data_ind' (P : data → Prop) : (∀ d, (∀ l, d ≠ DList l) → (∀ kvs, d ≠ DMap kvs) → P d) →
  (∀ l, Forall P l → P (DList l)) → (∀ kvs, Forall (λ kv, P kv.2) kvs → P (DMap kvs)) → ∀ d, P d.
Proof.
  intros Hs Hl Hm. fix IH 1. intros d. destruct d as [| | | | | | |l|kvs]; try (by apply Hs).
  - apply Hl. induction l as [|x l IHl]; [apply Forall_nil_2|apply Forall_cons_2; [apply IH|exact IHl]].
  - apply Hm. induction kvs as [|x l IHl]; [apply Forall_nil_2|apply Forall_cons_2; [apply IH|exact IHl]].
Qed.
Lemma Forall2_det {A B} (R : A → B → Prop) l l1 l2 : Forall (λ x, ∀ y z, R x y → R x z → y = z) l → Forall2 R l l1 → Forall2 R l l2 → l1 = l2.
Proof.
  intros Hd H. revert l2. induction H as [|x y l l1 Hx _ IH]; intros l2 H2; inversion H2; subst; [done|].
  apply Forall_cons in Hd as [Hd1 Hd2]. f_equal; [by eapply Hd1|by apply IH].
Qed.
Lemma content_det d t t' : content d t → content d t' → t = t'.
Proof.
  revert t t'. induction d as [d H1 H2|l IH|kvs IH] using data_ind'; intros t t' H H'.
  - destruct H; inversion H'; subst; try done; exfalso; solve [by eapply H1|by eapply H2].
  - inversion H as [| | | | | | |? ts Ht|]; subst. inversion H' as [| | | | | | |? ts' Ht'|]; subst. f_equal. by eapply Forall2_det.
  - inversion H as [| | | | | | | |? kts m Ht Hs Hp]; subst. inversion H' as [| | | | | | | |? kts' m' Ht' Hs' Hp']; subst. f_equal.
    assert (kts = kts') as <-.
    { eapply Forall2_det; [|exact Ht|exact Ht']. eapply Forall_impl; [exact IH|]. intros [k d] Hd [k1 t1] [k2 t2] [E1 C1] [E2 C2]. cbn in *.
      apply escaped_iff in E1, E2. subst. f_equal. by apply Hd. }
    rewrite <- (mof_list_perm m kts Hs) by by symmetry. by rewrite <- (mof_list_perm m' kts Hs') by by symmetry.
Qed.
Lemma rmapM_cons {A B} (f : A → rres B) x l : rmapM f (x :: l) = rbind (f x) (λ y, rbind (rmapM f l) (λ ys, RVal (y :: ys))).
Proof. reflexivity. Qed.
Lemma conv_data lower d : proper d → ∃ t, conv lower true (as_go d) = RVal t ∧ content d t.
Proof.
  induction d as [d H1 H2|l IH|kvs IH] using data_ind'; intros Hp.
  - destruct d; try (exfalso; solve [by eapply H1|by eapply H2]); (eexists; split; [reflexivity|constructor]).
  - inversion Hp as [? H1 H2|? Hl|]; subst; [by destruct (H1 l)|].
    assert (∃ ts, rmapM (conv lower true) (map as_go l) = RVal ts ∧ Forall2 content l ts) as (ts & E & Hc).
    { clear Hp. induction IH as [|x l Hx _ IHl]; [exists []; split; [done|apply Forall2_nil_2]|]. apply Forall_cons in Hl as [Hpx Hl].
      destruct (Hx Hpx) as (t & Et & Ct). destruct (IHl Hl) as (ts & Ets & Cts). exists (t :: ts). split; [|by apply Forall2_cons_2].
      cbn [map]. by rewrite rmapM_cons, Et, Ets. }
    exists (TArr ts). split; [|by constructor].
    change (rbind (rmapM (conv lower true) (map as_go l)) (λ l, RVal (TArr l)) = RVal (TArr ts)). by rewrite E.
  - inversion Hp as [? H1 H2| |? Hn Hl]; subst; [by destruct (H2 kvs)|].
    assert (∃ kts, rmapM (λ kv : string * gval, rbind (wrap_key kv.1 (conv lower true kv.2)) (λ t, RVal (EscapeKey kv.1, t))) (map (λ kv, (kv.1, as_go kv.2)) kvs) = RVal kts ∧
      Forall2 (λ kv kt, escaped kv.1 kt.1 ∧ content kv.2 kt.2) kvs kts) as (kts & E & Hc).
    { clear Hp Hn. induction IH as [|[k x] l Hx _ IHl]; [exists []; split; [done|apply Forall2_nil_2]|]. apply Forall_cons in Hl as [Hpx Hl].
      destruct (Hx Hpx) as (t & Et & Ct). destruct (IHl Hl) as (ts & Ets & Cts). exists ((EscapeKey k, t) :: ts). split; [|apply Forall2_cons_2; [|done]].
      - cbn [map fst snd] in *. rewrite rmapM_cons. cbn [fst snd]. rewrite Et. cbn [wrap_key rbind]. by rewrite Ets.
      - split; [by apply escaped_iff|done]. }
    exists (TObj (mof_list kts)). split.
    { change (rbind (rmapM (λ kv : string * gval, rbind (wrap_key kv.1 (conv lower true kv.2)) (λ t, RVal (EscapeKey kv.1, t))) (map (λ kv, (kv.1, as_go kv.2)) kvs))
        (λ l, RVal (TObj (mof_list l))) = RVal (TObj (mof_list kts))). by rewrite E. }
    apply (ct_map _ kts); [done|apply msorted_mof_list|]. apply mof_list_Permutation.
    assert (map fst kts = map EscapeKey (map fst kvs)) as ->.
    { clear -Hc. induction Hc as [|kv kt l l' [E _] _ IH]; [done|]. apply escaped_iff in E. cbn [map]. by rewrite E, IH. }
    apply NoDup_fmap_2; [|done]. intros a b. apply EscapeKey_inj.
Qed.
(** Allocation neither looks at nor changes what is there. *)
Definition in_heap (h : heap) (p : ptr) : Prop := (p < length (hvals h))%nat.
Lemma overwrite_alloc_some h p w v : in_heap h p → alloc_some (overwrite h p w) v = (overwrite (alloc_some h v).1 p w, (alloc_some h v).2) ∧ in_heap (alloc_some h v).1 p.
Proof.
  intros Hp. unfold alloc_some, alloc_val, overwrite, in_heap in *. cbn [hvals hmaps fst snd]. rewrite insert_length, app_length.
  split; [|lia]. by rewrite insert_app_l.
Qed.
Lemma overwrite_alloc_tree t : ∀ h p w, in_heap h p → alloc_tree (overwrite h p w) t = (overwrite (alloc_tree h t).1 p w, (alloc_tree h t).2) ∧ in_heap (alloc_tree h t).1 p.
Proof.
  induction t as [| | | | | | | | |l IH| |m IH] using tree_ind'; intros h p w Hp; try (exact (overwrite_alloc_some h p w _ Hp)); [done| |].
  - assert (∀ h, in_heap h p → alloc_list (overwrite h p w) l = (overwrite (alloc_list h l).1 p w, (alloc_list h l).2) ∧ in_heap (alloc_list h l).1 p) as Hl.
    { clear h Hp. induction IH as [|t l Ht _ IHl]; intros h Hp; [done|]. cbn [alloc_list]. destruct (Ht h p w Hp) as [E Hp']. rewrite E.
      destruct (alloc_tree h t) as [h1 op]. cbn [fst snd] in *. destruct (IHl h1 Hp') as [E2 Hp2]. rewrite E2. by destruct (alloc_list h1 l). }
    rewrite !alloc_tree_arr. destruct (Hl h Hp) as [E Hp']. rewrite E. destruct (alloc_list h l) as [h1 ops]. cbn [fst snd] in *. by apply overwrite_alloc_some.
  - assert (∀ h, in_heap h p → alloc_assoc (overwrite h p w) m = (overwrite (alloc_assoc h m).1 p w, (alloc_assoc h m).2) ∧ in_heap (alloc_assoc h m).1 p) as Hl.
    { clear h Hp. induction IH as [|[k t] l Ht _ IHl]; intros h Hp; [done|]. cbn [alloc_assoc]. cbn [snd] in Ht. destruct (Ht h p w Hp) as [E Hp']. rewrite E.
      destruct (alloc_tree h t) as [h1 op]. cbn [fst snd] in *. destruct (IHl h1 Hp') as [E2 Hp2]. rewrite E2. by destruct (alloc_assoc h1 l). }
    rewrite !alloc_tree_obj. destruct (Hl h Hp) as [E Hp']. rewrite E. destruct (alloc_assoc h m) as [h1 gm]. cbn [fst snd] in *.
    exact (overwrite_alloc_some (mkHeap (hvals h1) (hmaps h1 ++ [gm])) p w _ Hp').
Qed.
Lemma rep_same_cell h0 h p q v t fp : hvals h !! q = Some v → hvals h !! p = Some v → rep h (Some q) t fp →
  NoDup fp → (∀ l, l ∈ fp → EventRefine.fresh h0 l) → in_heap h0 p →
  ∃ fp', rep h (Some p) t fp' ∧ NoDup fp' ∧ ∀ l, l ∈ fp' → l = LArr p ∨ EventRefine.fresh h0 l.
Proof.
  intros Hq Hp H Hn Hf Hin. inversion H as [|? v' ? Hv Ht|? v' Hv Ht Ho Ha|? v' ops ts fps Hv Ht Ho Ha Hl|? v' Hv Ht Ho|? v' r gm m fps Hv Ht Ho Hm Hs Ha]; subst;
    assert (v' = v) as -> by congruence.
  - exists []. split; [by eapply rep_scalar|]. split; [constructor|by intros l ?%elem_of_nil].
  - exists [LArr p]. split; [by eapply rep_nilarr|]. split; [apply NoDup_singleton|]. intros l ->%elem_of_list_singleton. by left.
  - exists (LArr p :: fps). split; [by eapply rep_arr|]. apply NoDup_cons in Hn as [_ Hn]. split.
    + apply NoDup_cons. split; [|done]. intros Hin'. assert (EventRefine.fresh h0 (LArr p)) as Hf' by (apply Hf; by right).
      unfold in_heap in Hin. cbn in Hf'. lia.
    + intros l [->|Hl']%elem_of_cons; [by left|]. right. apply Hf. by right.
  - exists []. split; [by eapply rep_nilobj|]. split; [constructor|by intros l ?%elem_of_nil].
  - exists (LMap r :: fps). split; [by eapply rep_obj|]. split; [done|]. intros l Hl. right. by apply Hf.
Qed.
(** Conversion gives clean trees. *)
Lemma content_clean d t : content d t → tclean t.
Proof.
  revert t. induction d as [d H1 H2|l IH|kvs IH] using data_ind'; intros t H.
  - destruct H; cbn; try done; exfalso; solve [by eapply H1|by eapply H2].
  - inversion H as [| | | | | | |? ts Ht|]; subst. apply tclean_arr. clear H. induction Ht as [|x t l ts Hx _ IHt]; [apply Forall_nil_2|].
    apply Forall_cons in IH as [I1 I2]. apply Forall_cons_2; [by apply I1|by apply IHt].
  - inversion H as [| | | | | | | |? kts m Ht Hs Hp]; subst. apply mclean_spec. split; [done|]. intros k t Hg.
    apply mget_Some_In, elem_of_list_In in Hg. rewrite Hp in Hg. clear H Hs Hp. induction Ht as [|x [k' t'] l ts [_ Hx] _ IHt]; [by apply elem_of_nil in Hg|].
    apply Forall_cons in IH as [I1 I2]. apply elem_of_cons in Hg as [[= <- <-]|Hg]; [by apply I1|by apply IHt].
Qed.
Lemma clean_sorted t : tclean t → tsorted t.
Proof.
  induction t as [| | | | | | | | |l IH| |m IH] using tree_ind'; try done.
  - rewrite tclean_arr, tsorted_arr. rewrite !Forall_forall in *. intros H x Hx. by apply IH, H.
  - intros H. pose proof (proj1 (mclean_spec m) H) as [Hs Hc]. apply tsorted_obj. split; [done|].
    rewrite Forall_forall in IH |- *. intros [k t] Hin. apply (IH _ Hin). cbn [snd]. apply (Hc k). by apply mget_In, elem_of_list_In.
Qed.
(** A tree stored at [p]. *)
Lemma overwrite_tree h p t v0 : hvals h !! p = Some v0 → tsorted t → t ≠ TNil → ∃ h1 q v, alloc_tree h t = (h1, Some q) ∧ hvals h1 !! q = Some v ∧
  (∀ p' w, p' ≠ p → hvals h !! p' = Some w → hvals (overwrite h1 p v) !! p' = Some w) ∧ (∀ r m, hmaps h !! r = Some m → hmaps (overwrite h1 p v) !! r = Some m) ∧
  ∃ fp, rep (overwrite h1 p v) (Some p) t fp ∧ NoDup fp ∧ ∀ l, l ∈ fp → l = LArr p ∨ EventRefine.fresh h l.
Proof.
  intros Hp Hts Hnil. assert (in_heap h p) as Hin by (unfold in_heap; by eapply lookup_lt_Some).
  destruct (alloc_tree h t) as [h1 op] eqn:E. destruct (alloc_tree_rep t h h1 op Hts E) as (Hst & fp0 & Hr0 & _ & _).
  destruct op as [q|]; [|inversion Hr0; subst; done].
  assert (∃ v, hvals h1 !! q = Some v) as [v Hv] by (inversion Hr0; subst; by eexists).
  destruct (overwrite_alloc_tree t h p v Hin) as [E2 Hin1]. rewrite E in E2, Hin1. cbn [fst snd] in *.
  destruct (alloc_tree_rep t (overwrite h p v) _ _ Hts E2) as (Hst2 & fp & Hr & Hn & Hf).
  exists h1, q, v. split; [done|]. split; [done|]. assert (hvals (overwrite h1 p v) !! p = Some v) as Hpv by (cbn [overwrite hvals]; by apply list_lookup_insert).
  assert (hvals (overwrite h1 p v) !! q = Some v) as Hqv.
  { destruct (decide (q = p)) as [->|Hne]; [done|]. cbn [overwrite hvals]. by rewrite list_lookup_insert_ne. }
  destruct Hst as (S1 & S2 & _ & _). split; [|split].
  - intros p' w Hne Hw. cbn [overwrite hvals]. rewrite list_lookup_insert_ne by done. destruct (S1 _ _ Hw) as [?|[[] _]]. done.
  - intros r m Hm. cbn [overwrite hmaps]. destruct (S2 _ _ Hm) as [?|[]]. done.
  - destruct (rep_same_cell (overwrite h p v) (overwrite h1 p v) p q v t fp Hqv Hpv Hr Hn Hf) as (fp' & H1 & H2 & H3).
    { unfold in_heap in *. cbn [overwrite hvals]. by rewrite insert_length. }
    exists fp'. split; [done|]. split; [done|]. intros l Hl. destruct (H3 l Hl) as [->|Hfr]; [by left|right].
    destruct l as [r|p']; cbn in *; [done|]. by rewrite insert_length in Hfr.
Qed.
Lemma data_unpacked lower h p d v0 : proper d → hvals h !! p = Some v0 → ∃ h' t fp, Unpack lower h p (as_go d) = Ok (h', None) ∧ content d t ∧
  rep h' (Some p) t fp ∧ NoDup fp ∧ (∀ l, l ∈ fp → l = LArr p ∨ EventRefine.fresh h l) ∧
  (∀ p' w, p' ≠ p → hvals h !! p' = Some w → hvals h' !! p' = Some w) ∧ (∀ r m, hmaps h !! r = Some m → hmaps h' !! r = Some m).
Proof.
  intros Hd Hp. destruct (conv_data lower d Hd) as (t & E & Hc). destruct (overwrite_tree h p t v0 Hp (clean_sorted _ (content_clean _ _ Hc)) (λ E, match eq_ind t tclean (content_clean _ _ Hc) TNil E with end)) as (h1 & q & v & Ea & Hv & H1 & H2 & fp & H3 & H4 & H5).
  exists (overwrite h1 p v), t, fp. unfold Unpack, ReflectValue. rewrite E, Ea, Hv. repeat (split; [done|]). done.
Qed.
Lemma scalar_value lower d : (∀ l, d ≠ DList l) → (∀ kvs, d ≠ DMap kvs) → ∃ t v, conv lower true (as_go d) = RVal t ∧ content d t ∧
  (∀ h, alloc_tree h t = alloc_some h v) ∧ scalar_tree v = Some t ∧ v_type v ≠ ArrayType ∧ v_arr v = None ∧ v_obj v = None.
Proof.
  intros H1 H2. destruct d; try (exfalso; solve [by eapply H1|by eapply H2]); eexists _, _; (split; [reflexivity|]; split; [constructor|]; split; [intros h; reflexivity|done]).
Qed.
