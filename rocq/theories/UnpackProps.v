(** * Values in configurations: C82.

    [Unpack lower h p x]: EventValue.Unpack of the location [p] with the Go value [x]
    ([lower]: strings.ToLower).  [data], [content], [escaped], [proper]: data as
    configurations give it and what an event value shows of it (Unpack.v); [as_go]: the
    data as a Go value.  [rep h (Some p) t fp]: location [p] shows the tree [t] and owns
    [fp]. *)
From Verif Require Import Unpack MapIfaceProps ProcProps Builtins Isolation.
From Coq Require Import Lia.
Local Open Scope Z_scope.

(** Unpacking data succeeds and the value then shows just that data, in maps and arrays of
    its own; nothing else is changed. *)
Theorem C82_shows_the_data : ∀ lower h p d v0, proper d → hvals h !! p = Some v0 →
  ∃ h' t fp, Unpack lower h p (as_go d) = Ok (h', None) ∧ content d t ∧ (∀ t', content d t' → t' = t) ∧
    rep h' (Some p) t fp ∧ NoDup fp ∧ (∀ l, l ∈ fp → l = LArr p ∨ EventRefine.fresh h l) ∧
    (∀ p' w, p' ≠ p → hvals h !! p' = Some w → hvals h' !! p' = Some w) ∧ (∀ r m, hmaps h !! r = Some m → hmaps h' !! r = Some m).
Proof.
  intros lower h p d v0 Hd Hp. destruct (data_unpacked lower h p d v0 Hd Hp) as (h' & t & fp & H1 & H2 & H3). exists h', t, fp.
  split; [done|]. split; [done|]. split; [intros t' Ht'; by eapply content_det|done].
Qed.
Print Assumptions C82_shows_the_data.
(** Any Go value: either the value shows it, or it is refused and nothing changes. *)
Theorem C82_any_value : ∀ lower h p x v0, go_value x → calm x → hvals h !! p = Some v0 →
  (∃ h' t fp, Unpack lower h p x = Ok (h', None) ∧ mirrors lower true x t ∧ rep h' (Some p) t fp ∧ ¬ unsupported true x) ∨
  (∃ e, Unpack lower h p x = Ok (h, Some e) ∧ unsupported true x).
Proof.
  intros lower h p x v0 Hg Hc Hp. unfold Unpack. destruct (C41_converts_or_refuses lower x Hg Hc) as [(t & E & Hm & _ & Hu)|(e & E & Hu)].
  - left. destruct (mirrors_tree _ _ _ _ Hm) as [Hs Hn]. destruct (overwrite_tree h p t v0 Hp Hs Hn) as (h1 & q & v & Ea & Hv & _ & _ & fp & Hr & _).
    exists (overwrite h1 p v), t, fp. by rewrite E, Ea, Hv.
  - right. exists e. by rewrite E.
Qed.
Print Assumptions C82_any_value.
(** An error leaves the value as it was. *)
Theorem C82_error_keeps : ∀ lower h p x h' e, Unpack lower h p x = Ok (h', Some e) → h' = h.
Proof.
  intros lower h p x h' e H. unfold Unpack in H. destruct (ReflectValue lower x) as [t|e'|]; [|congruence|done].
  destruct (alloc_tree h t) as [h1 [q|]]; [|done]. by destruct (hvals h1 !! q).
Qed.
Print Assumptions C82_error_keeps.
(** A crash of an Error or String method of the value (then ReflectValue crashes, C41) is a
    crash of Unpack: it does not become an error. *)
Theorem C82_crashes : ∀ lower h p x, ReflectValue lower x = RPanic → Unpack lower h p x = Panic.
Proof. intros lower h p x H. unfold Unpack. by rewrite H. Qed.
Print Assumptions C82_crashes.
Example C82_crashes_ex : Unpack (λ s, s) (mkHeap [mkNull] []) 0
  (GStruct (mkT "main.T" false None None) [(mkF "Err" true "" true, GIface (mkT "error" false (Some Panic) None) None)]) = Panic.
Proof. reflexivity. Qed.
(** Names without dots are kept. *)
Theorem C82_names_kept : ∀ s s', dot_free s → (escaped s s' ↔ s' = s).
Proof.
  intros s s' Hs. split.
  - induction 1 as [|s s' _ IH|c s s' Hc _ IH]; [done| |].
    + exfalso. apply Hs. cbn. left.
    + f_equal. apply IH. intros H. apply Hs. cbn. by right.
  - intros ->. induction s as [|c s IH]; [constructor|]. apply ec_char; [intros ->; apply Hs; cbn; left|]. apply IH. intros H. apply Hs. cbn. by right.
Qed.
Print Assumptions C82_names_kept.
(** Others are not: a backslash becomes part of the name. *)
Theorem C82_dotted_names_refuted : ∀ lower h p v0 h' err, hvals h !! p = Some v0 →
  Unpack lower h p (as_go (DMap [("a.b", DInt 1)])) = Ok (h', err) → ∃ fp, rep h' (Some p) (TObj [("a\.b", TInt 1)]) fp.
Proof.
  intros lower h p v0 h' err Hp H. destruct (C82_shows_the_data lower h p (DMap [("a.b", DInt 1)]) v0) as (h2 & t & fp & E & Hc & _ & Hr & _); [|done|].
  - apply pr_map; [apply NoDup_singleton|apply Forall_singleton; by constructor].
  - rewrite E in H. injection H as <- _. exists fp.
    assert (content (DMap [("a.b", DInt 1)]) (TObj [("a\.b", TInt 1)])) as Hc'.
    { apply (ct_map _ [("a\.b", TInt 1)]); [|done|done]. apply Forall2_cons_2; [|apply Forall2_nil_2]. split; [by apply escaped_iff|constructor]. }
    by rewrite (content_det _ _ _ Hc' Hc).
Qed.
Print Assumptions C82_dotted_names_refuted.
(** What a set processor writes is the data of its configuration (other than null). *)
Theorem C82_set_writes_it : ∀ d c w pe i m fp t fpv, content d t → d ≠ DNull →
  runs_on w pe i m fp → mclean m → rep (w_heap w) (Some (se_value c)) t fpv → NoDup (fp ++ fpv) →
  ∃ w' m' err, run_prog (set_process c) w pe = Ok (w', pe, err) ∧ leaves w w' i fp m' ∧
    put_outcome (spec_path (se_target c)) t m m' err ∧
    (err = None → ∃ e', w_events w' !! i = Some e' ∧ Get (w_heap w') e' (se_target c) = Ok (w_heap w', Some (se_value c))).
Proof.
  intros d c w pe i m fp t fpv Hc Hd Hr Hm Hv Hn.
  destruct (C29_set_value c w pe i m fp t fpv Hr Hm Hv (content_clean _ _ Hc)) as (w' & m' & err & H1 & H2 & _ & _ & H3 & H4); [by intros ->; inversion Hc; subst|done|].
  by exists w', m', err.
Qed.
Print Assumptions C82_set_writes_it.
(** Data other than lists and maps: the value holds it in itself, as C57 takes for granted
    of set's value, and has nothing events could share, as C28 does. *)
Theorem C82_scalars : ∀ lower h p d v0, (∀ l, d ≠ DList l) → (∀ kvs, d ≠ DMap kvs) → hvals h !! p = Some v0 →
  ∃ h' t v, Unpack lower h p (as_go d) = Ok (h', None) ∧ content d t ∧ holds h' p t ∧ hvals h' !! p = Some v ∧ plain v.
Proof.
  intros lower h p d v0 H1 H2 Hp. destruct (scalar_value lower d H1 H2) as (t & v & E & Hc & Ea & Hs & Hv1 & Hv2 & Hv3).
  exists (overwrite (mkHeap (hvals h ++ [v]) (hmaps h)) p v), t, v. assert ((p < length (hvals h))%nat) as Hl by by eapply lookup_lt_Some.
  assert (hvals (overwrite (mkHeap (hvals h ++ [v]) (hmaps h)) p v) !! p = Some v) as Hpv.
  { cbn [overwrite hvals]. apply list_lookup_insert. rewrite app_length. lia. }
  split; [|split; [done|split; [by exists v|done]]]. unfold Unpack, ReflectValue. rewrite E, Ea. cbn [alloc_some alloc_val hvals].
  by rewrite list_lookup_middle.
Qed.
Print Assumptions C82_scalars.
Example C82_ex : ∃ h' fp, Unpack (λ s, s) (mkHeap [mkNull] []) 0 (as_go (DMap [("b", DList [DNull; DStr "x"]); ("a", DInt 7)])) = Ok (h', None) ∧
  rep h' (Some 0%nat) (TObj [("a", TInt 7); ("b", TArr [TNull; TStr "x"])]) fp.
Proof.
  destruct (C82_shows_the_data (λ s, s) (mkHeap [mkNull] []) 0 (DMap [("b", DList [DNull; DStr "x"]); ("a", DInt 7)]) mkNull) as (h' & t & fp & E & Hc & _ & Hr & _).
  - apply pr_map; [apply (bool_decide_unpack _); reflexivity|].
    apply Forall_cons_2; [apply pr_list; repeat (apply Forall_cons_2; [by constructor|]); apply Forall_nil_2|].
    apply Forall_cons_2; [by constructor|apply Forall_nil_2].
  - done.
  - exists h', fp. split; [exact E|]. assert (content (DMap [("b", DList [DNull; DStr "x"]); ("a", DInt 7)]) (TObj [("a", TInt 7); ("b", TArr [TNull; TStr "x"])])) as Hc'.
    { apply (ct_map _ [("b", TArr [TNull; TStr "x"]); ("a", TInt 7)]); [|cbn; repeat (split || constructor)|by apply perm_swap].
      apply Forall2_cons_2; [split; [by apply escaped_iff|]|apply Forall2_cons_2; [split; [by apply escaped_iff|constructor]|apply Forall2_nil_2]].
      apply ct_list. apply Forall2_cons_2; [constructor|]. apply Forall2_cons_2; [constructor|apply Forall2_nil_2]. }
    by rewrite (content_det _ _ _ Hc' Hc).
Qed.
