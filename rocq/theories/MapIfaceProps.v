(** * Property theorems for ReflectValue and package mapinterface: C40, C41, C50.

    [ReflectValue lower v]: [lower] is strings.ToLower.  [go_value v]: [v] obeys the
    rules of Go types.  [calm v]: no Error or String method in [v] panics and no error
    interface in it is nil.  [mirrors]: see Reflect.v.  [mi_FromEvent f h e]: as for
    protobuf, [f] bounds the depth.  [mi_ToEvent lower order h m]: [order] is how range
    goes through the entries of an object. *)
From Verif Require Import MapIface ProtobufProps.
Local Open Scope Z_scope.

(** ** C41 *)
(** Every Go value is converted to its mirror image, or refused with an
    UnsupportedTypeError because the conversion meets something unsupported; never both,
    and there is only one mirror image. *)
Theorem C41_converts_or_refuses : ∀ lower v, go_value v → calm v →
  (∃ t, ReflectValue lower v = RVal t ∧ mirrors lower true v t ∧
        (∀ t', mirrors lower true v t' → t' = t) ∧ ¬ unsupported true v) ∨
  (∃ e, ReflectValue lower v = RErr e ∧ unsupported true v).
Proof.
  intros lower v Hg Hc. pose proof (conv_sound lower v Hg Hc true) as Hs. unfold ReflectValue.
  destruct (conv lower true v) as [t|e|]; cbn [sound] in Hs; [left|right; eauto|done].
  destruct Hs as [Hm Hn]. exists t. split_and!; [done|done| |done]. intros t' Ht'. by eapply mirrors_det.
Qed.
Print Assumptions C41_converts_or_refuses.

(** Full statement wanted: for every value, refused iff a channel, function or complex
    number is met.  Proved for values without uintptrs whose interfaces are only elements
    of slices and maps (or the argument). *)
Theorem C41_refused_iff_partial : ∀ lower v, go_value v → calm v → common v →
  ((∃ e, ReflectValue lower v = RErr e) ↔ refused v).
Proof.
  intros lower v Hg Hc Hco. pose proof (C41_converts_or_refuses lower v Hg Hc) as H. split.
  - intros (e & He). destruct H as [(t & Ht & _)|(e' & _ & Hu)]; [congruence|].
    eapply unsupported_refused; [exact Hu|done|done].
  - intros Hr. destruct H as [(t & _ & _ & _ & Hn)|(e' & ? & _)]; [|by eauto].
    exfalso. apply Hn. destruct Hco as (Hp & Hs & Hu). apply refused_unsupported; [done|done| | |].
    + intros d o Hpa d' o' ->. by eapply Hp.
    + intros d fs f x Hpa Hin d' o' ->. by eapply Hs.
    + intros d x Hpa d' o' ->. destruct (Hg _ Hpa) as [_ [_ Hni]]. by eapply Hni.
Qed.
Print Assumptions C41_refused_iff_partial.

(** The order in which maps are visited does not change the result. *)
Theorem C41_order_irrelevant : ∀ lower v v' t, distinct_keys v → reordered v v' →
  ReflectValue lower v = RVal t → ReflectValue lower v' = RVal t.
Proof. intros lower v v' t. apply reordered_conv. Qed.
Print Assumptions C41_order_irrelevant.

(** A struct as callers pass it: tags with a name, omitempty, "-" and string, nested
    pointers, maps and times; and one with a channel. *)
Definition d0 : tdesc := mkT "T" false None None.
Definition ex_struct : gval :=
  GStruct d0
    [(mkF "Name" true "" false, GString (d_exact "string") "n");
     (mkF "hidden" false "" false, GOther d0);
     (mkF "Skip" true "-" false, GOther d0);
     (mkF "Empty" true "empty,omitempty" true, GInt (d_exact "int") 0);
     (mkF "At" true "@timestamp" false, GPtr d0 (Some (GTime (d_exact "time.Time") 5)));
     (mkF "Dur" true "took,omitempty,string" false, GInt (mkT "time.Duration" false None (Some (Ok "1s"))) 1000000000);
     (mkF "Err" true "" false, GIface (mkT "error" false (Some (Ok "boom")) None)
                                 (Some (GPtr (mkT "*errors.errorString" false (Some (Ok "boom")) None) (Some (GStruct d0 [])))));
     (mkF "Tags" true "tags" false, GSlice d0 [GIface d_any (Some (GUint (d_exact "uint8") 7)); GIface d_any None]);
     (mkF "M" true "m" false, GMap (mkT "map[int]string" false None None) [("2", GString (d_exact "string") "b"); ("1", GString (d_exact "string") "a")])].
Definition ex_tree : tree :=
  TObj [("@timestamp", TTime 5); ("Name'", TStr "n"); ("err", TStr "boom");
        ("m", TObj [("1", TStr "a"); ("2", TStr "b")]); ("tags", TArr [TUint 7; TNull]); ("took", TStr "1s")].
Definition ex_lower (s : string) : string := if String.eqb s "Err" then "err" else s +:+ "'".
Lemma part_leaf (P : gval → Prop) v : P v → (∀ x, part x v → x = v) → ∀ x, part x v → P x.
Proof. intros Hp H x Hx. by rewrite (H x Hx). Qed.
Ltac parts := repeat match goal with
  | H : part _ (GStruct _ _) |- _ => inversion H; clear H; subst
  | H : part _ (GSlice _ _) |- _ => inversion H; clear H; subst
  | H : part _ (GMap _ _) |- _ => inversion H; clear H; subst
  | H : part _ (GPtr _ _) |- _ => inversion H; clear H; subst
  | H : part _ (GIface _ _) |- _ => inversion H; clear H; subst
  | H : part _ (GString _ _) |- _ => inversion H; clear H; subst
  | H : part _ (GInt _ _) |- _ => inversion H; clear H; subst
  | H : part _ (GUint _ _) |- _ => inversion H; clear H; subst
  | H : part _ (GTime _ _) |- _ => inversion H; clear H; subst
  | H : part _ (GOther _) |- _ => inversion H; clear H; subst
  | H : _ ∈ [] |- _ => by apply elem_of_nil in H
  | H : (_, _) ∈ _ :: _ |- _ => apply elem_of_cons in H as [H|H]; [simplify_eq|]
  | H : _ ∈ _ :: _ |- _ => apply elem_of_cons in H as [->|H]
  end.
Example C41_ex :
  go_value ex_struct ∧ calm ex_struct ∧ ReflectValue ex_lower ex_struct = RVal ex_tree.
Proof.
  split_and!; [| |vm_compute; reflexivity].
  - intros x Hx. unfold ex_struct in Hx. parts; cbn; split_and!; auto; try done.
  - intros x Hx. unfold ex_struct in Hx. parts; cbn; split; done.
Qed.
Definition ex_chan : gval := GMap d_map [("k", GIface d_any (Some (GSlice d0 [GPtr d0 (Some (GOther d0))])))].
Example C41_ex2 :
  go_value ex_chan ∧ calm ex_chan ∧ common ex_chan ∧ refused ex_chan ∧
  ∀ lower, ReflectValue lower ex_chan = RErr (RKey "k" (RUnsupported "T")).
Proof.
  split_and!.
  - intros x Hx. unfold ex_chan in Hx. parts; cbn; split_and!; auto; try done.
  - intros x Hx. unfold ex_chan in Hx. parts; cbn; split; done.
  - unfold common, ex_chan. split_and!; intros; parts.
  - eapply re_map; [done|left|]. apply re_iface. eapply re_slice; [done|left|]. apply re_ptr; [done|]. by constructor.
  - done.
Qed.

(** The full statement is false.  The documentation says interfaces are converted to
    what they hold; one in a struct field is refused. *)
Theorem C41_interface_field_refuted : ∀ lower, ∃ v,
  go_value v ∧ calm v ∧ ¬ refused v ∧
  v = GStruct d0 [(mkF "F" true "" false, GIface d_any (Some (GInt (d_exact "int") 1)))] ∧
  ReflectValue lower v = RErr (RUnsupported "interface {}").
Proof.
  intros lower. eexists. split_and!; [| | |reflexivity|done].
  - intros x Hx. parts; cbn; split_and!; auto; try done.
  - intros x Hx. parts; cbn; split; done.
  - intros Hr. inversion Hr as [| | | | |? ? ? x ? Hin _ Hx]; subst. parts. inversion Hx as [|? ? Hx'| | | |]; subst. inversion Hx'.
Qed.
Print Assumptions C41_interface_field_refuted.
(** A uintptr is converted, a pointer to one is not. *)
Theorem C41_pointer_to_uintptr_refuted : ∀ lower d,
  ReflectValue lower (GUintptr (d_exact "uintptr") 1) = RVal (TUint 1) ∧
  (t_err d = None → ReflectValue lower (GPtr d (Some (GUintptr (d_exact "uintptr") 1))) = RErr (RUnsupported "uintptr")).
Proof. intros lower d. split; [done|]. intros He. cbn. unfold by_kind. cbn. by rewrite He. Qed.
Print Assumptions C41_pointer_to_uintptr_refuted.
(** The conversion panics on a struct with a nil error. *)
Theorem C41_nil_error_field_panics : ∀ lower,
  ReflectValue lower (GStruct d0 [(mkF "Err" true "" true, GIface (mkT "error" false (Some Panic) None) None)]) = RPanic.
Proof. done. Qed.
Print Assumptions C41_nil_error_field_panics.
(** Two keys that print alike: the later one hides the other, so the result depends
    on the order of the map. *)
Theorem C41_colliding_keys_refuted : ∀ lower, ∃ v v' t t', reordered v v' ∧
  ReflectValue lower v = RVal t ∧ ReflectValue lower v' = RVal t' ∧ t ≠ t'.
Proof.
  intros lower. set (a := ("1", GIface d_any (Some (GInt (d_exact "int") 1)))).
  set (b := ("1", GIface d_any (Some (GInt (d_exact "int") 2)))).
  exists (GMap (mkT "map[interface {}]interface {}" false None None) [a; b]),
         (GMap (mkT "map[interface {}]interface {}" false None None) [b; a]), (TObj [("1", TInt 2)]), (TObj [("1", TInt 1)]).
  split_and!; [|done|done|done].
  apply (ro_map _ _ [a; b]); [|apply perm_swap]. repeat constructor.
Qed.
Print Assumptions C41_colliding_keys_refuted.

(** ** C40 *)
Lemma mi_returned_no_nil t : no_nil_tree t → mi_returned t = returned t.
Proof.
  induction t as [| | | | | | | | |l IH| |m IH] using tree_ind'; intros Hn; try done.
  - apply no_nil_arr in Hn. simpl. f_equal. apply map_ext_in. intros t Ht. apply elem_of_list_In in Ht.
    rewrite Forall_forall in *. auto.
  - apply no_nil_obj in Hn. simpl. do 2 f_equal. apply map_ext_in. intros [k t] Ht. apply elem_of_list_In in Ht.
    rewrite Forall_forall in *. simpl. f_equal. by apply (IH (k, t)), (Hn (k, t)).
Qed.
Lemma entries_distinct_keys d m : msorted m → Forall (λ kv, tsorted kv.2) m → distinct_keys (GMap d (go_entries m)).
Proof.
  assert (∀ (m : gomap tree), msorted m → NoDup (map fst (go_entries m))) as Hnd.
  { intros m0 Hm. unfold go_entries. rewrite map_map. simpl. by apply msorted_NoDup. }
  assert (∀ t, tsorted t → ∀ d kvs, part (GMap d kvs) (GIface d_any (to_go t)) → NoDup (map fst kvs)) as Ht.
  { induction t as [| | | | | | | | |l IH| |m0 IH] using tree_ind'; intros Hs d' kvs Hp; inversion Hp as [| | | |? ? Hp'|]; clear Hp; subst;
      try (by inversion Hp').
    - inversion Hp' as [|? ? y Hy Hpy| | | |]; subst. by apply elem_of_nil in Hy.
    - inversion Hp' as [|? ? y Hy Hpy| | | |]; subst. apply elem_of_list_fmap in Hy as (t & -> & Hin).
      rewrite tsorted_arr in Hs. rewrite Forall_forall in *. eauto.
    - inversion Hp' as [| |? ? k y Hy Hpy| | |]; subst; [constructor|]. by apply elem_of_nil in Hy.
    - rewrite tsorted_obj in Hs. destruct Hs as [Hm Hs].
      inversion Hp' as [| |? ? k y Hy Hpy| | |]; subst; [by apply Hnd|].
      apply elem_of_list_fmap in Hy as ([k' t] & ? & Hin). simplify_eq. rewrite Forall_forall in *.
      eapply (IH (_, t)); [done|by apply (Hs (_, t))|done]. }
  intros Hm Hs d' kvs Hp. inversion Hp as [| |? ? k y Hy Hpy| | |]; subst; [by apply Hnd|].
  apply elem_of_list_fmap in Hy as ([k' t] & ? & Hin). simplify_eq. rewrite Forall_forall in Hs.
  eapply Ht; [by apply (Hs (k', t))|done].
Qed.

(** What comes back, for every event and every order: the fields in some order, each
    under its name without backslashes (nothing under an empty name), each value with
    nil made null, nil slices and maps made empty and dots in nested names escaped. *)
Theorem C40_exact : ∀ lower h e m fp, ev_rep h e m fp →
  ∃ n gm, (∀ f, (n ≤ f)%nat → mi_FromEvent f h e = Ok gm) ∧
    ∀ order h0 gm', (∀ l, Permutation (order l) l) → reordered (GMap d_map gm) (GMap d_map gm') →
      ∃ h' e' fp' l, mi_ToEvent lower order h0 gm' = RVal (h', e') ∧ Permutation l m ∧
        ev_rep h' e' (fold_left put_field (map (λ kv, (kv.1, mi_returned kv.2)) l) []) fp'.
Proof.
  intros lower h e m fp Hev. destruct (ev_rep_sorted _ _ _ _ Hev) as [Hm Hs].
  destruct (mi_FromEvent_rep h e m fp Hev) as (n & Hf). exists n, (go_entries m). split; [done|].
  intros order h0 gm' Hord Hre. unfold mi_ToEvent.
  rewrite (C41_order_irrelevant lower _ _ _ (entries_distinct_keys _ m Hm Hs) Hre (ReflectValue_entries lower m)).
  set (l0 := map (λ kv : string * tree, (EscapeKey kv.1, mi_returned kv.2)) m).
  assert (Permutation (order (mof_list l0)) l0) as Hp.
  { etrans; [apply Hord|]. apply mof_list_Permutation. unfold l0. rewrite map_map. simpl.
    apply msorted_NoDup in Hm. unfold mkeys in Hm. rewrite <- (map_map fst EscapeKey).
    apply (NoDup_fmap_2_strong EscapeKey); [|done]. intros; by apply EscapeKey_inj. }
  destruct (mi_put_all_ref (order (mof_list l0)) h0 newEvent [] [] (conj eq_refl eq_refl)) as (h' & e' & fp' & Hpa & Hev').
  { rewrite Hp. unfold l0. apply Forall_forall. intros kv Hin. apply elem_of_list_fmap in Hin as ([k t] & -> & Hin). simpl.
    assert (tsorted (mi_returned t) ∧ mi_returned t ≠ TNil) as Hok; [|done].
    pose proof (conv_to_go lower t) as Hc.
    assert (∀ t, go_value (GIface d_any (to_go t)) ∧ calm (GIface d_any (to_go t))) as Hgc.
    { clear. intros t.
      assert (∀ x, part x (GIface d_any (to_go t)) → go_rules_here x ∧ t_err (gdesc x) ≠ Some Panic ∧ t_str (gdesc x) ≠ Some Panic) as H.
      { assert (∀ x, (t_err (gdesc x) = None ∧ t_str (gdesc x) = None) →
          match x with GIface _ (Some y) => ∀ d o, y ≠ GIface d o | _ => True end →
          go_rules_here x ∧ t_err (gdesc x) ≠ Some Panic ∧ t_str (gdesc x) ≠ Some Panic) as Hh.
        { intros x [H1 H2] H3. unfold go_rules_here. rewrite H1, H2. split_and!; try done.
          destruct x as [| | | | | | | | | |d [y|]| |]; simpl in *; auto. }
        induction t as [| | | | | | | | |l IH| |m0 IH] using tree_ind'; intros x Hx;
          (inversion Hx as [| | | |? ? Hx'|]; clear Hx; subst; try (by apply Hh)).
        all: try (by inversion Hx'; subst; apply Hh).
        - inversion Hx' as [|? ? y Hy Hpy| | | |]; subst; [by apply Hh|]. by apply elem_of_nil in Hy.
        - inversion Hx' as [|? ? y Hy Hpy| | | |]; subst; [by apply Hh|].
          apply elem_of_list_fmap in Hy as (t & -> & Hin). rewrite Forall_forall in IH. eauto.
        - inversion Hx' as [| |? ? k y Hy Hpy| | |]; subst; [by apply Hh|]. by apply elem_of_nil in Hy.
        - inversion Hx' as [| |? ? k y Hy Hpy| | |]; subst; [by apply Hh|].
          apply elem_of_list_fmap in Hy as ([k' t] & ? & Hin). simplify_eq. rewrite Forall_forall in IH.
          by apply (IH (k', t) Hin). }
      split; intros x Hx; apply H in Hx as (? & ?); done. }
    destruct (Hgc t) as [Hg Hca]. pose proof (conv_sound lower _ Hg Hca true) as Hso. rewrite Hc in Hso.
    eapply mirrors_tree. apply Hso. }
  rewrite Hpa. clear Hpa.
  remember (order (mof_list l0)) as ol eqn:Hol. clear Hol. unfold l0 in Hp.
  destruct (Permutation_map_inv _ _ Hp) as (l & -> & Hl). exists h', e', fp', l. split_and!; [done|by symmetry|].
  rewrite <- (fold_put_escaped (map _ l)), map_map. exact Hev'.
Qed.
Print Assumptions C40_exact.

(** Full statement wanted: for every event.  Proved: the same fields come back for
    every event whose field names are non-empty without backslash (as all names stored
    by Put are), and whose values are [plain]: no nil values, slices or maps and no
    dotted names in nested objects. *)
Theorem C40_round_trip_partial : ∀ lower h e m fp, ev_rep h e m fp →
  Forall (λ kv, kv.1 ≠ "" ∧ has_backslash kv.1 = false ∧ plain kv.2) m →
  ∃ n gm, (∀ f, (n ≤ f)%nat → mi_FromEvent f h e = Ok gm) ∧
    ∀ order h0 gm', (∀ l, Permutation (order l) l) → reordered (GMap d_map gm) (GMap d_map gm') →
      ∃ h' e' fp', mi_ToEvent lower order h0 gm' = RVal (h', e') ∧ ev_rep h' e' m fp'.
Proof.
  intros lower h e m fp Hev Hp. destruct (ev_rep_sorted _ _ _ _ Hev) as [Hm Hs].
  destruct (C40_exact lower h e m fp Hev) as (n & gm & Hf & H). exists n, gm. split; [done|].
  intros order h0 gm' Hord Hre. destruct (H order h0 gm' Hord Hre) as (h' & e' & fp' & l & Ht & Hl & Hr).
  exists h', e', fp'. split; [done|].
  assert (map (λ kv : string * tree, (kv.1, mi_returned kv.2)) l = l) as Hid.
  { rewrite <- (map_id l) at 2. apply map_ext_in. intros [k t] Hin. apply elem_of_list_In in Hin.
    rewrite Hl in Hin. rewrite Forall_forall in Hp, Hs. destruct (Hp _ Hin) as (_ & _ & Hpl).
    specialize (Hs _ Hin). simpl in *. rewrite mi_returned_no_nil by (by apply plain_no_nil).
    by rewrite plain_returned. }
  rewrite Hid in Hr. rewrite (fold_put_field_perm l m) in Hr; [done|done|done|].
  eapply Forall_impl; [exact Hp|]. intros [k t] (? & ? & _). done.
Qed.
Print Assumptions C40_round_trip_partial.

Example C40_ex :
  (∃ h e outs fp, run emptyHeap newEvent pb_ops = Ok (h, e, outs) ∧ ev_rep h e pb_fields fp) ∧
  Forall (λ kv, kv.1 ≠ "" ∧ has_backslash kv.1 = false ∧ plain kv.2) pb_fields ∧
  (∀ l : list (string * tree), Permutation (rev l) l).
Proof.
  destruct C34_ex as (H1 & _ & H2). split_and!; [exact H1| |].
  - eapply Forall_impl; [exact H2|]. intros kv (? & ? & ? & _). done.
  - intros l. symmetry. apply Permutation_rev.
Qed.

(** What is not given back. *)
Lemma mi_comes_back k t : Forall eop_sorted [OPut (EscapeKey k) t] →
  k ≠ "" → has_backslash k = false → t ≠ TNil →
  ∃ ops h e outs fp gm n, run emptyHeap newEvent ops = Ok (h, e, outs) ∧ ev_rep h e [(k, t)] fp ∧
    (∀ f, (n ≤ f)%nat → mi_FromEvent f h e = Ok gm) ∧
    ∀ lower, ∃ h' e' fp', mi_ToEvent lower (λ l, l) h gm = RVal (h', e') ∧ ev_rep h' e' [(k, mi_returned t)] fp'.
Proof.
  intros Hs Hne Hb Hn.
  destruct (built [OPut (EscapeKey k) t] [(k, t)] [mkSRes None None]) as (h & e & outs & fp & Hr & Hev); [done| |].
  { cbn [srun sexec]. rewrite (proj2 (keyToPath_EscapeKey_iff k)) by done. by destruct t. }
  destruct (mi_FromEvent_rep h e _ fp Hev) as (n & Hf).
  exists [OPut (EscapeKey k) t], h, e, outs, fp, (go_entries [(k, t)]), n. split_and!; [done|done|done|].
  intros lower. destruct (C40_exact lower h e _ fp Hev) as (n2 & gm2 & Hf2 & H).
  assert (gm2 = go_entries [(k, t)]) as ->.
  { specialize (Hf (Nat.max n n2) ltac:(lia)). specialize (Hf2 (Nat.max n n2) ltac:(lia)). congruence. }
  destruct (H (λ l, l) h (go_entries [(k, t)])) as (h' & e' & fp' & l & Ht & Hl & Hr'); [done|constructor|].
  apply Permutation_singleton_r in Hl as ->. simpl in Hr'. unfold put_field in Hr'. simpl in Hr'.
  rewrite (proj1 (drop_backslashes_id k)) in Hr' by done.
  rewrite (proj2 (String.eqb_neq _ _)) in Hr' by done. eauto.
Qed.
Definition mi_comes_back_as (k : string) (t t' : tree) : Prop :=
  ∃ ops h e outs fp gm n, run emptyHeap newEvent ops = Ok (h, e, outs) ∧ ev_rep h e [(k, t)] fp ∧
    (∀ f, (n ≤ f)%nat → mi_FromEvent f h e = Ok gm) ∧
    ∀ lower, ∃ h' e' fp', mi_ToEvent lower (λ l, l) h gm = RVal (h', e') ∧ ev_rep h' e' [(k, t')] fp'.
Theorem C40_nested_dot_refuted :
  mi_comes_back_as "a" (TObj [("b.c", TInt 1)]) (TObj [("b\.c", TInt 1)]).
Proof. apply (mi_comes_back "a" (TObj [("b.c", TInt 1)])); try done. sorted_ops. Qed.
Print Assumptions C40_nested_dot_refuted.
Theorem C40_nil_slice_refuted : mi_comes_back_as "a" TNilArr (TArr []).
Proof. apply (mi_comes_back "a" TNilArr); try done. sorted_ops. Qed.
Print Assumptions C40_nil_slice_refuted.
Theorem C40_nil_value_refuted : mi_comes_back_as "a" (TArr [TNil]) (TArr [TNull]).
Proof. apply (mi_comes_back "a" (TArr [TNil])); try done. sorted_ops. Qed.
Print Assumptions C40_nil_value_refuted.

(** ** C50 *)
(** ToEvent on any map: an error iff something unsupported is met, else an event
    with exactly the map's entries (names non-empty, without backslash) as fields, each
    showing the entry's value, whatever the orders. *)
Theorem C50_ToEvent_fields : ∀ lower order h m,
  (∀ l, Permutation (order l) l) → NoDup (map fst m) →
  Forall (λ kv, kv.1 ≠ "" ∧ has_backslash kv.1 = false) m →
  go_value (GMap d_map m) → calm (GMap d_map m) →
  (¬ unsupported true (GMap d_map m) ∧
   ∃ h' e' fp' ts, mi_ToEvent lower order h m = RVal (h', e') ∧
     Forall2 (λ kv t, mirrors lower true kv.2 t) m ts ∧
     ev_rep h' e' (mof_list (zip (map fst m) ts)) fp') ∨
  (unsupported true (GMap d_map m) ∧ ∃ e, mi_ToEvent lower order h m = RErr e).
Proof.
  intros lower order h m Hord Hnd Hk Hg Hc.
  destruct (mi_ToEvent_ok lower order h m Hord Hnd Hg Hc) as [(ts & Hts & Hn & h' & e' & fp' & l & Ht & Hl & Hev)|?]; [|by right].
  left. split; [done|]. exists h', e', fp', ts. split_and!; [done|done|].
  assert (map fst (zip (map fst m) ts) = map fst m) as Hfst.
  { apply Forall2_length in Hts. clear -Hts. revert ts Hts. induction m as [|[k x] m IH]; intros [|t ts] H; simpl in *; try done.
    f_equal. apply IH. lia. }
  assert (Forall (λ kv : string * tree, kv.1 ≠ "" ∧ has_backslash kv.1 = false) l) as Hkl.
  { rewrite Hl. apply Forall_forall. intros [k t] Hin. simpl.
    assert (k ∈ map fst (zip (map fst m) ts)) as Hin2 by (apply elem_of_list_fmap; by exists (k, t)).
    rewrite Hfst in Hin2. apply elem_of_list_fmap in Hin2 as ([k' x] & -> & Hin2).
    rewrite Forall_forall in Hk. by apply (Hk _ Hin2). }
  rewrite fold_put_field in Hev by done. rewrite <- (mof_list_permutation l); [done| |done].
  apply (NoDup_Permutation_proper _ _ (Permutation_map fst Hl)). by rewrite Hfst.
Qed.
Print Assumptions C50_ToEvent_fields.

Example C50_ex :
  let m := [("a.b", GIface d_any (Some (GInt (d_exact "int") 3))); ("c", GIface d_any (Some ex_struct))] in
  NoDup (map fst m) ∧ Forall (λ kv, kv.1 ≠ "" ∧ has_backslash kv.1 = false) m ∧
  go_value (GMap d_map m) ∧ calm (GMap d_map m) ∧
  ∃ h e, mi_ToEvent ex_lower (@rev _) emptyHeap m = RVal (h, e) ∧
    match Get h e "a\.b" with Ok (h', op) => deref h' op = Ok (mkInteger 3) | Panic => False end.
Proof.
  cbv zeta. split_and!.
  - apply (bool_decide_eq_true_1 _). vm_compute. reflexivity.
  - by repeat constructor.
  - intros x Hx. unfold ex_struct in Hx. parts; cbn; split_and!; auto; try done.
  - intros x Hx. unfold ex_struct in Hx. parts; cbn; split; done.
  - eexists _, _. split; [vm_compute; reflexivity|vm_compute; reflexivity].
Qed.
