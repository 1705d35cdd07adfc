(** * Property theorems for the protobuf conversion: C34, C39.

    [FromEvent f h e]: [f] bounds the nesting depth the recursion may reach, any
    large enough [f] gives the same message.  [ev_rep h e m fp]: event [e] in heap
    [h] shows the fields [m].  [wsame msg msg']: [msg'] is [msg] with its maps visited
    in some other order; [keys_ok_wrapper]: no key occurs twice in a map.  A result
    [Some e'] is a non-nil event. *)
From Verif Require Import ProtobufEnd WireProps EventProps.
Local Open Scope Z_scope.

(** ** C34 *)
(** What comes back, for every event without nil values and every order: the fields
    in some order, each under its name without backslashes (nothing under an empty
    name), each value with nil slices and maps made empty and dots in field names
    escaped. *)
Theorem C34_exact : ∀ h e m fp, ev_rep h e m fp → Forall (λ kv, no_nil_tree kv.2) m →
  ∃ n msg, (∀ f, (n ≤ f)%nat → FromEvent f h e = Ok msg) ∧
    ∀ h0 msg', wsame msg msg' → keys_ok_wrapper msg' →
      (m = [] → ToLogEvent h0 (GetLog msg') = Ok (h0, None)) ∧
      (m ≠ [] → ∃ h' e' fp' l, ToLogEvent h0 (GetLog msg') = Ok (h', Some e') ∧ Permutation l m ∧
         ev_rep h' e' (fold_left put_field (map (λ kv, (kv.1, returned kv.2)) l) []) fp').
Proof.
  intros h e m fp Hev Hn. destruct (ev_rep_sorted _ _ _ _ Hev) as [Hm Hs].
  destruct (FromEvent_rep h e m fp Hev) as (n & Hf). exists n, (event_message m). split; [done|].
  intros h0 msg' Hw Hk. by apply ToLogEvent_reordered.
Qed.
Print Assumptions C34_exact.

(** Full statement wanted: for every event.  Proved: the same fields come back for
    every event with a field, whose field names are non-empty without backslash (as
    all names stored by Put are), and whose values are [plain]: no nil values, slices
    or maps and no dotted names in nested objects. *)
Theorem C34_round_trip_partial : ∀ h e m fp, ev_rep h e m fp → m ≠ [] →
  Forall (λ kv, kv.1 ≠ "" ∧ has_backslash kv.1 = false ∧ plain kv.2) m →
  ∃ n msg, (∀ f, (n ≤ f)%nat → FromEvent f h e = Ok msg) ∧
    ∀ h0 msg', wsame msg msg' → keys_ok_wrapper msg' →
      ∃ h' e' fp', ToLogEvent h0 (GetLog msg') = Ok (h', Some e') ∧ ev_rep h' e' m fp'.
Proof.
  intros h e m fp Hev Hne Hp. destruct (ev_rep_sorted _ _ _ _ Hev) as [Hm Hs].
  assert (Forall (λ kv, no_nil_tree kv.2) m) as Hn.
  { eapply Forall_impl; [exact Hp|]. intros [k t] (_ & _ & H). by apply plain_no_nil. }
  destruct (FromEvent_rep h e m fp Hev) as (n & Hf). exists n, (event_message m). split; [done|].
  intros h0 msg' Hw Hk. destruct (ToLogEvent_reordered h0 m msg' Hm Hs Hn Hw Hk) as [_ H].
  destruct (H Hne) as (h' & e' & fp' & l & Ht & Hl & Hr). exists h', e', fp'. split; [done|].
  assert (map (λ kv : string * tree, (kv.1, returned kv.2)) l = l) as Hid.
  { rewrite <- (map_id l) at 2. apply map_ext_in. intros [k t] Hin. apply elem_of_list_In in Hin.
    rewrite Hl in Hin. rewrite Forall_forall in Hp, Hs. destruct (Hp _ Hin) as (_ & _ & Hpl).
    specialize (Hs _ Hin). simpl in *. by rewrite plain_returned. }
  rewrite Hid in Hr. rewrite (fold_put_field_perm l m) in Hr; [done|done|done|].
  eapply Forall_impl; [exact Hp|]. intros [k t] (? & ? & _). done.
Qed.
Print Assumptions C34_round_trip_partial.

(** The same through bytes: whatever order FromEvent's maps are marshalled in, and
    whatever order the decoded ones are read in. *)
Theorem C34_bytes_round_trip_partial : ∀ h e m fp, ev_rep h e m fp → m ≠ [] →
  Forall (λ kv, kv.1 ≠ "" ∧ has_backslash kv.1 = false ∧ plain kv.2 ∧ in_range kv.2) m →
  ∃ n msg, (∀ f, (n ≤ f)%nat → FromEvent f h e = Ok msg) ∧
    ∀ msg1, wsame msg msg1 → keys_ok_wrapper msg1 → size_wrapper msg1 < 2 ^ 63 →
      ∃ d msg2, Marshal msg1 = Ok d ∧ Unmarshal d = ROk msg2 ∧
        ∀ h0 msg3, wsame msg2 msg3 → keys_ok_wrapper msg3 →
          ∃ h' e' fp', ToLogEvent h0 (GetLog msg3) = Ok (h', Some e') ∧ ev_rep h' e' m fp'.
Proof.
  intros h e m fp Hev Hne Hp. destruct (ev_rep_sorted _ _ _ _ Hev) as [Hm Hs].
  destruct (C34_round_trip_partial h e m fp Hev Hne) as (n & msg & Hf & Hback).
  { eapply Forall_impl; [exact Hp|]. intros [k t] (? & ? & ? & _). done. }
  exists n, msg. split; [done|]. intros msg1 Hw1 Hk1 Hsz.
  assert (msg = event_message m) as ->.
  { destruct (FromEvent_rep h e m fp Hev) as (n2 & Hf2).
    specialize (Hf (Nat.max n n2)). specialize (Hf2 (Nat.max n n2)). rewrite Hf in Hf2 by lia.
    specialize (Hf2 ltac:(lia)). congruence. }
  assert (wf_wrapper msg1) as Hwf.
  { apply (wsame_wf (event_message m)); [|done|done]. apply event_message_wf; [done|done| |].
    - eapply Forall_impl; [exact Hp|]. intros [k t] (_ & _ & H & _). by apply plain_no_nil.
    - eapply Forall_impl; [exact Hp|]. intros [k t] (_ & _ & _ & H). done. }
  destruct (C35_round_trip_partial msg1 Hwf Hsz) as (d & msg2 & Hd & Hu & Hsame).
  exists d, msg2. split_and!; [done|done|]. intros h0 msg3 Hw3 Hk3. apply Hback; [|done].
  eapply wsame_trans; [done|]. by eapply wsame_trans.
Qed.
Print Assumptions C34_bytes_round_trip_partial.

(** A non-trivial event, built by Put, meets the hypotheses. *)
Definition pb_ops : list eop :=
  [OPut "a.b" (TArr [TNull; TInt (-7)]); OPut "x\.y" (TObj [("\", TTime 1); ("k", TStr "v")]); OPut "f" (TFloat 0)].
Definition pb_fields : gomap tree :=
  [("a", TObj [("b", TArr [TNull; TInt (-7)])]); ("f", TFloat 0); ("x.y", TObj [("\", TTime 1); ("k", TStr "v")])].
Lemma built (ops : list eop) m rs : Forall eop_sorted ops → srun [] ops = Ok (m, rs) →
  ∃ h e outs fp, run emptyHeap newEvent ops = Ok (h, e, outs) ∧ ev_rep h e m fp.
Proof.
  intros Hs Hr. pose proof (run_ref ops emptyHeap newEvent [] [] (conj eq_refl eq_refl) Hs) as H.
  rewrite Hr in H. destruct H as (h & e & outs & fp & H1 & _ & H2). eauto 10.
Qed.
Ltac sorted_ops := repeat (apply List.Forall_cons; [|try apply List.Forall_nil]);
  cbn; repeat split; repeat constructor; try done.
Example C34_ex :
  (∃ h e outs fp, run emptyHeap newEvent pb_ops = Ok (h, e, outs) ∧ ev_rep h e pb_fields fp) ∧
  pb_fields ≠ [] ∧ Forall (λ kv, kv.1 ≠ "" ∧ has_backslash kv.1 = false ∧ plain kv.2 ∧ in_range kv.2) pb_fields.
Proof.
  split; [|split; [done|]].
  - eapply (built pb_ops); [sorted_ops|vm_compute; reflexivity].
  - repeat (apply List.Forall_cons; [|try apply List.Forall_nil]); cbn -[Z.pow]; split_and!; try done;
      try (apply (bool_decide_eq_true_1 _); vm_compute; reflexivity); lia.
Qed.

(** Not every event comes back: a dot inside a nested field name gains a backslash,
    a nil slice becomes an empty one, and an event without fields becomes nil. *)
Definition comes_back_as (m : gomap tree) (back : option (gomap tree)) : Prop :=
  ∃ ops h e outs fp n, run emptyHeap newEvent ops = Ok (h, e, outs) ∧ ev_rep h e m fp ∧
    ∃ msg, (∀ f, (n ≤ f)%nat → FromEvent f h e = Ok msg) ∧
    match back with
    | None => ToLogEvent h (GetLog msg) = Ok (h, None)
    | Some m' => ∃ h' e' fp', ToLogEvent h (GetLog msg) = Ok (h', Some e') ∧ ev_rep h' e' m' fp'
    end.
Lemma comes_back_one k t : Forall eop_sorted [OPut (EscapeKey k) t] →
  k ≠ "" → has_backslash k = false → no_nil_tree t → comes_back_as [(k, t)] (Some [(k, returned t)]).
Proof.
  intros Hs Hne Hb Hn.
  destruct (built [OPut (EscapeKey k) t] [(k, t)] [mkSRes None None]) as (h & e & outs & fp & Hr & Hev); [done| |].
  { cbn [srun sexec]. rewrite (proj2 (keyToPath_EscapeKey_iff k)) by done. by destruct t. }
  destruct (C34_exact h e _ fp Hev) as (n & msg & Hf & Hback); [by repeat constructor|].
  assert (msg = event_message [(k, t)]) as ->.
  { destruct (FromEvent_rep h e _ fp Hev) as (n2 & Hf2).
    specialize (Hf (Nat.max n n2)). specialize (Hf2 (Nat.max n n2)). rewrite Hf in Hf2 by lia.
    specialize (Hf2 ltac:(lia)). congruence. }
  destruct (Hback h (event_message [(k, t)])) as [_ H].
  - destruct (ev_rep_sorted _ _ _ _ Hev) as [_ Ht]. apply Forall_cons in Ht as [Ht _].
    split; [|done]. simpl. apply os_some, os_some. split; [|done]. simpl. apply os_some. split; [|done].
    intros key. simpl. destruct (String.eqb key k); constructor. simpl in *.
    destruct (from_tree t); constructor. apply psame_refl.
  - destruct (ev_rep_sorted _ _ _ _ Hev) as [_ Ht]. apply Forall_cons in Ht as [Ht _].
    unfold keys_ok_wrapper, keys_ok_obj. simpl. split; [apply NoDup_singleton|]. apply List.Forall_cons; [|constructor].
    simpl. by apply from_tree_keys.
  - destruct (H ltac:(done)) as (h' & e' & fp' & l & Ht & Hl & Hr').
    apply Permutation_singleton_r in Hl as ->. simpl in Hr'. unfold put_field in Hr'. simpl in Hr'.
    rewrite (proj1 (drop_backslashes_id k)) in Hr' by done.
    rewrite (proj2 (String.eqb_neq _ _)) in Hr' by done. simpl in Hr'.
    exists [OPut (EscapeKey k) t], h, e, outs, fp, n. split_and!; [done|done|].
    exists (event_message [(k, t)]). split; [done|]. eauto.
Qed.
Theorem C34_nested_dot_refuted :
  comes_back_as [("a", TObj [("b.c", TInt 1)])] (Some [("a", TObj [("b\.c", TInt 1)])]).
Proof. apply (comes_back_one "a" (TObj [("b.c", TInt 1)])); try done. sorted_ops. Qed.
Print Assumptions C34_nested_dot_refuted.
Theorem C34_nil_slice_refuted : comes_back_as [("a", TNilArr)] (Some [("a", TArr [])]).
Proof. apply (comes_back_one "a" TNilArr); try done. sorted_ops. Qed.
Print Assumptions C34_nil_slice_refuted.
Theorem C34_empty_event_refuted : comes_back_as [] None.
Proof.
  exists [], emptyHeap, newEvent, [], [], 0%nat. split; [done|]. split; [done|].
  exists (event_message []). split; [|done]. intros f _. done.
Qed.
Print Assumptions C34_empty_event_refuted.
(** A nil item, which Put accepts inside an array, makes the conversion back panic. *)
Theorem C34_nil_item_refuted : ∃ ops h e outs msg,
  run emptyHeap newEvent ops = Ok (h, e, outs) ∧ FromEvent 5 h e = Ok msg ∧
  ToLogEvent h (GetLog msg) = Panic ∧ Marshal msg = Panic.
Proof.
  exists [OPut "a" (TArr [TNil])]. eexists _, _, _, _. split; [vm_compute; reflexivity|].
  split; [vm_compute; reflexivity|]. split; vm_compute; reflexivity.
Qed.
Print Assumptions C34_nil_item_refuted.

(** ** C39 *)
(** ToLogEvent panics exactly for messages with a [bad_value]: nil, without a kind,
    or a typed nil array or object. *)
Theorem C39_panics_iff : ∀ h m,
  ToLogEvent h (GetLog m) = Panic ↔
  ∃ l o k x, mw_log m = Some (Some l) ∧ lg_object l = Some o ∧ (k, x) ∈ po_fields o ∧ bad_value x.
Proof.
  intros h [lg u]. unfold GetLog. simpl. destruct lg as [[l|]|].
  2,3: split; [done|by intros (? & ? & ? & ? & ? & _)].
  simpl. destruct (lg_object l) as [o|] eqn:E.
  2: split; [done|intros (? & ? & ? & ? & ? & ? & _); simplify_eq; congruence].
  pose proof (put_all_panic (po_fields o) h newEvent [] [] (conj eq_refl eq_refl)) as H.
  destruct (put_all h newEvent (po_fields o)) as [[h' e']|]; cbn [obind].
  - split; [done|]. intros (l' & o' & k & x & H1 & H2 & H3 & H4). simplify_eq.
    assert (Ok (h', e') = Panic) as Hc by (apply H; eauto). done.
  - split; [|done]. intros _. destruct (proj1 H eq_refl) as (k & x & H1 & H2). exists l, o, k, x. done.
Qed.
Print Assumptions C39_panics_iff.

(** Full statement wanted: never for a decoded message.  Proved: never when every
    value, at every depth, was sent with a kind. *)
Fixpoint kinds_set (v : pval) : Prop :=
  match v with PVal k _ => k ≠ KNil ∧ kind_each kinds_set k ∧
    match k with KObject (Some o) => Forall (λ kv, kv.2 ≠ None) (po_fields o) | _ => True end end.
Lemma kinds_set_good v : wf_value v → kinds_set v → ¬ bad_value (Some v).
Proof.
  induction v as [k u IH] using pval_ind'. intros (_ & Hsh & Hw) (Hk & Hall & Hfs) Hb.
  rewrite kind_each_all in Hw, Hall.
  inversion Hb as [|? |? |? |items ua ? x Hin Hx|fs uo ? key x Hin Hx]; subst; try done; simpl in *.
  - destruct Hsh as [Hni _]. rewrite Forall_forall in *. destruct x as [v|]; [|by apply (Hni _ Hin)].
    by apply (IH _ Hin); [apply (Hw _ Hin)|apply (Hall _ Hin)|].
  - rewrite Forall_forall in *. destruct x as [v|]; [|by apply (Hfs _ Hin)].
    by apply (IH _ Hin); [apply (Hw _ Hin)|apply (Hall _ Hin)|].
Qed.
Theorem C39_no_panic_partial : ∀ b m h, len b < 2 ^ 63 → Unmarshal b = ROk m →
  (∀ l o k x, mw_log m = Some (Some l) → lg_object l = Some o → (k, x) ∈ po_fields o →
     ∃ v, x = Some v ∧ kinds_set v) →
  ToLogEvent h (GetLog m) ≠ Panic.
Proof.
  intros b m h Hb Hu Hk Hp. destruct (Unmarshal_good b m Hb Hu) as [[Hw _] _].
  apply C39_panics_iff in Hp as (l & o & k & x & H1 & H2 & H3 & H4).
  destruct (Hk l o k x H1 H2 H3) as (v & -> & Hv).
  rewrite H1 in Hw. destruct Hw as [Ho _]. rewrite H2 in Ho. destruct Ho as [_ Ho].
  destruct o as [fs uo]. simpl in *. rewrite Forall_forall in Ho. specialize (Ho _ H3). simpl in Ho.
  by apply (kinds_set_good v).
Qed.
Print Assumptions C39_no_panic_partial.

Example C39_ex : ∃ m l o, Unmarshal (map ascii_of_nat [10; 11; 10; 9; 10; 7; 10; 1; 97; 18; 2; 24; 1]%nat) = ROk m ∧
  mw_log m = Some (Some l) ∧ lg_object l = Some o ∧ po_fields o = [("a", Some (PVal (KBool true) []))] ∧
  kinds_set (PVal (KBool true) []).
Proof. eexists _, _, _. split_and!; try (vm_compute; reflexivity); done. Qed.

(** Nine bytes that Unmarshal accepts and ToLogEvent panics on: a map entry with a
    key and no value. *)
Theorem C39_decoded_panics_refuted : ∃ b m, Unmarshal b = ROk m ∧ ∀ h, ToLogEvent h (GetLog m) = Panic.
Proof.
  exists (map ascii_of_nat [10; 7; 10; 5; 10; 3; 10; 1; 97]%nat). eexists. split; [vm_compute; reflexivity|].
  intros h. apply C39_panics_iff. eexists _, _, "a", None. simpl. split_and!; [reflexivity|reflexivity|left|constructor].
Qed.
Print Assumptions C39_decoded_panics_refuted.
