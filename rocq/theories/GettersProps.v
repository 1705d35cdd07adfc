(** * Reading a message: C83.

    The getters of Getters.v, chained; [walk v p]: the value at position [p] of [v] ([Panic]: an
    index out of range); [top_fields msg]: the fields of a message; [entry fs k]: fs[k].
    [at_pos t p t']: in the tree [t], [t'] is at [p] (None: no such field); [reads v t]: what all
    getters of [v] say is [t].  [FromEvent f h e], [ev_rep h e m fp], [wsame]: as in
    ProtobufProps.v. *)
From Verif Require Import Getters ProtobufProps WireProps EventProps.
Local Open Scope Z_scope.

(** What is found at a position of a message, and when an index is out of range. *)
Definition finds (msg : option pwrapper) (m : gomap tree) : Prop :=
  (∀ k, k ∈ map fst (top_fields msg) ↔ k ∈ map fst m) ∧
  ∀ k p, (∀ t, at_pos (mget k m) p t → ∃ v, walk (entry (top_fields msg) k) p = Ok v ∧ reads v t) ∧
    ((¬ ∃ t, at_pos (mget k m) p t) → walk (entry (top_fields msg) k) p = Panic).
Lemma finds_same m msg : wsame (event_message m) msg → finds (Some msg) m.
Proof. intros H. split; [intros k; by apply top_names|]. intros k p. apply walk_from. by apply top_same. Qed.

(** A message made from an event shows just the event, wherever one looks, and in whatever
    order its maps are kept. *)
Theorem C83_reads_event : ∀ h e m fp, ev_rep h e m fp → ∃ n msg, (∀ f, (n ≤ f)%nat → FromEvent f h e = Ok msg) ∧
  ∀ msg', wsame msg msg' → finds (Some msg') m.
Proof.
  intros h e m fp He. destruct (FromEvent_rep h e m fp He) as (n & Hf). exists n, (event_message m). split; [done|]. intros msg'. apply finds_same.
Qed.
Print Assumptions C83_reads_event.
(** And so does what is decoded from its bytes: unlike in the event that ToLogEvent makes of
    it (C34), names with dots are kept, and an event without fields is no exception. *)
Theorem C83_reads_bytes : ∀ h e m fp, ev_rep h e m fp → Forall (λ kv, no_nil_tree kv.2 ∧ in_range kv.2) m →
  ∃ n msg, (∀ f, (n ≤ f)%nat → FromEvent f h e = Ok msg) ∧
    ∀ msg1, wsame msg msg1 → keys_ok_wrapper msg1 → size_wrapper msg1 < 2 ^ 63 →
      ∃ d msg2, Marshal msg1 = Ok d ∧ Unmarshal d = ROk msg2 ∧ ∀ msg3, wsame msg2 msg3 → finds (Some msg3) m.
Proof.
  intros h e m fp He Hm. destruct (FromEvent_rep h e m fp He) as (n & Hf). destruct (ev_rep_sorted _ _ _ _ He) as [Hs Ht].
  exists n, (event_message m). split; [done|]. intros msg1 H1 Hk Hz.
  assert (wf_wrapper msg1) as Hw.
  { apply (wsame_wf (event_message m)); [|done|done]. apply event_message_wf; [done|done| |].
    - eapply Forall_impl; [exact Hm|]. by intros [k t] [? ?].
    - eapply Forall_impl; [exact Hm|]. by intros [k t] [? ?]. }
  destruct (C35_round_trip_partial msg1 Hw Hz) as (d & msg2 & Hd & Hu & H2). exists d, msg2. split; [done|]. split; [done|].
  intros msg3 H3. apply finds_same. eapply wsame_trans; [exact H1|]. by eapply wsame_trans.
Qed.
Print Assumptions C83_reads_bytes.
Lemma tget_at ks : ∀ k m t, tget (k :: ks) m = Ok t → ∃ t', at_pos (mget k m) (map Field ks) t' ∧ (t' = t ∨ t' = Some TNil ∧ t = None).
Proof.
  assert (∀ ks, at_pos None (map Field ks) None) as Hnone by (intros l; induction l as [|k l IH]; [constructor|by apply at_no_fields]).
  induction ks as [|k2 ks IH]; intros k m t H; cbn [tget map] in *.
  - destruct (mget k m) as [x|]; [|injection H as <-; exists None; split; [constructor|by left]].
    destruct x; injection H as <-; eexists; (split; [constructor|]); try (by left). by right.
  - destruct (mget k m) as [x|]; [|injection H as <-; exists None; split; [by apply (Hnone (k2 :: ks))|by left]].
    destruct x as [| | | | | | | | | | |mi]; try done; try (injection H as <-; exists None; split; [by apply at_no_fields|by left]).
    destruct (IH k2 mi t H) as (t' & Ha & Ht). exists t'. split; [by apply at_field|done].
Qed.
(** The fields of the message are those that Get finds in the event. *)
Theorem C83_agrees_with_Get : ∀ h e m fp key k ks h' op, ev_rep h e m fp → spec_path key = k :: ks → Get h e key = Ok (h', op) →
  ∃ n msg, (∀ f, (n ≤ f)%nat → FromEvent f h e = Ok msg) ∧ ∀ msg', wsame msg msg' →
    ∃ v t, walk (entry (top_fields (Some msg')) k) (map Field ks) = Ok v ∧ reads v t ∧
      match op with Some p => ∃ tp fpt, t = Some tp ∧ rep h' (Some p) tp fpt | None => t = None end.
Proof.
  intros h e m fp key k ks h' op He Hp Hg. destruct (C83_reads_event h e m fp He) as (n & msg & Hf & Hmsg). exists n, msg. split; [done|].
  intros msg' Hs. destruct (Hmsg msg' Hs) as [_ Hw]. rewrite (proj1 (C01_keys_parse_as_documented h e key None)), Hp in Hg.
  pose proof (get_path_ref (k :: ks) h e m fp He) as H. destruct (tget (k :: ks) m) as [t|] eqn:E; [|congruence].
  destruct (tget_at ks k m t E) as (t' & Ha & Ht). destruct (proj1 (Hw k (map Field ks)) t' Ha) as (v & Hv & Hr). exists v, t. split; [done|].
  split; [destruct Ht as [-> |[-> ->]]; [done|by apply reads_nil]|].
  destruct t as [tp|]; [|rewrite H in Hg; by injection Hg as _ <-]. destruct H as (h2 & p & fpt & E2 & Hrep & _). rewrite E2 in Hg. injection Hg as <- <-. by exists tp, fpt.
Qed.
Print Assumptions C83_agrees_with_Get.
(** What is not there reads as nothing, below it, too. *)
Theorem C83_absent : ∀ ks, walk None (map Field ks) = Ok None ∧ reads None None ∧ top_fields None = [] ∧ GetItems None = [].
Proof.
  intros ks. split; [|split; [apply reads_from; constructor|done]]. induction ks as [|k ks IH]; [done|]. exact IH.
Qed.
Print Assumptions C83_absent.
(** A value is of one kind: of two getters (for different kinds) one gives nothing. *)
Theorem C83_one_kind : ∀ v, let given := [bool_decide (GetNull v ≠ 0); GetBoolean v; bool_decide (GetFloat v ≠ 0); bool_decide (GetInteger v ≠ 0);
    bool_decide (GetUnsignedInteger v ≠ 0); bool_decide (GetTimestamp v ≠ 0); bool_decide (GetString_ v ≠ None);
    match GetArray v with None => false | _ => true end; match Value_GetObject v with None => false | _ => true end] in
  ∀ i j, given !! i = Some true → given !! j = Some true → i = j.
Proof.
  intros v given i j Hi Hj. destruct (decide (i < 9)%nat) as [Li|Li]; [|by rewrite lookup_ge_None_2 in Hi by (cbn; lia)].
  destruct (decide (j < 9)%nat) as [Lj|Lj]; [|by rewrite lookup_ge_None_2 in Hj by (cbn; lia)].
  subst given. destruct v as [[k u]|]; [destruct k|]; do 9 (try destruct i as [|i]); try lia; cbn in Hi; try done;
    do 9 (try destruct j as [|j]); try lia; cbn in Hj; done.
Qed.
Print Assumptions C83_one_kind.
(** GetNull tells nothing: a null reads like a field that is not there, and like any other
    value; only GetKind tells. *)
Theorem C83_null_refuted : ∃ v, reads v (Some TNull) ∧ GetKind v ≠ GetKind None ∧ ∀ v' t', reads v' t' → GetNull v' = GetNull v.
Proof.
  exists (from_tree TNull). split; [apply reads_from; apply os_some, psame_refl|]. split; [done|].
  intros v' t' H. by destruct H as (_ & -> & _).
Qed.
Print Assumptions C83_null_refuted.
(** The event of C34_ex: a string two maps deep under a name with a dot, and an item of an array. *)
Example C83_ex : ∃ h e fp n msg, ev_rep h e pb_fields fp ∧ (∀ f, (n ≤ f)%nat → FromEvent f h e = Ok msg) ∧
  (∃ v, walk (entry (top_fields (Some msg)) "x.y") [Field "k"] = Ok v ∧ GetString_ v = Some (list_ascii_of_string "v")) ∧
  (∃ v, walk (entry (top_fields (Some msg)) "a") [Field "b"; Item 1] = Ok v ∧ GetInteger v = -7) ∧
  walk (entry (top_fields (Some msg)) "a") [Field "b"; Item 2] = Panic ∧
  Forall (λ kv, no_nil_tree kv.2 ∧ in_range kv.2) pb_fields.
Proof.
  destruct C34_ex as [(h & e & outs & fp & _ & He) [_ Hp]]. destruct (FromEvent_rep h e _ fp He) as (n & Hf). exists h, e, fp, n, (event_message pb_fields).
  split; [done|]. split; [done|]. split; [by eexists|]. split; [by eexists|]. split; [done|].
  eapply Forall_impl; [exact Hp|]. intros [k t] (_ & _ & H & H'). split; [by apply plain_no_nil|done].
Qed.
