(** * The event made of a message, of any message: C84.

    [conveys x t]: what the value [x] of a message says, by its getters; [event_says fs m]: an
    event with the fields [m] says what a message with the fields [fs] says (ToEvent.v, under
    "Specification").  [top_fields m]: m.GetLog().GetObject().GetFields().  [keys_ok]: no map
    has two entries of one name, which holds of every Go map. *)
From Verif Require Import ToEvent ProtobufProps WireProps.
Local Open Scope Z_scope.

(** The value made of a value of a message is what the getters say; where there is none,
    toEventValue crashes. *)
Theorem C84_value : ∀ x t, opt_all keys_ok x → toEventValue x = Ok t ↔ conveys x t.
Proof. exact conveys_to. Qed.
Print Assumptions C84_value.
Theorem C84_one_meaning : ∀ x t t', opt_all keys_ok x → conveys x t → conveys x t' → t = t'.
Proof. intros x t t' Hk H H'. apply conveys_to in H, H'; [|done..]. congruence. Qed.
Print Assumptions C84_one_meaning.
(** ToLogEvent of a message: nil if the log has no object, or there is none; an event if
    every field says something; a crash otherwise. *)
Theorem C84_event : ∀ h0 m, keys_ok_wrapper m →
  (Log_GetObject (Wrapper_GetLog (Some m)) = None ∧ ToLogEvent h0 (GetLog m) = Ok (h0, None)) ∨
  (Log_GetObject (Wrapper_GetLog (Some m)) ≠ None ∧ (∀ k v, (k, v) ∈ top_fields (Some m) → ∃ t, conveys v t) ∧
    ∃ h' e' fields fp, ToLogEvent h0 (GetLog m) = Ok (h', Some e') ∧ ev_rep h' e' fields fp ∧ event_says (top_fields (Some m)) fields) ∨
  ((∃ k v, (k, v) ∈ top_fields (Some m) ∧ ¬ ∃ t, conveys v t) ∧ ToLogEvent h0 (GetLog m) = Panic).
Proof.
  intros h0 m Hk. destruct (keys_ok_top m Hk) as [Hnd Hv]. unfold top_fields in *. unfold Wrapper_GetLog in *. unfold ToLogEvent.
  destruct (GetLog m) as [l|]; [|by left]. unfold Log_GetObject in *. destruct (lg_object l) as [o|]; [|by left]. right. cbn [GetFields] in *.
  destruct (put_all h0 newEvent (po_fields o)) as [[h' e']|] eqn:E; cbn [obind].
  - left. split; [done|]. assert (∀ k v, (k, v) ∈ po_fields o → ∃ t, toEventValue v = Ok t) as Hall.
    { intros k v Hin. destruct (toEventValue v) as [t|] eqn:Et; [by exists t|]. apply toEventValue_bad in Et.
      assert (put_all h0 newEvent (po_fields o) = Panic); [|congruence]. apply (put_all_panic _ h0 newEvent [] []); [done|]. by exists k, v. }
    assert (∃ ts, Forall2 (λ kv t, toEventValue kv.2 = Ok t) (po_fields o) ts) as [ts Hts].
    { clear -Hall. induction (po_fields o) as [|[k v] fs IH]; [exists []; apply Forall2_nil_2|]. destruct (Hall k v) as [t Ht]; [by left|].
      destruct IH as [ts Hts]; [intros k' v' Hin; apply (Hall k'); by right|]. exists (t :: ts). by apply Forall2_cons_2. }
    rewrite Forall_forall in Hv. split.
    + intros k v Hin. destruct (Hall k v Hin) as [t Ht]. exists t. apply conveys_to; [|done]. exact (Hv (k, v) Hin).
    + destruct (put_all_ref (po_fields o) ts h0 newEvent [] [] (conj eq_refl eq_refl) Hts) as (h2 & e2 & fp & E2 & Hev). rewrite E in E2. injection E2 as <- <-.
      eexists h', e', _, fp. split; [reflexivity|]. split; [exact Hev|]. eapply says_of_puts; [|done|reflexivity].
      clear -Hts Hv. induction Hts as [|[k v] t fs ts Ht _ IH]; [apply Forall2_nil_2|]. apply Forall2_cons_2; [|apply IH; intros x Hx; apply Hv; by right].
      apply conveys_to; [|done]. exact (Hv (k, v) ltac:(by left)).
  - right. split; [|done]. apply (put_all_panic _ h0 newEvent [] []) in E; [|done]. destruct E as (k & v & Hin & Hb). exists k, v. split; [done|].
    intros [t Ht]. apply toEventValue_bad in Hb. rewrite Forall_forall in Hv. apply conveys_to in Ht; [congruence|]. exact (Hv (k, v) Hin).
Qed.
Print Assumptions C84_event.
(** Of every message that was decoded: *)
Theorem C84_decoded : ∀ b m, len b < 2 ^ 63 → Unmarshal b = ROk m → keys_ok_wrapper m.
Proof.
  intros b m Hb Hu. destruct (Unmarshal_good b m Hb Hu) as [[Hw _] _]. unfold keys_ok_wrapper. destruct (mw_log m) as [[l|]|]; [|done..].
  destruct Hw as [Hw _]. destruct (lg_object l) as [[fs u]|]; [|done]. destruct Hw as [Hw1 Hw2]. split; [by apply Hw1|].
  assert (∀ v, wf_value v → keys_ok v) as Hv.
  { intros v. induction v as [k u' IH] using pval_ind'. intros (_ & Hs & Hk). cbn [keys_ok]. rewrite kind_each_all in Hk |- *. split.
    - destruct k as [| |[[]|]| | | |[[]|]| | |]; try exact I. by apply Hs.
    - destruct k as [| |[[]|]| | | |[[]|]| | |]; try done; cbn in *; rewrite Forall_forall in *; intros x Hx; specialize (IH x Hx); specialize (Hk x Hx); [destruct x as [v|]|destruct x as [k [v|]]]; cbn in *; auto. }
  cbn in *. rewrite Forall_forall in *. intros [k x] Hx. specialize (Hw2 _ Hx). cbn in *. destruct x; cbn in *; auto.
Qed.
Print Assumptions C84_decoded.
(** The message made again of that event has the fields of the first one, as far as names
    have no backslashes and names inside values no dots ([plain]). *)
Theorem C84_round_trip : ∀ h0 m h' e', keys_ok_wrapper m → ToLogEvent h0 (GetLog m) = Ok (h', Some e') →
  ∃ n msg, (∀ f, (n ≤ f)%nat → FromEvent f h' e' = Ok msg) ∧
    ∀ k v t, (k, v) ∈ top_fields (Some m) → without_backslashes k = k → k ≠ "" →
      (∀ k', k' ∈ map fst (top_fields (Some m)) → without_backslashes k' = k → k' = k) →
      conveys v t → plain t → conveys (entry (top_fields (Some msg)) k) t.
Proof.
  intros h0 m h' e' Hk H. destruct (C84_event h0 m Hk) as [[_ E]|[(_ & _ & h2 & e2 & fields & fp & E & Hev & Hs)|[_ E]]]; rewrite E in H; [done| |done].
  injection H as -> ->. destruct (FromEvent_rep h' e' fields fp Hev) as (n & Hf). exists n, (event_message fields). split; [done|].
  intros k v t Hin Hw Hne Hu Hc Hp. destruct Hs as (_ & _ & Hs). destruct (Hs k v Hin) as (t' & Hg & Hc'); [by rewrite Hw|intros k'; rewrite Hw; apply Hu|].
  destruct (keys_ok_top m Hk) as [_ Hv]. rewrite Forall_forall in Hv. specialize (Hv _ Hin). cbn [snd] in Hv.
  rewrite Hw in Hg. rewrite (C84_one_meaning v t' t Hv Hc' Hc) in Hg. clear t' Hc'.
  assert (tsorted t) as Hts.
  { apply conveys_to in Hc; [|done]. destruct v as [v|]; [|done]. by apply (to_value_tree v). }
  assert (entry (top_fields (Some (event_message fields))) k = from_tree t) as ->.
  { unfold top_fields, Wrapper_GetLog, GetLog, event_message, Log_GetObject, event_object. cbn [mw_log lg_object].
    destruct fields as [|kv fields]; [done|]. cbn [GetFields po_fields]. unfold entry. rewrite (mget_map from_tree), Hg. done. }
  apply conveys_to; [by apply from_tree_keys|]. rewrite to_from by by apply plain_no_nil. by rewrite plain_returned.
Qed.
Print Assumptions C84_round_trip.
(** Two fields whose names differ in backslashes only become one; a field whose name is just
    backslashes, or empty, is lost. *)
Theorem C84_all_fields_refuted : ∃ m h' e' fp, keys_ok_wrapper m ∧ length (top_fields (Some m)) = 3%nat ∧
  ToLogEvent emptyHeap (GetLog m) = Ok (h', Some e') ∧ ev_rep h' e' [("a", TInt 2)] fp.
Proof.
  set (v z := Some (PVal (KInt z) [])).
  set (fs := [("a", v 1); ("a\", v 2); ("\", v 3)]). set (m := mkPWrapper (Some (Some (mkPLog (Some (mkPObj fs [])) []))) []).
  assert (Forall2 (λ kv t, toEventValue kv.2 = Ok t) fs [TInt 1; TInt 2; TInt 3]) as H by (repeat (apply Forall2_cons_2; [reflexivity|]); apply Forall2_nil_2).
  destruct (put_all_ref fs _ emptyHeap newEvent [] [] (conj eq_refl eq_refl) H) as (h' & e' & fp & E & Hev). exists m, h', e', fp.
  split; [|split; [reflexivity|split; [|exact Hev]]].
  - split; [apply (bool_decide_unpack _); reflexivity|]. cbn. repeat (apply List.Forall_cons || split || apply List.Forall_nil); done.
  - unfold ToLogEvent, GetLog. cbn [m mw_log lg_object po_fields]. by rewrite E.
Qed.
Print Assumptions C84_all_fields_refuted.
(** A field with a dot inside an object, and an unset integer of a kind. *)
Example C84_ex : conveys (Some (PVal (KObject (Some (mkPObj [("b", Some (PVal (KInt 0) [])); ("a.x", Some (PVal (KArray (Some (mkPArr [Some (PVal (KString None) [])] []))) []))] []))) []))
  (TObj [("a\.x", TArr [TStr ""]); ("b", TInt 0)]).
Proof.
  apply conveys_iff; [|reflexivity]. cbn. split; [apply (bool_decide_unpack _); reflexivity|]. repeat split.
Qed.
