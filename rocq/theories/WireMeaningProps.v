(** * Property theorems for what encoded bytes mean: C52.

    [wrapper_is None [] b m], [log_is], [value_is], [field], [group] (WireMeaning.v):
    the bytes [b] mean the message [m] by the rules of the protobuf encoding.
    [Unmarshal], [UnmarshalLog], [UnmarshalValue]: decoding into a new message;
    [ROk], [RErr]: a message, an error. *)
From Verif Require Import WireDecodeTop WireSame.
Local Open Scope Z_scope.

(** ** Decoding *)
(** Unmarshal accepts exactly the bytes that mean something, and returns what they mean. *)
Theorem C52_decodes : ∀ b, len b < 2 ^ 63 → ∀ m, Unmarshal b = ROk m ↔ wrapper_is None [] b m.
Proof. intros b Hb. by apply wrapper_iff. Qed.
Print Assumptions C52_decodes.
Theorem C52_decodes_log : ∀ b, len b < 2 ^ 63 → ∀ m, UnmarshalLog b = ROk m ↔ log_is None [] b m.
Proof. intros b Hb m. by apply log_iff. Qed.
Print Assumptions C52_decodes_log.
Theorem C52_decodes_value : ∀ b, len b < 2 ^ 63 → ∀ v, UnmarshalValue b = ROk v ↔ value_is KNil [] b v.
Proof. intros b Hb. by apply value_iff. Qed.
Print Assumptions C52_decodes_value.
(** Other bytes are refused with an error. *)
Theorem C52_refuses : ∀ b, len b < 2 ^ 63 → (∃ e, Unmarshal b = RErr e) ↔ ¬ ∃ m, wrapper_is None [] b m.
Proof.
  intros b Hb. split.
  - intros [e He] [m Hm]. apply C52_decodes in Hm; [|done]. congruence.
  - intros Hn. pose proof (Unmarshal_safe b Hb) as Hs. destruct (Unmarshal b) as [m|e|] eqn:E; [|by eauto|done].
    destruct Hn. exists m. by apply C52_decodes.
Qed.
Print Assumptions C52_refuses.

(** A map entry that holds a key and a value and nothing after them, each a
    length-delimited field, is added to the object under that key, whatever follows;
    a later entry with the same key replaces it, and further fields in the entry are
    ignored. *)
Theorem C52_map_entries : ∀ raw s key v fields unknown b o,
  field raw 1 (PBytes s) → entry_plain s "" None (key, v) →
  object_is (mset key v fields) unknown b o → object_is fields unknown (raw ++ b) o.
Proof. intros raw s key v fs u b o Hr Hs Ho. eapply oi_entry; [exact Hr| |exact Ho]. by apply plain_entry. Qed.
Print Assumptions C52_map_entries.

(** ** Encoding *)
(** The bytes Marshal writes mean the message it was given, up to the order of map
    entries. *)
Theorem C52_encodes : ∀ m, wf_wrapper m → ∃ d, Marshal m = Ok d ∧
  (len d < 2 ^ 63 → ∃ m', wrapper_is None [] d m' ∧ wsame m m').
Proof.
  intros m Hw. exists (enc_wrapper m). split; [by apply Marshal_ok, wf_wrapper_nil_free|].
  intros Hl. exists (canon_wrapper m). split; [|by apply wsame_canon]. apply wrapper_iff; [done|]. by apply um_wrapper_ok.
Qed.
Print Assumptions C52_encodes.

(** The fields that [wf_wrapper] allows in XXX_unrecognized are those of the grammar. *)
Theorem C52_unknown_fields : ∀ known c, len c < 2 ^ 63 →
  chunk known c ↔ ∃ num p, field c num p ∧ 0 < num ∧ known num = false.
Proof.
  intros known c Hc. split.
  - intros [(num & wt & j & Eh & Hk) Hs]. apply (head_at c [] c) in Eh as (kb & key & l1 & Hl & Hd1 & Hkb & Hnum & Hwt & -> & H4 & Hpos); [|done].
    apply skipEvent_sound in Hs as (raw & num' & p & rest & Hraw & Hr & Hlen); [|done|lia].
    assert (rest = []) as ->.
    { destruct rest as [|x rest]; [done|]. rewrite Hraw, len_app, len_cons in Hlen. pose proof (len_nonneg rest). lia. }
    rewrite app_nil_r in Hraw. subst raw. exists num, p. split_and!; [|done|done].
    pose proof Hr as Hr2. apply field_key in Hr2 as (k' & key' & rest & Hc' & Hk' & Hn' & _).
    pose proof (varint_there c [] k' rest key' Hc' Hk') as E1. pose proof (varint_there c [] kb l1 key Hd1 Hkb) as E2.
    rewrite E1 in E2. injection E2 as -> _. rewrite Hnum, <- Hn'. done.
  - intros (num & p & Hr & Hpos & Hk). split.
    + pose proof Hr as Hr2. apply field_key in Hr2 as (k' & key' & rest & Hc' & Hk' & Hn' & H4). subst num.
      eexists _, _, _. split; [|exact Hk]. by apply (head_there c [] k' key' rest).
    + pose proof (skipEvent_complete c num p []) as H. rewrite app_nil_r in H. by apply H.
Qed.
Print Assumptions C52_unknown_fields.

(** ** Entries that are not well formed *)
Definition raw_bytes (l : list nat) : bytes := map ascii_of_nat l.
(** The content of a map entry is not confined to the entry: its key may claim bytes
    behind the entry's end, which are then read a second time as the object's next
    field.  Here the entry has two bytes and the key is made of the two bytes after it,
    which also come back as an unknown field. *)
Theorem C52_overrunning_entry_refuted : ∃ s rest m,
  len s = 2 ∧ field (raw_bytes [10; 2]%nat ++ s) 1 (PBytes s) ∧
  UnmarshalLog (raw_bytes [10; 6]%nat ++ (raw_bytes [10; 2]%nat ++ s) ++ rest) = ROk m ∧
  lg_object m = Some (mkPObj [(string_of_list_ascii rest, None)] rest) ∧
  ∀ r, ¬ entry_plain s "" None r.
Proof.
  exists (raw_bytes [10; 2]%nat), (raw_bytes [24; 1]%nat). eexists. split_and!; [reflexivity| |vm_compute; reflexivity|reflexivity|].
  - change 1 with (number 10). apply (f_bytes (raw_bytes [10]%nat) 10 (raw_bytes [2]%nat) 2); [|reflexivity| |reflexivity].
    + split; [|reflexivity]. exists [], (ascii_of_nat 10). split_and!; [reflexivity|constructor|vm_compute; reflexivity|simpl; lia].
    + split; [|reflexivity]. exists [], (ascii_of_nat 2). split_and!; [reflexivity|constructor|vm_compute; reflexivity|simpl; lia].
  - intros r H. pose proof (plain_entry _ _ _ _ H []) as He.
    apply (proj2 (proj2 (proj2 um_complete))) in He.
    specialize (He (raw_bytes [10; 2]%nat ++ []) [] 3%nat eq_refl ltac:(unfold fits; vm_compute; reflexivity) ltac:(simpl; lia)).
    vm_compute in He. discriminate.
Qed.
Print Assumptions C52_overrunning_entry_refuted.

(** Nor are the wire types of an entry's key and value looked at: a varint as key is
    taken for the length of a string. *)
Theorem C52_entry_wire_type_refuted : ∃ s m, len s = 3 ∧
  UnmarshalLog (raw_bytes [10; 5; 10; 3]%nat ++ s) = ROk m ∧ lg_object m = Some (mkPObj [("a", None)] []) ∧
  ∀ r, ¬ entry_plain s "" None r.
Proof.
  exists (raw_bytes [8; 1; 97]%nat). eexists. split_and!; [reflexivity|vm_compute; reflexivity|reflexivity|].
  assert (∀ raw b num p, raw ++ b = raw_bytes [8; 1; 97]%nat → field raw num p → num = 1 ∧ p = PVarint 1) as Hfirst.
  { intros raw b num p E Hr.
    assert (is_varint (raw_bytes [8]%nat) 8) as H8.
    { split; [|reflexivity]. exists [], (ascii_of_nat 8). split_and!; [reflexivity|constructor|vm_compute; reflexivity|simpl; lia]. }
    assert (is_varint (raw_bytes [1]%nat) 1) as H1.
    { split; [|reflexivity]. exists [], (ascii_of_nat 1). split_and!; [reflexivity|constructor|vm_compute; reflexivity|simpl; lia]. }
    inversion Hr as [k' key' b' v' Hk' Hw Hb|k' key' b' Hk' Hw|k' key' b' n' s' Hk' Hw|k' key' b' Hk' Hw|k' key' b' Hk' Hw]; subst;
      (assert (∃ t, raw_bytes [8; 1; 97]%nat = ([] ++ k') ++ t) as [t Ed2]
         by (eexists; rewrite <- E; rewrite <- ?app_assoc; reflexivity));
      pose proof (varint_there _ [] k' _ key' Ed2 Hk') as E3;
      rewrite (varint_there (raw_bytes [8; 1; 97]%nat) [] (raw_bytes [8]%nat) (raw_bytes [1; 97]%nat) 8 eq_refl H8) in E3; injection E3 as E3 E3l; subst key';
      try (vm_compute in Hw; discriminate).
    split; [reflexivity|].
    assert (raw_bytes [8; 1; 97]%nat = (k' ++ b') ++ b) as Ed3 by done.
    pose proof (varint_there _ k' b' b v' Ed3 Hb) as E4.
    assert (len k' = len (raw_bytes [8]%nat)) as Hl by (symmetry; exact E3l). rewrite Hl in E4.
    rewrite (varint_there (raw_bytes [8; 1; 97]%nat) (raw_bytes [8]%nat) (raw_bytes [1]%nat) (raw_bytes [97]%nat) 1 eq_refl H1) in E4. by injection E4 as <- _. }
  intros r H. inversion H as [k v E0 E1 E2|raw s b k v r' Hr _ E|raw s x b k v r' Hr _ _ E|raw num p b k v r' Hr N1 _ _ E]; subst.
  - destruct (Hfirst _ _ _ _ E Hr) as [_ ?]. done.
  - destruct (Hfirst _ _ _ _ E Hr) as [_ ?]. done.
  - destruct (Hfirst _ _ _ _ E Hr) as [-> _]. done.
Qed.
Print Assumptions C52_entry_wire_type_refuted.

(** ** Concrete bytes *)
(** A wrapper holding a log with one field [a = true], with varints longer than needed
    and an unknown, empty group in the object; and what it means. *)
Definition ex_wire : bytes := raw_bytes [10; 17; 10; 15; 10; 11; 10; 129; 0; 97; 18; 5; 24; 129; 128; 128; 0; 19; 20]%nat.
Definition ex_wire_msg : pwrapper :=
  mkPWrapper (Some (Some (mkPLog (Some (mkPObj [("a", Some (PVal (KBool true) []))] (raw_bytes [19; 20]%nat))) []))) [].
Example C52_decodes_ex : wrapper_is None [] ex_wire ex_wire_msg.
Proof. apply C52_decodes; [vm_compute; reflexivity|vm_compute; reflexivity]. Qed.
(** Refused: a bool with wire type 2, a truncated varint, a lone end of group. *)
Example C52_refuses_ex : (¬ ∃ v, value_is KNil [] (raw_bytes [26; 1; 1]%nat) v) ∧
  (¬ ∃ v, value_is KNil [] (raw_bytes [24; 129]%nat) v) ∧ (¬ ∃ v, value_is KNil [] (raw_bytes [20]%nat) v).
Proof.
  split_and!; intros [v Hv]; (apply C52_decodes_value in Hv; [|vm_compute; reflexivity]); vm_compute in Hv; discriminate.
Qed.
