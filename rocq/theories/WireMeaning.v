(** * What bytes mean as an event message, independently of the code.

    The protobuf encoding rules (protobuf.dev, "Encoding") for the messages of
    event.proto: a message is a sequence of fields; a field that occurs again replaces
    the earlier one (array items and map entries are added); fields of other numbers
    are kept aside.  Numbers may be written with more groups than needed. *)
From Verif Require Export Wire.
Local Open Scope Z_scope.

(** ** Numbers *)
(** Base 128 and base 256, least significant first. *)
Fixpoint base128 (b : bytes) : Z := match b with [] => 0 | c :: b' => bval c mod 128 + 128 * base128 b' end.
Fixpoint base256 (b : bytes) : Z := match b with [] => 0 | c :: b' => bval c + 256 * base256 b' end.
(** [b] is a varint for [v]: at most ten bytes, all but the last of 128 or more; bits
    beyond 64 are dropped. *)
Definition is_varint (b : bytes) (v : Z) : Prop :=
  (∃ init last, b = init ++ [last] ∧ Forall (λ c, 128 ≤ bval c) init ∧ bval last < 128 ∧ (length init ≤ 9)%nat) ∧
  v = base128 b mod 2 ^ 64.
(** Two's complement in [n] bits. *)
Definition signed (n v : Z) : Z := let x := v mod 2 ^ n in if x <? 2 ^ (n - 1) then x else x - 2 ^ n.

(** ** Fields *)
Inductive payload : Type :=
| PVarint (v : Z) | PFixed64 (s : bytes) | PBytes (s : bytes) | PGroup | PFixed32 (s : bytes).
(** A field starts with a varint key: 8 * number + wire type. *)
Definition number (key : Z) : Z := signed 32 (key / 8).
(** [field raw num p]: [raw] is one field, of number [num] and with payload [p].  Groups
    are fields up to an end-of-group key. *)
Inductive field : bytes → Z → payload → Prop :=
| f_varint k key b v : is_varint k key → key mod 8 = 0 → is_varint b v → field (k ++ b) (number key) (PVarint v)
| f_fixed64 k key s : is_varint k key → key mod 8 = 1 → len s = 8 → field (k ++ s) (number key) (PFixed64 s)
| f_bytes k key b n s : is_varint k key → key mod 8 = 2 → is_varint b n → len s = n →
    field (k ++ b ++ s) (number key) (PBytes s)
| f_group k key body : is_varint k key → key mod 8 = 3 → group body → field (k ++ body) (number key) PGroup
| f_fixed32 k key s : is_varint k key → key mod 8 = 5 → len s = 4 → field (k ++ s) (number key) (PFixed32 s)
with group : bytes → Prop :=
| g_end k key : is_varint k key → key mod 8 = 4 → group k
| g_field raw num p body : field raw num p → group body → group (raw ++ body).

(** ** Messages *)
(** [value_is k u b v]: a Value with kind [k] and unknown fields [u] so far becomes [v]
    by reading the fields [b]. *)
Inductive value_is : pkind pval → bytes → bytes → pval → Prop :=
| vi_end k u : value_is k u [] (PVal k u)
| vi_null k u raw v b x : field raw 1 (PVarint v) → value_is (KNull (signed 32 v)) u b x → value_is k u (raw ++ b) x
| vi_array k u raw s a b x : field raw 2 (PBytes s) → array_is [] [] s a → value_is (KArray (Some a)) u b x →
    value_is k u (raw ++ b) x
| vi_bool k u raw v b x : field raw 3 (PVarint v) → value_is (KBool (negb (v =? 0))) u b x → value_is k u (raw ++ b) x
| vi_float k u raw s b x : field raw 4 (PFixed64 s) → value_is (KFloat (base256 s)) u b x → value_is k u (raw ++ b) x
| vi_int k u raw v b x : field raw 5 (PVarint v) → value_is (KInt (signed 64 v)) u b x → value_is k u (raw ++ b) x
| vi_object k u raw s o b x : field raw 6 (PBytes s) → object_is [] [] s o → value_is (KObject (Some o)) u b x →
    value_is k u (raw ++ b) x
| vi_string k u raw s b x : field raw 7 (PBytes s) → value_is (KString (Some s)) u b x → value_is k u (raw ++ b) x
| vi_time k u raw v b x : field raw 8 (PVarint v) → value_is (KTime (signed 64 v)) u b x → value_is k u (raw ++ b) x
| vi_uint k u raw v b x : field raw 9 (PVarint v) → value_is (KUint v) u b x → value_is k u (raw ++ b) x
| vi_other k u raw num p b x : field raw num p → 9 < num → value_is k (u ++ raw) b x → value_is k u (raw ++ b) x
(** A ValueArray: field 1 is an item. *)
with array_is : list (option pval) → bytes → bytes → parr pval → Prop :=
| ai_end items u : array_is items u [] (mkPArr items u)
| ai_item items u raw s v b x : field raw 1 (PBytes s) → value_is KNil [] s v → array_is (items ++ [Some v]) u b x →
    array_is items u (raw ++ b) x
| ai_other items u raw num p b x : field raw num p → 1 < num → array_is items (u ++ raw) b x →
    array_is items u (raw ++ b) x
(** A ValueObject: field 1 is a map entry; a later one with the same key wins. *)
with object_is : gomap (option pval) → bytes → bytes → pobj pval → Prop :=
| oi_end fs u : object_is fs u [] (mkPObj fs u)
| oi_entry fs u raw s key v b x : field raw 1 (PBytes s) → entry_is (len s) (s ++ b) "" None (key, v) →
    object_is (mset key v fs) u b x → object_is fs u (raw ++ b) x
| oi_other fs u raw num p b x : field raw num p → 1 < num → object_is fs (u ++ raw) b x →
    object_is fs u (raw ++ b) x
(** A map entry of [n] bytes, at the beginning of [b]: field 1 is the key, field 2 the
    value, others are ignored.  This code does not look at the wire types of the two,
    and lets them reach beyond the end of the entry, into the object's next fields (a
    well-formed entry does not: [entry_plain] below). *)
with entry_is : Z → bytes → string → option pval → string * option pval → Prop :=
| ei_end n b key v : n ≤ 0 → entry_is n b key v (key, v)
| ei_key n k kv l m s b key v r : 0 < n → is_varint k kv → number kv = 1 → is_varint l m → len s = m →
    entry_is (n - len (k ++ l ++ s)) b (string_of_list_ascii s) v r → entry_is n (k ++ l ++ s ++ b) key v r
| ei_value n k kv l m s x b key v r : 0 < n → is_varint k kv → number kv = 2 → is_varint l m → len s = m →
    value_is KNil [] s x →
    entry_is (n - len (k ++ l ++ s)) b key (Some x) r → entry_is n (k ++ l ++ s ++ b) key v r
| ei_other n raw num p b key v r : 0 < n → field raw num p → num ≠ 1 → num ≠ 2 → len raw ≤ n →
    entry_is (n - len raw) b key v r → entry_is n (raw ++ b) key v r.

(** A Log: field 1 is its object; a second one is merged into the first. *)
Inductive log_is : option (pobj pval) → bytes → bytes → plog → Prop :=
| li_end o u : log_is o u [] (mkPLog o u)
| li_object o u raw s o' b x : field raw 1 (PBytes s) →
    object_is (match o with Some o => po_fields o | None => [] end)
              (match o with Some o => po_unrec o | None => [] end) s o' →
    log_is (Some o') u b x → log_is o u (raw ++ b) x
| li_other o u raw num p b x : field raw num p → 1 < num → log_is o (u ++ raw) b x → log_is o u (raw ++ b) x.
(** A MessageWrapper: field 1 is the log. *)
Inductive wrapper_is : option (option plog) → bytes → bytes → pwrapper → Prop :=
| wi_end m u : wrapper_is m u [] (mkPWrapper m u)
| wi_log m u raw s l b x : field raw 1 (PBytes s) → log_is None [] s l → wrapper_is (Some (Some l)) u b x →
    wrapper_is m u (raw ++ b) x
| wi_other m u raw num p b x : field raw num p → 1 < num → wrapper_is m (u ++ raw) b x → wrapper_is m u (raw ++ b) x.

(** A well-formed map entry: exactly the fields [s]. *)
Inductive entry_plain : bytes → string → option pval → string * option pval → Prop :=
| ep_end key v : entry_plain [] key v (key, v)
| ep_key raw s b key v r : field raw 1 (PBytes s) → entry_plain b (string_of_list_ascii s) v r →
    entry_plain (raw ++ b) key v r
| ep_value raw s x b key v r : field raw 2 (PBytes s) → value_is KNil [] s x → entry_plain b key (Some x) r →
    entry_plain (raw ++ b) key v r
| ep_other raw num p b key v r : field raw num p → num ≠ 1 → num ≠ 2 → entry_plain b key v r →
    entry_plain (raw ++ b) key v r.

Scheme value_is_min := Minimality for value_is Sort Prop
  with array_is_min := Minimality for array_is Sort Prop
  with object_is_min := Minimality for object_is Sort Prop
  with entry_is_min := Minimality for entry_is Sort Prop.
Combined Scheme means_mutind from value_is_min, array_is_min, object_is_min, entry_is_min.
Scheme field_min := Minimality for field Sort Prop
  with group_min := Minimality for group Sort Prop.
Combined Scheme field_mutind from field_min, group_min.
