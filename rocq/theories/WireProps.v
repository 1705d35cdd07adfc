(** * Property theorems for the wire format: C35-C38.

    [Marshal], [Unmarshal] are the methods of MessageWrapper, the others those of
    Log and Value.  [len] is the length of a byte string.  [ROk], [RErr], [RPanic]:
    a result, an error, a panic or non-termination (the model's loops are given as
    many steps as the input has bytes; running out counts as [RPanic]). *)
From Verif Require Import WireSame.
Local Open Scope Z_scope.

(** ** Concrete messages *)
Definition str (s : string) : bytes := list_ascii_of_string s.
Definition ex_v (k : pkind pval) : option pval := Some (PVal k []).
(** Every kind of value, nested, with the map entries in no particular order. *)
Definition ex_fields : list (string * option pval) :=
  [("z", ex_v (KArray (Some (mkPArr [ex_v (KBool true); ex_v (KNull 0); ex_v (KInt (-1))] []))));
   ("a", ex_v (KObject (Some (mkPObj [("y", ex_v (KString (Some (str "x")))); ("b", None)] []))));
   ("", ex_v (KFloat 4611686018427387904)); ("m", ex_v (KUint 18446744073709551615));
   ("t", ex_v (KTime (-9223372036854775808)))].
Definition ex_msg : pwrapper := mkPWrapper (Some (Some (mkPLog (Some (mkPObj ex_fields [])) []))) [].
Definition ex_msg_rev : pwrapper :=
  mkPWrapper (Some (Some (mkPLog (Some (mkPObj (rev ex_fields) [])) []))) [].

Lemma ex_msg_wf : wf_wrapper ex_msg ∧ wf_wrapper ex_msg_rev.
Proof.
  unfold wf_wrapper, wf_log, wf_obj, wf_obj_shape. cbn [mw_log ex_msg ex_msg_rev mw_unrec lg_object lg_unrec opt_all po_fields po_unrec].
  split; (split; [|constructor]); (split; [|constructor]); (split; [split; [|constructor]|]);
    try (apply (bool_decide_eq_true_1 _); vm_compute; reflexivity);
    unfold obj_all; simpl rev; repeat (apply List.Forall_cons; [|try apply List.Forall_nil]);
    cbn; repeat split; try constructor; try lia; try done;
    repeat (apply List.Forall_cons; [|try apply List.Forall_nil]); try done;
    try (apply (bool_decide_eq_true_1 _); vm_compute; reflexivity).
Qed.

(** ** C38: varints *)
(** Any 64-bit number, anywhere in a buffer: reading gives the number back and stops
    right behind it. *)
Theorem C38_varint_round_trip : ∀ v pre suf, 0 ≤ v < 2 ^ 64 →
  read_varint (pre ++ varint v ++ suf) (len pre) = ROk (v, len pre + len (varint v)).
Proof. intros v pre suf Hv. rewrite varint_len by done. by apply read_varint_ok. Qed.
Print Assumptions C38_varint_round_trip.

(** What encodeVarintEvent writes in front of [off] is [varint v]: it changes exactly
    those bytes, as many as sovEvent announces, between one and ten. *)
Theorem C38_varint_written : ∀ v pre old suf, 0 ≤ v < 2 ^ 64 → len old = sov v →
  encodeVarint (pre ++ old ++ suf) (len (pre ++ old)) v = Ok (pre ++ varint v ++ suf, len pre) ∧
  len (varint v) = sov v ∧ 1 ≤ sov v ≤ 10.
Proof.
  intros v pre old suf Hv Hl. split_and!; try apply sov_le_10; try done; [|by apply varint_len].
  apply encodeVarint_ok; [done|]. pose proof (varint_len v Hv). unfold len in *. lia.
Qed.
Print Assumptions C38_varint_written.

(** Signed numbers go through two's complement. *)
Theorem C38_signed_round_trip : ∀ z pre suf, - 2 ^ 63 ≤ z < 2 ^ 63 →
  ∃ v j, read_varint (pre ++ varint (u64 z) ++ suf) (len pre) = ROk (v, j) ∧ s64 v = z ∧
         j = len pre + len (varint (u64 z)).
Proof.
  intros z pre suf Hz. exists (u64 z), (len pre + len (varint (u64 z))).
  split_and!; [apply C38_varint_round_trip; apply u64_is|by apply s64_u64|done].
Qed.
Print Assumptions C38_signed_round_trip.

(** Different numbers have different encodings. *)
Theorem C38_varint_injective : ∀ v w suf suf', 0 ≤ v < 2 ^ 64 → 0 ≤ w < 2 ^ 64 →
  varint v ++ suf = varint w ++ suf' → v = w ∧ suf = suf'.
Proof.
  intros v w suf suf' Hv Hw Heq.
  pose proof (C38_varint_round_trip v [] suf Hv) as H1.
  pose proof (C38_varint_round_trip w [] suf' Hw) as H2. simpl app in H1, H2.
  rewrite Heq, H2 in H1. injection H1 as -> _. split; [done|]. by apply app_inv_head in Heq.
Qed.
Print Assumptions C38_varint_injective.

Example C38_ex : varint 300 = map ascii_of_nat [172; 2]%nat ∧
  varint (u64 (-1)) = map ascii_of_nat [255; 255; 255; 255; 255; 255; 255; 255; 255; 1]%nat ∧
  read_varint (map ascii_of_nat [172; 2; 7]%nat) 0 = ROk (300, 2).
Proof. vm_compute. done. Qed.

(** ** C36: Size *)
(** [nil_free m]: no array item of [m] is nil.  Marshal then returns the protobuf
    encoding, of exactly Size() bytes. *)
Theorem C36_size_exact : ∀ m, nil_free_wrapper m →
  Marshal m = Ok (enc_wrapper m) ∧ len (enc_wrapper m) = size_wrapper m.
Proof. intros m H. split; [by apply Marshal_ok|by rewrite size_wrapper_ok]. Qed.
Print Assumptions C36_size_exact.
Theorem C36_size_exact_log : ∀ m, nil_free_log m →
  MarshalLog m = Ok (enc_log m) ∧ len (enc_log m) = size_log m.
Proof. intros m H. split; [by apply MarshalLog_ok|by rewrite size_log_ok]. Qed.
Print Assumptions C36_size_exact_log.
Theorem C36_size_exact_value : ∀ m, nil_free m →
  MarshalValue m = Ok (enc_value m) ∧ len (enc_value m) = size_value m.
Proof. intros m H. split; [by apply MarshalValue_ok|by rewrite size_value_ok]. Qed.
Print Assumptions C36_size_exact_value.

(** Into a bigger buffer, MarshalToSizedBuffer writes the last Size() bytes and
    leaves the rest alone. *)
Theorem C36_sized_buffer : ∀ m pre old, nil_free_wrapper m → len old = size_wrapper m →
  msb_wrapper m (pre ++ old) = Ok (pre ++ enc_wrapper m, size_wrapper m).
Proof.
  intros m pre old Hn Hl. rewrite size_wrapper_ok in *. apply fills_wrapper; [done|].
  unfold len in Hl. lia.
Qed.
Print Assumptions C36_sized_buffer.

(** Marshal panics only for a nil array item, and then always. *)
Theorem C36_panics_iff_nil_item : ∀ m, Marshal m = Panic ↔ ¬ nil_free_wrapper m.
Proof. exact Marshal_panic_iff. Qed.
Print Assumptions C36_panics_iff_nil_item.

Example C36_ex : nil_free_wrapper ex_msg ∧ size_wrapper ex_msg = 109 ∧
  match Marshal ex_msg with Ok d => len d = 109 | Panic => False end.
Proof.
  split; [|split; vm_compute; done]. apply wf_wrapper_nil_free. apply ex_msg_wf.
Qed.
Example C36_nil_ex :
  let m := mkPWrapper (Some (Some (mkPLog (Some (mkPObj [("a", ex_v (KArray (Some (mkPArr [None] []))))] [])) []))) [] in
  ¬ nil_free_wrapper m ∧ Marshal m = Panic.
Proof. split; [|vm_compute; done]. rewrite <- Marshal_panic_iff. vm_compute. done. Qed.

(** ** C35: the round trip *)
(** [wf_wrapper]: numbers in the range of their Go types, no duplicate keys, no nil
    array item, no typed nil inside a kind, and XXX_unrecognized holding complete
    fields of other numbers.  [po_fields] is in the order in which [range] visits the
    map, so this covers every order; [wsame]: equal up to the order of map entries. *)
Theorem C35_round_trip_partial : ∀ m, wf_wrapper m → size_wrapper m < 2 ^ 63 →
  ∃ d m', Marshal m = Ok d ∧ Unmarshal d = ROk m' ∧ wsame m m'.
Proof.
  intros m Hw Hs. exists (enc_wrapper m), (canon_wrapper m).
  split_and!; [by apply Marshal_ok, wf_wrapper_nil_free| |by apply wsame_canon].
  apply um_wrapper_ok; [done|]. unfold fits. by rewrite <- size_wrapper_ok.
Qed.
Print Assumptions C35_round_trip_partial.

(** Two visits of the same message in different orders decode to the same message. *)
Theorem C35_order_irrelevant : ∀ m1 m2, wf_wrapper m1 → wf_wrapper m2 → wsame m1 m2 →
  size_wrapper m1 < 2 ^ 63 → size_wrapper m2 < 2 ^ 63 →
  ∃ d1 d2 m', Marshal m1 = Ok d1 ∧ Marshal m2 = Ok d2 ∧ Unmarshal d1 = ROk m' ∧ Unmarshal d2 = ROk m'.
Proof.
  intros m1 m2 H1 H2 Hs Hs1 Hs2. exists (enc_wrapper m1), (enc_wrapper m2), (canon_wrapper m1).
  split_and!; try (by apply Marshal_ok, wf_wrapper_nil_free).
  - apply um_wrapper_ok; [done|]. unfold fits. by rewrite <- size_wrapper_ok.
  - rewrite (canon_wsame m1 m2) by done. apply um_wrapper_ok; [done|]. unfold fits. by rewrite <- size_wrapper_ok.
Qed.
Print Assumptions C35_order_irrelevant.

(** Everything Unmarshal returns, from any bytes at all, round-trips exactly: the
    well-formedness above holds of all decoded messages. *)
Theorem C35_decoded_round_trips : ∀ b m, len b < 2 ^ 63 → Unmarshal b = ROk m → size_wrapper m < 2 ^ 63 →
  ∃ d, Marshal m = Ok d ∧ Unmarshal d = ROk m.
Proof.
  intros b m Hb Hu Hs. destruct (Unmarshal_good b m Hb Hu) as [Hw Hc].
  exists (enc_wrapper m). split; [by apply Marshal_ok, wf_wrapper_nil_free|].
  rewrite <- Hc at 2. apply um_wrapper_ok; [done|]. unfold fits. by rewrite <- size_wrapper_ok.
Qed.
Print Assumptions C35_decoded_round_trips.

(** Not every message: a Value_String_ holding a nil slice, like the other typed nils,
    comes back without a kind. *)
Theorem C35_typed_nil_refuted : ∃ d m',
  let m := mkPWrapper (Some (Some (mkPLog (Some (mkPObj [("a", ex_v (KString None))] [])) []))) [] in
  Marshal m = Ok d ∧ Unmarshal d = ROk m' ∧ ¬ wsame m m'.
Proof.
  eexists _, _. split_and!; [vm_compute; reflexivity|vm_compute; reflexivity|].
  intros [Hs _]. inversion Hs as [|? ? H1]; subst. inversion H1 as [|? ? [H2 _]]; subst.
  inversion H2 as [|? ? [H3 _]]; subst. specialize (H3 "a"). vm_compute in H3.
  inversion H3 as [|? ? H4]; subst. inversion H4 as [|? ? H5]; subst. inversion H5 as [? ? ? H6]; subst. inversion H6.
Qed.
Print Assumptions C35_typed_nil_refuted.

Example C35_ex : wf_wrapper ex_msg ∧ size_wrapper ex_msg < 2 ^ 63 ∧
  ∃ d, Marshal ex_msg = Ok d ∧
    Unmarshal d = ROk (mkPWrapper (Some (Some (mkPLog (Some (mkPObj
      [("", ex_v (KFloat 4611686018427387904));
       ("a", ex_v (KObject (Some (mkPObj [("b", None); ("y", ex_v (KString (Some (str "x"))))] []))));
       ("m", ex_v (KUint 18446744073709551615));
       ("t", ex_v (KTime (-9223372036854775808)));
       ("z", ex_v (KArray (Some (mkPArr [ex_v (KBool true); ex_v (KNull 0); ex_v (KInt (-1))] []))))] [])) []))) []).
Proof.
  split; [apply ex_msg_wf|]. split; [vm_compute; done|]. eexists. split; [vm_compute; reflexivity|vm_compute; reflexivity].
Qed.
Example C35_order_ex : wsame ex_msg ex_msg_rev ∧ Marshal ex_msg ≠ Marshal ex_msg_rev.
Proof.
  split; [|vm_compute; done].
  assert (canon_wrapper ex_msg = canon_wrapper ex_msg_rev) as Heq by (vm_compute; reflexivity).
  split; [|done]. simpl. apply os_some, os_some. split; [|done]. simpl. apply os_some.
  split; [|done]. intros key. simpl.
  assert (∀ v, psame v v) as Hr.
  { clear. intros v. induction v as [k u IH] using pval_ind'. constructor.
    destruct k as [|z|[[items ua]|]|b|bits|z|[[fields uo]|]|s|z|z]; try (by constructor); simpl in IH.
    - apply ks_arr. split; [|done]. simpl. induction items as [|x items IHi]; [constructor|].
      apply Forall_cons in IH as [Hx IH]. constructor; [|auto]. destruct x; by constructor.
    - apply ks_obj. split; [|done]. simpl. intros key. induction fields as [|[k x] fields IHi]; simpl; [constructor|].
      apply Forall_cons in IH as [Hx IH]. destruct (String.eqb key k); [|auto]. constructor. destruct x; by constructor. }
  repeat match goal with |- context [String.eqb key ?s] => destruct (String.eqb_spec key s); [subst|] end;
    try done; simpl; try constructor; try constructor; apply Hr.
Qed.
(** Unknown fields are kept and survive. *)
Example C35_unknown_ex : ∃ m, Unmarshal (map ascii_of_nat [18; 1; 97; 10; 0]%nat) = ROk m ∧
  mw_unrec m = map ascii_of_nat [18; 1; 97]%nat ∧
  Marshal m = Ok (map ascii_of_nat [10; 0; 18; 1; 97]%nat).
Proof. eexists. split_and!; [vm_compute; reflexivity|vm_compute; reflexivity|vm_compute; reflexivity]. Qed.

(** ** C37: Unmarshal is total *)
Theorem C37_unmarshal_total : ∀ b, len b < 2 ^ 63 →
  (∃ m, Unmarshal b = ROk m) ∨ (∃ e, Unmarshal b = RErr e).
Proof. intros b Hb. pose proof (Unmarshal_safe b Hb). destruct (Unmarshal b); eauto. done. Qed.
Print Assumptions C37_unmarshal_total.
Theorem C37_unmarshal_total_log : ∀ b, len b < 2 ^ 63 →
  (∃ m, UnmarshalLog b = ROk m) ∨ (∃ e, UnmarshalLog b = RErr e).
Proof. intros b Hb. pose proof (UnmarshalLog_safe b Hb). destruct (UnmarshalLog b); eauto. done. Qed.
Print Assumptions C37_unmarshal_total_log.
Theorem C37_unmarshal_total_value : ∀ b, len b < 2 ^ 63 →
  (∃ m, UnmarshalValue b = ROk m) ∨ (∃ e, UnmarshalValue b = RErr e).
Proof. intros b Hb. pose proof (UnmarshalValue_safe b Hb). destruct (UnmarshalValue b); eauto. done. Qed.
Print Assumptions C37_unmarshal_total_value.

(** A length claiming 2^63 - 1 bytes, a negative length, an unclosed group: errors. *)
Example C37_ex :
  Unmarshal (map ascii_of_nat [10; 255; 255; 255; 255; 255; 255; 255; 255; 127]%nat) = RErr EInvalidLength ∧
  (∃ e, Unmarshal (map ascii_of_nat [10; 255; 255; 255; 255; 255; 255; 255; 255; 255; 1]%nat) = RErr e) ∧
  (∃ e, Unmarshal (map ascii_of_nat [19; 19; 20]%nat) = RErr e) ∧
  (∃ m, Unmarshal (map ascii_of_nat [19; 19; 20; 20]%nat) = ROk m).
Proof. split_and!; [vm_compute; reflexivity|eexists; vm_compute; reflexivity..]. Qed.
