(** * C74: marshalling into a buffer of the caller's.

    [message]: a MessageWrapper, Log, Value, ValueArray or ValueObject.  [msg_encoding m]: its
    protobuf encoding (WireSpec.v).  [mkBuffer mem l]: a []byte with memory [mem] up to its
    capacity and length [l].  The functions return the memory after the call, with the
    number of bytes, or [Panic]. *)
From Verif Require Import WireInto WireProps.
Local Open Scope Z_scope.

(** Marshal: the encoding, of Size() bytes, for every message without nil array items. *)
Theorem C74_marshal : ∀ m, msg_nil_free m → msg_Marshal m = Ok (msg_encoding m) ∧ len (msg_encoding m) = msg_size m.
Proof.
  intros m Hn. pose proof (msg_size_ok m) as Hs. split; [|done]. apply marshal_with_ok; [exact Hs|]. exact (proj1 (msg_fills m Hn)).
Qed.
Print Assumptions C74_marshal.

(** MarshalToSizedBuffer: the encoding takes the last Size() bytes of the buffer; the bytes
    before it and those past the buffer's length stay as they are.  It panics if the buffer
    is shorter. *)
Theorem C74_sized_buffer : ∀ m mem l, msg_nil_free m → (l ≤ length mem)%nat →
  msg_MarshalToSizedBuffer m (mkBuffer mem l) =
    if msg_size m <=? Z.of_nat l
    then Ok (take (l - length (msg_encoding m)) mem ++ msg_encoding m ++ drop l mem, msg_size m)
    else Panic.
Proof.
  intros m mem l Hn Hl. destruct (msg_fills m Hn) as [F S]. rewrite msg_size_ok. unfold msg_MarshalToSizedBuffer, sub_write. cbn [b_mem b_len].
  destruct (Z.leb_spec 0 (Z.of_nat l)); [|lia]. destruct (Z.leb_spec (Z.of_nat l) (len mem)); [|unfold len in *; lia]. cbn [andb].
  change (Z.leb 0 0) with true. cbn [andb]. change (Z.to_nat 0) with 0%nat. rewrite drop_0, Nat.sub_0_r, Nat2Z.id.
  destruct (Z.leb_spec (len (msg_encoding m)) (Z.of_nat l)) as [H1|H1].
  - assert (take l mem = take (l - length (msg_encoding m)) mem ++ drop (l - length (msg_encoding m)) (take l mem)) as E.
    { rewrite <- (take_drop (l - length (msg_encoding m)) (take l mem)) at 1. f_equal. rewrite take_take. f_equal. lia. }
    rewrite E, F; [by rewrite take_0, <- app_assoc|]. rewrite drop_length, take_length. unfold len in *. lia.
  - rewrite S; [done|]. unfold len in *. rewrite take_length. lia.
Qed.
Print Assumptions C74_sized_buffer.

(** MarshalTo: the encoding takes the first Size() bytes and the rest stays as it is, if
    there is room up to the buffer's capacity; else it panics. *)
Theorem C74_marshal_to : ∀ m mem l, msg_nil_free m → (l ≤ length mem)%nat →
  msg_MarshalTo m (mkBuffer mem l) =
    if msg_size m <=? len mem then Ok (msg_encoding m ++ drop (length (msg_encoding m)) mem, msg_size m) else Panic.
Proof.
  intros m mem l Hn Hl. destruct (msg_fills m Hn) as [F S]. rewrite msg_size_ok. unfold msg_MarshalTo, sub_write. rewrite msg_size_ok. cbn [b_mem].
  pose proof (len_nonneg (msg_encoding m)). destruct (Z.leb_spec 0 (len (msg_encoding m))); [|lia].
  change (Z.leb 0 0) with true. cbn [andb]. change (Z.to_nat 0) with 0%nat. rewrite drop_0, Nat.sub_0_r, len_to_nat.
  destruct (Z.leb_spec (len (msg_encoding m)) (len mem)) as [H1|H1]; [|done]. cbn [andb].
  pose proof (F [] (take (length (msg_encoding m)) mem)) as E. cbn [app] in E. rewrite E; [by rewrite take_0|]. rewrite take_length. unfold len in *. lia.
Qed.
Print Assumptions C74_marshal_to.

(** XXX_Marshal(b, false), as proto.Marshal calls it, with a capacity of Size(): the encoding,
    whatever the buffer holds. *)
Theorem C74_XXX_marshal : ∀ m mem l, msg_nil_free m → len mem = msg_size m →
  msg_XXX_Marshal m (mkBuffer mem l) = Ok (msg_encoding m).
Proof.
  intros m mem l Hn Hs. destruct (msg_fills m Hn) as [F S]. rewrite msg_size_ok in Hs. unfold msg_XXX_Marshal. cbn [b_mem].
  pose proof (F [] mem) as E. cbn [app] in E. rewrite E by (unfold len in *; lia). pose proof (len_nonneg (msg_encoding m)).
  destruct (Z.leb_spec 0 (len (msg_encoding m))); [|lia]. rewrite Z.leb_refl. cbn [andb]. by rewrite len_to_nat, firstn_all.
Qed.
Print Assumptions C74_XXX_marshal.
(** With any other capacity it panics or returns the first bytes of the memory in place of
    the encoding, which stands at its end. *)
Theorem C74_XXX_marshal_exact : ∀ m mem l, msg_nil_free m →
  msg_XXX_Marshal m (mkBuffer mem l) =
    if msg_size m <=? len mem
    then Ok (take (length (msg_encoding m)) (take (length mem - length (msg_encoding m)) mem ++ msg_encoding m))
    else Panic.
Proof.
  intros m mem l Hn. destruct (msg_fills m Hn) as [F S]. rewrite msg_size_ok. unfold msg_XXX_Marshal. cbn [b_mem].
  destruct (Z.leb_spec (len (msg_encoding m)) (len mem)) as [H1|H1].
  - set (k := (length mem - length (msg_encoding m))%nat). assert (mem = take k mem ++ drop k mem) as E by (by rewrite take_drop).
    assert (msg_sized m mem = Ok (take k mem ++ msg_encoding m, len (msg_encoding m))) as ->.
    { rewrite E at 1. apply F. rewrite drop_length. unfold k, len in *. lia. }
    pose proof (len_nonneg (msg_encoding m)). destruct (Z.leb_spec 0 (len (msg_encoding m))); [|lia].
    destruct (Z.leb_spec (len (msg_encoding m)) (len (take k mem ++ msg_encoding m))) as [H2|H2].
    + cbn [andb]. by rewrite len_to_nat.
    + rewrite len_app in H2. pose proof (len_nonneg (take k mem)). lia.
  - by rewrite S.
Qed.
Print Assumptions C74_XXX_marshal_exact.

(** A message with a nil array item is never marshalled: every call panics. *)
Theorem C74_nil_item : ∀ m, ¬ msg_nil_free m →
  msg_Marshal m = Panic ∧ ∀ b, msg_MarshalToSizedBuffer m b = Panic ∧ msg_MarshalTo m b = Panic ∧ msg_XXX_Marshal m b = Panic.
Proof.
  intros m Hn. destruct (msg_cases m) as [H|H]; [done|]. split; [unfold msg_Marshal, marshal_with; by rewrite H|].
  intros b. split_and!; [by apply sub_write_panic|by apply sub_write_panic|]. unfold msg_XXX_Marshal. by rewrite H.
Qed.
Print Assumptions C74_nil_item.

(** ** Where this is not what one expects *)
(** The value true. *)
Definition ex_true : message := MsgValue (PVal (KBool true) []).
(** XXX_Marshal with room to spare does not return the encoding, nor bytes that decode to
    the message. *)
Theorem C74_XXX_marshal_refuted : ∃ m mem t, msg_nil_free m ∧ msg_size m < len mem ∧
  msg_XXX_Marshal m (mkBuffer mem 0) = Ok t ∧ t ≠ msg_encoding m ∧ ∀ v, MsgValue v = m → UnmarshalValue t ≠ ROk v.
Proof.
  exists ex_true, (replicate 4 "000"%char), (replicate 2 "000"%char). split; [done|]. split; [by vm_compute|]. split; [by vm_compute|].
  split; [by vm_compute|]. intros v Hv. injection Hv as ->. vm_compute. discriminate.
Qed.
Print Assumptions C74_XXX_marshal_refuted.
(** MarshalTo(b) writes past b's length, over bytes that may belong to another slice. *)
Theorem C74_beyond_length_refuted : ∃ m mem mem' n, msg_nil_free m ∧
  msg_MarshalTo m (mkBuffer mem 0) = Ok (mem', n) ∧ mem' ≠ mem.
Proof. exists ex_true, (replicate 2 "000"%char), (msg_encoding ex_true), 2. split; [done|]. split; by vm_compute. Qed.
Print Assumptions C74_beyond_length_refuted.

(** Examples: a message of 109 bytes; a short buffer; the places of the bytes. *)
Example C74_hyps : msg_nil_free (MsgWrapper ex_msg) ∧ msg_size (MsgWrapper ex_msg) = 109.
Proof. cbn [msg_nil_free msg_size]. destruct C36_ex as (H & E & _). split; [exact H|exact E]. Qed.
Example C74_ex :
  msg_encoding ex_true = map ascii_of_nat [24; 1]%nat ∧
  msg_MarshalTo ex_true (mkBuffer (replicate 4 "x"%char) 3) = Ok (map ascii_of_nat [24; 1; 120; 120]%nat, 2) ∧
  msg_MarshalToSizedBuffer ex_true (mkBuffer (replicate 4 "x"%char) 3) = Ok (map ascii_of_nat [120; 24; 1; 120]%nat, 2) ∧
  msg_MarshalToSizedBuffer ex_true (mkBuffer (replicate 4 "x"%char) 1) = Panic ∧
  msg_XXX_Marshal ex_true (mkBuffer (replicate 3 "x"%char) 0) = Ok (map ascii_of_nat [120; 24]%nat).
Proof. vm_compute. repeat split. Qed.
