(** * Marshalling into a caller's buffer: event.pb.go:92-103 (and the XXX_Marshal of the other
    messages), 547-632, 644-654, 825-861, 866-907. *)
From Verif Require Export WireOut.
Local Open Scope Z_scope.

(** ** The model *)
(** The five messages of event.proto. *)
Inductive message : Type :=
| MsgWrapper (m : pwrapper) | MsgLog (m : plog) | MsgValue (m : pval) | MsgArray (m : parr pval) | MsgObject (m : pobj pval).
(** Their Size methods (event.pb.go:921, 949, 965, 1079, 1097) and MarshalToSizedBuffer
    methods (552, 610, 649, 830, 871). *)
Definition msg_size (m : message) : Z :=
  match m with
  | MsgWrapper m => size_wrapper m | MsgLog m => size_log m | MsgValue m => size_value m
  | MsgArray m => size_arr size_value m | MsgObject m => size_obj size_value m
  end.
Definition msg_sized (m : message) : bytes → Outcome (bytes * Z) :=
  match m with
  | MsgWrapper m => msb_wrapper m | MsgLog m => msb_log m | MsgValue m => msb_value m
  | MsgArray m => msb_arr msb_value m | MsgObject m => msb_obj msb_value m
  end.
(** A []byte: the memory up to its capacity, and its length. *)
Record buffer : Type := mkBuffer { b_mem : bytes; b_len : nat }.
(** Marshal, event.pb.go:537-545, 595-603, 634-642, 815-823, 856-864. *)
Definition msg_Marshal (m : message) : Outcome bytes := marshal_with msg_size msg_sized m.
(** MarshalToSizedBuffer(b), event.pb.go:552, 610, 649, 830, 871: it sees the bytes up to
    b's length.  Returned: b's memory afterwards, and the result n. *)
Definition msg_MarshalToSizedBuffer (m : message) (b : buffer) : Outcome (bytes * Z) :=
  sub_write (b_mem b) 0 (Z.of_nat (b_len b)) (msg_sized m).
(** MarshalTo(b), event.pb.go:547-550, 605-608, 644-647, 825-828, 866-869: dAtA[:size]
    reaches up to b's capacity. *)
Definition msg_MarshalTo (m : message) (b : buffer) : Outcome (bytes * Z) :=
  sub_write (b_mem b) 0 (msg_size m) (msg_sized m).
(** XXX_Marshal(b, false), event.pb.go:92-103, 170-181, 232-243, 406-417, 458-469: b[:cap(b)]
    is written from its end, b[:n] is returned. *)
Definition msg_XXX_Marshal (m : message) (b : buffer) : Outcome bytes :=
  match msg_sized m (b_mem b) with
  | Panic => Panic
  | Ok (mem, n) => if (0 <=? n) && (n <=? len mem) then Ok (take (Z.to_nat n) mem) else Panic
  end.

(** ** Specification *)
(** The protobuf encoding of a message (WireSpec.v). *)
Definition msg_encoding (m : message) : bytes :=
  match m with
  | MsgWrapper m => enc_wrapper m | MsgLog m => enc_log m | MsgValue m => enc_value m
  | MsgArray m => enc_arr0 (arr_map enc_value m) | MsgObject m => enc_obj m
  end.
(** No array item in it is nil. *)
Definition msg_nil_free (m : message) : Prop :=
  match m with
  | MsgWrapper m => nil_free_wrapper m | MsgLog m => nil_free_log m | MsgValue m => nil_free m
  | MsgArray m => Forall (λ x, match x with Some v => nil_free v | None => False end) (pa_items m)
  | MsgObject m => nil_free_obj m
  end.

(** ** Buffers that are too small *)
Definition stops (g : bytes → Z → Outcome (bytes * Z)) (e : bytes) : Prop :=
  ∀ d i, 0 ≤ i ≤ len d → i < len e → g d i = Panic.
Definition sputs (g : bytes → Z → Outcome (bytes * Z)) (e : bytes) : Prop := puts g e ∧ stops g e.
Definition sfills (f : bytes → Outcome (bytes * Z)) (e : bytes) : Prop :=
  fills f e ∧ ∀ d, len d < len e → f d = Panic.

Lemma puts_at g e d i : puts g e → len e ≤ i ≤ len d → ∃ d', g d i = Ok (d', i - len e) ∧ len d' = len d.
Proof.
  intros H Hi. assert (d = take (Z.to_nat (i - len e)) d ++ take (length e) (drop (Z.to_nat (i - len e)) d) ++ drop (Z.to_nat i) d) as Ed.
  { rewrite <- (take_drop (Z.to_nat (i - len e)) d) at 1. f_equal. rewrite <- (take_drop (length e) (drop _ d)) at 1. f_equal. rewrite drop_drop. f_equal. unfold len in *. lia. }
  set (pre := take (Z.to_nat (i - len e)) d) in *. set (old := take (length e) _) in *. set (suf := drop (Z.to_nat i) d) in *.
  assert (length pre = Z.to_nat (i - len e)) as Lp by (unfold pre; rewrite take_length; unfold len in *; lia).
  assert (length old = length e) as Lo by (unfold old; rewrite take_length, drop_length; unfold len in *; lia).
  exists (pre ++ e ++ suf). pose proof (H pre old suf Lo) as E. rewrite <- Ed in E.
  assert (len (pre ++ old) = i) as Ei by (rewrite len_app; unfold len in *; lia). rewrite Ei in E.
  assert (len pre = i - len e) as El by (unfold len in *; lia). rewrite El in E. split; [exact E|].
  rewrite Ed. rewrite !len_app. unfold len in *. lia.
Qed.
Lemma sputs_then g1 g2 e1 e2 : sputs g1 e1 → sputs g2 e2 → sputs (pthen g1 g2) (e2 ++ e1).
Proof.
  intros [P1 S1] [P2 S2]. split; [by apply puts_then|]. intros d i Hi Hs. rewrite len_app in Hs. unfold pthen.
  destruct (decide (i < len e1)) as [H1|H1]; [by rewrite S1|].
  destruct (puts_at g1 e1 d i P1 ltac:(lia)) as (d' & -> & Hl). pose proof (len_nonneg e1). apply S2; lia.
Qed.
Lemma sputs_nil : sputs (λ d i, Ok (d, i)) [].
Proof. split; [exact puts_nil|]. intros d i Hi Hs. unfold len in Hs. simpl in Hs. lia. Qed.
Lemma put_at_neg d i b : i < 0 → put_at d i b = Panic.
Proof. intros H. unfold put_at. destruct (Z.leb_spec 0 i); [lia|done]. Qed.
Lemma sputs_varint v : isU64 v → sputs (λ d i, encodeVarint d i v) (varint v).
Proof.
  intros Hv. split; [by apply puts_varint|]. intros d i Hi Hs. rewrite varint_len in Hs by done. unfold encodeVarint.
  cbn [varint_loop]. destruct (v >=? 128); by rewrite put_at_neg by lia.
Qed.
Lemma sputs_byte b : sputs (λ d i, put_tag (Ok (d, i)) b) [to_byte b].
Proof.
  split; [apply puts_byte|]. intros d i Hi Hs. unfold put_tag. rewrite put_at_neg; [done|]. unfold len in Hs. simpl in Hs. lia.
Qed.
Lemma sputs_tagged g e b : sputs g e → sputs (λ d i, put_tag (g d i) b) (to_byte b :: e).
Proof.
  intros H. pose proof (sputs_then g _ e [to_byte b] H (sputs_byte b)) as [_ S]. split; [apply puts_tagged; apply H|].
  intros d i Hi Hs. rewrite put_tag_then. exact (S d i Hi Hs).
Qed.
Lemma sputs_bytes s : sputs (λ d i, put_bytes d i s) s.
Proof. split; [apply puts_bytes|]. intros d i Hi Hs. unfold put_bytes, copy_at. destruct (Z.leb_spec 0 (i - len s)); [lia|done]. Qed.
Lemma sputs_fixed64 v : sputs (λ d i, put_fixed64 d i v) (le_bytes 8 v).
Proof.
  split; [apply puts_fixed64|]. intros d i Hi Hs. change (len (le_bytes 8 v)) with 8 in Hs. unfold put_fixed64. cbv zeta.
  destruct (Z.leb_spec 0 (i - 8)); [lia|done].
Qed.
Lemma sub_write_len d a b f d' n : (∀ s s' m, f s = Ok (s', m) → len s' = len s) → sub_write d a b f = Ok (d', n) → len d' = len d.
Proof.
  unfold sub_write. intros Hf H. destruct (_ && _) eqn:E; [|done]. rewrite !andb_true_iff, !Z.leb_le in E. destruct (f _) as [[s' m]|] eqn:Ef; [|done]. injection H as <- <-.
  apply Hf in Ef. rewrite !len_app, Ef. unfold len in *. rewrite !take_length, !drop_length. lia.
Qed.
Lemma sputs_msg f e tg : sfills f e → sputs (λ d i, put_msg d i tg f) (to_byte tg :: varint (u64 (len e)) ++ e).
Proof.
  intros [F S]. split; [by apply puts_msg|]. intros d i Hi Hs. unfold put_msg.
  assert (d = take (Z.to_nat i) d ++ drop (Z.to_nat i) d) as Ed by (by rewrite take_drop).
  assert (len (take (Z.to_nat i) d) = i) as Lt by (unfold len in *; rewrite take_length; lia).
  assert (sub_write d 0 i f = match f (take (Z.to_nat i) d) with Panic => Panic | Ok (d', n) => Ok (d' ++ drop (Z.to_nat i) d, n) end) as ->.
  { unfold sub_write. destruct (Z.leb_spec 0 i); [|lia]. destruct (Z.leb_spec i (len d)); [|lia]. simpl. rewrite drop_0, Nat.sub_0_r. done. }
  destruct (decide (i < len e)) as [H1|H1]; [by rewrite S by lia|].
  assert (take (Z.to_nat i) d = take (Z.to_nat (i - len e)) d ++ drop (Z.to_nat (i - len e)) (take (Z.to_nat i) d)) as Et.
  { rewrite <- (take_drop (Z.to_nat (i - len e)) (take (Z.to_nat i) d)) at 1. f_equal. rewrite take_take. f_equal. pose proof (len_nonneg e). lia. }
  rewrite Et, F by (rewrite drop_length, take_length; unfold len in *; lia).
  destruct (sputs_tagged _ _ tg (sputs_varint (u64 (len e)) (u64_is _))) as [_ S2]. apply S2.
  - pose proof (len_nonneg e). rewrite !len_app. unfold len in *. rewrite take_length, drop_length. lia.
  - change (len (to_byte tg :: varint (u64 (len e)) ++ e)) with (1 + len (varint (u64 (len e)) ++ e)) in Hs || rewrite len_cons in Hs.
    rewrite len_cons. rewrite len_app in Hs. lia.
Qed.
Lemma sdone_at (g : bytes → Z → Outcome (bytes * Z)) e f :
  sputs g e → (∀ d, f d = done_at (len d) (g d (len d))) → sfills f e.
Proof.
  intros [P S] Hf. split; [by eapply done_at_fills|]. intros d Hd. rewrite Hf, S; [done| |done]. pose proof (len_nonneg d). lia.
Qed.
Lemma sputs_sized f e : sfills f e → sputs (λ d i, put_sized d i (len e) f) e.
Proof.
  intros [F _]. split; [by apply puts_sized|]. intros d i Hi Hs. unfold put_sized. unfold sub_write at 1.
  destruct (Z.leb_spec 0 (i - len e)); [lia|done].
Qed.

Section parts.
  Context {A : Type} (msb : A → bytes → Outcome (bytes * Z)) (enc : A → bytes).
  Lemma sputs_items items :
    no_nil items → Forall (opt_all (λ v, sfills (msb v) (enc v))) items →
    sputs (put_items msb items) (enc_items (map enc_opt (map (option_map enc) items))).
  Proof.
    intros Hn Hall. induction items as [|x items IH]; [exact sputs_nil|].
    apply Forall_cons in Hn as [Hx Hn]. apply Forall_cons in Hall as [Hv Hall].
    destruct x as [v|]; [|done]. simpl in Hv.
    exact (sputs_then (put_items msb items) (λ d i, put_msg d i 0xa (msb_opt msb (Some v))) _ _ (IH Hn Hall) (sputs_msg _ _ 0xa Hv)).
  Qed.
  Lemma sfills_arr a :
    no_nil (pa_items a) → arr_all (λ v, sfills (msb v) (enc v)) a → sfills (msb_arr msb a) (enc_arr0 (arr_map enc a)).
  Proof.
    destruct a as [items u]. intros Hn Hall. simpl in Hn, Hall.
    eapply (sdone_at (pthen (λ d i, put_bytes d i u) (put_items msb items))); [|done].
    exact (sputs_then _ _ _ _ (sputs_bytes u) (sputs_items items Hn Hall)).
  Qed.
  Lemma sputs_entry kv :
    opt_all (λ v, sfills (msb v) (enc v)) kv.2 → sputs (put_entry msb kv) (enc_entry (kv.1, option_map enc kv.2)).
  Proof.
    destruct kv as [k x]. simpl. intros Hx. split.
    { apply (puts_entry msb enc (k, x)). destruct x; simpl; [apply Hx|done]. }
    unfold enc_entry. cbn [fst snd].
    set (body := delimited 1 (list_ascii_of_string k) ++ match option_map enc x with Some v => delimited 2 v | None => [] end).
    set (g1 := λ d i, match x with None => Ok (d, i) | Some v => put_msg d i 0x12 (msb v) end).
    set (g := pthen g1 (pthen (λ d i, put_bytes d i (list_ascii_of_string k)) (λ d i, put_tag (encodeVarint d i (u64 (len (list_ascii_of_string k)))) 0xa))).
    assert (sputs g body) as [Pg Sg].
    { assert (sputs g1 match option_map enc x with Some v => delimited 2 v | None => [] end) as H1.
      { destruct x as [v|]; [exact (sputs_msg _ _ 0x12 Hx)|exact sputs_nil]. }
      exact (sputs_then g1 _ _ _ H1 (sputs_then _ _ _ _ (sputs_bytes _) (sputs_tagged _ _ 0xa (sputs_varint _ (u64_is _))))). }
    intros d i Hi Hs.
    assert (put_entry msb (k, x) d i = match g d i with Panic => Panic | Ok (d3, i3) => put_tag (encodeVarint d3 i3 (u64 (i - i3))) 0xa end) as ->.
    { unfold put_entry, g, pthen, g1. cbn [fst snd]. destruct (match x with Some v => _ | None => _ end) as [[d1 i1]|]; [|done].
      destruct (put_bytes d1 i1 _) as [[d2 i2]|]; [|done]. done. }
    destruct (decide (i < len body)) as [H1|H1]; [by rewrite Sg|].
    destruct (puts_at g body d i Pg ltac:(lia)) as (d' & -> & Hl). replace (i - (i - len body)) with (len body) by lia. pose proof (len_nonneg body).
    destruct (sputs_tagged _ _ 0xa (sputs_varint (u64 (len body)) (u64_is _))) as [_ S2]. apply S2; [lia|].
    unfold delimited at 1 in Hs. rewrite !len_app in Hs. rewrite len_cons. change (len (tag 1 2)) with 1 in Hs. lia.
  Qed.
  Lemma sputs_fields fields :
    Forall (λ kv, opt_all (λ v, sfills (msb v) (enc v)) kv.2) fields →
    sputs (put_fields msb fields) (enc_fields (map (λ kv, (kv.1, option_map enc kv.2)) fields)).
  Proof.
    induction fields as [|kv fields IH]; intros Hall; [exact sputs_nil|].
    apply Forall_cons in Hall as [Hv Hall]. unfold enc_fields. cbn [map]. rewrite concat_map_rev_cons.
    exact (sputs_then (put_entry msb kv) (put_fields msb fields) _ _ (sputs_entry kv Hv) (IH Hall)).
  Qed.
  Lemma sfills_obj o :
    obj_all (λ v, sfills (msb v) (enc v)) o → sfills (msb_obj msb o) (enc_obj0 (obj_map enc o)).
  Proof.
    destruct o as [fields u]. intros Hall.
    eapply (sdone_at (pthen (λ d i, put_bytes d i u) (put_fields msb fields))); [|done].
    exact (sputs_then _ _ _ _ (sputs_bytes u) (sputs_fields fields Hall)).
  Qed.
  Lemma sfills_kind k :
    kind_no_nil k → kind_all (λ v, sfills (msb v) (enc v)) k → sfills (msb_kind msb k) (enc_kind0 (kind_map enc k)).
  Proof.
    intros Hn Hall. unfold msb_kind.
    destruct k as [|z|[a|]|b|v|z|[o|]|[s|]|z|z]; simpl in Hn, Hall.
    - apply (sdone_at _ _ _ sputs_nil). done.
    - apply (sdone_at _ _ _ (sputs_tagged _ _ 0x8 (sputs_varint (u64 z) (u64_is _)))). done.
    - apply (sdone_at _ _ _ (sputs_msg _ _ 0x12 (sfills_arr a Hn Hall))). done.
    - apply (sdone_at _ _ _ sputs_nil). done.
    - apply (sdone_at _ _ _ (sputs_tagged _ _ 0x18 (sputs_byte (if b then 1 else 0)))). done.
    - apply (sdone_at _ _ _ (sputs_tagged _ _ 0x21 (sputs_fixed64 v))). done.
    - apply (sdone_at _ _ _ (sputs_tagged _ _ 0x28 (sputs_varint (u64 z) (u64_is _)))). done.
    - apply (sdone_at _ _ _ (sputs_msg _ _ 0x32 (sfills_obj o Hall))). done.
    - apply (sdone_at _ _ _ sputs_nil). done.
    - apply (sdone_at (pthen (λ d i, put_bytes d i s)
          (λ d i, put_tag (encodeVarint d i (u64 (len s))) 0x3a)) _ _
          (sputs_then _ _ _ _ (sputs_bytes s) (sputs_tagged _ _ 0x3a (sputs_varint _ (u64_is _))))). done.
    - apply (sdone_at _ _ _ sputs_nil). done.
    - apply (sdone_at _ _ _ (sputs_tagged _ _ 0x40 (sputs_varint (u64 z) (u64_is _)))). done.
    - apply (sdone_at _ _ _ (sputs_tagged _ _ 0x48 (sputs_varint (u64 z) (u64_is _)))). done.
  Qed.
End parts.

Lemma sfills_value v : nil_free v → sfills (msb_value v) (enc_value v).
Proof.
  induction v as [k u IH] using pval_ind'. intros Hn. apply nil_free_inv in Hn as [Hk Hall].
  assert (kind_all (λ v, sfills (msb_value v) (enc_value v)) k) as Hf.
  { clear Hk. destruct k as [|z|[[items ua]|]|b|v|z|[[fields uo]|]|[s|]|z|z]; simpl in *; try done;
      rewrite Forall_forall in IH, Hall |- *; intros x Hx; specialize (IH x Hx); specialize (Hall x Hx).
    - destruct x; simpl in *; auto.
    - destruct x as [? [x|]]; simpl in *; auto. }
  pose proof (sfills_kind msb_value enc_value k Hk Hf) as Hfk.
  pose proof (sputs_sized _ _ Hfk) as Hs.
  rewrite <- (size_kind_ok size_value enc_value k) in Hs by (apply kind_all_true, size_value_ok).
  eapply (sdone_at (pthen (λ d i, put_bytes d i u) (λ d i,
             match k with KNil => Ok (d, i) | _ => put_sized d i (size_kind size_value k) (msb_kind msb_value k) end))); [|done].
  simpl. apply sputs_then; [apply sputs_bytes|]. destruct k; try exact Hs. exact sputs_nil.
Qed.
Lemma sfills_obj_value o : nil_free_obj o → sfills (msb_obj msb_value o) (enc_obj o).
Proof.
  intros Hn. apply sfills_obj. destruct o as [fields uo]. unfold nil_free_obj in Hn. simpl in *. eapply Forall_impl; [exact Hn|].
  intros [? [x|]]; simpl; [apply sfills_value|done].
Qed.
Lemma sfills_log l : nil_free_log l → sfills (msb_log l) (enc_log l).
Proof.
  destruct l as [o u]. unfold nil_free_log. simpl. intros Hn.
  eapply (sdone_at (pthen (λ d i, put_bytes d i u) (λ d i,
     match o with None => Ok (d, i) | Some o => put_msg d i 0xa (msb_obj msb_value o) end))); [|done].
  unfold enc_log. simpl. apply sputs_then; [apply sputs_bytes|].
  destruct o as [o|]; [|exact sputs_nil]. simpl in Hn. exact (sputs_msg _ _ 0xa (sfills_obj_value o Hn)).
Qed.
Lemma sfills_wrapper m : nil_free_wrapper m → sfills (msb_wrapper m) (enc_wrapper m).
Proof.
  destruct m as [lg u]. unfold nil_free_wrapper. simpl. intros Hn.
  eapply (sdone_at (pthen (λ d i, put_bytes d i u) (λ d i,
     match lg with None => Ok (d, i) | Some l => put_sized d i (size_wrapper_log l) (msb_wrapper_log l) end))); [|done].
  unfold enc_wrapper. simpl. apply sputs_then; [apply sputs_bytes|].
  destruct lg as [l|]; [|exact sputs_nil]. simpl in Hn.
  set (e := match l with Some l => delimited 1 (enc_log l) | None => [] end).
  assert (size_wrapper_log l = len e) as ->.
  { unfold e. destruct l as [l|]; simpl; [|done]. rewrite len_delimited, size_log_ok by lia. done. }
  apply sputs_sized. unfold e. destruct l as [l|].
  - apply (sdone_at _ _ _ (sputs_msg _ _ 0xa (sfills_log l Hn))). done.
  - apply (sdone_at _ _ _ sputs_nil). done.
Qed.
Lemma msg_size_ok m : msg_size m = len (msg_encoding m).
Proof.
  destruct m as [m|m|m|m|m]; [apply size_wrapper_ok|apply size_log_ok|apply size_value_ok| |apply size_obj_value].
  apply size_arr_ok. destruct m as [items u]. simpl. apply Forall_forall. intros [v|] _; [|done]. apply size_value_ok.
Qed.
Lemma msg_fills m : msg_nil_free m → sfills (msg_sized m) (msg_encoding m).
Proof.
  destruct m as [m|m|m|m|m]; intros Hn; [by apply sfills_wrapper|by apply sfills_log|by apply sfills_value| |by apply sfills_obj_value].
  destruct m as [items u]. simpl in *. apply (sfills_arr msb_value enc_value (mkPArr items u)); simpl.
  - unfold no_nil. eapply Forall_impl; [exact Hn|]. by intros [|].
  - eapply Forall_impl; [exact Hn|]. intros [v|]; [apply sfills_value|done].
Qed.

(** ** Nil items *)
Lemma msg_cases m : msg_nil_free m ∨ ∀ d, msg_sized m d = Panic.
Proof.
  destruct m as [m|m|m|m|m]; cbn [msg_nil_free msg_sized].
  - destruct m as [[[[[o|] u2]|]|] u]; try (left; done).
    destruct (msb_obj_cases o) as [H|H]; [by left|right]. intros d. unfold msb_wrapper. cbn [mw_log mw_unrec].
    destruct put_bytes as [[d1 i1]|]; [|done]. rewrite put_sized_panic; [done|]. intros s. unfold msb_wrapper_log.
    rewrite put_msg_panic; [done|]. intros s'. unfold msb_log. cbn [lg_object lg_unrec].
    destruct put_bytes as [[d2 i2]|]; [|done]. by rewrite put_msg_panic.
  - destruct m as [[o|] u]; [|by left]. destruct (msb_obj_cases o) as [H|H]; [by left|right]. intros d. unfold msb_log. cbn [lg_object lg_unrec].
    destruct put_bytes as [[d2 i2]|]; [|done]. by rewrite put_msg_panic.
  - apply nil_free_or_panic.
  - destruct m as [items u]. cbn [pa_items].
    assert (Forall (λ x, match x with Some v => nil_free v | None => False end) items ∨ ∃ x, x ∈ items ∧ ∀ s, msb_opt msb_value x s = Panic) as [H|H].
    { induction items as [|x items IH]; [left; constructor|]. destruct x as [v|].
      2: { right. exists None. split; [apply elem_of_list_here|done]. }
      destruct (nil_free_or_panic v) as [Hv|Hv]; [|right; exists (Some v); split; [apply elem_of_list_here|done]].
      destruct IH as [IH|(x & ? & ?)]; [left; by constructor|right; exists x; split; [by apply elem_of_list_further|done]]. }
    + by left.
    + right. intros d. unfold msb_arr. destruct put_bytes as [[d1 i1]|]; [|done]. by rewrite put_items_panic.
  - apply msb_obj_cases.
Qed.
