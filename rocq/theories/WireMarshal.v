(** * Marshal writes exactly the encoding *)
From Verif Require Export WireVarint.
Local Open Scope Z_scope.

(** [g], started at position [i], writes [e] into the bytes just before [i] and
    changes nothing else. *)
Definition puts (g : bytes → Z → Outcome (bytes * Z)) (e : bytes) : Prop :=
  ∀ pre old suf, length old = length e →
    g (pre ++ old ++ suf) (len (pre ++ old)) = Ok (pre ++ e ++ suf, len pre).
(** [f] writes [e] at the end of its buffer and returns its length. *)
Definition fills (f : bytes → Outcome (bytes * Z)) (e : bytes) : Prop :=
  ∀ pre old, length old = length e → f (pre ++ old) = Ok (pre ++ e, len e).

Definition pthen (g1 g2 : bytes → Z → Outcome (bytes * Z)) (d : bytes) (i : Z) : Outcome (bytes * Z) :=
  match g1 d i with Panic => Panic | Ok (d', i') => g2 d' i' end.

Lemma puts_then g1 g2 e1 e2 : puts g1 e1 → puts g2 e2 → puts (pthen g1 g2) (e2 ++ e1).
Proof.
  intros H1 H2 pre old suf Hl. rewrite app_length in Hl. unfold pthen.
  rewrite <- (take_drop (length e2) old).
  set (o2 := take (length e2) old). set (o1 := drop (length e2) old).
  assert (length o2 = length e2) as Hl2 by (unfold o2; rewrite take_length; lia).
  assert (length o1 = length e1) as Hl1 by (unfold o1; rewrite drop_length; lia).
  replace (pre ++ (o2 ++ o1) ++ suf) with ((pre ++ o2) ++ o1 ++ suf) by (by rewrite !app_assoc).
  replace (pre ++ o2 ++ o1) with ((pre ++ o2) ++ o1) by (by rewrite app_assoc).
  rewrite H1 by done. rewrite <- app_assoc. rewrite H2 by done. by rewrite <- app_assoc.
Qed.

Lemma puts_nil : puts (λ d i, Ok (d, i)) [].
Proof. intros pre [|] suf Hl; [|done]. simpl. by rewrite app_nil_r. Qed.

Lemma puts_varint v : isU64 v → puts (λ d i, encodeVarint d i v) (varint v).
Proof. intros Hv pre old suf Hl. by apply encodeVarint_ok. Qed.

Lemma puts_byte b : puts (λ d i, put_tag (Ok (d, i)) b) [to_byte b].
Proof.
  intros pre old suf Hl. destruct old as [|x [|]]; simpl in Hl; try lia.
  unfold put_tag. rewrite len_app, len_cons, len_nil.
  replace (len pre + (1 + 0) - 1) with (len pre) by lia.
  cbn [app]. by rewrite put_at_app.
Qed.

Lemma put_tag_then x b :
  put_tag x b = match x with Panic => Panic | Ok (d, i) => put_tag (Ok (d, i)) b end.
Proof. by destruct x as [[]|]. Qed.

Lemma puts_tagged g e b : puts g e → puts (λ d i, put_tag (g d i) b) (to_byte b :: e).
Proof.
  intros H pre old suf Hl.
  rewrite put_tag_then.
  exact (puts_then g (λ d i, put_tag (Ok (d, i)) b) e [to_byte b] H (puts_byte b) pre old suf Hl).
Qed.

Lemma puts_bytes s : puts (λ d i, put_bytes d i s) s.
Proof.
  intros pre old suf Hl. unfold put_bytes, copy_at.
  assert (len (pre ++ old) - len s = len pre) as ->.
  { rewrite len_app. unfold len. lia. }
  rewrite (proj2 (Z.leb_le _ _)) by apply len_nonneg.
  rewrite (proj2 (Z.leb_le _ _)).
  2:{ rewrite len_app. pose proof (len_nonneg (old ++ suf)). lia. }
  cbn [andb]. rewrite len_to_nat.
  assert (Nat.min (length (pre ++ old ++ suf) - length pre) (length s) = length s) as ->.
  { rewrite !app_length. lia. }
  f_equal. f_equal.
  rewrite firstn_app, firstn_all, Nat.sub_diag. simpl. rewrite app_nil_r.
  f_equal. rewrite firstn_all. f_equal.
  rewrite app_assoc, <- Hl, <- app_length, skipn_app, skipn_all, Nat.sub_diag. done.
Qed.

Lemma puts_fixed64 v : puts (λ d i, put_fixed64 d i v) (le_bytes 8 v).
Proof.
  intros pre old suf Hl. unfold put_fixed64. cbn zeta.
  assert (length (le_bytes 8 v) = 8%nat) as H8 by done.
  assert (len (pre ++ old) - 8 = len pre) as ->.
  { rewrite len_app. unfold len. lia. }
  rewrite (proj2 (Z.leb_le _ _)) by apply len_nonneg.
  rewrite (proj2 (Z.leb_le _ _)).
  2:{ rewrite !len_app. unfold len. lia. }
  cbn [andb]. rewrite len_to_nat. f_equal. f_equal.
  rewrite firstn_app, firstn_all, Nat.sub_diag. simpl take. rewrite app_nil_r.
  f_equal. f_equal.
  rewrite app_assoc, <- H8, <- Hl, <- app_length, skipn_app, skipn_all, Nat.sub_diag. done.
Qed.

Lemma slice_mid (pre mid suf : bytes) a b :
  a = length pre → b = length (pre ++ mid) → take (b - a)%nat (drop a (pre ++ mid ++ suf)) = mid.
Proof.
  intros -> ->. rewrite app_length.
  rewrite skipn_app, skipn_all, Nat.sub_diag. simpl.
  replace (length pre + length mid - length pre)%nat with (length mid) by lia.
  rewrite drop_0. by rewrite firstn_app, firstn_all, Nat.sub_diag, app_nil_r.
Qed.

Lemma sub_write_ok f pre mid suf mid' n a b :
  a = len pre → b = len (pre ++ mid) → f mid = Ok (mid', n) →
  sub_write (pre ++ mid ++ suf) a b f = Ok (pre ++ mid' ++ suf, n).
Proof.
  intros -> -> Hf. unfold sub_write.
  rewrite (proj2 (Z.leb_le _ _)) by apply len_nonneg.
  rewrite (proj2 (Z.leb_le (len pre) _)) by (rewrite len_app; pose proof (len_nonneg mid); lia).
  rewrite (proj2 (Z.leb_le _ _)) by (rewrite !len_app; pose proof (len_nonneg suf); lia).
  cbn [andb]. rewrite !len_to_nat. rewrite slice_mid by done. rewrite Hf.
  f_equal. f_equal.
  rewrite firstn_app, firstn_all, Nat.sub_diag. simpl take. rewrite app_nil_r.
  f_equal. f_equal.
  rewrite app_assoc, skipn_app, skipn_all, Nat.sub_diag. done.
Qed.

(** A sub-message with its length and tag. *)
Lemma puts_msg f e tg : fills f e →
  puts (λ d i, put_msg d i tg f) (to_byte tg :: varint (u64 (len e)) ++ e).
Proof.
  intros Hf pre old suf Hl. unfold put_msg.
  simpl in Hl. rewrite app_length in Hl.
  set (nh := S (length (varint (u64 (len e))))) in *.
  rewrite <- (take_drop nh old).
  set (oh := take nh old). set (ob := drop nh old).
  assert (length oh = nh) as Hlh by (unfold oh; rewrite take_length; lia).
  assert (length ob = length e) as Hlb by (unfold ob; rewrite drop_length; lia).
  pose proof (sub_write_ok f [] ((pre ++ oh) ++ ob) suf ((pre ++ oh) ++ e) (len e) 0
                (len ((pre ++ oh) ++ ob)) eq_refl eq_refl (Hf _ _ Hlb)) as Hsw.
  simpl app in Hsw.
  replace (pre ++ (oh ++ ob) ++ suf) with (((pre ++ oh) ++ ob) ++ suf) by (by rewrite !app_assoc).
  replace (pre ++ oh ++ ob) with ((pre ++ oh) ++ ob) by (by rewrite !app_assoc).
  change (([] ++ ((pre ++ oh) ++ ob) ++ suf)) with (((pre ++ oh) ++ ob) ++ suf) in Hsw.
  rewrite Hsw.
  assert (len ((pre ++ oh) ++ ob) - len e = len (pre ++ oh)) as ->.
  { rewrite (len_app _ ob). unfold len. lia. }
  pose proof (puts_tagged _ _ tg (puts_varint (u64 (len e)) (u64_is _)) pre oh (e ++ suf)) as Hp.
  cbn beta in Hp. rewrite <- !app_assoc. rewrite Hp by done.
  cbn [app]. by rewrite <- !app_assoc.
Qed.

Lemma done_at_fills (g : bytes → Z → Outcome (bytes * Z)) e f :
  puts g e → (∀ d, f d = done_at (len d) (g d (len d))) → fills f e.
Proof.
  intros Hg Hf pre old Hl. rewrite Hf.
  pose proof (Hg pre old [] Hl) as H. rewrite !app_nil_r in H. rewrite H.
  simpl. f_equal. f_equal. rewrite len_app. unfold len. lia.
Qed.

(** The method called with a buffer cut to the right size. *)
Lemma puts_sized f e : fills f e → puts (λ d i, put_sized d i (len e) f) e.
Proof.
  intros Hf pre old suf Hl. unfold put_sized.
  assert (len (pre ++ old) - len e = len pre) as ->.
  { rewrite len_app. unfold len. lia. }
  assert (f old = Ok (e, len e)) as Hfo by (exact (Hf [] old Hl)).
  pose proof (sub_write_ok f [] old suf e (len e) 0 (len e)) as H1. simpl app in H1.
  rewrite <- (app_nil_r (pre ++ old ++ suf)), <- app_assoc.
  rewrite (sub_write_ok _ pre (old ++ suf) [] (e ++ suf) (len e)).
  - by rewrite app_nil_r.
  - done.
  - by rewrite app_nil_r.
  - cbn beta. apply H1; [done| |done]. unfold len. by rewrite Hl.
Qed.

(** ** The parts of a value *)
Section parts.
  Context {A : Type} (msb : A → bytes → Outcome (bytes * Z)) (enc : A → bytes).

  Definition no_nil (items : list (option A)) : Prop := Forall (λ x, x ≠ None) items.

  Lemma puts_items items :
    no_nil items → Forall (opt_all (λ v, fills (msb v) (enc v))) items →
    puts (put_items msb items) (enc_items (map enc_opt (map (option_map enc) items))).
  Proof.
    intros Hn Hall. induction items as [|x items IH].
    - exact puts_nil.
    - apply Forall_cons in Hn as [Hx Hn]. apply Forall_cons in Hall as [Hv Hall].
      destruct x as [v|]; [|done]. simpl in Hv.
      exact (puts_then (put_items msb items) (λ d i, put_msg d i 0xa (msb_opt msb (Some v))) _ _
               (IH Hn Hall) (puts_msg _ _ 0xa Hv)).
  Qed.

  Lemma fills_arr a :
    no_nil (pa_items a) → arr_all (λ v, fills (msb v) (enc v)) a →
    fills (msb_arr msb a) (enc_arr0 (arr_map enc a)).
  Proof.
    destruct a as [items u]. intros Hn Hall. simpl in Hn, Hall.
    eapply (done_at_fills (pthen (λ d i, put_bytes d i u) (put_items msb items))).
    - exact (puts_then _ _ _ _ (puts_bytes u) (puts_items items Hn Hall)).
    - done.
  Qed.

  Lemma puts_entry kv :
    opt_all (λ v, fills (msb v) (enc v)) kv.2 →
    puts (put_entry msb kv) (enc_entry (kv.1, option_map enc kv.2)).
  Proof.
    destruct kv as [k x]. simpl. intros Hx. unfold enc_entry. cbn [fst snd].
    set (body := delimited 1 (list_ascii_of_string k)
           ++ match option_map enc x with Some v => delimited 2 v | None => [] end).
    set (g := λ d i,
      match (match x with None => Ok (d, i) | Some v => put_msg d i 0x12 (msb v) end) with
      | Panic => Panic
      | Ok (d1, i1) =>
          match put_bytes d1 i1 (list_ascii_of_string k) with
          | Panic => Panic
          | Ok (d2, i2) => put_tag (encodeVarint d2 i2 (u64 (len (list_ascii_of_string k)))) 0xa
          end
      end).
    assert (puts g body) as Hg.
    { set (g1 := λ d i, match x with None => Ok (d, i) | Some v => put_msg d i 0x12 (msb v) end).
      assert (puts g1 match option_map enc x with Some v => delimited 2 v | None => [] end) as H1.
      { destruct x as [v|]; [exact (puts_msg _ _ 0x12 Hx)|exact puts_nil]. }
      exact (puts_then g1 (pthen (λ d i, put_bytes d i (list_ascii_of_string k))
                (λ d i, put_tag (encodeVarint d i (u64 (len (list_ascii_of_string k)))) 0xa)) _ _ H1
              (puts_then _ _ _ _ (puts_bytes _) (puts_tagged _ _ 0xa (puts_varint _ (u64_is _))))). }
    intros pre old suf Hl.
    change (length old = length (to_byte 0xa :: varint (u64 (len body)) ++ body)) in Hl.
    simpl in Hl. rewrite app_length in Hl.
    set (nh := S (length (varint (u64 (len body))))) in *.
    rewrite <- (take_drop nh old).
    set (oh := take nh old). set (ob := drop nh old).
    assert (length oh = nh) as Hlh by (unfold oh; rewrite take_length; lia).
    assert (length ob = length body) as Hlb by (unfold ob; rewrite drop_length; lia).
    replace (pre ++ (oh ++ ob) ++ suf) with ((pre ++ oh) ++ ob ++ suf) by (by rewrite !app_assoc).
    replace (pre ++ oh ++ ob) with ((pre ++ oh) ++ ob) by (by rewrite !app_assoc).
    pose proof (Hg (pre ++ oh) ob suf Hlb) as H1.
    assert (put_entry msb (k, x) ((pre ++ oh) ++ ob ++ suf) (len ((pre ++ oh) ++ ob))
      = match g ((pre ++ oh) ++ ob ++ suf) (len ((pre ++ oh) ++ ob)) with
        | Panic => Panic
        | Ok (d3, i3) => put_tag (encodeVarint d3 i3 (u64 (len ((pre ++ oh) ++ ob) - i3))) 0xa
        end) as ->.
    { unfold put_entry, g. cbn [fst snd].
      destruct (match x with Some v => _ | None => _ end) as [[d1 i1]|]; [|done].
      destruct (put_bytes d1 i1 _) as [[d2 i2]|]; [|done]. done. }
    rewrite H1.
    assert (len ((pre ++ oh) ++ ob) - len (pre ++ oh) = len body) as ->.
    { rewrite (len_app _ ob). unfold len. lia. }
    pose proof (puts_tagged _ _ 0xa (puts_varint (u64 (len body)) (u64_is _)) pre oh (body ++ suf)) as Hp.
    cbn beta in Hp. rewrite <- !app_assoc. rewrite Hp by done.
    unfold delimited at 1. by rewrite <- !app_assoc.
  Qed.

  Lemma concat_map_rev_cons {B} (f : B → bytes) x l :
    concat (map f (rev (x :: l))) = concat (map f (rev l)) ++ f x.
  Proof. simpl. rewrite map_app, concat_app. simpl. by rewrite app_nil_r. Qed.

  Lemma puts_fields fields :
    Forall (λ kv, opt_all (λ v, fills (msb v) (enc v)) kv.2) fields →
    puts (put_fields msb fields) (enc_fields (map (λ kv, (kv.1, option_map enc kv.2)) fields)).
  Proof.
    induction fields as [|kv fields IH]; intros Hall.
    - exact puts_nil.
    - apply Forall_cons in Hall as [Hv Hall].
      unfold enc_fields. cbn [map]. rewrite concat_map_rev_cons.
      exact (puts_then (put_entry msb kv) (put_fields msb fields) _ _ (puts_entry kv Hv) (IH Hall)).
  Qed.

  Lemma fills_obj o :
    obj_all (λ v, fills (msb v) (enc v)) o → fills (msb_obj msb o) (enc_obj0 (obj_map enc o)).
  Proof.
    destruct o as [fields u]. intros Hall.
    eapply (done_at_fills (pthen (λ d i, put_bytes d i u) (put_fields msb fields))).
    - exact (puts_then _ _ _ _ (puts_bytes u) (puts_fields fields Hall)).
    - done.
  Qed.

  Definition kind_no_nil (k : pkind A) : Prop :=
    match k with KArray (Some a) => no_nil (pa_items a) | _ => True end.

  Lemma fills_kind k :
    kind_no_nil k → kind_all (λ v, fills (msb v) (enc v)) k →
    fills (msb_kind msb k) (enc_kind0 (kind_map enc k)).
  Proof.
    intros Hn Hall. unfold msb_kind.
    destruct k as [|z|[a|]|b|v|z|[o|]|[s|]|z|z]; simpl in Hn, Hall.
    - apply (done_at_fills _ _ _ puts_nil). done.
    - apply (done_at_fills _ _ _ (puts_tagged _ _ 0x8 (puts_varint (u64 z) (u64_is _)))). done.
    - apply (done_at_fills _ _ _ (puts_msg _ _ 0x12 (fills_arr a Hn Hall))). done.
    - apply (done_at_fills _ _ _ puts_nil). done.
    - apply (done_at_fills _ _ _ (puts_tagged _ _ 0x18 (puts_byte (if b then 1 else 0)))). done.
    - apply (done_at_fills _ _ _ (puts_tagged _ _ 0x21 (puts_fixed64 v))). done.
    - apply (done_at_fills _ _ _ (puts_tagged _ _ 0x28 (puts_varint (u64 z) (u64_is _)))). done.
    - apply (done_at_fills _ _ _ (puts_msg _ _ 0x32 (fills_obj o Hall))). done.
    - apply (done_at_fills _ _ _ puts_nil). done.
    - apply (done_at_fills (pthen (λ d i, put_bytes d i s)
          (λ d i, put_tag (encodeVarint d i (u64 (len s))) 0x3a)) _ _
          (puts_then _ _ _ _ (puts_bytes s) (puts_tagged _ _ 0x3a (puts_varint _ (u64_is _))))). done.
    - apply (done_at_fills _ _ _ puts_nil). done.
    - apply (done_at_fills _ _ _ (puts_tagged _ _ 0x40 (puts_varint (u64 z) (u64_is _)))). done.
    - apply (done_at_fills _ _ _ (puts_tagged _ _ 0x48 (puts_varint (u64 z) (u64_is _)))). done.
  Qed.
End parts.

(** ** Size is the length of the encoding *)
Lemma tag_len1 num wt : 0 ≤ num * 8 + wt < 128 → tag num wt = [to_byte (num * 8 + wt)].
Proof.
  intros H. unfold tag, varint. cbn [varint_n]. by rewrite (proj2 (Z.ltb_lt _ _)) by lia.
Qed.
Lemma len_delimited num e : 0 ≤ num * 8 + 2 < 128 → len (delimited num e) = 1 + len e + sov (u64 (len e)).
Proof.
  intros H. unfold delimited. rewrite tag_len1 by done.
  rewrite !len_app, len_cons, len_nil, varint_len by apply u64_is. lia.
Qed.
Lemma len_numeric num v : 0 ≤ num * 8 + 0 < 128 → isU64 v → len (numeric num v) = 1 + sov v.
Proof.
  intros H Hv. unfold numeric. rewrite tag_len1 by done.
  rewrite !len_app, len_cons, len_nil, varint_len by done. lia.
Qed.

Lemma zsum_app a b : zsum (a ++ b) = zsum a + zsum b.
Proof. induction a as [|x a IH]; simpl; [done|]. rewrite IH. lia. Qed.

Lemma len_list_ascii s : len (list_ascii_of_string s) = Z.of_nat (String.length s).
Proof. unfold len. f_equal. induction s; simpl; [done|]. by rewrite IHs. Qed.

Section size_parts.
  Context {A : Type} (size : A → Z) (enc : A → bytes).
  Lemma size_arr_ok a : arr_all (λ v, size v = len (enc v)) a → size_arr size a = len (enc_arr0 (arr_map enc a)).
  Proof.
    destruct a as [items u]. simpl. intros H. unfold enc_arr0. simpl. rewrite len_app. f_equal.
    induction items as [|x items IH]; [done|]. apply Forall_cons in H as [Hx H].
    unfold enc_items in *. cbn [map List.concat zsum fold_right].
    rewrite len_app, <- (IH H), len_delimited by lia. f_equal.
    destruct x as [v|]; simpl in *; [by rewrite Hx|done].
  Qed.
  Lemma size_entry_ok kv : opt_all (λ v, size v = len (enc v)) kv.2 →
    size_entry size kv = len (enc_entry (kv.1, option_map enc kv.2)).
  Proof.
    destruct kv as [k x]. simpl. intros Hx. unfold enc_entry, size_entry. cbn [fst snd].
    rewrite len_delimited by lia. rewrite len_app, len_delimited by lia. rewrite len_list_ascii.
    destruct x as [v|]; simpl in *.
    - rewrite len_delimited by lia. rewrite <- Hx.
      replace (size v + (1 + sov (u64 (size v)))) with (1 + size v + sov (u64 (size v))) by lia. lia.
    - rewrite len_nil. lia.
  Qed.
  Lemma size_obj_ok o : obj_all (λ v, size v = len (enc v)) o → size_obj size o = len (enc_obj0 (obj_map enc o)).
  Proof.
    destruct o as [fields u]. simpl. intros H. unfold enc_obj0. simpl. rewrite len_app. f_equal.
    induction fields as [|kv fields IH]; [done|]. apply Forall_cons in H as [Hx H].
    unfold enc_fields in *. cbn [map]. rewrite concat_map_rev_cons, len_app, <- (IH H).
    cbn [zsum fold_right]. rewrite (size_entry_ok kv Hx). unfold zsum. lia.
  Qed.
  Lemma size_kind_ok k : kind_all (λ v, size v = len (enc v)) k → size_kind size k = len (enc_kind0 (kind_map enc k)).
  Proof.
    intros H. destruct k as [|z|[a|]|b|v|z|[o|]|[s|]|z|z]; simpl in H;
      cbn [size_kind kind_map enc_kind0 option_map].
    - done.
    - rewrite len_numeric by (apply u64_is || lia). done.
    - rewrite len_delimited by lia. by rewrite (size_arr_ok a H).
    - done.
    - done.
    - done.
    - rewrite len_numeric by (apply u64_is || lia). done.
    - rewrite len_delimited by lia. by rewrite (size_obj_ok o H).
    - done.
    - rewrite len_delimited by lia. done.
    - done.
    - rewrite len_numeric by (apply u64_is || lia). done.
    - rewrite len_numeric by (apply u64_is || lia). done.
  Qed.
End size_parts.

Lemma kind_all_impl {A} (P Q : A → Prop) k : (∀ v, P v → Q v) → kind_all P k → kind_all Q k.
Proof.
  intros HPQ. destruct k as [|z|[[items u]|]|b|v|z|[[fields u]|]|[s|]|z|z]; simpl; try done;
    intros H; (eapply Forall_impl; [exact H|]); [intros x|intros [? x]]; destruct x; simpl; auto.
Qed.
Lemma kind_all_true {A} (P : A → Prop) k : (∀ v, P v) → kind_all P k.
Proof.
  intros HP. destruct k as [|z|[[items u]|]|b|v|z|[[fields u]|]|[s|]|z|z]; simpl; try done;
    apply Forall_forall; [intros x _|intros [? x] _]; destruct x; simpl; auto.
Qed.
Lemma obj_all_true {A} (P : A → Prop) o : (∀ v, P v) → obj_all P o.
Proof.
  intros HP. destruct o as [fields u]. simpl. apply Forall_forall. intros [? x] _; destruct x; simpl; auto.
Qed.

Lemma size_value_ok v : size_value v = len (enc_value v).
Proof.
  induction v as [k u IH] using pval_ind'. simpl. rewrite len_app.
  by rewrite (size_kind_ok size_value enc_value k IH).
Qed.
Lemma size_obj_value o : size_obj size_value o = len (enc_obj o).
Proof. apply size_obj_ok. apply obj_all_true. apply size_value_ok. Qed.
Lemma size_log_ok l : size_log l = len (enc_log l).
Proof.
  destruct l as [[o|] u]; unfold size_log, enc_log; cbn [lg_object lg_unrec]; rewrite ?len_app; [|done].
  rewrite len_delimited by lia. by rewrite size_obj_value.
Qed.
Lemma size_wrapper_ok m : size_wrapper m = len (enc_wrapper m).
Proof.
  destruct m as [[[l|]|] u]; unfold size_wrapper, enc_wrapper; cbn [mw_log mw_unrec]; rewrite ?len_app; [|done|done].
  cbn [size_wrapper_log].
  rewrite len_delimited by lia. by rewrite size_log_ok.
Qed.

(** ** No nil array item, at any depth: what Marshal needs *)
Fixpoint nil_free (v : pval) : Prop :=
  match v with
  | PVal k _ =>
      match k with
      | KArray (Some (mkPArr items _)) =>
          (fix go l := match l with [] => True | Some x :: l' => nil_free x ∧ go l' | None :: _ => False end) items
      | KObject (Some (mkPObj fields _)) =>
          (fix go l := match l with [] => True | (_, Some x) :: l' => nil_free x ∧ go l' | (_, None) :: l' => go l' end) fields
      | _ => True
      end
  end.
Definition nil_free_obj (o : pobj pval) : Prop := obj_all nil_free o.
Definition nil_free_log (l : plog) : Prop := opt_all nil_free_obj (lg_object l).
Definition nil_free_wrapper (m : pwrapper) : Prop := opt_all (opt_all nil_free_log) (mw_log m).

Lemma nil_free_inv k u : nil_free (PVal k u) ↔ kind_no_nil k ∧ kind_all nil_free k.
Proof.
  destruct k as [|z|[[items ua]|]|b|v|z|[[fields uo]|]|[s|]|z|z]; simpl; try tauto.
  - unfold no_nil. simpl. induction items as [|[x|] items IH]; simpl.
    + split; [intros _; split; apply List.Forall_nil|done].
    + rewrite !Forall_cons, IH. simpl. split; [|tauto].
      intros (?&?&?). split_and!; done.
    + rewrite !Forall_cons. split; [done|]. intros [[? _] _]. done.
  - induction fields as [|[k [x|]] fields IH]; simpl.
    + split; [intros _; split; [done|apply List.Forall_nil]|done].
    + rewrite Forall_cons, IH. simpl. tauto.
    + rewrite Forall_cons, IH. simpl. tauto.
Qed.

Lemma fills_value v : nil_free v → fills (msb_value v) (enc_value v).
Proof.
  induction v as [k u IH] using pval_ind'. intros Hn.
  apply nil_free_inv in Hn as [Hk Hall].
  assert (kind_all (λ v, fills (msb_value v) (enc_value v)) k) as Hf.
  { clear Hk. destruct k as [|z|[[items ua]|]|b|v|z|[[fields uo]|]|[s|]|z|z]; simpl in *; try done;
      rewrite Forall_forall in IH, Hall |- *; intros x Hx; specialize (IH x Hx); specialize (Hall x Hx).
    - destruct x; simpl in *; auto.
    - destruct x as [? [x|]]; simpl in *; auto. }
  pose proof (fills_kind msb_value enc_value k Hk Hf) as Hfk.
  pose proof (puts_sized _ _ Hfk) as Hs.
  rewrite <- (size_kind_ok size_value enc_value k) in Hs by (apply kind_all_true, size_value_ok).
  eapply (done_at_fills (pthen (λ d i, put_bytes d i u) (λ d i,
             match k with KNil => Ok (d, i) | _ => put_sized d i (size_kind size_value k) (msb_kind msb_value k) end))).
  - simpl. apply puts_then; [apply puts_bytes|]. destruct k; try exact Hs. exact puts_nil.
  - intros d. done.
Qed.

Lemma fills_log l : nil_free_log l → fills (msb_log l) (enc_log l).
Proof.
  destruct l as [o u]. unfold nil_free_log. simpl. intros Hn.
  eapply (done_at_fills (pthen (λ d i, put_bytes d i u) (λ d i,
     match o with None => Ok (d, i) | Some o => put_msg d i 0xa (msb_obj msb_value o) end))).
  - unfold enc_log. simpl. apply puts_then; [apply puts_bytes|].
    destruct o as [o|]; [|exact puts_nil]. simpl in Hn.
    apply (puts_msg _ _ 0xa). apply fills_obj.
    destruct o as [fields uo]. unfold nil_free_obj in Hn. simpl in *. eapply Forall_impl; [exact Hn|].
    intros [? [x|]]; simpl; [apply fills_value|done].
  - done.
Qed.

Lemma fills_wrapper m : nil_free_wrapper m → fills (msb_wrapper m) (enc_wrapper m).
Proof.
  destruct m as [lg u]. unfold nil_free_wrapper. simpl. intros Hn.
  eapply (done_at_fills (pthen (λ d i, put_bytes d i u) (λ d i,
     match lg with None => Ok (d, i) | Some l => put_sized d i (size_wrapper_log l) (msb_wrapper_log l) end))).
  - unfold enc_wrapper. simpl. apply puts_then; [apply puts_bytes|].
    destruct lg as [l|]; [|exact puts_nil]. simpl in Hn.
    set (e := match l with Some l => delimited 1 (enc_log l) | None => [] end).
    assert (size_wrapper_log l = len e) as ->.
    { unfold e. destruct l as [l|]; simpl; [|done]. rewrite len_delimited, size_log_ok by lia. done. }
    apply puts_sized. unfold e. destruct l as [l|].
    + apply (done_at_fills _ _ _ (puts_msg _ _ 0xa (fills_log l Hn))). done.
    + apply (done_at_fills _ _ _ puts_nil). done.
  - done.
Qed.

Lemma marshal_with_ok {M} (size : M → Z) msb (m : M) e :
  size m = len e → fills (msb m) e → marshal_with size msb m = Ok e.
Proof.
  intros Hs Hf. unfold marshal_with. rewrite Hs, len_to_nat.
  pose proof (Hf [] (replicate (length e) "000"%char)) as H. simpl in H.
  rewrite H by apply replicate_length.
  rewrite (proj2 (Z.leb_le _ _)) by apply len_nonneg. rewrite Z.leb_refl. cbn [andb].
  by rewrite len_to_nat, firstn_all.
Qed.
Lemma Marshal_ok m : nil_free_wrapper m → Marshal m = Ok (enc_wrapper m).
Proof. intros H. apply marshal_with_ok; [apply size_wrapper_ok|by apply fills_wrapper]. Qed.
Lemma MarshalLog_ok m : nil_free_log m → MarshalLog m = Ok (enc_log m).
Proof. intros H. apply marshal_with_ok; [apply size_log_ok|by apply fills_log]. Qed.
Lemma MarshalValue_ok m : nil_free m → MarshalValue m = Ok (enc_value m).
Proof. intros H. apply marshal_with_ok; [apply size_value_ok|by apply fills_value]. Qed.
